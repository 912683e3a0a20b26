(** Model of [Generic_Domain.set_boundary] (generic_domain.py 937-1059) and
    [update_boundary] (2288-2306).  Tags and boundary objects are numbers, the
    Python [None] object is [None].  Dictionaries live in a heap, because the
    first map passed is stored by reference (line 998). *)
From Coq Require Import List Arith Bool.
From Verif Require Import ArrayLib NeighbourModel.
Import ListNotations.

(** The tag 'ghost'. *)
Definition ghost_tag : nat := 0.

(** A boundary map: tag -> object or None, in insertion order. *)
Definition dict := list (nat * option nat).
Fixpoint dget (d : dict) (tag : nat) : option (option nat) :=
  match d with
  | [] => None
  | (t, v) :: r => if Nat.eqb t tag then Some v else dget r tag
  end.
Fixpoint dset (d : dict) (tag : nat) (v : option nat) : dict :=
  match d with
  | [] => [(tag, v)]
  | (t, w) :: r => if Nat.eqb t tag then (t, v) :: r else (t, w) :: dset r tag v
  end.

Record domain := {
  boundary : bdict;                       (* self.boundary *)
  parallel : bool;                        (* self.parallel *)
  heap : nat -> dict;                     (* all dictionaries of the program *)
  boundary_map : option nat;              (* self.boundary_map: None or a reference *)
  boundary_objects : list ((nat * nat) * nat);
  boundary_flux_type : nat -> nat
}.

(** Lines 985-993: every key of the map is a tag of the domain or 'ghost'. *)
Definition tags_allowed (dm : domain) (m : dict) : bool :=
  parallel dm ||
  forallb (fun kv => existsb (Nat.eqb (fst kv)) (map snd (boundary dm) ++ [ghost_tag])) m.

(** Lines 997-1005: store the reference, or copy the entries into the stored
    dictionary.  The values are read from the heap while it is updated. *)
Definition update_map (dm : domain) (r : nat) : (nat -> dict) * option nat :=
  match boundary_map dm with
  | None => (heap dm, Some r)
  | Some r0 =>
    (fold_left (fun h key =>
       match dget (h r) key with
       | Some v => upd h r0 (dset (h r0) key v)
       | None => h
       end) (map fst (heap dm r)) (heap dm), Some r0)
  end.

(** Loop 1018-1039: the objects collected so far are kept when the loop
    raises. *)
Fixpoint collect (b : bdict) (m : dict) (xs : list (nat * nat)) (acc : list ((nat * nat) * nat))
  : list ((nat * nat) * nat) * bool :=
  match xs with
  | [] => (acc, true)
  | x :: rest =>
    match lookup b x with
    | None => (acc, false)                       (* KeyError; unreachable *)
    | Some tag =>
      match dget m tag with
      | None => (acc, false)                     (* Exception *)
      | Some (Some obj) => collect b m rest (acc ++ [(x, obj)])
      | Some None => collect b m rest acc
      end
    end
  end.

(** Lines 1051-1059; [is_flux] decides [isinstance(B, Compute_fluxes_boundary)]. *)
Definition flux_types (is_flux : nat -> bool) (objs : list ((nat * nat) * nat)) : nat -> nat :=
  fold_left (fun a k => if is_flux (snd (nth k objs ((0, 0), 0))) then upd a k 1 else a)
    (seq 0 (length objs)) (fun _ => 0).

(** The whole method; the boolean is false when it raises, and the state is
    the one the exception leaves behind. *)
Definition set_boundary (is_flux : nat -> bool) (dm : domain) (r : nat) : domain * bool :=
  if negb (tags_allowed dm (heap dm r)) then (dm, false)
  else
    let (h, bm) := update_map dm r in
    let m := match bm with Some r0 => h r0 | None => [] end in
    let (objs, ok) := collect (boundary dm) m (sorted_keys (boundary dm)) [] in
    ({| boundary := boundary dm; parallel := parallel dm; heap := h; boundary_map := bm;
        boundary_objects := objs;
        boundary_flux_type := if ok then flux_types is_flux objs else boundary_flux_type dm |}, ok).

(** The map currently in force. *)
Definition current_map (dm : domain) : dict :=
  match boundary_map dm with Some r => heap dm r | None => [] end.

(** [update_boundary]: the calls [B.evaluate_segment(self, cells)] it makes,
    in order; [None]: KeyError (or TypeError when no map was set). *)
Fixpoint update_boundary (m : dict) (tag_cells : list (nat * list nat)) : option (list (nat * list nat)) :=
  match tag_cells with
  | [] => Some []
  | (tag, cells) :: rest =>
    match dget m tag with
    | None => None
    | Some b =>
      match update_boundary m rest with
      | None => None
      | Some calls => Some (match b with Some obj => (obj, cells) :: calls | None => calls end)
      end
    end
  end.
