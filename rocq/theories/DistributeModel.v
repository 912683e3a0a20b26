(** Model of the distribution of a mesh over processes:
    anuga/parallel/distribute_mesh.py. *)
From Coq Require Import List ZArith Lia Bool.
Import ListNotations.
Local Open Scope Z_scope.

(** ** numpy set operations *)

(** numpy.unique: sorted without repetitions. *)
Fixpoint uinsert (x : Z) (l : list Z) : list Z :=
  match l with
  | [] => [x]
  | y :: r => if x <? y then x :: l else if x =? y then l else y :: uinsert x r
  end.
Definition unique (l : list Z) : list Z := fold_right uinsert [] l.
Definition zmem (x : Z) (l : list Z) : bool := existsb (Z.eqb x) l.
(** numpy.setdiff1d, numpy.union1d *)
Definition setdiff1d (a b : list Z) : list Z := filter (fun x => negb (zmem x b)) (unique a).
Definition union1d (a b : list Z) : list Z := unique (a ++ b).
(** numpy.sort of one column. *)
Fixpoint zinsert (x : Z) (l : list Z) : list Z :=
  match l with
  | [] => [x]
  | y :: r => if x <=? y then x :: l else y :: zinsert x r
  end.
Definition zsort (l : list Z) : list Z := fold_right zinsert [] l.
(** numpy.searchsorted (side='left') on a sorted array: the first position whose
    entry is not less. *)
Fixpoint searchsorted (a : list Z) (x : Z) : nat :=
  match a with
  | [] => 0
  | y :: r => if x <=? y then 0 else S (searchsorted r x)
  end.
(** numpy.arange(lo, hi) *)
Definition arange (lo hi : Z) : list Z := map (fun i => lo + Z.of_nat i) (seq 0 (Z.to_nat (hi - lo))).

(** A Python dictionary with natural or integer keys, in insertion order. *)
Fixpoint dget {K V} (eqb : K -> K -> bool) (d : list (K * V)) (k : K) : option V :=
  match d with
  | [] => None
  | (k', v) :: r => if eqb k k' then Some v else dget eqb r k
  end.
(** d[k].append(v) for an existing key; [None]: KeyError. *)
Fixpoint dappend {K V} (eqb : K -> K -> bool) (k : K) (v : V) (d : list (K * list V)) : option (list (K * list V)) :=
  match d with
  | [] => None
  | (k', l) :: r =>
      if eqb k k' then Some ((k', l ++ [v]) :: r)
      else match dappend eqb k v r with Some r' => Some ((k', l) :: r') | None => None end
  end.
(** if k not in d: d[k] = []; d[k].append(v) *)
Definition dpush {K V} (eqb : K -> K -> bool) (k : K) (v : V) (d : list (K * list V)) : list (K * list V) :=
  match dappend eqb k v d with Some d' => d' | None => d ++ [(k, [v])] end.

(** Left fold over a list with failure. *)
Fixpoint ofold {A B} (f : B -> A -> option B) (l : list A) (b : B) : option B :=
  match l with
  | [] => Some b
  | x :: r => match f b x with Some b' => ofold f r b' | None => None end
  end.

Section Mesh.
(** mesh.neighbours[t,:] (negative at the domain boundary), mesh.triangles[t]. *)
Variable neighbours : Z -> list Z.
Variable triangles : Z -> list Z.

(** The ranges [tlower, tupper) of the processes, as accumulated by the loops
    over p in submesh_full, submesh_ghost, full_commun_pattern and
    extract_submesh. *)
Fixpoint ranges (tlower : Z) (tpp : list nat) : list (Z * Z) :=
  match tpp with
  | [] => []
  | c :: r => let tupper := Z.of_nat c + tlower in (tlower, tupper) :: ranges tupper r
  end.
Definition rng (tpp : list nat) (p : nat) : Z * Z := nth p (ranges 0 tpp) (0, 0).

(** One step of the search in ghost_layer, lines 527-530 and 538-541: the
    neighbours outside the range. *)
Definition outside (lo hi : Z) (ids : list Z) : list Z :=
  filter (fun n => (n <? lo) || (hi <=? n)) (filter (fun n => 0 <=? n) (unique (flat_map neighbours ids))).

(** lines 535-547: [layers] holds the layers found so far, the newest first. *)
Fixpoint more_layers (lo hi : Z) (k : nat) (layers : list (list Z)) : list (list Z) :=
  match k with
  | O => layers
  | S k' =>
      let n0 := outside lo hi (hd [] layers) in
      let n1 := fold_left setdiff1d (rev layers) n0 in
      more_layers lo hi k' (n1 :: layers)
  end.

(** ghost_layer, lines 515-554: the ghost triangles. *)
Definition ghost_ids (lo hi : Z) (layer_width : nat) : list Z :=
  let layers := rev (more_layers lo hi (layer_width - 1) [outside lo hi (arange lo hi)]) in
  fold_left union1d (tl layers) (hd [] layers).

(** ghost_commun_pattern, lines 776-785 *)
Definition ghost_commun (tpp : list nat) (ghosts : list Z) : list (Z * nat) :=
  map (fun g => (g, searchsorted (map (fun r => snd r - 1) (ranges 0 tpp)) g)) ghosts.

(** The ghost triangles of process [p]; submesh_ghost, lines 884-902. *)
Definition ghosts_of (tpp : list nat) (w p : nat) : list Z := ghost_ids (fst (rng tpp p)) (snd (rng tpp p)) w.

(** full_commun_pattern, lines 811-846; [None]: KeyError or IndexError. *)
Definition full_commun (tpp : list nat) (gc : nat -> list (Z * nat)) : option (list (list (Z * list nat))) :=
  let nproc := length tpp in
  let empty := map (fun r => map (fun i => (i, @nil nat)) (arange (fst r) (snd r))) (ranges 0 tpp) in
  ofold (fun fc p =>
    ofold (fun fc g =>
      match nth_error fc (snd g) with
      | None => None
      | Some d => match dappend Z.eqb (fst g) p d with
                  | None => None
                  | Some d' => Some (firstn (snd g) fc ++ d' :: skipn (S (snd g)) fc)
                  end
      end) (gc p) fc)
    (seq 0 nproc) empty.

(** send_submesh flattens the dictionary and rec_submesh_flat rebuilds it
    (lines 1309-1313, 1513-1520): the dictionary seen by a process that did not
    build it. *)
Definition flatten (fc : list (Z * list nat)) : list (Z * nat) :=
  flat_map (fun e => map (fun p => (fst e, p)) (snd e)) fc.
Definition rebuild (flat : list (Z * nat)) : list (Z * list nat) :=
  fold_left (fun d c => dpush Z.eqb (fst c) (snd c) d) flat [].

(** tri_map of build_local_mesh, lines 1216-1228: -1 outside, and its length. *)
Definition tri_map_len (hi : Z) (ghosts : list Z) : Z := fold_left Z.max ghosts hi + 1.
Definition tri_map (lo hi : Z) (ghosts : list Z) : Z -> Z :=
  fold_left (fun m ig => fun x => if x =? snd ig then Z.of_nat (fst ig) + hi - lo else m x)
    (combine (seq 0 (length ghosts)) ghosts)
    (fun x => if (lo <=? x) && (x <? hi) then x - lo else -1).
(** Reading it; [None]: IndexError. *)
Definition tget (len : Z) (m : Z -> Z) (x : Z) : option Z := if (0 <=? x) && (x <? len) then Some (m x) else None.

Fixpoint osequence {A} (l : list (option A)) : option (list A) :=
  match l with
  | [] => Some []
  | Some x :: r => match osequence r with Some xs => Some (x :: xs) | None => None end
  | None :: _ => None
  end.

(** build_local_commun, lines 1128-1173.  Each entry: the other process, local
    ids, global ids. *)
Definition ghost_recv (tm : Z -> option Z) (ghostc : list (Z * nat)) (nproc : nat)
  : option (list (nat * (list Z * list Z))) :=
  (* numpy.sort(ghostc, 0) sorts the two columns separately *)
  let s := zsort (map fst ghostc) in
  let c2 := zsort (map (fun g => Z.of_nat (snd g)) ghostc) in
  osequence (flat_map (fun c =>
    let d := map fst (filter (fun x => snd x =? Z.of_nat c) (combine s c2)) in
    match d with
    | [] => []
    | _ => [match osequence (map tm d) with Some l => Some (c, (l, d)) | None => None end]
    end) (seq 0 nproc)).

Definition tmp_send (tm : Z -> option Z) (fullc : list (Z * list nat)) : option (list (nat * list (Z * Z))) :=
  ofold (fun d e =>
    ofold (fun d neigh =>
      match tm (fst e) with Some l => Some (dpush Nat.eqb neigh (fst e, l) d) | None => None end)
      (snd e) d) fullc [].
Definition full_send (tm : Z -> option Z) (fullc : list (Z * list nat)) : option (list (nat * (list Z * list Z))) :=
  match tmp_send tm fullc with
  | Some t => Some (map (fun e => (fst e, (zsort (map snd (snd e)), zsort (map fst (snd e))))) t)
  | None => None
  end.

(** What process [p] gets: build_submesh, then extract_submesh or, if
    [received], send_submesh / rec_submesh, then build_local_commun. *)
Definition local_commun (received : bool) (tpp : list nat) (w p : nat)
  : option (list (nat * (list Z * list Z)) * list (nat * (list Z * list Z))) :=
  let gc := fun p => ghost_commun tpp (ghosts_of tpp w p) in
  match full_commun tpp gc with
  | None => None
  | Some fcs =>
      let fc := nth p fcs [] in
      let fc' := if received then rebuild (flatten fc) else fc in
      let ghosts := ghosts_of tpp w p in
      let lo := fst (rng tpp p) in
      let hi := snd (rng tpp p) in
      let tm := tget (tri_map_len hi ghosts) (tri_map lo hi ghosts) in
      match ghost_recv tm (gc p) (length tpp), full_send tm fc' with
      | Some r, Some s => Some (r, s)
      | _, _ => None
      end
  end.
End Mesh.
