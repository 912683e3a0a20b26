(** Model of the reordering of a mesh by partition:
    anuga/parallel/distribute_mesh.py, pmesh_divide_metis_helper, reorder and
    reorder_new. *)
From Coq Require Import List Arith Lia Bool.
From Verif Require Import ArrayLib.
Import ListNotations.

(** numpy.argsort(epart, kind='mergesort'): a stable sort of the positions. *)
Fixpoint insert_by (key : nat -> nat) (x : nat) (l : list nat) : list nat :=
  match l with
  | [] => [x]
  | y :: r => if key x <=? key y then x :: l else y :: insert_by key x r
  end.
Definition argsort (epart : list nat) : list nat :=
  fold_right (insert_by (fun i => nth i epart 0)) [] (seq 0 (length epart)).

(** numpy.bincount *)
Definition bincount (epart : list nat) : list nat :=
  map (fun p => length (filter (fun x => x =? p) epart)) (seq 0 (S (list_max epart))).

Fixpoint cumsum (acc : nat) (l : list nat) : list nat :=
  match l with
  | [] => []
  | x :: r => (acc + x) :: cumsum (acc + x) r
  end.

(** A dictionary with keys (triangle, edge), in insertion order. *)
Definition bdict (tag : Type) := list ((nat * nat) * tag).
Fixpoint bget {tag} (d : bdict tag) (k : nat * nat) : option tag :=
  match d with
  | [] => None
  | (k', t) :: r => if (fst k =? fst k') && (snd k =? snd k') then Some t else bget r k
  end.

Section Divide.
Variables (tri row tag : Type).

Record divided := Divided {
  new_triangles : list tri;
  new_boundary : bdict tag;
  triangles_per_proc : list nat;
  new_quantities : list (list row);
  tri_index : list (nat * nat);
  epart_order : list nat }.

Definition get {A} (l : list A) (i : nat) : option A := nth_error l i.

Fixpoint sequence {A} (l : list (option A)) : option (list A) :=
  match l with
  | [] => Some []
  | Some x :: r => match sequence r with Some xs => Some (x :: xs) | None => None end
  | None :: _ => None
  end.
(** a[ids]: fancy indexing; [None] for an index out of range. *)
Definition take {A} (a : list A) (ids : list nat) : option (list A) := sequence (map (get a) ids).

(** new_tri_index[eids] = concatenate((i*ones, arange)): lines 236-245 *)
Definition set_index (order psum tpp : list nat) (n_procs n_tri : nat) : list (nat * nat) :=
  let a := fold_left (fun a i =>
      fold_left (fun a k => upd a (nth (nth i psum 0 + k) order 0) (i, k)) (seq 0 (nth i tpp 0)) a)
    (seq 0 n_procs) (fun _ => (0, 0)) in
  map a (seq 0 n_tri).

(** lines 258-262 *)
Definition move_boundary (idx : list (nat * nat)) (psum : list nat) (b : bdict tag) : option (bdict tag) :=
  sequence (map (fun e => match get idx (fst (fst e)) with
    | Some t => Some ((nth (fst t) psum 0 + snd t, snd (fst e)), snd e)
    | None => None
    end) b).

(** pmesh_divide_metis_helper, lines 152-278, given the part of each triangle as
    returned by metis.  [None]: an exception.  [quantities]: the vertex_values
    (one row per triangle) of each quantity. *)
Definition divide (n_procs : nat) (epart : list nat) (triangles : list tri) (boundary : bdict tag)
    (quantities : list (list row)) : option divided :=
  if n_procs =? 1 then
    Some (Divided triangles boundary [length triangles] quantities [] [])
  else if length epart =? 0 then None                       (* epart[0], line 217 *)
  else
    let tpp := bincount epart in
    if negb (forallb (fun c => 0 <? c) tpp) then None       (* the assertion, line 227 *)
    else if negb (length tpp =? n_procs) then None          (* lines 229-230, or tpp[i] in line 238 *)
    else
      let psum := 0 :: cumsum 0 tpp in
      let order := argsort epart in
      match take triangles order, sequence (map (fun q => take q order) quantities) with
      | Some tris, Some qs =>
          let idx := set_index order psum tpp n_procs (length triangles) in
          match move_boundary idx psum boundary with
          | Some b => Some (Divided tris b tpp qs idx order)
          | None => None
          end
      | _, _ => None
      end.

(** reorder, lines 72-95: scatter by the computed index instead of gather. *)
Definition reorder (q : list row) (dflt : row) (idx : list (nat * nat)) (psum : list nat) : list row :=
  let n := length idx in
  let index := map (fun t => nth (fst t) psum 0 + snd t) idx in
  map (fold_left (fun a i => upd a (nth i index 0) (nth i q dflt)) (seq 0 n) (fun _ => dflt)) (seq 0 n).
End Divide.
