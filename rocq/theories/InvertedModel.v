(** Model of the node-to-triangle index of
    anuga/abstract_2d_finite_volumes/general_mesh.py and of the averaging
    loops over it in anuga/abstract_2d_finite_volumes/quantity.c. *)
From Coq Require Import Reals List Arith Bool Permutation Sorting.Sorted.
From Verif Require Import RealLib ArrayLib.
Import ListNotations.

(** [triangles.flat]: the vertices of all triangles in a row; entry
    [3*volume_id + vertex_id] is a node number. *)
Definition flat := list nat.
Definition node_at (T : flat) (i : nat) : nat := nth i T 0.

(** [num.bincount(triangles.flat)], padded with zeros up to the number of
    nodes (lines 801-818). *)
Definition bincount (T : flat) : list nat :=
  map (count_occ Nat.eq_dec T) (seq 0 (match T with [] => 0 | _ => S (list_max T) end)).
Definition pad (l : list nat) (n : nat) : list nat := l ++ repeat 0 (n - length l).

(** [num.argsort(triangles.flat)]: some permutation of the positions that
    sorts the entries; numpy's default algorithm is not stable. *)
Definition is_argsort (T : flat) (p : list nat) : Prop :=
  Permutation p (seq 0 (length T)) /\ StronglySorted (fun i j => node_at T i <= node_at T j) p.

(** [num.cumsum] *)
Fixpoint cumsum (acc : nat) (l : list nat) : list nat :=
  match l with [] => [] | c :: l => (acc + c) :: cumsum (acc + c) l end.

Record inverted := Inverted {
  node_index : list nat;
  number_of_triangles_per_node : list nat;
  vertex_value_indices : list nat }.

(** [build_inverted_triangle_structure], lines 740-854, with [p] the outcome
    of argsort.  [None]: the assertion of line 823 fails or the assignment to
    [node_index[1:]] of line 844 has the wrong length. *)
Definition build_inverted (number_of_nodes : nat) (T : flat) (p : list nat) : option inverted :=
  let counts := pad (bincount T) number_of_nodes in
  if negb (list_sum counts =? length T) then None
  else if negb (length counts =? number_of_nodes) then None
  else Some (Inverted (0 :: cumsum 0 counts) counts p).

(** [get_triangles_and_vertices_per_node(node)], lines 697-732, as a list of
    pairs; a node out of range raises IndexError. *)
Definition triangles_and_vertices (I : inverted) (node : nat) : option (list (nat * nat)) :=
  if node <? length (number_of_triangles_per_node I) then
    let first := nth node (node_index I) 0 in
    let count := nth node (number_of_triangles_per_node I) 0 in
    Some (map (fun i => let index := nth (first + i) (vertex_value_indices I) 0 in (index / 3, index mod 3)) (seq 0 count))
  else None.

(** [_average_vertex_values], quantity.c lines 823-865: the loop over
    [vertex_value_indices] with the state (k, current_node, total, A).
    [None]: number_of_triangles_per_node is read out of bounds. *)
Fixpoint average_loop (counts : list nat) (values : nat -> R) (idx : list nat)
  (k current : nat) (total : R) (A : nat -> R) : option (nat -> R) :=
  match idx with
  | [] => Some A
  | index :: idx' =>
      match nth_error counts current with
      | None => None
      | Some 0 => average_loop counts values idx' 0 (S current) 0%R A
      | Some c =>
          let total := (total + values index)%R in
          if c =? S k
          then average_loop counts values idx' 0 (S current) 0%R (upd A current (total / INR (S k))%R)
          else average_loop counts values idx' (S k) current total A
      end
  end.

Definition average_vertex_values (I : inverted) (vertex_values : nat -> R) (A : nat -> R) : option (nat -> R) :=
  average_loop (number_of_triangles_per_node I) vertex_values (vertex_value_indices I) 0 0 0%R A.

(** [_average_centroid_values], lines 867-912: the same loop over the values
    of the triangles. *)
Definition average_centroid_values (I : inverted) (centroid_values : nat -> R) (A : nat -> R) : option (nat -> R) :=
  average_loop (number_of_triangles_per_node I) (fun index => centroid_values (index / 3)) (vertex_value_indices I) 0 0 0%R A.
