(** Merging the SWW files of a parallel run.
    (anuga/utilities/sww_merge.py, sww_merge_parallel 26-45,
     _sww_merge_parallel_smooth 205-539, _sww_merge_parallel_non_smooth 542-802.) *)
From Coq Require Import List Arith ZArith Bool.
Import ListNotations.

(** ** numpy indexing with index arrays; [None] is an exception *)

Fixpoint sequence {A} (l : list (option A)) : option (list A) :=
  match l with
  | [] => Some []
  | None :: _ => None
  | Some x :: r => match sequence r with Some y => Some (x :: y) | None => None end
  end.
(** a[idx] *)
Definition fancy_get {A} (a : list A) (idx : list nat) : option (list A) := sequence (map (nth_error a) idx).

Fixpoint set_nth {A} (a : list A) (i : nat) (v : A) : option (list A) :=
  match a, i with
  | [], _ => None
  | _ :: r, O => Some (v :: r)
  | x :: r, S j => option_map (cons x) (set_nth r j v)
  end.
(** a[idx] = vals: shapes must agree; a repeated index keeps its last value. *)
Fixpoint fancy_set {A} (a : list A) (idx : list nat) (vals : list A) : option (list A) :=
  match idx, vals with
  | [], [] => Some a
  | i :: ir, v :: vr => match set_nth a i v with Some a' => fancy_set a' ir vr | None => None end
  | _, _ => None
  end.

(** Positions at which [f] holds: num.where(...), num.argwhere(...). *)
Fixpoint where_from {A} (f : A -> bool) (l : list A) (i : nat) : list nat :=
  match l with
  | [] => []
  | x :: r => if f x then i :: where_from f r (S i) else where_from f r (S i)
  end.
Definition where_ {A} (f : A -> bool) (l : list A) : list nat := where_from f l 0.
(** num.compress(cond, a): the condition must not select past the end. *)
Definition compress {A} (cond : list Z) (a : list A) : option (list A) :=
  fancy_get a (where_ (fun c => negb (c =? 0)%Z) cond).

(** num.unique on indices *)
Fixpoint ninsert (x : nat) (l : list nat) : list nat :=
  match l with
  | [] => [x]
  | y :: r => if x <? y then x :: l else if x =? y then l else y :: ninsert x r
  end.
Definition nunique (l : list nat) : list nat := fold_right ninsert [] l.

Section Merge.
(** Values in the files, values in the merged arrays and the conversion
    (num.float32), and the value num.zeros puts in the merged arrays. *)
Variable A B : Type.
Variable cast : A -> B.
Variable zero : B.

(** A stored quantity: one row, or one row for each timestep. *)
Inductive variable := Static (row : list A) | Dynamic (rows : list (list A)).
(** fid.variables[quantity].shape[0] *)
Definition shape0 (v : variable) : nat :=
  match v with Static r => length r | Dynamic rs => length rs end.

(** The parts of one file that the merge reads; one vertex based and one
    centroid based quantity stand for all of them. *)
Record swwfile := SWW {
  n_steps : nat;                    (* len(fid.variables['time']) *)
  tri_l2g : list nat;
  node_l2g : list nat;
  tri_full_flag : list Z;
  volumes : list (list nat);        (* rows of three *)
  px : list A;
  py : list A;
  vertex_q : variable;
  centroid_q : variable
}.

Definition triple (i : nat) : list nat := [3 * i; 3 * i + 1; 3 * i + 2].

(** [ofold] over the files; an exception stops the merge. *)
Fixpoint ofold {S F} (f : S -> F -> option S) (l : list F) (s : S) : option S :=
  match l with
  | [] => Some s
  | x :: r => match f s x with Some s' => ofold f r s' | None => None end
  end.

(** q[:] (static) or q[i] (dynamic) as an array that can be indexed; a number
    or a two-dimensional array cannot be used in place of a row. *)
Definition row_of (dynamic : bool) (v : variable) (i : nat) : option (list A) :=
  match dynamic, v with
  | false, Static r => Some r
  | true, Dynamic rs => nth_error rs i
  | _, _ => None
  end.

(** ** Non-smooth files: every triangle has its own three vertices *)

(** Lines 669-673 and 765-768: full triangles of a file, local and global ids,
    and the ids of their vertices. *)
Definition f_ids (f : swwfile) : list nat := where_ (fun c => (c =? 1)%Z) (tri_full_flag f).
Definition f_gids (f : swwfile) : option (list nat) := fancy_get (tri_l2g f) (f_ids f).
Definition vids (ids : list nat) : list nat := flat_map triple ids.

(** out[g_vids] = q[l_vids] (lines 679-680, 689-691, 774-775). *)
Definition put_vertices (out : list B) (f : swwfile) (row : list A) : option (list B) :=
  match f_gids f, fancy_get row (vids (f_ids f)) with
  | Some g, Some vals => fancy_set out (vids g) (map cast vals)
  | _, _ => None
  end.
(** out[f_gids] = q[f_ids] (lines 698-699, 778-779). *)
Definition put_centroids (out : list B) (f : swwfile) (row : list A) : option (list B) :=
  match f_gids f, fancy_get row (f_ids f) with
  | Some g, Some vals => fancy_set out g (map cast vals)
  | _, _ => None
  end.

(** ** Smooth files: nodes are shared *)

(** Lines 361-362: full triangles; ftri_ids by where, ftri_l2g by compress. *)
Definition ftri_ids (f : swwfile) : list nat := where_ (fun c => (c >? 0)%Z) (tri_full_flag f).
Definition ftri_l2g (f : swwfile) : option (list nat) := compress (tri_full_flag f) (tri_l2g f).

(** Lines 403-405: nodes of full triangles, local and global ids. *)
Definition fl_nodes (f : swwfile) : option (list nat) :=
  match compress (tri_full_flag f) (volumes f) with Some rows => Some (nunique (concat rows)) | None => None end.
Definition f_node_l2g (f : swwfile) : option (list nat) :=
  match fl_nodes f with Some ns => fancy_get (node_l2g f) ns | None => None end.

(** Column [k] of the global triangles (lines 372-378). *)
Definition put_volumes (k : nat) (out : list nat) (f : swwfile) : option (list nat) :=
  match ftri_l2g f, compress (tri_full_flag f) (volumes f) with
  | Some g, Some rows =>
      match sequence (map (fun r => nth_error r k) rows) with
      | Some col => match fancy_get (node_l2g f) col with
          | Some vals => fancy_set out g vals
          | None => None end
      | None => None end
  | _, _ => None
  end.
(** Coordinates, of all nodes of the file (lines 389-390). *)
Definition put_points (coord : swwfile -> list A) (out : list B) (f : swwfile) : option (list B) :=
  fancy_set out (node_l2g f) (map cast (coord f)).
(** Vertex based quantities, nodes of full triangles (lines 416-417, 427-428). *)
Definition put_nodes (out : list B) (f : swwfile) (row : list A) : option (list B) :=
  match fl_nodes f, f_node_l2g f with
  | Some ns, Some g => match fancy_get row ns with
      | Some vals => fancy_set out g (map cast vals)
      | None => None end
  | _, _ => None
  end.
(** Centroid based quantities (lines 436-437, 445-446). *)
Definition put_smooth_centroids (out : list B) (f : swwfile) (row : list A) : option (list B) :=
  match ftri_l2g f, fancy_get row (ftri_ids f) with
  | Some g, Some vals => fancy_set out g (map cast vals)
  | _, _ => None
  end.

(** ** The whole merge of one quantity *)

(** A quantity is dynamic if its first dimension in the first file is the
    number of timesteps (lines 282-287, 306-311, 623-628, 646-651). *)
Definition is_dynamic (first : swwfile) (v : variable) : bool := n_steps first =? shape0 v.

Definition merge_rows (put : list B -> swwfile -> list A -> option (list B)) (q : swwfile -> variable)
    (size : nat) (dynamic : bool) (files : list swwfile) (i : nat) : option (list B) :=
  ofold (fun out f => match row_of dynamic (q f) i with Some r => put out f r | None => None end)
        files (repeat zero size).

(** All rows of the merged quantity: one if static, [n_steps] if dynamic. *)
Definition merge_quantity (put : list B -> swwfile -> list A -> option (list B)) (q : swwfile -> variable)
    (size : nat) (files : list swwfile) : option (list (list B)) :=
  match files with
  | [] => None
  | first :: _ =>
      let dyn := is_dynamic first (q first) in
      sequence (map (merge_rows put q size dyn files) (seq 0 (if dyn then n_steps first else 1)))
  end.

Definition merge_volumes_smooth (ntri k : nat) (files : list swwfile) : option (list nat) :=
  ofold (put_volumes k) files (repeat 0 ntri).
Definition merge_points_smooth (nnodes : nat) (coord : swwfile -> list A) (files : list swwfile) : option (list B) :=
  ofold (put_points coord) files (repeat zero nnodes).

(** sww_merge_parallel (26-45): which of the two merges is used depends on the
    first file only. *)
Definition merge_parallel_vertices (ntri nnodes : nat) (files : list swwfile) : option (list (list B)) :=
  match files with
  | [] => None
  | first :: _ =>
      if 3 * length (volumes first) =? length (px first)
      then merge_quantity put_vertices vertex_q (3 * ntri) files
      else merge_quantity put_nodes vertex_q nnodes files
  end.
End Merge.
