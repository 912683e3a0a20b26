(** Model of the assignment of values to quantities, of reading them back and
    of their arithmetic: anuga/abstract_2d_finite_volumes/quantity.py (lines
    120-305, 655-1560, 1800-2152 and 2221-2273), the helpers
    [_set_vertex_values_c] and [_interpolate] of quantity.c (lines 665-688,
    922-947), and [add_quantity], [minimum_quantity] and [maximum_quantity] of
    generic_domain.py (lines 823-895).  Real arithmetic; [None] is an exception. *)
From Coq Require Import Reals List Arith Bool.
From Verif Require Import RealLib ArrayLib PolygonModel GradientModel InvertedModel.
Import ListNotations.
Local Open Scope R_scope.

(** Vertex values (entry 3*k+i for the vertex [i] of the triangle [k]), edge
    values (likewise) and centroid values; entries beyond the number of
    triangles have no meaning. *)
Record quantity := { qv : nat -> R; qe : nat -> R; qc : nat -> R }.
Definition zero_quantity : quantity := {| qv := fun _ => 0; qe := fun _ => 0; qc := fun _ => 0 |}.

(** The mesh: triangles, nodes, the index of general_mesh.py, coordinates
    relative to the corner of the georeference. *)
Record mesh := { m_triangles : nat; m_nodes : nat; m_flat : flat; m_index : inverted;
                 m_centroid : nat -> point; m_vertex : nat -> point; m_corner : point }.
Definition absolute (m : mesh) (p : point) : point := (px p + px (m_corner m), py p + py (m_corner m)).

(** [interpolate], line 685; quantity.c lines 665-688 *)
Definition interpolate (q : quantity) : quantity :=
  {| qv := qv q;
     qe := fun j => let k3 := (3 * (j / 3))%nat in interpolate_edge (qv q k3) (qv q (k3 + 1)%nat) (qv q (k3 + 2)%nat) (j mod 3);
     qc := fun k => interpolate_centroid (qv q (3 * k)%nat) (qv q (3 * k + 1)%nat) (qv q (3 * k + 2)%nat) |}.

(** [extrapolate_first_order], lines 2221-2239 *)
Definition first_order (q : quantity) : quantity :=
  {| qv := fun j => qc q (j / 3); qe := fun j => qc q (j / 3); qc := qc q |}.

(** Assignments [a[i] = v] in turn, to an array of [bound] entries. *)
Fixpoint assign (bound : nat) (a : nat -> R) (l : list (nat * R)) : option (nat -> R) :=
  match l with
  | [] => Some a
  | (i, v) :: l => if (i <? bound)%nat then assign bound (upd a i v) l else None
  end.
(** A whole row of the array of vertex values *)
Definition row (k : nat) (f : nat -> R) : list (nat * R) := [(3 * k, f 0); (3 * k + 1, f 1); (3 * k + 2, f 2)]%nat.

Definition with_v (q : quantity) (a : option (nat -> R)) : option quantity :=
  match a with None => None | Some a => Some {| qv := a; qe := qe q; qc := qc q |} end.
Definition with_c (q : quantity) (a : option (nat -> R)) : option quantity :=
  match a with None => None | Some a => Some {| qv := qv q; qe := qe q; qc := a |} end.

Inductive location := Vertices | Centroids | Unique_vertices | Edges.

(** The values that a node's vertices get: the loop of lines 984-990, and
    that of [_set_vertex_values_c], quantity.c lines 922-947 *)
Definition at_node (m : mesh) (a : nat -> R) (node : nat) (x : R) : option (nat -> R) :=
  match triangles_and_vertices (m_index m) node with
  | None => None
  | Some L => Some (fold_left (fun a tv => upd a (3 * fst tv + snd tv)%nat x) L a)
  end.
Fixpoint at_nodes (m : mesh) (a : nat -> R) (l : list (nat * R)) : option (nat -> R) :=
  match l with
  | [] => Some a
  | (node, x) :: l => match at_node m a node x with None => None | Some a => at_nodes m a l end
  end.

(** [set_values_from_constant], lines 956-1001.  The calls of [interpolate]
    after each node do not reach the vertex values, and [set_values] repeats
    the last one. *)
Definition set_constant (m : mesh) (x : R) (loc : location) (ids : option (list nat)) (q : quantity) : option quantity :=
  match loc, ids with
  | Centroids, None => Some {| qv := qv q; qe := qe q; qc := fun _ => x |}
  | Centroids, Some l => with_c q (assign (m_triangles m) (qc q) (map (fun i => (i, x)) l))
  | Unique_vertices, None => Some {| qv := qv q; qe := fun _ => x; qc := qc q |}
  | Unique_vertices, Some l => with_v q (at_nodes m (qv q) (map (fun n => (n, x)) l))
  | _, None => Some {| qv := fun _ => x; qe := qe q; qc := qc q |}
  | _, Some l => with_v q (assign (3 * m_triangles m) (qv q) (flat_map (fun k => row k (fun _ => x)) l))
  end.

(** [set_vertex_values] and [_set_vertex_values], lines 2087-2145: one value
    per node; the C loop reads out of bounds for nodes that do not exist. *)
Definition set_vertex_values (m : mesh) (A : list R) (ids : option (list nat)) (q : quantity) : option quantity :=
  match ids with
  | None => if (length A =? m_nodes m)%nat then with_v q (at_nodes m (qv q) (combine (seq 0 (length A)) A)) else None
  | Some l => if (length A =? length l)%nat then with_v q (at_nodes m (qv q) (combine l A)) else None
  end.

(** [set_values_from_array], lines 1003-1084, for arrays of one or two
    dimensions, the latter of three columns.  One row for all triangles is
    spread by numpy. *)
Definition set_array1 (m : mesh) (A : list R) (loc : location) (ids : option (list nat)) (q : quantity) : option quantity :=
  match loc with
  | Centroids =>
      match ids with
      | None => if (length A =? m_triangles m)%nat then with_c q (assign (m_triangles m) (qc q) (combine (seq 0 (length A)) A)) else None
      | Some l => if (length A =? length l)%nat then with_c q (assign (m_triangles m) (qc q) (combine l A)) else None
      end
  | _ => set_vertex_values m A ids q
  end.
Definition set_rows (m : mesh) (A : list (nat -> R)) (loc : location) (ids : option (list nat)) (q : quantity) : option quantity :=
  match loc with
  | Centroids | Unique_vertices => None
  | _ =>
      match ids with
      | None =>
          let A := match A with [f] => repeat f (m_triangles m) | _ => A end in
          if (length A =? m_triangles m)%nat
          then with_v q (assign (3 * m_triangles m) (qv q) (flat_map (fun kf => row (fst kf) (snd kf)) (combine (seq 0 (length A)) A)))
          else None
      | Some l =>
          if (length A =? length l)%nat
          then with_v q (assign (3 * m_triangles m) (qv q) (flat_map (fun kf => row (fst kf) (snd kf)) (combine l A)))
          else None
      end
  end.

Definition finish (loc : location) (q : quantity) : quantity :=
  match loc with Centroids => first_order q | Edges => q | _ => interpolate q end.
Definition finished (loc : location) (q : option quantity) : option quantity :=
  match q with None => None | Some q => Some (finish loc q) end.

(** [set_values_from_quantity], lines 1086-1102: on a mesh of [M'] triangles *)
Definition set_quantity (m : mesh) (M' : nat) (other : quantity) (ids : option (list nat)) (q : quantity) : option quantity :=
  if (M' =? m_triangles m)%nat
  then finished Vertices (set_rows m (map (fun k i => qv other (3 * k + i)%nat) (seq 0 M')) Vertices ids q)
  else None.

(** [set_values_from_function], lines 1104-1178, for a function that takes and
    returns arrays: with one value per point, or with one value only. *)
Definition set_function (m : mesh) (f : point -> R) (loc : location) (ids : option (list nat)) (q : quantity) : option quantity :=
  match loc with
  | Centroids =>
      let l := match ids with None => seq 0 (m_triangles m) | Some l => l end in
      if forallb (fun i => (i <? m_triangles m)%nat) l
      then finished Centroids (set_array1 m (map (fun k => f (m_centroid m k)) l) Centroids (Some l) q)
      else None
  | Vertices =>
      match ids with
      | None => Some {| qv := fun j => f (m_vertex m j); qe := qe q; qc := qc q |}
      | Some l => with_v q (assign (3 * m_triangles m) (qv q) (flat_map (fun k => row k (fun i => f (m_vertex m (3 * k + i)%nat))) l))
      end
  | _ => None
  end.
Definition set_scalar_function (m : mesh) (x : R) (loc : location) (ids : option (list nat)) (q : quantity) : option quantity :=
  match loc with
  | Centroids =>
      let l := match ids with None => seq 0 (m_triangles m) | Some l => l end in
      if forallb (fun i => (i <? m_triangles m)%nat) l then finished Centroids (set_constant m x Centroids (Some l) q) else None
  | Vertices => set_constant m x Vertices ids q
  | _ => None
  end.

(** [set_values_from_geospatial_data] and [set_values_from_file], lines
    1180-1301; [A] is the outcome of the fit: one value per node. *)
Definition set_fitted (m : mesh) (A : list R) (loc : location) (ids : option (list nat)) (q : quantity) : option quantity :=
  match loc with Vertices => set_array1 m A Vertices ids q | _ => None end.

(** [set_values_from_utm_grid_file] and [set_values_from_utm_raster], lines
    1306-1481; [f] is the interpolated grid.  [array]: [indices] is an array
    and not a list (lines 1385, 1460). *)
Definition set_raster (m : mesh) (f : point -> R) (loc : location) (array : bool) (ids : option (list nat)) (q : quantity) : option quantity :=
  match loc with
  | Centroids =>
      match ids with
      | None => Some {| qv := qv q; qe := qe q; qc := fun k => f (absolute m (m_centroid m k)) |}
      | Some l => if array then with_c q (assign (m_triangles m) (qc q) (map (fun k => (k, f (absolute m (m_centroid m k)))) l)) else None
      end
  | _ =>
      match ids with
      | None => Some (interpolate {| qv := fun j => f (absolute m (m_vertex m j)); qe := qe q; qc := qc q |})
      | Some l => finished Vertices (with_v q (assign (3 * m_triangles m) (qv q) (map (fun j => (j, f (absolute m (m_vertex m j)))) l)))
      end
  end.

(** [set_values_from_tif_file], lines 1483-1568: as before, but the values of
    the vertices are assigned as rows of three to the triangles (line 1565);
    numpy spreads a single row. *)
Definition set_tif (m : mesh) (f : point -> R) (loc : location) (ids : option (list nat)) (q : quantity) : option quantity :=
  match loc, ids with
  | Centroids, _ => set_raster m f Centroids true ids q
  | _, None => set_raster m f Vertices true None q
  | _, Some l =>
      if forallb (fun j => (j <? 3 * m_triangles m)%nat) l then
        let values := map (fun j => f (absolute m (m_vertex m j))) l in
        match values with
        | [] => Some (interpolate q)
        | [a; b; c] => finished Vertices (set_rows m (repeat (fun i => nth i values 0) 3) Vertices ids q)
        | _ => None
        end
      else None
  end.

(** What the values come from *)
Inductive source :=
| Constant (x : R)
| Array (A : list R)
| Rows (A : list (nat -> R))
| Function (f : point -> R)
| Scalar_function (x : R)
| Other (M' : nat) (other : quantity)
| Fitted (A : list R)
| Raster (f : point -> R)
| Tif (f : point -> R).

(** [set_values], lines 702-950, without polygon *)
Definition set_values (m : mesh) (src : source) (loc : location) (array : bool) (ids : option (list nat)) (q : quantity) : option quantity :=
  match loc with
  | Edges => None
  | _ =>
      finished loc
        match src with
        | Constant x => set_constant m x loc ids q
        | Array A => set_array1 m A loc ids q
        | Rows A => set_rows m A loc ids q
        | Function f => set_function m f loc ids q
        | Scalar_function x => set_scalar_function m x loc ids q
        | Other M' other => set_quantity m M' other ids q
        | Fitted A => set_fitted m A loc ids q
        | Raster f => set_raster m f loc array ids q
        | Tif f => set_tif m f loc ids q
        end
  end.

(** Lines 817-848: [inside] are the triangles with their centroid in the
    polygon; without smoothing. *)
Definition set_polygon (m : mesh) (x : R) (inside : list nat) (q : quantity) : option quantity :=
  finished Centroids (set_constant m x Centroids (Some inside) q).

(** * Reading *)

(** [num.take] *)
Definition take {A} (bound : nat) (a : nat -> A) (l : list nat) : option (list A) :=
  if forallb (fun i => (i <? bound)%nat) l then Some (map a l) else None.

(** [get_values], lines 1969-2085 *)
Definition get_centroids (m : mesh) (ids : option (list nat)) (q : quantity) : option (list R) :=
  take (m_triangles m) (qc q) (match ids with None => seq 0 (m_triangles m) | Some l => l end).
Definition get_vertices (m : mesh) (ids : option (list nat)) (q : quantity) : option (list (list R)) :=
  take (m_triangles m) (fun k => map (fun i => qv q (3 * k + i)%nat) [0; 1; 2]%nat) (match ids with None => seq 0 (m_triangles m) | Some l => l end).
Definition node_value (m : mesh) (discontinuous : bool) (q : quantity) (node : nat) : option R :=
  match triangles_and_vertices (m_index m) node with
  | None | Some [] => None
  | Some L => Some (fold_left (fun s tv => s + (if discontinuous then qc q (fst tv) else qv q (3 * fst tv + snd tv)%nat)) L 0 / INR (length L))
  end.
Fixpoint each {A B} (f : A -> option B) (l : list A) : option (list B) :=
  match l with
  | [] => Some []
  | x :: l => match f x, each f l with Some y, Some r => Some (y :: r) | _, _ => None end
  end.
Definition get_nodes (m : mesh) (discontinuous : bool) (ids : option (list nat)) (q : quantity) : option (list R) :=
  each (node_value m discontinuous q) (match ids with None => seq 0 (m_nodes m) | Some l => l end).

(** [num.argmax]: the first position of the largest value; [None]: empty. *)
Fixpoint argmax_from (best : nat * R) (i : nat) (l : list R) : nat * R :=
  match l with
  | [] => best
  | x :: l => argmax_from (if Rltb (snd best) x then (i, x) else best) (S i) l
  end.
Definition argmax (l : list R) : option nat := match l with [] => None | x :: l => Some (fst (argmax_from (0%nat, x) 1 l)) end.

(** [get_extremum_index] with mode 'max' and [get_maximum_value], lines
    1803-1855; the minimum is that of the negative values. *)
Definition maximum_index (m : mesh) (ids : option (list nat)) (q : quantity) : option nat :=
  match get_centroids m ids q with
  | None => None
  | Some V => match argmax V, ids with
              | None, _ => None
              | Some i, None => Some i
              | Some i, Some l => Some (nth i l 0%nat)
              end
  end.
Definition maximum_value (m : mesh) (ids : option (list nat)) (q : quantity) : option R :=
  match maximum_index m ids q with None => None | Some i => Some (qc q i) end.

(** [get_integral], lines 2241-2268: over everything ([full] is the flag of
    the triangles that are not ghosts), or over the indices of a region, which
    are [None] for a region that covers the domain. *)
Definition integral_all (m : mesh) (area : nat -> R) (full : nat -> bool) (full_only : bool) (q : quantity) : R :=
  Rsum (map (fun k => area k * qc q k) (if full_only then filter full (seq 0 (m_triangles m)) else seq 0 (m_triangles m))).
Definition integral_region (area : nat -> R) (indices : option (list nat)) (q : quantity) : option R :=
  match indices with
  | None => None
  | Some l => Some (Rsum (map (fun k => area k * qc q k) l))
  end.

(** * Arithmetic *)

(** [__neg__], [__add__], [__sub__], lines 123-154, for two quantities on the
    mesh: the result is set from the vertex values. *)
Definition neg (q : quantity) : quantity := interpolate {| qv := fun j => - qv q j; qe := qe zero_quantity; qc := qc zero_quantity |}.
Definition add (p q : quantity) : quantity := interpolate {| qv := fun j => qv p j + qv q j; qe := qe zero_quantity; qc := qc zero_quantity |}.
Definition sub (p q : quantity) : quantity := add p (neg q).
(** [__mul__], [__truediv__], [maximum] and [minimum], lines 156-305: at all
    three places *)
Definition pointwise (op : R -> R -> R) (p q : quantity) : quantity :=
  {| qv := fun j => op (qv p j) (qv q j); qe := fun j => op (qe p j) (qe q j); qc := fun k => op (qc p k) (qc q k) |}.
Definition mul := pointwise Rmult.
Definition div (eps : R) := pointwise (fun a b => a / (b + eps)).

(** [add_quantity], [minimum_quantity] and [maximum_quantity] of the domain,
    generic_domain.py lines 823-895, with the outcome [q2] of the assignment
    to a new quantity. *)
Definition store (m : mesh) (new old : quantity) : option quantity := set_values m (Other (m_triangles m) new) Vertices false None old.
Definition domain_add (m : mesh) (q2 q1 : quantity) : option quantity := store m (add q1 q2) q1.
Definition domain_extremum (m : mesh) (op : R -> R -> R) (q2 q1 : quantity) : option quantity := store m (pointwise op q1 q2) q1.
