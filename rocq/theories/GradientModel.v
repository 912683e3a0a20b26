(** Model of the gradient computation and linear extrapolation of
    anuga/abstract_2d_finite_volumes/quantity.c ([_compute_gradients],
    [_compute_local_gradients], [_extrapolate_from_gradient], [_interpolate])
    with [_gradient2] of anuga/utilities/util_ext.h ([_gradient] is in
    [CentroidModel]). *)
From Coq Require Import Reals List ZArith Arith Bool.
From Verif Require Import RealLib ArrayLib CentroidModel.
Import ListNotations.
Local Open Scope R_scope.

(** [_gradient2], util_ext.h lines 97-150 *)
Definition gradient2 (x0 y0 x1 y1 q0 q1 : R) : R * R :=
  let xx := x1 - x0 in
  let yy := y1 - y0 in
  let qq := q1 - q0 in
  let det := xx * xx + yy * yy in
  (xx * qq / det, yy * qq / det).

(** The arrays of the mesh that are read. *)
Record gmesh := GMesh {
  g_n : nat;
  g_cx : nat -> R; g_cy : nat -> R;          (* centroids[2k], centroids[2k+1] *)
  g_vx : nat -> R; g_vy : nat -> R;          (* vertex_coordinates, vertex 3k+i *)
  g_boundaries : nat -> Z;                   (* number_of_boundaries *)
  g_surrogate : nat -> nat }.                (* surrogate_neighbours[3k+i] *)

(** Lines 61-64: the first surrogate neighbour different from [k] ([k] if
    there is none). *)
Definition one_neighbour (M : gmesh) (k : nat) : nat :=
  let s i := g_surrogate M (3 * k + i) in
  if Nat.eqb (s 0%nat) k then if Nat.eqb (s 1%nat) k then s 2%nat else s 1%nat else s 0%nat.

(** Loop body of [_compute_gradients], lines 37-91: [None] is the return of
    -1, [Some None] leaves a[k], b[k] alone. *)
Definition gradient_cell (M : gmesh) (q : nat -> R) (k : nat) : option (option (R * R)) :=
  if Z.ltb (g_boundaries M k) 2 then
    let k0 := g_surrogate M (3 * k + 0) in
    let k1 := g_surrogate M (3 * k + 1) in
    let k2 := g_surrogate M (3 * k + 2) in
    if Nat.eqb k0 k1 || Nat.eqb k1 k2 then None
    else Some (Some (gradient (g_cx M k0) (g_cy M k0) (g_cx M k1) (g_cy M k1) (g_cx M k2) (g_cy M k2)
                              (q k0) (q k1) (q k2)))
  else if Z.eqb (g_boundaries M k) 2 then
    let k0 := one_neighbour M k in
    if Nat.eqb k0 k then None
    else let k1 := k in
      Some (Some (gradient2 (g_cx M k0) (g_cy M k0) (g_cx M k1) (g_cy M k1) (q k0) (q k1)))
  else Some None.

(** [_compute_gradients], lines 24-93: the loop over [ks], stopping at the
    first error; the new arrays and the error code. *)
Fixpoint gradient_loop (M : gmesh) (q : nat -> R) (ks : list nat) (a b : nat -> R) : (nat -> R) * (nat -> R) * Z :=
  match ks with
  | [] => (a, b, 0%Z)
  | k :: rest =>
      match gradient_cell M q k with
      | None => (a, b, (-1)%Z)
      | Some None => gradient_loop M q rest a b
      | Some (Some (ak, bk)) => gradient_loop M q rest (upd a k ak) (upd b k bk)
      end
  end.
Definition compute_gradients (M : gmesh) (q a b : nat -> R) : (nat -> R) * (nat -> R) * Z :=
  gradient_loop M q (seq 0 (g_n M)) a b.

(** [_compute_local_gradients], lines 96-128, for one triangle. *)
Definition local_gradient (M : gmesh) (qv : nat -> R) (k : nat) : R * R :=
  gradient (g_vx M (3 * k)) (g_vy M (3 * k)) (g_vx M (3 * k + 1)) (g_vy M (3 * k + 1))
           (g_vx M (3 * k + 2)) (g_vy M (3 * k + 2))
           (qv (3 * k)%nat) (qv (3 * k + 1)%nat) (qv (3 * k + 2)%nat).

(** [_extrapolate_from_gradient], lines 131-172: vertex_values[3k+i] and
    edge_values[3k+i]. *)
Definition extrapolate_vertex (M : gmesh) (q a b : nat -> R) (k i : nat) : R :=
  q k + a k * (g_vx M (3 * k + i) - g_cx M k) + b k * (g_vy M (3 * k + i) - g_cy M k).
Definition extrapolate_edge (M : gmesh) (q a b : nat -> R) (k i : nat) : R :=
  let v := extrapolate_vertex M q a b k in
  match i with
  | 0%nat => (1/2) * (v 1%nat + v 2%nat)
  | 1%nat => (1/2) * (v 2%nat + v 0%nat)
  | _ => (1/2) * (v 0%nat + v 1%nat)
  end.

(** [_interpolate], quantity.c: centroid and edge values from vertex values
    v0 v1 v2 of one triangle. *)
Definition interpolate_centroid (v0 v1 v2 : R) : R := (v0 + v1 + v2) / 3.
Definition interpolate_edge (v0 v1 v2 : R) (i : nat) : R :=
  match i with 0%nat => (1/2) * (v1 + v2) | 1%nat => (1/2) * (v0 + v2) | _ => (1/2) * (v0 + v1) end.
(** [_interpolate_from_edges_to_vertices] *)
Definition vertex_from_edges (e0 e1 e2 : R) (i : nat) : R :=
  match i with 0%nat => e1 + e2 - e0 | 1%nat => e2 + e0 - e1 | _ => e0 + e1 - e2 end.
