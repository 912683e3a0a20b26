(** Model of the slope limiters of
    anuga/abstract_2d_finite_volumes/quantity.c, lines 175-660 and 949-983,
    of [_limit_old] (anuga/utilities/util_ext.h, lines 153-184) and of the
    wrappers in quantity_ext.pyx.  [double] is [R]; [fmin] and [fmax] are
    [Rmin] and [Rmax]; the only divisions are by non-zero numbers. *)
From Coq Require Import Reals List ZArith Arith Bool String.
From Verif Require Import RealLib ArrayLib CentroidModel GradientModel.
Import ListNotations.
Local Open Scope R_scope.

(** The values of one triangle: vertex_values[3k+i], edge_values[3k+i],
    x_gradient[k], y_gradient[k]. *)
Record cell := Cell {
  c_v0 : R; c_v1 : R; c_v2 : R;
  c_e0 : R; c_e1 : R; c_e2 : R;
  c_gx : R; c_gy : R }.

(** The arrays that the limiters write. *)
Record qarrays := QArrays {
  vertex_values : nat -> R;
  edge_values : nat -> R;
  x_gradient : nat -> R;
  y_gradient : nat -> R }.

Definition read_cell (st : qarrays) (k : nat) : cell :=
  Cell (vertex_values st (3 * k)) (vertex_values st (3 * k + 1)) (vertex_values st (3 * k + 2))
       (edge_values st (3 * k)) (edge_values st (3 * k + 1)) (edge_values st (3 * k + 2))
       (x_gradient st k) (y_gradient st k).

Definition write3 (f : nat -> R) (k : nat) (a b c : R) : nat -> R :=
  upd (upd (upd f (3 * k) a) (3 * k + 1) b) (3 * k + 2) c.

Definition write_cell (st : qarrays) (k : nat) (c : cell) : qarrays :=
  QArrays (write3 (vertex_values st) k (c_v0 c) (c_v1 c) (c_v2 c))
          (write3 (edge_values st) k (c_e0 c) (c_e1 c) (c_e2 c))
          (upd (x_gradient st) k (c_gx c)) (upd (y_gradient st) k (c_gy c)).

(** [for (k=0; k<N; k++)] with a body that works on triangle [k]. *)
Definition cell_loop (N : nat) (body : nat -> cell -> cell) (st : qarrays) : qarrays :=
  fold_left (fun st k => write_cell st k (body k (read_cell st k))) (seq 0 N) st.

(** [r = 1.0; if (dq > 0.0) r = (qmax - qc)/dq;
    if (dq < 0.0) r = (qmin - qc)/dq;] (lines 262-265 and repeated) *)
Definition ratio (qmin qmax qc dq : R) : R :=
  let r := 1 in
  let r := if Rltb 0 dq then (qmax - qc) / dq else r in
  if Rltb dq 0 then (qmin - qc) / dq else r.

(** [phi = fmin( fmin(r*beta, 1.0), phi)] *)
Definition limit_phi (beta qmin qmax qc dq phi : R) : R :=
  Rmin (Rmin (ratio qmin qmax qc dq * beta) 1) phi.

(** The loop [for (i=0; i<3; i++)] that starts with phi = 1. *)
Definition limit_phi3 (beta qmin qmax qc d0 d1 d2 : R) : R :=
  limit_phi beta qmin qmax qc d2 (limit_phi beta qmin qmax qc d1 (limit_phi beta qmin qmax qc d0 1)).

(** New vertex values from deltas; edges are the midpoints (lines 341-347). *)
Definition cell_from_vertices (qc phi d0 d1 d2 gx gy : R) : cell :=
  let v0 := qc + phi * d0 in
  let v1 := qc + phi * d1 in
  let v2 := qc + phi * d2 in
  Cell v0 v1 v2 ((1/2) * (v1 + v2)) ((1/2) * (v2 + v0)) ((1/2) * (v0 + v1)) gx gy.

(** New edge values from deltas; vertices from the edges (lines 272-280). *)
Definition cell_from_edges (qc phi d0 d1 d2 gx gy : R) : cell :=
  let e0 := qc + phi * d0 in
  let e1 := qc + phi * d1 in
  let e2 := qc + phi * d2 in
  Cell (e1 + e2 - e0) (e2 + e0 - e1) (e0 + e1 - e2) e0 e1 e2 gx gy.

Section Limiters.
Variable beta : R.
Variable q : nat -> R.               (* centroid_values *)
Variable neighbours : nat -> Z.      (* neighbours[3k+i]; negative on the boundary *)

(** Lines 308-322: minimum (maximum) over the triangle and its neighbours. *)
Definition fold_neighbour (f : R -> R -> R) (acc : R) (n : Z) : R :=
  if Z.leb 0 n then f acc (q (Z.to_nat n)) else acc.
Definition nb_fold (f : R -> R -> R) (k : nat) : R :=
  fold_neighbour f
    (fold_neighbour f (fold_neighbour f (q k) (neighbours (3 * k))) (neighbours (3 * k + 1)))
    (neighbours (3 * k + 2)).
Definition nb_min (k : nat) : R := nb_fold Rmin k.
Definition nb_max (k : nat) : R := nb_fold Rmax k.

(** [_limit_vertices_by_all_neighbours], lines 288-352 *)
Definition limit_vertices_cell (k : nat) (c : cell) : cell :=
  let qc := q k in
  let d0 := c_v0 c - qc in
  let d1 := c_v1 c - qc in
  let d2 := c_v2 c - qc in
  let phi := limit_phi3 beta (nb_min k) (nb_max k) qc d0 d1 d2 in
  cell_from_vertices qc phi d0 d1 d2 (c_gx c * phi) (c_gy c * phi).
Definition limit_vertices_by_all_neighbours (N : nat) (st : qarrays) : qarrays :=
  cell_loop N limit_vertices_cell st.

(** [_limit_edges_by_all_neighbours], lines 357-437 (the variable [sign] is
    set and not used) *)
Definition limit_edges_cell (k : nat) (c : cell) : cell :=
  let qc := q k in
  let d0 := c_e0 c - qc in
  let d1 := c_e1 c - qc in
  let d2 := c_e2 c - qc in
  let phi := limit_phi3 beta (nb_min k) (nb_max k) qc d0 d1 d2 in
  cell_from_edges qc phi d0 d1 d2 (c_gx c * phi) (c_gy c * phi).
Definition limit_edges_by_all_neighbours (N : nat) (st : qarrays) : qarrays :=
  cell_loop N limit_edges_cell st.

(** Lines 218-236 of [_extrapolate_and_limit_from_gradient]: [qn[i] = qc] for
    a boundary edge. *)
Definition qn_or_centroid (k : nat) (n : Z) : R :=
  if Z.ltb n 0 then q k else q (Z.to_nat n).
Definition nb3_fold (f : R -> R -> R) (k : nat) : R :=
  f (f (f (q k) (qn_or_centroid k (neighbours (3 * k))))
       (qn_or_centroid k (neighbours (3 * k + 1))))
    (qn_or_centroid k (neighbours (3 * k + 2))).

(** First loop of [_extrapolate_and_limit_from_gradient], lines 193-219, and
    the body of [_extrapolate_from_gradient], lines 145-168. *)
Definition extrapolate_cell (M : gmesh) (k : nat) (c : cell) : cell :=
  let v i := q k + c_gx c * (g_vx M (3 * k + i) - g_cx M k) + c_gy c * (g_vy M (3 * k + i) - g_cy M k) in
  Cell (v 0%nat) (v 1%nat) (v 2%nat)
       ((1/2) * (v 1%nat + v 2%nat)) ((1/2) * (v 2%nat + v 0%nat)) ((1/2) * (v 0%nat + v 1%nat))
       (c_gx c) (c_gy c).
(** [_extrapolate_from_gradient], lines 131-172 *)
Definition extrapolate_from_gradient (M : gmesh) (N : nat) (st : qarrays) : qarrays :=
  cell_loop N (extrapolate_cell M) st.

(** Second loop of [_extrapolate_and_limit_from_gradient], lines 223-282 *)
Definition limit_phi_cell (k : nat) (c : cell) : R :=
  limit_phi3 beta (nb3_fold Rmin k) (nb3_fold Rmax k) (q k)
             (c_e0 c - q k) (c_e1 c - q k) (c_e2 c - q k).
Definition limit_second_cell (k : nat) (c : cell) : cell :=
  let qc := q k in
  let phi := limit_phi_cell k c in
  cell_from_edges qc phi (c_e0 c - qc) (c_e1 c - qc) (c_e2 c - qc) (c_gx c * phi) (c_gy c * phi).
Definition extrapolate_and_limit_from_gradient (M : gmesh) (N : nat) (st : qarrays) : qarrays :=
  cell_loop N limit_second_cell (extrapolate_from_gradient M N st).

(** One pass of the loops of [_limit_edges_by_neighbour], lines 456-474: the
    edge is limited by the centroid on its other side ([qc] on the boundary). *)
Definition phi_by_neighbour (k : nat) (n : Z) (dq phi : R) : R :=
  let qc := q k in
  let qn := if Z.leb 0 n then q (Z.to_nat n) else qc in
  limit_phi beta (Rmin qc qn) (Rmax qc qn) qc dq phi.
Definition limit_edges_by_neighbour_cell (k : nat) (c : cell) : cell :=
  let qc := q k in
  let d0 := c_e0 c - qc in
  let d1 := c_e1 c - qc in
  let d2 := c_e2 c - qc in
  let phi := phi_by_neighbour k (neighbours (3 * k + 2)) d2
               (phi_by_neighbour k (neighbours (3 * k + 1)) d1
                  (phi_by_neighbour k (neighbours (3 * k)) d0 1)) in
  cell_from_edges qc phi d0 d1 d2 (c_gx c) (c_gy c).
(** [_limit_edges_by_neighbour], lines 440-491 *)
Definition limit_edges_by_neighbour (N : nat) (st : qarrays) : qarrays :=
  cell_loop N limit_edges_by_neighbour_cell st.

(** One pass of the loop of [_limit_gradient_by_neighbour], lines 516-534 *)
Definition phi_by_true_neighbour (k : nat) (n : Z) (dq phi : R) : R :=
  let qc := q k in
  if Z.leb 0 n then
    let qn := q (Z.to_nat n) in
    limit_phi beta (Rmin qc qn) (Rmax qc qn) qc dq phi
  else phi.
Definition limit_gradient_by_neighbour_cell (k : nat) (c : cell) : cell :=
  let qc := q k in
  let d0 := c_e0 c - qc in
  let d1 := c_e1 c - qc in
  let d2 := c_e2 c - qc in
  let phi := phi_by_true_neighbour k (neighbours (3 * k + 2)) d2
               (phi_by_true_neighbour k (neighbours (3 * k + 1)) d1
                  (phi_by_true_neighbour k (neighbours (3 * k)) d0 1)) in
  cell_from_edges qc phi d0 d1 d2 (c_gx c) (c_gy c).
(** [_limit_gradient_by_neighbour], lines 494-551; the gradient arrays are
    parameters that it never writes *)
Definition limit_gradient_by_neighbour (N : nat) (st : qarrays) : qarrays :=
  cell_loop N limit_gradient_by_neighbour_cell st.

(** [_min_and_max_centroid_values] (lines 949-983) followed by [_limit_old]
    (util_ext.h lines 153-184), as called by [limit_old] of the wrapper:
    only the vertex values change. *)
Definition limit_old_cell (k : nat) (c : cell) : cell :=
  let qc := q k in
  let d0 := c_v0 c - qc in
  let d1 := c_v1 c - qc in
  let d2 := c_v2 c - qc in
  let phi := limit_phi3 beta (nb_min k) (nb_max k) qc d0 d1 d2 in
  Cell (qc + phi * d0) (qc + phi * d1) (qc + phi * d2) (c_e0 c) (c_e1 c) (c_e2 c) (c_gx c) (c_gy c).
Definition limit_old (N : nat) (st : qarrays) : qarrays := cell_loop N limit_old_cell st.
End Limiters.

(** One pass of the loop of the [_bound_vertices_below_by_...] routines,
    lines 578-588 and 627-637. *)
Definition phi_below (bound qc dq phi : R) : R :=
  let r := if Rltb dq 0 then (bound - qc) / dq else 1 in
  Rmin (Rmin r 1) phi.

(** [_bound_vertices_below_by_quantity], lines 606-656: the bound of vertex
    3k+i is bound_vertex_values[3k+i]. *)
Definition bound_below_cell (bound q : nat -> R) (k : nat) (c : cell) : cell :=
  let qc := q k in
  let d0 := c_v0 c - qc in
  let d1 := c_v1 c - qc in
  let d2 := c_v2 c - qc in
  let phi := phi_below (bound (3 * k + 2)%nat) qc d2
               (phi_below (bound (3 * k + 1)%nat) qc d1 (phi_below (bound (3 * k)%nat) qc d0 1)) in
  cell_from_vertices qc phi d0 d1 d2 (c_gx c * phi) (c_gy c * phi).
Definition bound_vertices_below_by_quantity (bound q : nat -> R) (N : nat) (st : qarrays) : qarrays :=
  cell_loop N (bound_below_cell bound q) st.

(** [_bound_vertices_below_by_constant], lines 555-604 *)
Definition bound_below_constant_cell (bound : R) (q : nat -> R) (k : nat) (c : cell) : cell :=
  let qc := q k in
  let d0 := c_v0 c - qc in
  let d1 := c_v1 c - qc in
  let d2 := c_v2 c - qc in
  let phi := phi_below bound qc d2 (phi_below bound qc d1 (phi_below bound qc d0 1)) in
  cell_from_vertices qc phi d0 d1 d2 (c_gx c * phi) (c_gy c * phi).
Definition bound_vertices_below_by_constant (bound : R) (q : nat -> R) (N : nat) (st : qarrays) : qarrays :=
  cell_loop N (bound_below_constant_cell bound q) st.

(** Attributes that [Quantity.__init__] (quantity.py lines 52-135) gives to
    its object and that the wrappers look up. *)
Definition quantity_attributes : list string :=
  ["domain"; "vertex_values"; "centroid_values"; "edge_values"; "centroid_backup_values";
   "x_gradient"; "y_gradient"; "phi"; "boundary_values"; "explicit_update"; "semi_implicit_update";
   "boundary_length"; "beta"; "name"; "counter"]%string.
Definition has_attribute (a : string) : bool := existsb (String.eqb a) quantity_attributes.

(** [extrapolate_second_order_and_limit_by_edge] (quantity_ext.pyx lines
    288-357): line 309 reads [quantity.object]; a missing attribute raises
    ([None]).  [M], [beta], [q], [neighbours] are what the wrapper passes on;
    the error of [_compute_gradients] fails the assertion. *)
Definition second_order (limit : nat -> qarrays -> qarrays)
    (M : gmesh) (q : nat -> R) (owner : string) (st : qarrays) : option qarrays :=
  if negb (has_attribute owner) then None
  else
    match GradientModel.compute_gradients M q (x_gradient st) (y_gradient st) with
    | (a, b, err) =>
        if negb (Z.eqb err 0) then None
        else Some (limit (g_n M) (extrapolate_from_gradient q M (g_n M)
                     (QArrays (vertex_values st) (edge_values st) a b)))
    end.
Definition extrapolate_second_order_and_limit_by_edge (M : gmesh) (beta : R) (q : nat -> R)
    (neighbours : nat -> Z) (st : qarrays) : option qarrays :=
  second_order (limit_edges_by_all_neighbours beta q neighbours) M q "object" st.
(** lines 359-428 *)
Definition extrapolate_second_order_and_limit_by_vertex (M : gmesh) (beta : R) (q : nat -> R)
    (neighbours : nat -> Z) (st : qarrays) : option qarrays :=
  second_order (limit_vertices_by_all_neighbours beta q neighbours) M q "object" st.
