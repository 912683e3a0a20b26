(** Model of the advection domain: anuga/advection/advection.c
    ([_compute_fluxes]), the Python version of the same routine
    (anuga/advection/advection.py lines 99-125 and 198-275), and the step of
    the first-order scheme built from them by
    anuga/abstract_2d_finite_volumes/generic_domain.py (Euler, second and
    third order Runge-Kutta).  [double] is [R]. *)
From Coq Require Import Reals List ZArith Arith Bool.
From Verif Require Import RealLib ArrayLib CentroidModel.
Import ListNotations.
Local Open Scope R_scope.

(** The arrays of the domain that are read; [x_i] of triangle [k] at 3k+i. *)
Record adomain := ADomain {
  a_n : nat;                    (* ntri *)
  a_neighbours : nat -> Z;
  a_neighbour_edges : nat -> nat;
  a_nx : nat -> R; a_ny : nat -> R;   (* normals[6k+2i], normals[6k+2i+1] *)
  a_areas : nat -> R;
  a_radii : nat -> R;
  a_edgelengths : nat -> R;
  a_full : nat -> Z;            (* tri_full_flag *)
  a_v1 : R; a_v2 : R }.         (* velocity *)

(** Lines 63-78: values on the two sides of edge 3k+i. *)
Definition a_partner (D : adomain) (e : nat) : nat :=
  3 * Z.to_nat (a_neighbours D e) + a_neighbour_edges D e.
Definition outer_value (D : adomain) (edge bdry : nat -> R) (e : nat) : R :=
  if Z.ltb (a_neighbours D e) 0 then bdry (Z.to_nat (- a_neighbours D e - 1))
  else edge (a_partner D e).

(** Line 89 *)
Definition normal_velocity (D : adomain) (e : nat) : R := a_v1 D * a_nx D e + a_v2 D * a_ny D e.

(** Lines 91-95: upwind flux *)
Definition edge_flux (D : adomain) (edge bdry : nat -> R) (e : nat) : R :=
  let vn := normal_velocity D e in
  if Rltb vn 0 then outer_value D edge bdry e * vn else edge e * vn.

(** Lines 60-110: the loop over the three edges; (flux, optimal_timestep). *)
Definition edge_step (D : adomain) (edge bdry : nat -> R) (k : nat) (st : R * R) (i : nat) : R * R :=
  let e := (3 * k + i)%nat in
  let '(flux, optimal) := st in
  let flux := flux - edge_flux D edge bdry e * a_edgelengths D e in
  let max_speed := Rabs (normal_velocity D e) in
  let optimal :=
    if Z.eqb (a_full D k) 1 then
      if negb (Reqb max_speed 0) then
        if Rltb (a_radii D k / max_speed) optimal then a_radii D k / max_speed else optimal
      else optimal
    else optimal in
  (flux, optimal).
Definition cell_fluxes (D : adomain) (edge bdry : nat -> R) (huge : R) (k : nat) : R * R :=
  fold_left (edge_step D edge bdry k) [0; 1; 2]%nat (0, huge).

(** Lines 53-119: the loop over the triangles; (quantity_update, timestep). *)
Definition tri_step (D : adomain) (edge bdry : nat -> R) (huge : R) (st : (nat -> R) * R) (k : nat) : (nat -> R) * R :=
  let '(upd_arr, timestep) := st in
  let '(flux, optimal) := cell_fluxes D edge bdry huge k in
  (upd upd_arr k (flux / a_areas D k), if Rltb optimal timestep then optimal else timestep).
Definition compute_fluxes (D : adomain) (edge bdry : nat -> R) (huge max_timestep : R) (update0 : nat -> R)
  : (nat -> R) * R :=
  fold_left (tri_step D edge bdry huge) (seq 0 (a_n D)) (update0, max_timestep).

(** [flux_function] and [compute_fluxes_python] (advection.py lines 99-125,
    198-275); the division by a zero speed gives an infinity of numpy and
    does not change the minimum; [min] keeps the first of equal arguments. *)
Definition py_flux_function (D : adomain) (nx ny ql qr : R) : R * R :=
  let vn := a_v1 D * nx + a_v2 D * ny in
  (if Rltb vn 0 then qr * vn else ql * vn, Rabs vn).
Definition py_edge_step (D : adomain) (edge bdry : nat -> R) (k : nat) (st : R * R) (i : nat) : R * R :=
  let e := (3 * k + i)%nat in
  let '(flux, optimal) := st in
  let qr := if Z.ltb (a_neighbours D e) 0 then bdry (Z.to_nat (- a_neighbours D e - 1))
            else edge (a_partner D e) in
  let '(edgeflux, max_speed) := py_flux_function D (a_nx D e) (a_ny D e) (edge e) qr in
  (flux - edgeflux * a_edgelengths D e,
   if Z.eqb (a_full D k) 1 then
     if Reqb max_speed 0 then optimal else Rmin optimal (a_radii D k / max_speed)
   else optimal).
Definition py_tri_step (D : adomain) (edge bdry : nat -> R) (huge : R) (st : (nat -> R) * R) (k : nat) : (nat -> R) * R :=
  let '(flux, optimal) := fold_left (py_edge_step D edge bdry k) [0; 1; 2]%nat (0, huge) in
  (upd (fst st) k (flux / a_areas D k), Rmin (snd st) optimal).
Definition compute_fluxes_python (D : adomain) (edge bdry : nat -> R) (huge max_timestep : R) (update0 : nat -> R)
  : (nat -> R) * R :=
  fold_left (py_tri_step D edge bdry huge) (seq 0 (a_n D)) (update0, max_timestep).

(** [extrapolate_first_order] (quantity.py lines 2238-2256): edge_values[3k+i]. *)
Definition first_order_edges (q : list R) (e : nat) : R := nth (e / 3) q 0.

(** One pass of distribute_to_vertices_and_edges, update_boundary,
    compute_fluxes and update_conserved_quantities with the step [dt]
    ([_update] of quantity.c is [CentroidModel.update]; no forcing terms, so
    that semi_implicit_update is zero).  [bdry]: what update_boundary wrote.
    The time step returned along with the update is [flux_timestep] below; the
    update does not depend on the two limits. *)
Definition explicit_update (D : adomain) (bdry : nat -> R) (q : list R) : list R :=
  map (fst (compute_fluxes D (first_order_edges q) bdry 0 0 (fun _ => 0))) (seq 0 (length q)).
Definition euler (D : adomain) (bdry : nat -> R) (dt : R) (q : list R) : list R :=
  fst (fst (update dt q (explicit_update D bdry q) (map (fun _ => 0) q))).

(** [saxpy_conserved_quantities] (quantity.c line 764) *)
Definition saxpy (a b : R) (q backup : list R) : list R := map2 (fun x y => a * x + b * y) q backup.

(** generic_domain.py lines 1915-1972, 1974-2050, 2052-2182; the last
    combination of the third order scheme is saxpy(2, 1) and a division by 3
    (lines 2167-2172).  [b0 b1 b2]: the boundary values of the stages. *)
Inductive method := Euler | RK2 | RK3.
Definition step (D : adomain) (m : method) (b0 b1 b2 : nat -> R) (dt : R) (q : list R) : list R :=
  match m with
  | Euler => euler D b0 dt q
  | RK2 => saxpy (1/2) (1/2) (euler D b1 dt (euler D b0 dt q)) q
  | RK3 =>
      let q1 := saxpy (1/4) (3/4) (euler D b1 dt (euler D b0 dt q)) q in
      map (fun x => x / 3) (saxpy 2 1 (euler D b2 dt q1) q)
  end.

(** The time step that compute_fluxes returns for first order edge values. *)
Definition flux_timestep (D : adomain) (huge max_timestep : R) (bdry : nat -> R) (q : list R) : R :=
  snd (compute_fluxes D (first_order_edges q) bdry huge max_timestep (fun _ => 0)).

(** A run: a list of steps, each with its boundary values and its length. *)
Record stage_data := StageData { sd_b0 : nat -> R; sd_b1 : nat -> R; sd_b2 : nat -> R; sd_dt : R }.
Definition run (D : adomain) (m : method) (ss : list stage_data) (q : list R) : list R :=
  fold_left (fun q s => step D m (sd_b0 s) (sd_b1 s) (sd_b2 s) (sd_dt s) q) ss q.
