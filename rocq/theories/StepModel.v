(** The complete time step of a sequential shallow water domain: the kernels
    modelled in CentroidModel, ReconModel, BoundaryModel and FluxModel plugged
    into the time stepping schemes of RKModel, in the order of
    anuga/abstract_2d_finite_volumes/generic_domain.py lines 1832-2179 and
    anuga/shallow_water/shallow_water_domain.py
    ([distribute_to_vertices_and_edges] 1882-1915,
    [update_conserved_quantities] 2089-2150, [compute_fluxes] 1828-1879).
    The domain has the default forcing term (Manning friction) and no
    fractional step operator besides the boundary flux integral. *)
From Coq Require Import Reals List ZArith Arith Bool.
From Verif Require Import RealLib ArrayLib CentroidModel BoundaryModel FluxModel ReconModel RKModel.
Import ListNotations.
Local Open Scope R_scope.

(** The boundary objects considered; [NoBoundary] is [None] in the boundary map. *)
Inductive boundary_object := Reflective | Transmissive (centroid_bc : bool) | Dirichlet (q : cons) | NoBoundary.

(** What does not change during a run.  The value arrays of [cf_dom] and
    [cf_rec] are not used: they are replaced by those of the state. *)
Record config := Config {
  cf_dom : domain;
  cf_rec : recon;
  cf_sloped : bool;                                  (* use_sloped_mannings *)
  cf_eta : nat -> R;                                 (* friction, centroid values *)
  cf_x : nat -> (R * R) * (R * R) * (R * R);         (* vertex coordinates of a triangle *)
  cf_cells : nat -> nat; cf_edges : nat -> nat;      (* boundary_cells, boundary_edges *)
  cf_segments : list (boundary_object * list nat) }. (* tag_boundary_cells with boundary_map *)

(** The state besides the stage. *)
Record rest := Rest {
  x_xmom : nat -> R; x_ymom : nat -> R;              (* centroid values *)
  x_stage : nat -> R;                                (* stage centroid values when last distributed *)
  x_height : nat -> R;
  x_se : nat -> R; x_he : nat -> R;                  (* edge values of stage, height, momenta and bed *)
  x_ue : nat -> R; x_ve : nat -> R; x_ze : nat -> R;
  x_zv : nat -> R;                                   (* elevation vertex values *)
  x_bv : qty -> nat -> R;                            (* boundary values *)
  x_eu : nat -> R; x_ev : nat -> R;                  (* explicit_update of the momenta *)
  x_su : nat -> R; x_sv : nat -> R;                  (* semi_implicit_update of the momenta *)
  x_made : R;                                        (* volume added by the protection kernels *)
  x_step : nat }.                                    (* steps done *)

(** [None] when an exception has ended the run (or the reconstruction has
    taken its error exit, after which the state is not modelled). *)
Definition xstate := option rest.

Section Step.
Variable C : config.
(** The time step chosen by [update_timestep] in step [i] from the flux time
    step. *)
Variable dts : nat -> R -> R.

Definition N : nat := number_of_elements (cf_dom C).
Definition bed (k : nat) : R := r_bed (cf_rec C) k.
Definition mah : R := r_minimum_allowed_height (cf_rec C).

(** The entries of the triangles handed to the protection kernels.  The stage
    vertex values they may write are overwritten by the reconstruction. *)
Definition cell_of (q xm ym : nat -> R) (k : nat) : cell :=
  Cell (q k) (bed k) (xm k) (ym k) (areas (cf_dom C) k) (tri_full_flag (cf_dom C) k) (q k, q k, q k).
Definition cells_of (q xm ym : nat -> R) : list cell := map (cell_of q xm ym) (seq 0 N).

(** Reading an array back from the list of its first [N] entries. *)
Definition back {A} (f : A -> R) (l : list A) (old : nat -> R) (k : nat) : R :=
  match nth_error l k with Some a => f a | None => old k end.

(** The inputs of the reconstruction. *)
Definition recon_of (q : nat -> R) (x : rest) : recon :=
  let I := cf_rec C in
  Recon (r_number_of_elements I) (r_update I) (r_number_of_boundaries I) (r_surrogate I) (r_ex I) (r_ey I)
    (r_cx I) (r_cy I) (r_beta_w I) (r_beta_w_dry I) (r_beta_uh I) (r_beta_uh_dry I) (r_beta_vh I) (r_beta_vh_dry I)
    (r_minimum_allowed_height I) (r_velocity I) q (r_bed I) (x_height x) (x_xmom x) (x_ymom x)
    (x_se x) (x_he x) (x_ue x) (x_ve x) (x_ze x) (r_stage_v I) (r_height_v I) (r_xmom_v I) (r_ymom_v I) (x_zv x).

(** What a boundary object sees.  The velocity quantities play no role in the
    flux computation and are left out. *)
Definition bdom_of (q : nat -> R) (x : rest) : bdom := {|
  cells := cf_cells C; edges := cf_edges C;
  normals := fun v c => if Nat.even c then normal_x (cf_dom C) (3 * v + c / 2)%nat
                        else normal_y (cf_dom C) (3 * v + c / 2)%nat;
  ev := fun a v i => let e := (3 * v + i)%nat in
        match a with Stage => x_se x e | Elev => x_ze x e | Height => x_he x e | Xmom => x_ue x e | Ymom => x_ve x e
                   | Xvel | Yvel => 0 end;
  cv := fun a k => match a with Stage => q k | Elev => bed k | Height => x_height x k | Xmom => x_xmom x k
                   | Ymom => x_ymom x k | Xvel | Yvel => 0 end;
  bv := x_bv x |}.

Definition apply_boundary (b : boundary_object) (d : bdom) (ids : list nat) : bdom :=
  match b with
  | Reflective => reflective_segment d ids
  | Transmissive c => transmissive_segment c d ids
  | Dirichlet v => dirichlet_segment v d ids
  | NoBoundary => d
  end.

(** [update_boundary], generic_domain.py lines 2288-2306. *)
Definition update_boundary (q : nat -> R) (x : rest) : qty -> nat -> R :=
  bv (fold_left (fun d s => apply_boundary (fst s) d (snd s)) (cf_segments C) (bdom_of q x)).

(** [protect_against_infinitesimal_and_negative_heights]. *)
Definition protect_step (q : nat -> R) (x : rest) : (nat -> R) * rest :=
  let '(cs, err) := protect_new mah (cells_of q (x_xmom x) (x_ymom x)) in
  (back c_stage cs q,
   Rest (back c_xmom cs (x_xmom x)) (back c_ymom cs (x_ymom x)) (back c_stage cs q) (x_height x)
     (x_se x) (x_he x) (x_ue x) (x_ve x) (x_ze x) (x_zv x) (x_bv x) (x_eu x) (x_ev x) (x_su x) (x_sv x)
     (x_made x + err) (x_step x)).

(** [extrapolate_second_order_edge_sw]. *)
Definition extrapolate_step (q : nat -> R) (x : rest) : xstate :=
  let I := recon_of q x in
  if recon_ok I then
    Some (Rest (mom_centroid I (x_xmom x)) (mom_centroid I (x_ymom x)) (x_stage x) (height1 I)
      (stage_edges I) (height_edges I) (xmom_edges I) (ymom_edges I) (bed_edges I)
      (vertex_from_edges I (bed_edges I) (x_zv x))
      (x_bv x) (x_eu x) (x_ev x) (x_su x) (x_sv x) (x_made x) (x_step x))
  else None.

Definition boundary_step (q : nat -> R) (x : rest) : rest :=
  Rest (x_xmom x) (x_ymom x) (x_stage x) (x_height x) (x_se x) (x_he x) (x_ue x) (x_ve x) (x_ze x) (x_zv x)
    (update_boundary q x) (x_eu x) (x_ev x) (x_su x) (x_sv x) (x_made x) (x_step x).

(** [distribute_to_vertices_and_edges] and [update_boundary]. *)
Definition distribute_step (q : nat -> R) (x : xstate) : (nat -> R) * xstate :=
  match x with
  | None => (q, None)
  | Some x =>
      let '(q', x) := protect_step q x in
      (q', match extrapolate_step q' x with Some x => Some (boundary_step q' x) | None => None end)
  end.

(** The arrays the flux computation reads. *)
Definition fill (q : nat -> R) (x : rest) : domain :=
  let D := cf_dom C in
  Domain (number_of_elements D) (epsilon D) (g D) (low_froude D) (neighbours D) (neighbour_edges D) (normal_x D) (normal_y D)
    (edgelengths D) (radii D) (areas D) (tri_full_flag D) (x_se x) (x_ue x) (x_ve x) (x_ze x) (x_he x)
    q (r_bed (cf_rec C)) (x_height x) (x_bv x Stage) (x_bv x Xmom) (x_bv x Ymom)
    (edge_flux_type D) (riverwall_elevation D) (riverwall_rowIndex D) (ncol_riverwall D) (riverwall_props D)
    (update_next_flux D) (timestep_fluxcalls D) (allow_timestep_increase D).
Definition dom_of (q : nat -> R) (x : xstate) : domain :=
  match x with Some x => fill q x | None => cf_dom C end.

(** [manning_friction_implicit] on the semi-implicit updates. *)
Definition friction_cell_of (x : rest) (k : nat) : friction_cell :=
  FrictionCell (x_stage x k) (bed k) (x_zv x (3 * k)%nat, x_zv x (3 * k + 1)%nat, x_zv x (3 * k + 2)%nat) (cf_x C k)
    (x_xmom x k) (x_ymom x k) (cf_eta C k).
Definition friction_step (x : rest) : list (R * R) :=
  manning_friction_implicit (cf_sloped C) (g (cf_dom C)) mah (map (friction_cell_of x) (seq 0 N))
    (map (fun k => (x_su x k, x_sv x k)) (seq 0 N)).

(** [compute_fluxes] stores the explicit updates of the momenta,
    [compute_forcing_terms] adds friction. *)
Definition forcing_step (o : flux_output) (x : xstate) : xstate :=
  match x with
  | None => None
  | Some x =>
      let f := friction_step x in
      Some (Rest (x_xmom x) (x_ymom x) (x_stage x) (x_height x) (x_se x) (x_he x) (x_ue x) (x_ve x) (x_ze x) (x_zv x)
        (x_bv x) (out_xmom o) (out_ymom o) (back fst f (x_su x)) (back snd f (x_sv x)) (x_made x) (x_step x))
  end.

Definition choose_dt_step (flux_timestep : R) (x : xstate) : R :=
  match x with Some x => dts (x_step x) flux_timestep | None => 0 end.

(** [Quantity.update] on one of the momenta; [None] when the assertion of the
    wrapper (quantity_ext.pyx) fails. *)
Definition momentum_update (dt : R) (xs es ss : nat -> R) : option ((nat -> R) * (nat -> R)) :=
  let '(xs', ss', code) := update dt (map xs (seq 0 N)) (map es (seq 0 N)) (map ss (seq 0 N)) in
  if Z.eqb code 0 then Some (back (fun v => v) xs' xs, back (fun v => v) ss' ss) else None.

(** Volume added by [fix_negative_cells]. *)
Definition fix_volume (old new : list cell) : R :=
  Rsum (map (fun c => c_area c * c_stage c) new) - Rsum (map (fun c => c_area c * c_stage c) old).

(** The rest of [update_conserved_quantities]: momenta, then negative cells. *)
Definition finish_step (dt : R) (q : nat -> R) (x : xstate) : (nat -> R) * xstate :=
  match x with
  | None => (q, None)
  | Some x =>
      match momentum_update dt (x_xmom x) (x_eu x) (x_su x) with
      | None => (q, None)
      | Some (xm, su) =>
      match momentum_update dt (x_ymom x) (x_ev x) (x_sv x) with
      | None => (q, None)
      | Some (ym, sv) =>
          let cs := cells_of q xm ym in
          let cs' := fst (fix_negative_cells cs) in
          (back c_stage cs' q,
           Some (Rest (back c_xmom cs' xm) (back c_ymom cs' ym) (x_stage x) (x_height x) (x_se x) (x_he x) (x_ue x) (x_ve x)
             (x_ze x) (x_zv x) (x_bv x) (x_eu x) (x_ev x) su sv (x_made x + fix_volume cs cs') (x_step x)))
      end end
  end.

(** No ghost triangles. *)
Definition ghosts_step (q : nat -> R) (x : xstate) : (nat -> R) * xstate := (q, x).

(** [saxpy_conserved_quantities] on the momenta (and on the volume counter);
    for the last combination of the third order scheme including the division
    by three. *)
Definition blend (a b : R) (old new : rest) : rest :=
  Rest (fun k => a * x_xmom new k + b * x_xmom old k) (fun k => a * x_ymom new k + b * x_ymom old k)
    (x_stage new) (x_height new) (x_se new) (x_he new) (x_ue new) (x_ve new) (x_ze new) (x_zv new) (x_bv new)
    (x_eu new) (x_ev new) (x_su new) (x_sv new) (a * x_made new + b * x_made old) (x_step new).
Definition third (x : rest) : rest :=
  Rest (fun k => x_xmom x k / 3) (fun k => x_ymom x k / 3)
    (x_stage x) (x_height x) (x_se x) (x_he x) (x_ue x) (x_ve x) (x_ze x) (x_zv x) (x_bv x)
    (x_eu x) (x_ev x) (x_su x) (x_sv x) (x_made x / 3) (x_step x).
Definition combine_step (m : scheme) (n : nat) (dt : R) (old new : xstate) : xstate :=
  match old, new with
  | Some old, Some new =>
      Some (match m, n with
            | RK3, O => blend (1/4) (3/4) old new
            | RK3, _ => third (blend 2 1 old new)
            | _, _ => blend (1/2) (1/2) old new
            end)
  | _, _ => None
  end.

(** The end of the loop of [_evolve_base]. *)
Definition operators_step (dt : R) (q : nat -> R) (x : xstate) : (nat -> R) * xstate * R :=
  (q, match x with
      | Some x => Some (Rest (x_xmom x) (x_ymom x) (x_stage x) (x_height x) (x_se x) (x_he x) (x_ue x) (x_ve x) (x_ze x)
          (x_zv x) (x_bv x) (x_eu x) (x_ev x) (x_su x) (x_sv x) (x_made x) (S (x_step x)))
      | None => None
      end, 0).

Definition sw_state := state xstate.

(** One complete step, and any number of them. *)
Definition sw_step (m : scheme) : sw_state -> sw_state :=
  step xstate distribute_step dom_of forcing_step choose_dt_step finish_step ghosts_step (combine_step m) operators_step m.
Definition sw_steps (m : scheme) : nat -> sw_state -> sw_state :=
  steps xstate distribute_step dom_of forcing_step choose_dt_step finish_step ghosts_step (combine_step m) operators_step m.
End Step.
