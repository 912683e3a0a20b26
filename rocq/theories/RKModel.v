(** Model of one time step by the three schemes of
    anuga/abstract_2d_finite_volumes/generic_domain.py
    ([evolve_one_euler_step] lines 1917-1972, [evolve_one_rk2_step] 1974-2051,
    [evolve_one_rk3_step] 2053-2179), followed by the fractional step operators
    ([apply_fractional_steps] line 2312), of which
    operators/boundary_flux_integral_operator.py is modelled in full.

    The stage at the centroids and the arrays of the flux computation are
    explicit; everything else in the domain (momenta, boundary values, time,
    ...) is an arbitrary type [X], and the parts of the step that are not flux
    computation, stage update or linear combination are arbitrary functions. *)
From Coq Require Import Reals List ZArith Bool.
From Verif Require Import RealLib ArrayLib FluxModel.
Import ListNotations.
Local Open Scope R_scope.

Inductive scheme := Euler | RK2 | RK3.

(** [set_timestepping_method], generic_domain.py lines 1540-1557 *)
Definition fluxcalls (m : scheme) : nat := match m with Euler => 1 | RK2 => 2 | RK3 => 3 end.

Section RK.
Variable X : Type.

Record state := State {
  q : nat -> R;              (* stage centroid values *)
  rest : X;                  (* everything else *)
  sta : statics; wk : work;  (* static variables and work arrays of the flux computation *)
  bfs : nat -> R;            (* domain.boundary_flux_sum *)
  flux_dt : R;               (* domain.flux_timestep *)
  dt : R;                    (* domain.timestep *)
  bfi : R;                   (* boundary_flux_integral *)
  fsvi : R }.                (* fractional_step_volume_integral *)

(** [protect_against_infinitesimal_and_negative_heights], part of
    [distribute_to_vertices_and_edges]. *)
Variable protect : (nat -> R) -> X -> (nat -> R) * X.
(** The arrays the flux computation sees after reconstruction and
    [update_boundary]. *)
Variable dom : (nat -> R) -> X -> domain.
(** Forcing terms and storing of the flux computation's other results. *)
Variable forcing : flux_output -> X -> X.
(** [update_timestep]: the time step from the flux time step. *)
Variable choose_dt : R -> X -> R.
(** Update of the other conserved quantities, then [fix_negative_cells] on
    everything. *)
Variable finish_update : R -> (nat -> R) -> X -> (nat -> R) * X.
(** [update_ghosts]. *)
Variable ghosts : (nat -> R) -> X -> (nat -> R) * X.
(** backup / saxpy of the other conserved quantities, setting of the time. *)
Variable combine : nat -> R -> X -> X -> X.
(** The other fractional step operators: new stage and state and the volume
    they record. *)
Variable operators : R -> (nat -> R) -> X -> (nat -> R) * X * R.

Definition set_qx (s : state) (p : (nat -> R) * X) : state :=
  State (fst p) (snd p) (sta s) (wk s) (bfs s) (flux_dt s) (dt s) (bfi s) (fsvi s).

Definition distribute (s : state) : state := set_qx s (protect (q s) (rest s)).

(** [compute_fluxes] and [compute_forcing_terms]: the new state and the
    explicit update of stage. *)
Definition compute (s : state) : state * (nat -> R) :=
  let o := compute_fluxes (dom (q s) (rest s)) (sta s) (wk s) (bfs s) (flux_dt s) in
  (State (q s) (forcing o (rest s)) (out_statics o) (out_work o) (out_boundary_flux_sum o) (out_timestep o)
         (dt s) (bfi s) (fsvi s), out_stage o).

Definition update_timestep (s : state) : state :=
  State (q s) (rest s) (sta s) (wk s) (bfs s) (flux_dt s) (choose_dt (flux_dt s) (rest s)) (bfi s) (fsvi s).

(** [update_conserved_quantities], shallow_water_domain.py lines 2089-2120:
    stage has no semi-implicit term. *)
Definition update_conserved (s : state) (e : nat -> R) : state :=
  set_qx s (finish_update (dt s) (fun k => q s k + dt s * e k) (rest s)).

Definition update_ghosts (s : state) : state := set_qx s (ghosts (q s) (rest s)).

(** [saxpy_conserved_quantities(a, b)]; [stage] tells [combine] which of the
    combinations this is. *)
Definition saxpy (n : nat) (a b : R) (backup s : state) : state :=
  set_qx s (fun k => a * q s k + b * q backup k, combine n (dt s) (rest backup) (rest s)).

Definition evolve_one_euler_step (s : state) : state :=
  let s := distribute s in
  let '(s, e) := compute s in
  let s := update_timestep s in
  update_conserved s e.

Definition evolve_one_rk2_step (s0 : state) : state :=
  let s := distribute s0 in
  let '(s, e) := compute s in
  let s := update_timestep s in
  let s := update_conserved s e in
  let s := update_ghosts s in            (* for ghost layers narrower than 4 *)
  let s := distribute s in
  let '(s, e) := compute s in
  let s := update_conserved s e in
  saxpy 0 (1/2) (1/2) s0 s.

(** Lines 2161-2167: saxpy(2,1) and then division by three. *)
Definition thirds (s : state) : state := set_qx s (fun k => q s k / 3, rest s).

Definition evolve_one_rk3_step (s0 : state) : state :=
  let s := distribute s0 in
  let '(s, e) := compute s in
  let s := update_timestep s in
  let s := update_conserved s e in
  let s := update_ghosts s in
  let s := distribute s in
  let '(s, e) := compute s in
  let s := update_conserved s e in
  let s := saxpy 0 (1/4) (3/4) s0 s in
  let s := update_ghosts s in
  let s := distribute s in
  let '(s, e) := compute s in
  let s := update_conserved s e in
  thirds (saxpy 1 2 1 s0 s).

Definition evolve_one_step (m : scheme) : state -> state :=
  match m with Euler => evolve_one_euler_step | RK2 => evolve_one_rk2_step | RK3 => evolve_one_rk3_step end.

(** boundary_flux_integral_operator.__call__, lines 44-62 *)
Definition boundary_flux_integral_op (m : scheme) (s : state) : state :=
  let b := bfs s in
  let i := match m with
           | Euler => bfi s + dt s * b 0%nat
           | RK2 => bfi s + 1/2 * dt s * (b 0%nat + b 1%nat)
           | RK3 => bfi s + 1/6 * dt s * (b 0%nat + b 1%nat + 4 * b 2%nat)
           end in
  State (q s) (rest s) (sta s) (wk s) (fun _ => 0) (flux_dt s) (dt s) i (fsvi s).

Definition other_operators (s : state) : state :=
  let '(q', x', v) := operators (dt s) (q s) (rest s) in
  State q' x' (sta s) (wk s) (bfs s) (flux_dt s) (dt s) (bfi s) (fsvi s + v).

(** One pass of the loop of [_evolve_base], lines 1832-1853. *)
Definition step (m : scheme) (s : state) : state :=
  update_ghosts (other_operators (boundary_flux_integral_op m (evolve_one_step m s))).

Fixpoint steps (m : scheme) (n : nat) (s : state) : state :=
  match n with O => s | S n => steps m n (step m s) end.
End RK.
