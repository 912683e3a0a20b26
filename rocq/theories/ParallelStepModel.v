(** The complete time step of a distributed shallow water domain: every process
    runs the step of StepModel on its part of the mesh, with the two points of
    anuga/parallel/parallel_shallow_water.py at which processes depend on each
    other: [update_timestep] (lines 127-133), which replaces the flux time step
    by its minimum over the processes
    (parallel_generic_communications.py [communicate_flux_timestep], lines
    36-90), and [update_ghosts] (lines 137-144), which overwrites the conserved
    quantities of the ghost triangles by those of the process that owns them.
    Both are collective operations, so the run is described phase by phase for
    all processes together; that the exchange delivers the values of the right
    call whatever the timing is C35.

    A domain has a ghost layer narrower than 4 (the default is 2), so that the
    ghosts are updated between the parts of a Runge-Kutta step
    (generic_domain.py lines 2013-2015, 2095-2096, 2134-2135). *)
From Coq Require Import Reals List ZArith Arith Bool.
From Verif Require Import RealLib ArrayLib CentroidModel BoundaryModel FluxModel ReconModel RKModel StepModel.
Import ListNotations.
Local Open Scope R_scope.

(** [Allreduce] with [MIN]. *)
Definition minimum (n : nat) (f : nat -> R) : R := fold_left (fun m p => Rmin m (f p)) (seq 1 (n - 1)) (f 0%nat).

Section Parallel.
Variable nproc : nat.
Variable L : nat -> config.                       (* the local domains *)
Variable dts : nat -> R -> R.                     (* as in StepModel *)
(** Where triangle [j] of process [p] gets its values from: the process that
    owns it and its number there ([full_send_dict], [ghost_recv_dict]). *)
Variable source : nat -> nat -> nat * nat.

Definition family := nat -> sw_state.

Definition p_distribute (ss : family) : family := fun p => distribute xstate (distribute_step (L p)) (ss p).
Definition p_compute (ss : family) : nat -> sw_state * (nat -> R) :=
  fun p => compute xstate (dom_of (L p)) (forcing_step (L p)) (ss p).

(** [communicate_flux_timestep] and then [Domain.update_timestep]. *)
Definition set_flux_dt (s : sw_state) (t : R) : sw_state :=
  State xstate (q _ s) (RKModel.rest _ s) (sta _ s) (wk _ s) (bfs _ s) t (dt _ s) (bfi _ s) (fsvi _ s).
Definition p_update_timestep (ss : family) : family :=
  let t := minimum nproc (fun p => flux_dt _ (ss p)) in
  fun p => update_timestep xstate (choose_dt_step dts) (set_flux_dt (ss p) t).

Definition p_update_conserved (ss : family) (es : nat -> nat -> R) : family :=
  fun p => update_conserved xstate (finish_step (L p)) (ss p) (es p).

(** [update_ghosts]: triangle [j] is a ghost when its full flag is 0. *)
Definition received (ss : family) (get : rest -> nat -> R) (p j : nat) (own : R) : R :=
  if Z.eqb (tri_full_flag (cf_dom (L p)) j) 0 then
    match RKModel.rest _ (ss (fst (source p j))) with Some x => get x (snd (source p j)) | None => own end
  else own.
Definition p_update_ghosts (ss : family) : family := fun p =>
  set_qx _ (ss p)
    (fun j => if Z.eqb (tri_full_flag (cf_dom (L p)) j) 0 then q _ (ss (fst (source p j))) (snd (source p j)) else q _ (ss p) j,
     match RKModel.rest _ (ss p) with
     | None => None
     | Some x => Some (Rest (fun j => received ss x_xmom p j (x_xmom x j)) (fun j => received ss x_ymom p j (x_ymom x j))
         (x_stage x) (x_height x) (x_se x) (x_he x) (x_ue x) (x_ve x) (x_ze x)
         (x_zv x) (x_bv x) (x_eu x) (x_ev x) (x_su x) (x_sv x) (x_made x) (x_step x))
     end).

Definition p_saxpy (m : scheme) (n : nat) (a b : R) (backup ss : family) : family :=
  fun p => saxpy xstate (combine_step m) n a b (backup p) (ss p).

Definition p_evolve_euler (ss : family) : family :=
  let ss := p_distribute ss in
  let cs := p_compute ss in
  let ss := p_update_timestep (fun p => fst (cs p)) in
  p_update_conserved ss (fun p => snd (cs p)).

Definition p_evolve_rk2 (ss0 : family) : family :=
  let ss := p_distribute ss0 in
  let cs := p_compute ss in
  let ss := p_update_timestep (fun p => fst (cs p)) in
  let ss := p_update_conserved ss (fun p => snd (cs p)) in
  let ss := p_update_ghosts ss in
  let ss := p_distribute ss in
  let cs := p_compute ss in
  let ss := p_update_conserved (fun p => fst (cs p)) (fun p => snd (cs p)) in
  p_saxpy RK2 0 (1/2) (1/2) ss0 ss.

Definition p_evolve_rk3 (ss0 : family) : family :=
  let ss := p_distribute ss0 in
  let cs := p_compute ss in
  let ss := p_update_timestep (fun p => fst (cs p)) in
  let ss := p_update_conserved ss (fun p => snd (cs p)) in
  let ss := p_update_ghosts ss in
  let ss := p_distribute ss in
  let cs := p_compute ss in
  let ss := p_update_conserved (fun p => fst (cs p)) (fun p => snd (cs p)) in
  let ss := p_saxpy RK3 0 (1/4) (3/4) ss0 ss in
  let ss := p_update_ghosts ss in
  let ss := p_distribute ss in
  let cs := p_compute ss in
  let ss := p_update_conserved (fun p => fst (cs p)) (fun p => snd (cs p)) in
  fun p => thirds xstate (p_saxpy RK3 1 2 1 ss0 ss p).

Definition p_evolve (m : scheme) : family -> family :=
  match m with Euler => p_evolve_euler | RK2 => p_evolve_rk2 | RK3 => p_evolve_rk3 end.

(** One pass of the loop of [_evolve_base] in all processes. *)
Definition p_step (m : scheme) (ss : family) : family :=
  p_update_ghosts (fun p => other_operators xstate operators_step (boundary_flux_integral_op xstate m (p_evolve m ss p))).
Fixpoint p_steps (m : scheme) (n : nat) (ss : family) : family :=
  match n with O => ss | S n => p_steps m n (p_step m ss) end.
End Parallel.
