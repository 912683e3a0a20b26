(** Property C39: the water volume over any number of steps of the three time
    stepping schemes. *)
From Coq Require Import Reals List ZArith Lra Lia Bool Arith.
From Verif Require Import RealLib ArrayLib FluxModel FluxProofs FluxProps RKModel RKProofs.
Import ListNotations.
Local Open Scope R_scope.

(** Water volume (above datum) on the full triangles. *)
Definition volume (D : domain) (stage : nat -> R) : R :=
  Rsum (map (fun k => if Z.eqb (tri_full_flag D k) 1 then areas D k * stage k else 0) (seq 0 (number_of_elements D))).

(** The mesh [D0] of a domain stepped by scheme [m]: the arrays handed to the
    flux computation may change from call to call except for the mesh, ghost
    updates leave full triangles alone, and the fractional step operators
    report the volume they add. *)
Record setting {X : Type} (D0 : domain) (m : scheme) (dom : (nat -> R) -> X -> domain)
    (ghosts : (nat -> R) -> X -> (nat -> R) * X) (operators : R -> (nat -> R) -> X -> (nat -> R) * X * R) : Prop := {
  set_calls : timestep_fluxcalls D0 = fluxcalls m;
  set_mesh : forall q x, same_mesh D0 (dom q x);
  set_wf : forall q x, wf_mesh (dom q x);
  set_flags : forall q x, update_flags_symmetric (dom q x);
  set_full : forall k, tri_full_flag D0 k = 0%Z \/ tri_full_flag D0 k = 1%Z;
  set_areas : forall k, (k < number_of_elements D0)%nat -> 0 < areas D0 k;
  set_ghosts : forall q x k, tri_full_flag D0 k = 1%Z -> fst (ghosts q x) k = q k;
  set_operators : forall d q x, let '(q', _, v) := operators d q x in volume D0 q' = volume D0 q + v }.

(** State at the start of a run: flux arrays as initialised, boundary flux
    sums zero, the flux computation about to do substep 0. *)
Definition at_start {X} (D0 : domain) (s : state X) : Prop :=
  flux_invariant D0 (sta X s) (wk X s) /\ next_substep D0 (sta X s) = 0%nat /\ forall i, bfs X s i = 0.

(** If depth protection ([protect] before and [finish_update] after the
    update) raises stages by at most [delta] of volume per application, the
    volume differs from the recorded integrals by at least nothing and at most
    [2 n delta]. *)
Theorem C39_volume_budget :
  forall X D0 m protect dom forcing choose_dt finish_update ghosts combine operators delta n (s : state X),
  setting D0 m dom ghosts operators -> at_start D0 s ->
  (forall q x, 0 <= volume D0 (fst (protect q x)) - volume D0 q <= delta) ->
  (forall d q x, 0 <= volume D0 (fst (finish_update d q x)) - volume D0 q <= delta) ->
  let s' := steps X protect dom forcing choose_dt finish_update ghosts combine operators m n s in
  at_start D0 s' /\
  0 <= (volume D0 (q X s') - volume D0 (q X s)) - (bfi X s' - bfi X s) - (fsvi X s' - fsvi X s) <= 2 * INR n * delta.
Proof.
  intros X D0 m protect dom forcing choose_dt finish_update ghosts combine operators delta n s [A B C D E F G H] (I & J & K) P Q.
  destruct (steps_accounting X protect dom forcing choose_dt finish_update ghosts combine operators D0 m True delta)
    with (n := n) (s := s) as ((R1 & R2) & S1 & S2); auto.
  - intros k Hk. apply Rgt_not_eq, F, Hk.
  - intros q x. split; [|intros _]; apply P.
  - intros d q x. split; [|intros _]; apply Q.
  - split; [split|]; auto.
  - cbv zeta. split; [split; [|split]; [apply R1|apply R1|apply R2]|]. split; [apply S1|apply S2; exact Logic.I].
Qed.
Print Assumptions C39_volume_budget.

(** No depth protection in the run: the change of volume is exactly the sum of
    the two integrals. *)
Theorem C39_volume_exact :
  forall X D0 m protect dom forcing choose_dt finish_update ghosts combine operators n (s : state X),
  setting D0 m dom ghosts operators -> at_start D0 s ->
  (forall q x, volume D0 (fst (protect q x)) = volume D0 q) ->
  (forall d q x, volume D0 (fst (finish_update d q x)) = volume D0 q) ->
  let s' := steps X protect dom forcing choose_dt finish_update ghosts combine operators m n s in
  volume D0 (q X s') - volume D0 (q X s) = (bfi X s' - bfi X s) + (fsvi X s' - fsvi X s).
Proof.
  intros X D0 m protect dom forcing choose_dt finish_update ghosts combine operators n s HS St P Q.
  destruct (C39_volume_budget X D0 m protect dom forcing choose_dt finish_update ghosts combine operators 0 n s HS St) as (_ & E).
  - intros q x. rewrite P. lra.
  - intros d q x. rewrite Q. lra.
  - cbv zeta. lra.
Qed.
Print Assumptions C39_volume_exact.

(** Depth protection that only raises stages, which is what C12 and C43 prove
    of the two kernels: water may be created but is never lost. *)
Theorem C39_volume_never_lost :
  forall X D0 m protect dom forcing choose_dt finish_update ghosts combine operators n (s : state X),
  setting D0 m dom ghosts operators -> at_start D0 s ->
  (forall q x k, q k <= fst (protect q x) k) ->
  (forall d q x k, q k <= fst (finish_update d q x) k) ->
  let s' := steps X protect dom forcing choose_dt finish_update ghosts combine operators m n s in
  (bfi X s' - bfi X s) + (fsvi X s' - fsvi X s) <= volume D0 (q X s') - volume D0 (q X s).
Proof.
  intros X D0 m protect dom forcing choose_dt finish_update ghosts combine operators n s HS (I & J & K) P Q.
  pose proof HS as [A B C D E F G H].
  assert (M : forall f g : nat -> R, (forall k, f k <= g k) -> 0 <= total D0 g - total D0 f).
  { intros f g L. unfold total. rewrite <- Rsum_map_minus. apply Rsum_nonneg. intros v Hv.
    apply in_map_iff in Hv as (k & <- & Hk). apply in_seq in Hk. specialize (F k ltac:(lia)). specialize (L k).
    destruct (Z.eqb _ 1); [|lra]. rewrite <- Rmult_minus_distr_l. apply Rmult_le_pos; lra. }
  destruct (steps_accounting X protect dom forcing choose_dt finish_update ghosts combine operators D0 m False 0)
    with (n := n) (s := s) as (_ & S1 & _); auto.
  - intros k Hk. apply Rgt_not_eq, F, Hk.
  - intros q x. split; [apply M, P|intros []].
  - intros d q x. split; [apply M, Q|intros []].
  - split; [split|]; auto.
  - cbv zeta. fold (total D0) in *. change (volume D0) with (total D0). lra.
Qed.
Print Assumptions C39_volume_never_lost.

(** The substep is derived from static counters of the C code and not from
    the scheme's position: if the flux computation is called once more between
    steps, the next RK2 or RK3 step starts in substep 1, which leaves the flux
    time step at its old value. *)
Theorem C39_stray_call_refuted :
  forall D s w b t b' t', (1 < timestep_fluxcalls D)%nat -> next_substep D s = 0%nat ->
  let o := compute_fluxes D s w b t in
  next_substep D (out_statics o) = 1%nat /\
  out_timestep (compute_fluxes D (out_statics o) (out_work o) b' t') = t'.
Proof.
  intros D s w b t b' t' Hc H0 o.
  assert (E : next_substep D (out_statics o) = 1%nat).
  { unfold o. rewrite next_substep_succ by (auto; lia). rewrite H0. apply Nat.mod_small. lia. }
  split; [exact E|]. unfold compute_fluxes at 1. cbv zeta. cbn [out_timestep]. rewrite E. reflexivity.
Qed.

(** Non-vacuity: the two-triangle domain with any bed and through-flow. *)
Definition ex_dom3 bed bedc u : domain :=
  let D := ex_domain bed bedc u in
  Domain (number_of_elements D) (epsilon D) (g D) (low_froude D) (neighbours D) (neighbour_edges D) (normal_x D) (normal_y D)
    (edgelengths D) (radii D) (areas D) (tri_full_flag D) (stage_edge D) (xmom_edge D) (ymom_edge D) (bed_edge D) (height_edge D)
    (stage_centroid D) (bed_centroid D) (height_centroid D) (stage_boundary D) (xmom_boundary D) (ymom_boundary D)
    (edge_flux_type D) (riverwall_elevation D) (riverwall_rowIndex D) (ncol_riverwall D) (riverwall_props D)
    (update_next_flux D) 3 (allow_timestep_increase D).

Example C39_example :
  let dom := fun (q : nat -> R) (u : R) => ex_dom3 (fun _ => 0) (fun _ => 0) u in
  let s0 := State R (fun _ => 1) 5 ex_statics ex_work (fun _ => 0) 1 1 0 0 in
  setting (X := R) (ex_dom3 (fun _ => 0) (fun _ => 0) 0) RK3 dom (fun q x => (q, x)) (fun _ q x => (q, x, 0)) /\
  at_start (ex_dom3 (fun _ => 0) (fun _ => 0) 0) s0.
Proof.
  destruct (C08_example (fun _ => 0) (fun _ => 0) 0) as (W & U & I & _).
  cbv zeta. split.
  - constructor; intros.
    + reflexivity.
    + constructor; reflexivity.
    + pose proof (ex_wf (fun _ => 0) (fun _ => 0) x) as W'. destruct W' as [W1 W2]. constructor; [exact W1|exact W2].
    + intros e _ _. reflexivity.
    + right. reflexivity.
    + cbn. lra.
    + reflexivity.
    + lra.
  - split; [exact I|]. split; reflexivity.
Qed.
