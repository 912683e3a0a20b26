(** Volume accounting over one time step. *)
From Coq Require Import Reals List ZArith Lra Lia Bool Arith.
From Verif Require Import RealLib ArrayLib FluxModel FluxProofs FluxProps RKModel.
Import ListNotations.
Local Open Scope R_scope.

(** The parts of the mesh that do not change during a run. *)
Record same_mesh (D0 D : domain) : Prop := {
  sm_n : number_of_elements D = number_of_elements D0;
  sm_neighbours : neighbours D = neighbours D0;
  sm_edges : neighbour_edges D = neighbour_edges D0;
  sm_areas : areas D = areas D0;
  sm_full : tri_full_flag D = tri_full_flag D0;
  sm_calls : timestep_fluxcalls D = timestep_fluxcalls D0 }.

Lemma same_mesh_invariant D0 D s w : same_mesh D0 D -> flux_invariant D0 s w <-> flux_invariant D s w.
Proof.
  intros [A B C _ _ _]. unfold flux_invariant, interior, partner. rewrite A, B, C. reflexivity.
Qed.

(** Area weighted sum over the full triangles. *)
Definition total (D : domain) (f : nat -> R) : R :=
  Rsum (map (fun k => if Z.eqb (tri_full_flag D k) 1 then areas D k * f k else 0) (seq 0 (number_of_elements D))).

Lemma total_linear D a b f g : total D (fun k => a * f k + b * g k) = a * total D f + b * total D g.
Proof.
  unfold total. rewrite <- !Rsum_map_scal, <- Rsum_map_plus. apply Rsum_map_ext_in. intros k _.
  destruct (Z.eqb _ 1); ring.
Qed.

Lemma total_add D c f g : total D (fun k => f k + c * g k) = total D f + c * total D g.
Proof.
  rewrite <- (Rmult_1_l (total D f)), <- total_linear. unfold total. apply Rsum_map_ext_in. intros k _.
  destruct (Z.eqb _ 1); ring.
Qed.

Lemma total_third D f : total D (fun k => f k / 3) = total D f / 3.
Proof.
  unfold Rdiv. rewrite Rmult_comm. unfold total. rewrite <- Rsum_map_scal. apply Rsum_map_ext_in. intros k _.
  destruct (Z.eqb _ 1); ring.
Qed.

Lemma next_substep_succ D D' s w b t : (0 < timestep_fluxcalls D)%nat -> timestep_fluxcalls D' = timestep_fluxcalls D ->
  next_substep D' (out_statics (compute_fluxes D s w b t)) = ((next_substep D s + 1) mod timestep_fluxcalls D)%nat.
Proof.
  intros Hc E. unfold compute_fluxes; cbv zeta; cbn [out_statics]. unfold next_substep; cbv zeta; cbn [st_call st_fluxcalls st_base_call].
  rewrite E, Nat.eqb_refl. set (c := timestep_fluxcalls D) in *.
  set (base := if (c =? st_fluxcalls s)%nat then st_base_call s else (st_call s + 1)%Z).
  apply Nat2Z.inj. rewrite Nat2Z.inj_mod, Nat2Z.inj_add.
  pose proof (Z.mod_pos_bound (st_call s + 1 - base) (Z.of_nat c) ltac:(lia)).
  pose proof (Z.mod_pos_bound (st_call s + 1 + 1 - base) (Z.of_nat c) ltac:(lia)).
  rewrite !Z2Nat.id by lia. rewrite Zplus_mod_idemp_l. f_equal. lia.
Qed.

Section Accounting.
Variable X : Type.
Variables (protect : (nat -> R) -> X -> (nat -> R) * X) (dom : (nat -> R) -> X -> domain)
  (forcing : flux_output -> X -> X) (choose_dt : R -> X -> R)
  (finish_update : R -> (nat -> R) -> X -> (nat -> R) * X) (ghosts : (nat -> R) -> X -> (nat -> R) * X)
  (combine : nat -> R -> X -> X -> X) (operators : R -> (nat -> R) -> X -> (nat -> R) * X * R).
Variables (D0 : domain) (m : scheme) (bounded : Prop) (delta : R).

Hypothesis calls0 : timestep_fluxcalls D0 = fluxcalls m.
Hypothesis dom_mesh : forall q x, same_mesh D0 (dom q x).
Hypothesis dom_wf : forall q x, wf_mesh (dom q x).
Hypothesis dom_flags : forall q x, update_flags_symmetric (dom q x).
Hypothesis full01 : forall k, tri_full_flag D0 k = 0%Z \/ tri_full_flag D0 k = 1%Z.
Hypothesis areas0 : forall k, (k < number_of_elements D0)%nat -> areas D0 k <> 0.
Hypothesis protect_gain : forall q x, 0 <= total D0 (fst (protect q x)) - total D0 q /\
  (bounded -> total D0 (fst (protect q x)) - total D0 q <= delta).
Hypothesis finish_gain : forall d q x, 0 <= total D0 (fst (finish_update d q x)) - total D0 q /\
  (bounded -> total D0 (fst (finish_update d q x)) - total D0 q <= delta).
Hypothesis ghosts_full : forall q x k, tri_full_flag D0 k = 1%Z -> fst (ghosts q x) k = q k.
Hypothesis operators_volume : forall d q x, let '(q', _, v) := operators d q x in total D0 q' = total D0 q + v.

Notation state := (state X).

(** [e] lies between 0 and, if [bounded], [b]. *)
Definition gain (e b : R) : Prop := 0 <= e /\ (bounded -> e <= b).

Ltac fin := repeat match goal with H : gain _ _ |- _ => destruct H | H : 0 <= _ /\ (bounded -> _) |- _ => destruct H end;
  split; [lra|let B := fresh in intros B; repeat match goal with H : bounded -> _ |- _ => specialize (H B) end; lra].

Let V (s : state) : R := total D0 (q X s).

(** Between calls of the flux computation, [j] being the next substep. *)
Record ready (s : state) (j : nat) : Prop := {
  rd_inv : flux_invariant D0 (sta X s) (wk X s);
  rd_sub : next_substep D0 (sta X s) = j }.

Lemma fluxcalls_pos : (0 < fluxcalls m)%nat. Proof. destruct m; cbn; lia. Qed.

Lemma compute_spec (s : state) j : ready s j ->
  let '(s', e) := compute X dom forcing s in
  ready s' ((j + 1) mod fluxcalls m) /\ q X s' = q X s /\ dt X s' = dt X s /\ bfi X s' = bfi X s /\ fsvi X s' = fsvi X s /\
  total D0 e = bfs X s' j - bfs X s j /\ (forall i, i <> j -> bfs X s' i = bfs X s i).
Proof.
  intros [I J]. unfold compute. cbv zeta. cbn [q dt bfi fsvi bfs sta wk].
  set (D := dom (q X s) (rest X s)). pose proof (dom_mesh (q X s) (rest X s)) as M. fold D in M.
  assert (I' : flux_invariant D (sta X s) (wk X s)) by (apply (same_mesh_invariant D0 D); auto).
  assert (Sub : next_substep D (sta X s) = j).
  { rewrite <- J. unfold next_substep. rewrite (sm_calls D0 D M). reflexivity. }
  destruct (C08_mass_conserved D (sta X s) (wk X s) (bfs X s) (flux_dt X s) (dom_wf _ _) (dom_flags _ _) I') as (O & E).
  { rewrite (sm_full D0 D M). apply full01. }
  { rewrite (sm_n D0 D M), (sm_areas D0 D M). apply areas0. }
  cbv zeta in O, E. rewrite Sub in O, E.
  split; [constructor; cbn [sta wk]|].
  - apply (same_mesh_invariant D0 D); auto. apply C08_invariant_preserved; auto; apply dom_wf || apply dom_flags.
  - rewrite next_substep_succ; [|rewrite (sm_calls D0 D M), calls0; apply fluxcalls_pos|symmetry; apply (sm_calls D0 D M)].
    rewrite Sub, (sm_calls D0 D M), calls0. reflexivity.
  - repeat (split; [reflexivity|]). split; [|exact O].
    rewrite <- E. unfold total. rewrite (sm_n D0 D M), (sm_areas D0 D M), (sm_full D0 D M). reflexivity.
Qed.

Lemma ready_same (s s' : state) j : sta X s' = sta X s -> wk X s' = wk X s -> ready s j -> ready s' j.
Proof. intros A B [C D]. split; rewrite A, ?B; auto. Qed.

Lemma total_ghosts q x : total D0 (fst (ghosts q x)) = total D0 q.
Proof.
  unfold total. apply Rsum_map_ext_in. intros k _. destruct (Z.eqb_spec (tri_full_flag D0 k) 1); [|reflexivity].
  rewrite ghosts_full by auto. reflexivity.
Qed.

(** Effect of "distribute, compute, update" with the current time step. *)
Lemma euler_part (s : state) j d : ready s j ->
  let '(s1, e) := compute X dom forcing (distribute X protect s) in
  let s1' := State X (q X s1) (rest X s1) (sta X s1) (wk X s1) (bfs X s1) (flux_dt X s1) d (bfi X s1) (fsvi X s1) in
  let s2 := update_conserved X finish_update s1' e in
  ready s2 ((j + 1) mod fluxcalls m) /\ dt X s2 = d /\ dt X s1 = dt X s /\ bfi X s2 = bfi X s /\ fsvi X s2 = fsvi X s /\
  (forall i, i <> j -> bfs X s2 i = bfs X s i) /\
  gain (V s2 - V s - d * (bfs X s2 j - bfs X s j)) (2 * delta).
Proof.
  intros Rd. assert (Rd' : ready (distribute X protect s) j) by (apply (ready_same s); auto).
  pose proof (compute_spec _ j Rd') as C. destruct (compute X dom forcing (distribute X protect s)) as [s1 e].
  destruct C as (C1 & C2 & C3 & C4 & C5 & C6 & C7). cbv zeta.
  split; [eapply ready_same; [| |exact C1]; reflexivity|].
  split; [reflexivity|]. split; [exact C3|]. split; [exact C4|]. split; [exact C5|].
  split; [exact C7|].
  unfold V, update_conserved, set_qx. cbn [q bfs dt rest].
  pose proof (finish_gain d (fun k => q X s1 k + d * e k) (rest X s1)) as F. rewrite total_add, C6, C2 in F.
  pose proof (protect_gain (q X s) (rest X s)) as P. rewrite C2.
  unfold distribute, set_qx in *. cbn [q bfs] in *. fin.
Qed.

Hypothesis D_nonneg : 0 <= delta.

Definition clean (s : state) : Prop := ready s 0 /\ forall i, bfs X s i = 0.

Lemma step_accounting (s : state) : clean s ->
  let s' := step X protect dom forcing choose_dt finish_update ghosts combine operators m s in
  clean s' /\ gain ((V s' - V s) - (bfi X s' - bfi X s) - (fsvi X s' - fsvi X s)) (2 * delta).
Proof.
  intros (Rd & B0). cbv zeta. unfold step.
  enough (G : let s1 := evolve_one_step X protect dom forcing choose_dt finish_update ghosts combine m s in
    ready s1 0 /\ fsvi X s1 = fsvi X s /\
    gain ((V s1 - V s) - (bfi X (boundary_flux_integral_op X m s1) - bfi X s)) (2 * delta)).
  { cbv zeta in G. destruct G as (G1 & G2 & G3). set (s1 := evolve_one_step _ _ _ _ _ _ _ _ _ _) in *.
    pose proof (operators_volume (dt X (boundary_flux_integral_op X m s1)) (q X (boundary_flux_integral_op X m s1))
      (rest X (boundary_flux_integral_op X m s1))) as Op.
    unfold other_operators. destruct (operators _ _ _) as [[q' x'] v].
    split; [split; [eapply ready_same; [| |exact G1]; reflexivity|reflexivity]|].
    unfold V, update_ghosts, set_qx in *. cbn [q bfi fsvi rest] in *. rewrite total_ghosts, Op.
    unfold boundary_flux_integral_op in *. cbn [q bfi fsvi] in *. fin. }
  cbv zeta. unfold evolve_one_step.
  assert (Ga : forall s, V (update_ghosts X ghosts s) = V s) by (intros; unfold V, update_ghosts, set_qx; cbn; apply total_ghosts).
  pose proof euler_part as EP.
  case_eq m; intros Em; rewrite Em in EP; cbn [fluxcalls] in EP.
  - (* Euler *)
    unfold evolve_one_euler_step. specialize (EP s 0%nat).
    destruct (compute X dom forcing (distribute X protect s)) as [s1 e].
    specialize (EP (choose_dt (flux_dt X s1) (rest X s1)) Rd). cbv zeta in EP.
    change (State X (q X s1) (rest X s1) (sta X s1) (wk X s1) (bfs X s1) (flux_dt X s1)
             (choose_dt (flux_dt X s1) (rest X s1)) (bfi X s1) (fsvi X s1)) with (update_timestep X choose_dt s1) in EP.
    destruct EP as (E1 & E2 & _ & E3 & E4 & _ & E6). split; [exact E1|]. split; [exact E4|].
    unfold boundary_flux_integral_op. cbn [bfi]. rewrite E2, E3. rewrite B0 in E6. fin.
  - (* RK2 *)
    unfold evolve_one_rk2_step. pose proof (EP s 0%nat) as EP1.
    destruct (compute X dom forcing (distribute X protect s)) as [s1 e].
    specialize (EP1 (choose_dt (flux_dt X s1) (rest X s1)) Rd). cbv zeta in EP1.
    change (State X (q X s1) (rest X s1) (sta X s1) (wk X s1) (bfs X s1) (flux_dt X s1)
             (choose_dt (flux_dt X s1) (rest X s1)) (bfi X s1) (fsvi X s1)) with (update_timestep X choose_dt s1) in EP1.
    set (s2 := update_conserved X finish_update (update_timestep X choose_dt s1) e) in *.
    destruct EP1 as (E1 & E2 & _ & E3 & E4 & E5 & E6). set (d := choose_dt _ _) in *.
    set (s3 := update_ghosts X ghosts s2) in *.
    assert (R3 : ready s3 1) by (eapply ready_same; [| |exact E1]; reflexivity).
    pose proof (EP s3 1%nat d R3) as EP2. destruct (compute X dom forcing (distribute X protect s3)) as [s4 e'].
    cbv zeta in EP2.
    destruct EP2 as (F1 & F2 & F0 & F3 & F4 & F5 & F6).
    assert (Dt : State X (q X s4) (rest X s4) (sta X s4) (wk X s4) (bfs X s4) (flux_dt X s4) d (bfi X s4) (fsvi X s4) = s4).
    { assert (Ed : dt X s4 = d) by (rewrite F0; exact E2). rewrite <- Ed. destruct s4; reflexivity. }
    rewrite Dt in *. set (s5 := update_conserved X finish_update s4 e') in *.
    split; [eapply ready_same; [| |exact F1]; reflexivity|].
    split; [unfold saxpy, set_qx; cbn [fsvi]; rewrite F4; exact E4|].
    unfold boundary_flux_integral_op, saxpy, set_qx, V. cbn [q bfi dt bfs fst]. rewrite total_linear.
    fold (V s5). fold (V s). rewrite F2, F3. change (bfi X s3) with (bfi X s2). rewrite E3.
    rewrite (Ga s2 : V s3 = V s2) in F6. rewrite (F5 0%nat) by lia.
    change (bfs X s3) with (bfs X s2) in *. rewrite (E5 1%nat), B0 in F6 by lia. rewrite B0 in E6. fin.
  - (* RK3 *)
    unfold evolve_one_rk3_step. pose proof (EP s 0%nat) as EP1.
    destruct (compute X dom forcing (distribute X protect s)) as [s1 e].
    specialize (EP1 (choose_dt (flux_dt X s1) (rest X s1)) Rd). cbv zeta in EP1.
    change (State X (q X s1) (rest X s1) (sta X s1) (wk X s1) (bfs X s1) (flux_dt X s1)
             (choose_dt (flux_dt X s1) (rest X s1)) (bfi X s1) (fsvi X s1)) with (update_timestep X choose_dt s1) in EP1.
    set (s2 := update_conserved X finish_update (update_timestep X choose_dt s1) e) in *.
    destruct EP1 as (E1 & E2 & _ & E3 & E4 & E5 & E6). set (d := choose_dt _ _) in *.
    set (s3 := update_ghosts X ghosts s2) in *.
    assert (R3 : ready s3 1) by (eapply ready_same; [| |exact E1]; reflexivity).
    pose proof (EP s3 1%nat d R3) as EP2. destruct (compute X dom forcing (distribute X protect s3)) as [s4 e'].
    cbv zeta in EP2.
    destruct EP2 as (F1 & F2 & F0 & F3 & F4 & F5 & F6).
    assert (Dt : State X (q X s4) (rest X s4) (sta X s4) (wk X s4) (bfs X s4) (flux_dt X s4) d (bfi X s4) (fsvi X s4) = s4).
    { assert (Ed : dt X s4 = d) by (rewrite F0; exact E2). rewrite <- Ed. destruct s4; reflexivity. }
    rewrite Dt in *. set (s5 := update_conserved X finish_update s4 e') in *. clearbody s5. clear Dt.
    set (s6 := saxpy X combine 0 (1/4) (3/4) s s5).
    assert (V6 : V s6 = 1/4 * V s5 + 3/4 * V s) by (unfold V, s6, saxpy, set_qx; cbn [q fst]; apply total_linear).
    set (s7 := update_ghosts X ghosts s6) in *.
    assert (R7 : ready s7 2) by (eapply ready_same; [| |exact F1]; reflexivity).
    pose proof (EP s7 2%nat d R7) as EP3. destruct (compute X dom forcing (distribute X protect s7)) as [s8 e''].
    cbv zeta in EP3.
    destruct EP3 as (K1 & K2 & K0 & K3 & K4 & K5 & K6).
    assert (Dt : State X (q X s8) (rest X s8) (sta X s8) (wk X s8) (bfs X s8) (flux_dt X s8) d (bfi X s8) (fsvi X s8) = s8).
    { assert (Ed : dt X s8 = d) by (rewrite K0; exact F2). rewrite <- Ed. destruct s8; reflexivity. }
    rewrite Dt in *. set (s9 := update_conserved X finish_update s8 e'') in *. clearbody s9.
    split; [eapply ready_same; [| |exact K1]; reflexivity|].
    split; [unfold thirds, saxpy, set_qx; cbn [fsvi]; rewrite K4; change (fsvi X s7) with (fsvi X s5); rewrite F4; exact E4|].
    unfold boundary_flux_integral_op, thirds, V. set (s10 := saxpy X combine 1 2 1 s s9).
    assert (V10 : total D0 (q X s10) = 2 * V s9 + 1 * V s) by (unfold V, s10, saxpy, set_qx; cbn [q fst]; apply total_linear).
    unfold set_qx. cbn [q bfi dt bfs fst]. rewrite total_third, V10. fold (V s).
    change (dt X s10) with (dt X s9). change (bfi X s10) with (bfi X s9). change (bfs X s10) with (bfs X s9).
    rewrite K2, K3. change (bfi X s7) with (bfi X s5). rewrite F3. change (bfi X s3) with (bfi X s2). rewrite E3.
    change (bfs X s7) with (bfs X s5) in *. rewrite (K5 0%nat), (K5 1%nat) by lia.
    rewrite (Ga s6 : V s7 = V s6), V6 in K6. rewrite (Ga s2 : V s3 = V s2) in F6.
    change (bfs X s3) with (bfs X s2) in *.
    rewrite (F5 0%nat) by lia. rewrite (F5 2%nat), (E5 2%nat), B0 in K6 by lia.
    rewrite (E5 1%nat), B0 in F6 by lia. rewrite B0 in E6. fin.
Qed.

Lemma steps_accounting n : forall s : state, clean s ->
  let s' := steps X protect dom forcing choose_dt finish_update ghosts combine operators m n s in
  clean s' /\ gain ((V s' - V s) - (bfi X s' - bfi X s) - (fsvi X s' - fsvi X s)) (2 * INR n * delta).
Proof.
  induction n as [|n IH]; intros s Hs; cbv zeta.
  - cbn [steps INR]. split; [exact Hs|]. fin.
  - cbn [steps]. destruct (step_accounting s Hs) as (C & A).
    destruct (IH _ C) as (C' & A'). split; [exact C'|]. rewrite S_INR.
    set (s1 := step _ _ _ _ _ _ _ _ _ _ _) in *. set (s2 := steps _ _ _ _ _ _ _ _ _ _ _ _) in *. fin.
Qed.
End Accounting.
