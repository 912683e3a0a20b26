(** Property C78: a distributed run computes the values of the undivided run. *)
From Coq Require Import Reals List ZArith Arith Bool Lia Lra.
From Verif Require Import RealLib ArrayLib CentroidModel CentroidProofs BoundaryModel BoundaryProps FluxModel FluxFunctionProofs
  FluxProofs FluxProps FluxTimestepProps ReconModel ReconProofs RKModel RKProofs StepModel StepProofs ParallelStepModel ParallelStepProofs.
Import ListNotations.
Local Open Scope R_scope.

(** A domain and its distribution to [nproc] processes. *)
Record distribution (C : config) (nproc : nat) (L : nat -> config) (up : nat -> nat -> nat) (nf : nat -> nat)
  (source : nat -> nat -> nat * nat) : Prop := {
  ds_procs : (0 < nproc)%nat;
  ds_global : mesh_ok C;
  ds_allfull : forall k, tri_full_flag (cf_dom C) k = 1%Z;
  ds_local : forall p, (p < nproc)%nat -> mesh_ok (L p);
  ds_part : forall p, (p < nproc)%nat -> submesh C (L p) (up p) (nf p);
  (* every triangle is a full triangle of some process *)
  ds_cover : forall k, (k < N C)%nat -> exists p j, (p < nproc)%nat /\ (j < nf p)%nat /\ up p j = k;
  (* ghosts get their values from a process where they are full *)
  ds_source : forall p j, (p < nproc)%nat -> (nf p <= j < N (L p))%nat ->
    (fst (source p j) < nproc)%nat /\ (snd (source p j) < nf (fst (source p j)))%nat /\
    up (fst (source p j)) (snd (source p j)) = up p j }.

(** Settings of the algorithms DE0, DE1 and DE2. *)
Record settings (C : config) : Prop := {
  se_g : 0 <= g (cf_dom C);
  se_mah : 0 < mah C;
  se_dry : r_beta_uh_dry (cf_rec C) = 0 /\ r_beta_vh_dry (cf_rec C) = 0 }.

Section Run.
Variables (C : config) (nproc : nat) (L : nat -> config) (up : nat -> nat -> nat) (nf : nat -> nat).
Variables (source : nat -> nat -> nat * nat) (dts : nat -> R -> R).
Hypothesis ds : distribution C nproc L up nf source.
Hypothesis se : settings C.
Hypothesis dts_pos : forall i t, 0 <= dts i t.

Notation part c := (euler xstate (distribute_step c) (dom_of c) (forcing_step c) (finish_step c)).
Definition on_all (ss : family) (S : sw_state) : Prop := forall p, (p < nproc)%nat -> agrees C (L p) (up p) (N (L p)) (ss p) S.
Definition on_full (ss : family) (S : sw_state) : Prop := forall p, (p < nproc)%nat -> agrees C (L p) (up p) (nf p) (ss p) S.
Definition timed (ss : family) (S : sw_state) : Prop :=
  minimum nproc (fun p => flux_dt _ (ss p)) = flux_dt _ S /\ forall p, (p < nproc)%nat -> dt _ (ss p) = dt _ S.

(** The state after [distribute] and [compute] of a configuration. *)
Notation computed c s := (fst (compute xstate (dom_of c) (forcing_step c) (distribute xstate (distribute_step c) s))).

Lemma flux_dt_up ss S : on_all ss S -> minimum nproc (fun p => flux_dt _ (ss p)) = flux_dt _ S ->
  minimum nproc (fun p => flux_dt _ (computed (L p) (ss p))) = flux_dt _ (computed C S).
Proof.
  intros A Hm. destruct ds, se. 
  destruct (Nat.eq_dec (next_substep (cf_dom C) (sta _ S)) 0) as [Z0|Z1].
  - assert (SL : forall p, (p < nproc)%nat -> next_substep (cf_dom (L p)) (sta _ (ss p)) = 0%nat).
    { intros p Hp. destruct (A p Hp) as (_ & (E1 & E2 & E3) & _). unfold next_substep in *.
      rewrite E1, E2, E3, (sm_fluxcalls _ _ _ _ (ds_part0 p Hp)). exact Z0. }
    (* the global bounds *)
    assert (K : forall p, (p < nproc)%nat -> exists q1 Q1 x1 X1,
      distribute_step (L p) (RKModel.q _ (ss p)) (RKModel.rest _ (ss p)) = (q1, Some (boundary_step (L p) q1 x1)) /\
      distribute_step C (RKModel.q _ S) (RKModel.rest _ S) = (Q1, Some (boundary_step C Q1 X1)) /\
      distributed C (L p) (up p) (nf p) q1 Q1 x1 X1).
    { intros p Hp. destruct (A p Hp) as ((x & X & Ex & EX & Gd) & _). rewrite Ex, EX.
      apply (distribute_up C (L p) (up p) (nf p)); auto. }
    destruct (K 0%nat ds_procs0) as (_ & Q1 & _ & X1 & _ & EC & _).
    set (DC := fill C Q1 (boundary_step C Q1 X1)).
    assert (TC : flux_dt _ (computed C S) = out_timestep (compute_fluxes DC (sta _ S) (wk _ S) (bfs _ S) (flux_dt _ S))).
    { unfold distribute, compute. rewrite EC. reflexivity. }
    destruct (A 0%nat ds_procs0) as (_ & _ & _ & FC).
    destruct (fill_facts C ds_global0 Q1 (boundary_step C Q1 X1) _ _ FC) as (V1 & V2 & V3 & V4 & V5 & V6). fold DC in V1, V2, V3, V4, V5, V6.
    destruct (C46_cfl_timestep DC _ _ (bfs _ S) (flux_dt _ S) V1 V5 V6 (mo_increase C ds_global0) Z0) as (T1 & T2 & T3).
    rewrite <- TC in T1, T2, T3. set (T := flux_dt _ (computed C S)) in *. clearbody T.
    assert (FCF : full_first DC) by (intros e _ _ _ _; apply ds_allfull0).
    pose proof (fun b => bounds_any DC b V1 V2 V3 FCF V4) as BC.
    assert (P : forall p, (p < nproc)%nat -> exists DL, full_first DL /\ wf_mesh DL /\
       let t := flux_dt _ (computed (L p) (ss p)) in
       t <= 10 ^ 100 /\ (forall b, (exists e, bound_of DL e b) -> t <= b) /\
       (t = 10 ^ 100 \/ exists b, (exists e, bound_of DL e b) /\ t = b) /\
       (forall b, (exists e, bound_of DL e b) -> exists e, bound_of DC e b) /\
       (forall b j i, (j < nf p)%nat -> (i < 3)%nat -> bound_of DC (3 * up p j + i) b -> exists e, bound_of DL e b)).
    { intros p Hp. destruct (K p Hp) as (q1 & Q2 & x1 & X2 & EL & EC2 & Di).
      assert (Q2 = Q1) by congruence. subst Q2.
      assert (EB : boundary_step C Q1 X2 = boundary_step C Q1 X1) by congruence.
      destruct (A p Hp) as (_ & _ & FL & _).
      destruct (fill_facts (L p) (ds_local0 p Hp) q1 (boundary_step (L p) q1 x1) _ _ FL) as (W1 & W2 & W3 & W4 & W5 & W6).
      set (DL := fill (L p) q1 (boundary_step (L p) q1 x1)) in *.
      assert (TL : flux_dt _ (computed (L p) (ss p)) = out_timestep (compute_fluxes DL (sta _ (ss p)) (wk _ (ss p)) (bfs _ (ss p)) (flux_dt _ (ss p)))).
      { unfold distribute, compute. rewrite EL. reflexivity. }
      destruct (C46_cfl_timestep DL _ _ (bfs _ (ss p)) (flux_dt _ (ss p)) W1 W5 W6 (mo_increase _ (ds_local0 p Hp)) (SL p Hp)) as (U1 & U2 & U3).
      rewrite <- TL in U1, U2, U3. set (t := flux_dt _ (computed (L p) (ss p))) in *. clearbody t.
      assert (FL1 : full_first DL) by (apply (full_first_L C (L p) (up p) (nf p)); auto).
      pose proof (fun b => bounds_any DL b W1 W2 W3 FL1 W4) as BL.
      exists DL. split; [exact FL1|]. split; [exact W1|]. cbv zeta. split; [exact U1|]. split; [|split; [|split]].
      - intros b Hb. apply BL in Hb as (e & H1 & H2). eauto.
      - destruct U3 as [U3|(e & b & H1 & H2 & U3)]; [left; exact U3|right]. exists b. split; [|exact U3]. apply BL. eauto.
      - unfold DC. rewrite <- EB. intros b. apply (bounds_down C (L p) (up p) (nf p)); auto.
      - unfold DC. rewrite <- EB. intros b j i. apply (bounds_lift C (L p) (up p) (nf p)); auto. }
    destruct (minimum_spec nproc (fun p => flux_dt _ (computed (L p) (ss p))) ds_procs0) as (M1 & p0 & Hp0 & M2).
    apply Rle_antisym.
    + destruct T3 as [T3|(e & b & H1 & H2 & T3)].
      * destruct (P 0%nat ds_procs0) as (DL & _ & _ & U1 & _). specialize (M1 0%nat ds_procs0). cbn beta in M1. cbv zeta in U1. lra.
      * assert (Hb : exists e, bound_of DC e b) by (apply BC; eauto). destruct Hb as (e' & Hb).
        destruct (split3 e') as (k & i & Hi & ->).
        assert (Hk : (k < N C)%nat) by (destruct Hb as (Hb & _); change (number_of_elements DC) with (N C) in Hb; lia).
        destruct (ds_cover0 k Hk) as (p & j & Hp & Hj & <-).
        destruct (P p Hp) as (DL & _ & _ & _ & U2 & _ & _ & U5). specialize (M1 p Hp). cbn beta in M1.
        specialize (U2 b (U5 b j i Hj Hi Hb)). lra.
    + rewrite M2. destruct (P p0 Hp0) as (DL & _ & _ & _ & _ & U3 & U4 & _). destruct U3 as [->|(b & Hb & ->)]; [exact T1|].
      apply U4, BC in Hb as (e & H1 & H2). eauto.
  - assert (KC : forall (c : config) (s : sw_state), next_substep (cf_dom c) (sta _ s) <> 0%nat ->
      (exists x, snd (distribute_step c (RKModel.q _ s) (RKModel.rest _ s)) = x /\ True) -> flux_dt _ (computed c s) = flux_dt _ s).
    { intros c s Hs _. unfold distribute, compute. cbn [fst flux_dt set_qx RKModel.q RKModel.rest sta wk bfs].
      rewrite C46_later_substeps; [reflexivity|]. destruct (snd (distribute_step c (RKModel.q _ s) (RKModel.rest _ s))); exact Hs. }
    rewrite (KC C S Z1) by eauto. rewrite <- Hm. apply minimum_ext; auto. intros p Hp. apply KC; eauto.
    destruct (A p Hp) as (_ & (E1 & E2 & E3) & _). unfold next_substep in *.
    rewrite E1, E2, E3, (sm_fluxcalls _ _ _ _ (ds_part0 p Hp)). exact Z1.
Qed.

Lemma later_up ss S : on_all ss S -> timed ss S -> 0 <= dt _ S ->
  let cs := p_compute L (p_distribute L ss) in
  let ss' := p_update_conserved L (fun p => fst (cs p)) (fun p => snd (cs p)) in
  let '(S1, e) := compute xstate (dom_of C) (forcing_step C) (distribute xstate (distribute_step C) S) in
  let S' := update_conserved xstate (finish_step C) S1 e in
  on_full ss' S' /\ timed ss' S' /\ dt _ S' = dt _ S.
Proof.
  intros A (T1 & T2) Hd. cbv zeta.
  pose proof (euler_here xstate (distribute_step C) (dom_of C) (forcing_step C) (finish_step C) S) as HE.
  pose proof (flux_dt_up ss S A T1) as HT.
  assert (KL : forall p, p_update_conserved L (fun p => fst (p_compute L (p_distribute L ss) p)) (fun p => snd (p_compute L (p_distribute L ss) p)) p
     = part (L p) (dt _ (ss p)) (ss p)) by (intros p; reflexivity).
  assert (KF : forall p, flux_dt _ (part (L p) (dt _ (ss p)) (ss p)) = flux_dt _ (computed (L p) (ss p))) by (intros p; reflexivity).
  assert (KC : flux_dt _ (part C (dt _ S) S) = flux_dt _ (computed C S)) by reflexivity.
  pose proof (compute_dt xstate (dom_of C) (forcing_step C) (distribute xstate (distribute_step C) S)) as HF.
  destruct (compute xstate (dom_of C) (forcing_step C) (distribute xstate (distribute_step C) S)) as [S1 e] eqn:E. cbn [fst] in *.
  change (dt xstate (distribute xstate (distribute_step C) S)) with (dt _ S) in HF. rewrite HE, HF in *. clear HE.
  split; [|split; [split|]].
  - intros p Hp. rewrite KL, (T2 p Hp). destruct ds, se. apply part_up; auto.
  - rewrite KC, <- HT. apply minimum_ext; [apply ds|]. intros p Hp. rewrite KL. apply KF.
  - intros p Hp. rewrite KL, !euler_dt. auto.
  - apply euler_dt.
Qed.

Lemma agrees_flux_dt (c l : config) u lim (s S : sw_state) t : agrees c l u lim s S -> agrees c l u lim (set_flux_dt s t) S.
Proof. intros H. exact H. Qed.

Lemma dt_flux_dt (s : sw_state) t d : dt _ s = d -> dt _ (set_flux_dt s t) = d.
Proof. intros H. exact H. Qed.

Lemma first_up ss S : on_all ss S -> timed ss S ->
  let cs := p_compute L (p_distribute L ss) in
  let ss' := p_update_conserved L (p_update_timestep nproc dts (fun p => fst (cs p))) (fun p => snd (cs p)) in
  let '(S1, e) := compute xstate (dom_of C) (forcing_step C) (distribute xstate (distribute_step C) S) in
  let S' := update_conserved xstate (finish_step C) (update_timestep xstate (choose_dt_step dts) S1) e in
  on_full ss' S' /\ timed ss' S' /\ 0 <= dt _ S'.
Proof.
  intros A (T1 & T2). cbv zeta.
  pose proof (euler_chosen xstate (distribute_step C) (dom_of C) (forcing_step C) (choose_dt_step dts) (finish_step C) S) as HE.
  pose proof (flux_dt_up ss S A T1) as HT.
  set (t := minimum nproc (fun p => flux_dt _ (computed (L p) (ss p)))) in *.
  assert (KL : forall p, p_update_conserved L (p_update_timestep nproc dts (fun p => fst (p_compute L (p_distribute L ss) p)))
        (fun p => snd (p_compute L (p_distribute L ss) p)) p
     = set_flux_dt (part (L p) (choose_dt_step dts t (RKModel.rest _ (computed (L p) (ss p)))) (ss p)) t) by (intros p; reflexivity).
  assert (KF : forall d, flux_dt _ (part C d S) = flux_dt _ (computed C S)) by reflexivity.
  (* the step counters *)
  assert (KS : forall p, (p < nproc)%nat -> choose_dt_step dts t (RKModel.rest _ (computed (L p) (ss p)))
     = choose_dt_step dts (flux_dt _ (computed C S)) (RKModel.rest _ (computed C S)) /\
       0 <= choose_dt_step dts (flux_dt _ (computed C S)) (RKModel.rest _ (computed C S))).
  { intros p Hp. rewrite <- HT. destruct (A p Hp) as ((x & X & Ex & EX & Gd) & _). destruct ds, se.
    destruct (distribute_up C (L p) (up p) (nf p) (ds_global0) (ds_local0 p Hp) (ds_part0 p Hp) se_mah0 se_dry0 _ _ _ _ Gd)
      as (q1 & Q1 & x1 & X1 & D1 & D2 & Di).
    unfold distribute, compute. rewrite Ex, EX, D1, D2. cbn [set_qx RKModel.q RKModel.rest fst forcing_step choose_dt_step x_step].
    change (dts (x_step x1) t = dts (x_step X1) t /\ 0 <= dts (x_step X1) t).
    rewrite (di_step _ _ _ _ _ _ _ _ Di). split; [reflexivity|apply dts_pos]. }
  destruct (compute xstate (dom_of C) (forcing_step C) (distribute xstate (distribute_step C) S)) as [S1 e] eqn:E. cbn [fst] in *.
  rewrite HE. clear HE. set (d := choose_dt_step dts (flux_dt _ S1) (RKModel.rest _ S1)) in *.
  assert (Hd : 0 <= d) by (destruct ds as [H0 _ _ _ _ _ _]; exact (proj2 (KS 0%nat H0))).
  split; [|split; [split|]].
  - intros p Hp. rewrite KL, (proj1 (KS p Hp)).
    apply agrees_flux_dt. destruct ds, se. apply part_up; auto.
  - rewrite KF, <- HT. transitivity (minimum nproc (fun _ => t)).
    + apply minimum_ext; [apply ds|]. intros p Hp. rewrite KL. reflexivity.
    + destruct (minimum_spec nproc (fun _ => t)) as (_ & p & _ & ->); [apply ds|reflexivity].
  - intros p Hp. rewrite KL, euler_dt, (proj1 (KS p Hp)).
    apply dt_flux_dt, euler_dt.
  - rewrite euler_dt. exact Hd.
Qed.

Lemma ghosts_up ss S : on_full ss S -> timed ss S ->
  on_all (p_update_ghosts L source ss) (update_ghosts xstate ghosts_step S) /\
  timed (p_update_ghosts L source ss) (update_ghosts xstate ghosts_step S).
Proof.
  intros A T. split; [|exact T]. intros p Hp.
  destruct (A p Hp) as ((x & X & Ex & EX & (G1 & G2 & G3 & G4)) & Sm & F & G).
  split; [|split; [exact Sm|split; [exact F|exact G]]].
  unfold p_update_ghosts, update_ghosts, ghosts_step, set_qx. cbn [RKModel.q RKModel.rest fst snd]. rewrite Ex, EX.
  eexists. exists X. split; [reflexivity|]. split; [reflexivity|]. split; [|split; [exact G2|split; [exact G3|exact G4]]].
  intros j Hj. cbn [x_xmom x_ymom]. unfold received. destruct ds. rewrite (sm_flag _ _ _ _ (ds_part0 p Hp) j Hj).
  destruct (Nat.ltb_spec j (nf p)) as [H|H]; cbn [Z.eqb]; [exact (G1 j H)|].
  destruct (ds_source0 p j Hp (conj H Hj)) as (H1 & H2 & H3).
  destruct (A _ H1) as ((x' & X' & Ex' & EX' & (G1' & _)) & _). rewrite Ex'. rewrite <- H3.
  assert (X' = X) by congruence. subst X'. exact (G1' _ H2).
Qed.

Lemma weaken ss S : on_all ss S -> on_full ss S.
Proof.
  intros A p Hp. destruct (A p Hp) as ((x & X & Ex & EX & (G1 & G2)) & B). split; [|exact B]. exists x, X. split; [exact Ex|]. split; [exact EX|].
  split; [|exact G2]. intros j Hj. apply G1. destruct ds. pose proof (sm_full _ _ _ _ (ds_part0 p Hp)). lia.
Qed.

Lemma combine_up m n a b ss0 S0 ss S :
  (exists e f, forall old new, exists x, combine_step m n 0 (Some old) (Some new) = Some x /\
     (forall k, x_xmom x k = e * x_xmom new k + f * x_xmom old k) /\ (forall k, x_ymom x k = e * x_ymom new k + f * x_ymom old k) /\
     x_su x = x_su new /\ x_sv x = x_sv new /\ x_step x = x_step new) ->
  on_all ss0 S0 -> on_full ss S -> timed ss S ->
  on_full (p_saxpy m n a b ss0 ss) (saxpy xstate (combine_step m) n a b S0 S) /\
  timed (p_saxpy m n a b ss0 ss) (saxpy xstate (combine_step m) n a b S0 S).
Proof.
  intros (e & f & K) A0 A T. split; [|exact T]. intros p Hp.
  destruct (weaken _ _ A0 p Hp) as ((x0 & X0 & Ex0 & EX0 & (H1 & _)) & _).
  destruct (A p Hp) as ((x & X & Ex & EX & (G1 & G2 & G3 & G4)) & Sm & F & G).
  split; [|split; [exact Sm|split; [exact F|exact G]]].
  unfold p_saxpy, saxpy, set_qx. cbn [RKModel.q RKModel.rest fst snd]. rewrite Ex0, EX0, Ex, EX.
  destruct (K x0 x) as (y & Ey & Y1 & Y2 & Y3 & Y4 & Y5). destruct (K X0 X) as (Y & EY & Z1 & Z2 & Z3 & Z4 & Z5).
  exists y, Y. split; [exact Ey|]. split; [exact EY|]. split; [|split; [|split]].
  - intros j Hj. rewrite Y1, Y2, Z1, Z2. destruct (H1 j Hj) as (-> & -> & ->), (G1 j Hj) as (-> & -> & ->). auto.
  - rewrite Y3, Y4. exact G2.
  - rewrite Z3, Z4. exact G3.
  - rewrite Y5, Z5. exact G4.
Qed.

Lemma thirds_up ss S : on_full ss S -> timed ss S -> on_full (fun p => thirds xstate (ss p)) (thirds xstate S) /\ timed (fun p => thirds xstate (ss p)) (thirds xstate S).
Proof.
  intros A T. split; [|exact T]. intros p Hp.
  destruct (A p Hp) as ((x & X & Ex & EX & (G1 & G2)) & B). split; [|exact B].
  exists x, X. split; [exact Ex|]. split; [exact EX|]. split; [|exact G2].
  intros j Hj. unfold thirds, set_qx. cbn [RKModel.q fst]. destruct (G1 j Hj) as (-> & -> & ->). auto.
Qed.

Lemma end_up m ss S : on_full ss S -> timed ss S ->
  let f := fun s => other_operators xstate operators_step (boundary_flux_integral_op xstate m s) in
  on_full (fun p => f (ss p)) (f S) /\ timed (fun p => f (ss p)) (f S).
Proof.
  intros A T. cbv zeta. split; [|exact T]. intros p Hp.
  destruct (A p Hp) as ((x & X & Ex & EX & (G1 & G2 & G3 & G4)) & B). split; [|exact B].
  unfold other_operators, boundary_flux_integral_op, operators_step. cbn [RKModel.q RKModel.rest]. rewrite Ex, EX.
  eexists. eexists. split; [reflexivity|]. split; [reflexivity|]. split; [exact G1|split; [exact G2|split; [exact G3|]]].
  cbn [x_step]. rewrite G4. reflexivity.
Qed.

Lemma ghosts_dt S : dt _ (update_ghosts xstate ghosts_step S) = dt _ S.
Proof. reflexivity. Qed.

Lemma evolve_up m ss S : on_all ss S -> timed ss S ->
  let S' := evolve_one_step xstate (distribute_step C) (dom_of C) (forcing_step C) (choose_dt_step dts) (finish_step C) ghosts_step (combine_step m) m S in
  on_full (p_evolve nproc L dts source m ss) S' /\ timed (p_evolve nproc L dts source m ss) S' /\ 0 <= dt _ S'.
Proof.
  intros A T. cbv zeta. pose proof (first_up ss S A T) as H1. destruct m; cbn [p_evolve evolve_one_step].
  - unfold evolve_one_euler_step, p_evolve_euler. cbv zeta in *.
    destruct (compute xstate (dom_of C) (forcing_step C) (distribute xstate (distribute_step C) S)) as [S1 e]. exact H1.
  - unfold evolve_one_rk2_step, p_evolve_rk2. cbv zeta in *.
    destruct (compute xstate (dom_of C) (forcing_step C) (distribute xstate (distribute_step C) S)) as [S1 e].
    destruct H1 as (A1 & T1 & D1). destruct (ghosts_up _ _ A1 T1) as (A2 & T2).
    rewrite <- ghosts_dt in D1. pose proof (later_up _ _ A2 T2 D1) as H2. cbv zeta in H2.
    destruct (compute xstate (dom_of C) (forcing_step C) (distribute xstate (distribute_step C) (update_ghosts _ _ _))) as [S2 e2].
    destruct H2 as (A3 & T3 & D3). rewrite <- D3 in D1.
    destruct (combine_up RK2 0 (1/2) (1/2) ss S _ _ ltac:(exists (1/2), (1/2); intros; eexists; repeat split; intros; reflexivity) A A3 T3) as (A4 & T4).
    split; [exact A4|]. split; [exact T4|exact D1].
  - unfold evolve_one_rk3_step, p_evolve_rk3. cbv zeta in *.
    destruct (compute xstate (dom_of C) (forcing_step C) (distribute xstate (distribute_step C) S)) as [S1 e].
    destruct H1 as (A1 & T1 & D1). destruct (ghosts_up _ _ A1 T1) as (A2 & T2).
    rewrite <- ghosts_dt in D1. pose proof (later_up _ _ A2 T2 D1) as H2. cbv zeta in H2.
    destruct (compute xstate (dom_of C) (forcing_step C) (distribute xstate (distribute_step C) (update_ghosts _ _ _))) as [S2 e2].
    destruct H2 as (A3 & T3 & D3). rewrite <- D3 in D1.
    destruct (combine_up RK3 0 (1/4) (3/4) ss S _ _ ltac:(exists (1/4), (3/4); intros; eexists; repeat split; intros; reflexivity) A A3 T3) as (A4 & T4).
    destruct (ghosts_up _ _ A4 T4) as (A5 & T5).
    match type of A5 with on_all _ (update_ghosts _ _ ?z) => change (0 <= dt _ (update_ghosts xstate ghosts_step z)) in D1 end.
    pose proof (later_up _ _ A5 T5 D1) as H6. cbv zeta in H6.
    match type of A5 with on_all _ ?z =>
      destruct (compute xstate (dom_of C) (forcing_step C) (distribute xstate (distribute_step C) z)) as [S6 e6] end.
    destruct H6 as (A7 & T7 & D7). rewrite <- D7 in D1.
    destruct (combine_up RK3 1 2 1 ss S _ _ ltac:(exists (2/3), (1/3); intros; eexists; split; [reflexivity|repeat split; intros; cbn; field]) A A7 T7) as (A8 & T8).
    destruct (thirds_up _ _ A8 T8) as (A9 & T9). split; [exact A9|]. split; [exact T9|exact D1].
Qed.

Lemma p_step_up m ss S : on_all ss S -> timed ss S ->
  on_all (p_step nproc L dts source m ss) (sw_step C dts m S) /\ timed (p_step nproc L dts source m ss) (sw_step C dts m S).
Proof.
  intros A T. destruct (evolve_up m ss S A T) as (A1 & T1 & _).
  destruct (end_up m _ _ A1 T1) as (A2 & T2). exact (ghosts_up _ _ A2 T2).
Qed.

Lemma p_steps_up m k : forall ss S, on_all ss S -> timed ss S ->
  on_all (p_steps nproc L dts source m k ss) (sw_steps C dts m k S) /\ timed (p_steps nproc L dts source m k ss) (sw_steps C dts m k S).
Proof.
  induction k as [|k IH]; intros ss S A T; [auto|].
  destruct (p_step_up m ss S A T) as (A1 & T1). exact (IH _ _ A1 T1).
Qed.
End Run.

(** The same beginning: every process holds the values of its triangles, ghosts
    included, and the counters and time steps are those of the undivided run. *)
Record same_start (C : config) (nproc : nat) (L : nat -> config) (up : nat -> nat -> nat) (ss : family) (S : sw_state) : Prop := {
  st_running : forall p, (p < nproc)%nat -> exists x X, RKModel.rest _ (ss p) = Some x /\ RKModel.rest _ S = Some X /\
    (forall j, (j < N (L p))%nat -> RKModel.q _ (ss p) j = RKModel.q _ S (up p j) /\
       x_xmom x j = x_xmom X (up p j) /\ x_ymom x j = x_ymom X (up p j)) /\
    (* no semi-implicit update is pending *)
    (forall j, (j < N (L p))%nat -> x_su x j = 0 /\ x_sv x j = 0) /\ (forall k, (k < N C)%nat -> x_su X k = 0 /\ x_sv X k = 0) /\
    x_step x = x_step X;
  st_counters : forall p, (p < nproc)%nat -> same_statics (sta _ (ss p)) (sta _ S);
  st_clean : forall p, (p < nproc)%nat -> flux_invariant (cf_dom (L p)) (sta _ (ss p)) (wk _ (ss p));
  st_clean' : flux_invariant (cf_dom C) (sta _ S) (wk _ S);
  st_limit : minimum nproc (fun p => flux_dt _ (ss p)) = flux_dt _ S;
  st_dt : forall p, (p < nproc)%nat -> dt _ (ss p) = dt _ S }.

(** After any number of steps of any of the schemes no process has raised, all
    have used the time step of the undivided run, and each holds its values on
    all of its triangles. *)
Theorem C78_distributed_run C nproc L up nf source dts : distribution C nproc L up nf source -> settings C ->
  (forall i t, 0 <= dts i t) -> forall m n ss S, same_start C nproc L up ss S ->
  forall p, (p < nproc)%nat ->
  let s := p_steps nproc L dts source m n ss p in
  let S' := sw_steps C dts m n S in
  dt _ s = dt _ S' /\
  exists x X, RKModel.rest _ s = Some x /\ RKModel.rest _ S' = Some X /\
    forall j, (j < N (L p))%nat -> RKModel.q _ s j = RKModel.q _ S' (up p j) /\
      x_xmom x j = x_xmom X (up p j) /\ x_ymom x j = x_ymom X (up p j).
Proof.
  intros D Se Hd m n ss S St p Hp. cbv zeta.
  assert (A : on_all C nproc L up ss S).
  { intros p' Hp'. destruct St. destruct (st_running0 p' Hp') as (x & X & Ex & EX & R1 & R2 & R3 & R4).
    split; [|split; [auto|split; auto]]. exists x, X. split; [exact Ex|]. split; [exact EX|]. split; [exact R1|auto]. }
  assert (T : timed nproc ss S) by (destruct St; split; auto).
  destruct (p_steps_up C nproc L up nf source dts D Se Hd m n ss S A T) as (A' & _ & T').
  split; [exact (T' p Hp)|]. destruct (A' p Hp) as ((x & X & Ex & EX & G & _) & _). exists x, X. auto.
Qed.
Print Assumptions C78_distributed_run.

(** In particular every value of the undivided run is held by the process that
    owns the triangle. *)
Corollary C78_every_value C nproc L up nf source dts : distribution C nproc L up nf source -> settings C ->
  (forall i t, 0 <= dts i t) -> forall m n ss S, same_start C nproc L up ss S ->
  forall k, (k < N C)%nat -> exists p j x X, (p < nproc)%nat /\ (j < nf p)%nat /\ up p j = k /\
    RKModel.rest _ (p_steps nproc L dts source m n ss p) = Some x /\ RKModel.rest _ (sw_steps C dts m n S) = Some X /\
    RKModel.q _ (sw_steps C dts m n S) k = RKModel.q _ (p_steps nproc L dts source m n ss p) j /\
    x_xmom X k = x_xmom x j /\ x_ymom X k = x_ymom x j.
Proof.
  intros D Se Hd m n ss S St k Hk. destruct (ds_cover _ _ _ _ _ _ D k Hk) as (p & j & Hp & Hj & <-).
  destruct (C78_distributed_run _ _ _ _ _ _ dts D Se Hd m n ss S St p Hp) as (_ & x & X & Ex & EX & G).
  exists p, j, x, X. pose proof (sm_full _ _ _ _ (ds_part _ _ _ _ _ _ D p Hp)). destruct (G j) as (-> & -> & ->); [lia|].
  repeat split; auto.
Qed.
Print Assumptions C78_every_value.

(** ** A strip of six triangles on two processes

    Triangle [k] has the vertices [(k, k mod 2)], [(k+1, (k+1) mod 2)] and
    [(k+2, k mod 2)]; edge 0 is shared with triangle [k-1], edge 1 with [k+1]. *)
Definition ex_sign (k : nat) : R := if Nat.even k then 1 else -1.
Definition ex_normal_x (i : nat) : R := match i with 0%nat => - / sqrt 2 | 1%nat => / sqrt 2 | _ => 0 end.
Definition ex_normal_y (k i : nat) : R := match i with 0%nat | 1%nat => ex_sign k * / sqrt 2 | _ => - ex_sign k end.
Definition ex_length (i : nat) : R := match i with 0%nat | 1%nat => sqrt 2 | _ => 2 end.
Definition ex_high (k : nat) : R := if Nat.even k then 0 else 1.
Definition ex_mid_x (k i : nat) : R := INR k + match i with 0%nat => 1 / 2 | 1%nat => 3 / 2 | _ => 1 end.
Definition ex_mid_y (k i : nat) : R := match i with 0%nat | 1%nat => 1 / 2 | _ => ex_high k end.
Definition ex_point (k : nat) : R * R := (INR k, ex_high k).

(** A part of the strip: triangle [j] is [up j]; [here] gives the number of a
    triangle in the part.  Edges at the end of the part are "ghost" edges
    unless they are at the end of the strip. *)
Section Strip.
Variables (n : nat) (full : nat -> bool) (up : nat -> nat) (here : nat -> option nat) (bed0 : nat -> R) (dry : R).
Definition ex_other (k i : nat) : option nat :=
  match i with 0%nat => (match k with O => None | S k' => Some k' end) | 1%nat => (if Nat.ltb k 5 then Some (S k) else None) | _ => None end.
Definition ex_neighbour (e : nat) : Z :=
  match ex_other (up (e / 3)) (e mod 3) with
  | Some k => match here k with Some j => Z.of_nat j | None => (- Z.of_nat e - 1)%Z end
  | None => (- Z.of_nat e - 1)%Z
  end.
Definition ex_wall (e : nat) : bool := match ex_other (up (e / 3)) (e mod 3) with None => true | Some _ => false end.
Definition ex_cut (e : nat) : bool := (ex_neighbour e <? 0)%Z && negb (ex_wall e).
Definition ex_part : config := {|
  cf_dom := {| number_of_elements := n; epsilon := / 1000000; g := 98 / 10; low_froude := 0%Z;
    neighbours := ex_neighbour; neighbour_edges := fun e => match (e mod 3)%nat with 0%nat => 1%nat | _ => 0%nat end;
    normal_x := fun e => ex_normal_x (e mod 3); normal_y := fun e => ex_normal_y (up (e / 3)) (e mod 3);
    edgelengths := fun e => ex_length (e mod 3); radii := fun _ => / (1 + sqrt 2); areas := fun _ => 1;
    tri_full_flag := fun j => if full j then 1%Z else 0%Z;
    stage_edge := fun _ => 0; xmom_edge := fun _ => 0; ymom_edge := fun _ => 0; bed_edge := fun _ => 0; height_edge := fun _ => 0;
    stage_centroid := fun _ => 0; bed_centroid := fun _ => 0; height_centroid := fun _ => 0;
    stage_boundary := fun _ => 0; xmom_boundary := fun _ => 0; ymom_boundary := fun _ => 0;
    edge_flux_type := fun _ => 0%Z; riverwall_elevation := fun _ => 0; riverwall_rowIndex := fun _ => 0%nat; ncol_riverwall := 0%nat;
    riverwall_props := fun _ => 0; update_next_flux := fun _ => 1%Z; timestep_fluxcalls := 2; allow_timestep_increase := 1%Z |};
  cf_rec := {| r_number_of_elements := n; r_update := fun _ => 1%Z;
    r_number_of_boundaries := fun k => Z.of_nat (length (filter (fun i => negb (0 <=? ex_neighbour (3 * k + i))%Z) [0; 1; 2]%nat));
    r_surrogate := fun e => if (0 <=? ex_neighbour e)%Z then Z.to_nat (ex_neighbour e) else (e / 3)%nat;
    r_ex := fun e => ex_mid_x (up (e / 3)) (e mod 3); r_ey := fun e => ex_mid_y (up (e / 3)) (e mod 3);
    r_cx := fun j => INR (up j) + 1; r_cy := fun j => (ex_high (up j) + 1) / 3;
    r_beta_w := 1; r_beta_w_dry := 0; r_beta_uh := 1; r_beta_uh_dry := dry; r_beta_vh := 1; r_beta_vh_dry := dry;
    r_minimum_allowed_height := / 100000; r_velocity := 1%Z;
    r_stage := fun _ => 0; r_bed := fun j => bed0 (up j); r_height := fun _ => 0; r_xmom := fun _ => 0; r_ymom := fun _ => 0;
    r_stage_e := fun _ => 0; r_height_e := fun _ => 0; r_xmom_e := fun _ => 0; r_ymom_e := fun _ => 0; r_bed_e := fun _ => 0;
    r_stage_v := fun _ => 0; r_height_v := fun _ => 0; r_xmom_v := fun _ => 0; r_ymom_v := fun _ => 0; r_bed_v := fun _ => 0 |};
  cf_sloped := false; cf_eta := fun _ => 3 / 100;
  cf_x := fun j => (ex_point (up j + 2), ex_point (up j), ex_point (up j + 1));
  cf_cells := fun b => (b / 3)%nat; cf_edges := fun b => (b mod 3)%nat;
  cf_segments := [(Reflective, filter ex_wall (seq 0 (3 * n))); (NoBoundary, filter ex_cut (seq 0 (3 * n)))] |}.
End Strip.

Definition ex_C (bed0 : nat -> R) (dry : R) : config := ex_part 6 (fun _ => true) (fun j => j) (fun k => Some k) bed0 dry.
Definition ex_up (p j : nat) : nat := match p with O => j | _ => if (j <? 3)%nat then (3 + j)%nat else (j - 2)%nat end.
Definition ex_here (p k : nat) : option nat :=
  match p with
  | O => if (k <? 5)%nat then Some k else None
  | _ => if (3 <=? k)%nat then Some (k - 3)%nat else if (1 <=? k)%nat then Some (k + 2)%nat else None
  end.
Definition ex_L (bed0 : nat -> R) (dry : R) (p : nat) : config := ex_part 5 (fun j => Nat.ltb j 3) (ex_up p) (ex_here p) bed0 dry.
Definition ex_source (p j : nat) : nat * nat := match p with O => (1, j - 3)%nat | _ => (0, j - 2)%nat end.

Lemma strip_ok n full up here bed0 dry : (n <= 6)%nat ->
  (forall e, (e < 3 * n)%nat -> let D := cf_dom (ex_part n full up here bed0 dry) in interior D e = true ->
     (Z.to_nat (neighbours D e) < n)%nat /\ interior D (partner D e) = true /\ partner D (partner D e) = e /\ partner D e <> e /\
     Z.to_nat (neighbours D e) <> (e / 3)%nat /\ (e mod 3 < 2)%nat /\ Nat.even (up (partner D e / 3)%nat) = negb (Nat.even (up (e / 3)%nat))) ->
  mesh_ok (ex_part n full up here bed0 dry).
Proof.
  intros Hn K. cbv zeta in K.
  assert (Hne : forall e, (neighbour_edges (cf_dom (ex_part n full up here bed0 dry)) e < 3)%nat).
  { intros e. cbn [neighbour_edges cf_dom ex_part]. destruct (e mod 3)%nat; lia. }
  constructor.
  - constructor; intros e He Hi; destruct (K e He Hi) as (A & B & D & F & _); auto.
  - intros e He Hi. destruct (K e He Hi) as (A & B & D & F & _ & H & G).
    set (m := Z.to_nat (neighbours (cf_dom (ex_part n full up here bed0 dry)) e)) in *.
    assert (E : exists i, partner (cf_dom (ex_part n full up here bed0 dry)) e = (3 * m + i)%nat /\ (i = 1 - e mod 3)%nat).
    { exists (1 - e mod 3)%nat. split; [|reflexivity]. unfold partner. fold m. cbn [neighbour_edges cf_dom ex_part].
      destruct (e mod 3)%nat as [|[|]]; lia. }
    destruct E as (i & E & Ei). rewrite E in *. cbn [normal_x normal_y edgelengths cf_dom ex_part].
    rewrite div3 in * by lia. rewrite mod3 by lia.
    unfold ex_normal_x, ex_normal_y, ex_length, ex_sign. rewrite G. destruct (e mod 3)%nat as [|[|]]; [| |lia]; subst i;
      (destruct (Nat.even (up (e / 3)%nat)); cbn [negb Nat.sub]; repeat split; ring).
  - intros k i Hk Hi Hin. change (N (ex_part n full up here bed0 dry)) with n in Hk. destruct (K (3 * k + i)%nat ltac:(lia) Hin) as (_ & _ & _ & _ & A & _).
    rewrite div3 in A by lia. exact A.
  - reflexivity.
  - intros k i Hk Hi. cbn [r_surrogate cf_rec ex_part]. rewrite div3 by lia. reflexivity.
  - intros k Hk. reflexivity.
  - intros e. discriminate.
  - split; reflexivity.
  - reflexivity.
  - reflexivity.
Qed.

Lemma ex_C_ok bed0 dry : mesh_ok (ex_C bed0 dry).
Proof.
  apply strip_ok; [lia|]. intros e He. 
  do 18 (destruct e as [|e]; [vm_compute; intros; repeat split; (congruence || lia)|]). lia.
Qed.
Lemma ex_L_ok bed0 dry p : (p < 2)%nat -> mesh_ok (ex_L bed0 dry p).
Proof.
  intros Hp. apply strip_ok; [lia|]. intros e He. destruct p as [|[|p]]; [| |lia];
  (do 15 (destruct e as [|e]; [vm_compute; intros; repeat split; (congruence || lia)|]); lia).
Qed.

Lemma only_first {A} (a a' : A) (l l' : list nat) b : ~ In b l' -> forall o ids, In (o, ids) [(a, l); (a', l')] -> In b ids -> o = a.
Proof. intros H o ids [E|[E|[]]] Hb; injection E as -> ->; [reflexivity|contradiction]. Qed.

Lemma ex_submesh bed0 dry p : (p < 2)%nat -> submesh (ex_C bed0 dry) (ex_L bed0 dry p) (ex_up p) 3.
Proof.
  intros Hp.
  constructor; try reflexivity; try (split; reflexivity).
  - cbn. lia.
  - intros j Hj. change (j < 5)%nat in Hj. change (ex_up p j < 6)%nat. unfold ex_up. destruct p as [|[|p]]; [lia| |lia]. destruct (Nat.ltb_spec j 3); lia.
  - intros j j' Hj Hj'. change (j < 5)%nat in Hj. change (j' < 5)%nat in Hj'. unfold ex_up. destruct p as [|[|p]]; [auto| |lia].
    destruct (Nat.ltb_spec j 3), (Nat.ltb_spec j' 3); lia.
  - intros j i Hj Hi. cbn [cf_dom ex_C ex_L ex_part normal_x normal_y]. rewrite !div3, !mod3 by exact Hi. split; reflexivity.
  - intros j i Hj Hi. cbn [cf_dom ex_C ex_L ex_part edgelengths]. rewrite !mod3 by exact Hi. reflexivity.
  - intros j i Hj Hi. cbn [cf_rec ex_C ex_L ex_part r_ex r_ey]. rewrite !div3, !mod3 by exact Hi. split; reflexivity.
  - intros j i Hj Hi. change (j < 5)%nat in Hj. destruct p as [|[|p]]; [| |lia];
      (do 5 (destruct j as [|j]; [do 3 (destruct i as [|i]; [vm_compute; intros; first [discriminate|split; reflexivity]|]); lia|]); lia).
  - intros j i Hj Hi. destruct p as [|[|p]]; [| |lia];
      (do 3 (destruct j as [|j]; [do 3 (destruct i as [|i]; [vm_compute; intros; congruence|]); lia|]); lia).
  - intros j i i' Hj Hi Hi'. destruct p as [|[|p]]; [| |lia];
      (do 3 (destruct j as [|j]; [do 3 (destruct i as [|i]; [do 3 (destruct i' as [|i']; [vm_compute; intros; congruence|]); lia|]); lia|]); lia).
  - intros j i Hj Hi. assert (F : forall e, In e (seq 0 15) -> ex_cut (ex_up p) (ex_here p) e = true -> ex_wall (ex_up p) e = true -> False).
    { intros e _. unfold ex_cut. intros H1 H2. rewrite H2, andb_false_r in H1. discriminate. }
    assert (F' : forall e, In e (seq 0 18) -> ex_cut (fun j => j) (fun k => Some k) e = true -> ex_wall (fun j => j) e = true -> False).
    { intros e _. unfold ex_cut. intros H1 H2. rewrite H2, andb_false_r in H1. discriminate. }
    assert (W : interior (cf_dom (ex_C bed0 dry)) (3 * ex_up p j + i) = false ->
      ex_wall (ex_up p) (3 * j + i) = true /\ ex_wall (fun j => j) (3 * ex_up p j + i) = true /\
      neighbours (cf_dom (ex_L bed0 dry p)) (3 * j + i) = (- Z.of_nat (3 * j + i) - 1)%Z /\
      neighbours (cf_dom (ex_C bed0 dry)) (3 * ex_up p j + i) = (- Z.of_nat (3 * ex_up p j + i) - 1)%Z).
    { unfold interior, ex_wall. cbn [neighbours cf_dom ex_C ex_L ex_part]. unfold ex_neighbour. rewrite !div3, !mod3 by exact Hi.
      destruct (ex_other (ex_up p j) i) as [k|]; [|auto]. intros H. apply Z.leb_gt in H. lia. }
    assert (U : (ex_up p j < 6)%nat) by (unfold ex_up; destruct p as [|[|p]]; [lia| |lia]; destruct (Nat.ltb_spec j 3); lia).
    intros Hin. destruct (W Hin) as (W1 & W2 & W3 & W4). cbv zeta. rewrite W3, W4.
    replace (Z.to_nat (- (- Z.of_nat (3 * j + i) - 1) - 1)) with (3 * j + i)%nat by lia.
    replace (Z.to_nat (- (- Z.of_nat (3 * ex_up p j + i) - 1) - 1)) with (3 * ex_up p j + i)%nat by lia.
    cbn [cf_cells cf_edges cf_segments ex_C ex_L ex_part]. rewrite !div3, !mod3 by exact Hi. repeat (split; [reflexivity|]).
    exists Reflective. split; [discriminate|].
    assert (I1 : In (3 * j + i)%nat (filter (ex_wall (ex_up p)) (seq 0 (3 * 5)))) by (apply filter_In; split; [apply in_seq; lia|exact W1]).
    assert (I2 : In (3 * ex_up p j + i)%nat (filter (ex_wall (fun j => j)) (seq 0 (3 * 6)))) by (apply filter_In; split; [apply in_seq; lia|exact W2]).
    split; [eexists; split; [left; reflexivity|exact I1]|]. split.
    { apply only_first. intros H. apply filter_In in H as (H1 & H2). eapply F; eauto. }
    split; [eexists; split; [left; reflexivity|exact I2]|].
    apply only_first. intros H. apply filter_In in H as (H1 & H2). eapply F'; eauto.
Qed.

Lemma ex_distribution bed0 dry : distribution (ex_C bed0 dry) 2 (ex_L bed0 dry) ex_up (fun _ => 3%nat) ex_source.
Proof.
  constructor.
  - lia.
  - apply ex_C_ok.
  - reflexivity.
  - apply ex_L_ok.
  - apply ex_submesh.
  - intros k Hk. change (k < 6)%nat in Hk. destruct (Nat.lt_ge_cases k 3) as [H|H]; [exists 0%nat, k|exists 1%nat, (k - 3)%nat].
    + repeat split; lia.
    + split; [lia|]. split; [lia|]. unfold ex_up. destruct (Nat.ltb_spec (k - 3) 3); lia.
  - intros p j Hp (H1 & H2). change (j < 5)%nat in H2. unfold ex_up, ex_source. destruct p as [|[|p]]; [| |lia]; cbn [fst snd].
    + split; [lia|]. split; [lia|]. destruct (Nat.ltb_spec (j - 3) 3); lia.
    + split; [lia|]. split; [lia|]. destruct (Nat.ltb_spec j 3); lia.
Qed.

Definition ex_rest (u v : nat -> R) : StepModel.rest :=
  Rest u v (fun _ => 0) (fun _ => 0) (fun _ => 0) (fun _ => 0) (fun _ => 0) (fun _ => 0) (fun _ => 0) (fun _ => 0) (fun _ _ => 0)
    (fun _ => 0) (fun _ => 0) (fun _ => 0) (fun _ => 0) 0 0.
Definition ex_state (q u v : nat -> R) : sw_state :=
  State xstate q (Some (ex_rest u v)) (Statics 0 1 1 0)
    (Work (fun _ => V3 0 0 0) (fun _ => 0) (fun _ => 0%Z) (fun _ => 0) (fun _ => 0) 0 0) (fun _ => 0) 0 0 0 0.
(** What process [p] is given. *)
Definition ex_states (q u v : nat -> R) : family :=
  fun p => ex_state (fun j => q (ex_up p j)) (fun j => u (ex_up p j)) (fun j => v (ex_up p j)).

Lemma ex_start bed0 dry q u v : same_start (ex_C bed0 dry) 2 (ex_L bed0 dry) ex_up (ex_states q u v) (ex_state q u v).
Proof.
  constructor.
  - intros p Hp. exists (ex_rest (fun j => u (ex_up p j)) (fun j => v (ex_up p j))), (ex_rest u v). repeat split; reflexivity.
  - intros p Hp. repeat split; reflexivity.
  - intros p Hp. apply C08_invariant_initial; cbn; [lia|reflexivity|reflexivity].
  - apply C08_invariant_initial; cbn; [lia|reflexivity|reflexivity].
  - unfold minimum. cbn. unfold Rmin. destruct (Rle_dec 0 0); reflexivity.
  - reflexivity.
Qed.

(** Any bed, surface and momenta on the strip. *)
Example C78_example bed0 q u v :
  distribution (ex_C bed0 0) 2 (ex_L bed0 0) ex_up (fun _ => 3%nat) ex_source /\ settings (ex_C bed0 0) /\
  same_start (ex_C bed0 0) 2 (ex_L bed0 0) ex_up (ex_states q u v) (ex_state q u v).
Proof.
  split; [apply ex_distribution|]. split; [|apply ex_start]. split; [cbn; lra|cbn; lra|split; reflexivity].
Qed.

(** ** A dry limiter that is not zero

    The algorithms DE0_7 and DE1_7 set [beta_uh_dry] and [beta_vh_dry] to 0.1,
    and two layers of ghosts do not suffice: triangle 4 of process 0 has lost its
    neighbour 5 and counts as surrounded by dry cells, so the momentum at the edge
    between the film on triangle 3 and the full triangle 2 is another. *)
Definition film_q (k : nat) : R := if Nat.eqb k 3 then / 200000 else 1.
Definition film_u (k : nat) : R := match k with 2%nat => 1 | 4%nat => -1 | _ => 0 end.

Lemma film_edge I u : r_velocity I = 1%Z -> r_update I 3 = 1%Z -> r_number_of_boundaries I 3 = 1%Z ->
  r_surrogate I 9 = 2%nat -> r_surrogate I 10 = 4%nat -> r_surrogate I 11 = 3%nat ->
  (r_cx I 2 = 3 /\ r_cy I 2 = 1/3) -> (r_cx I 3 = 4 /\ r_cy I 3 = 2/3) -> (r_cx I 4 = 5 /\ r_cy I 4 = 1/3) ->
  (r_ex I 9 = 7/2 /\ r_ey I 9 = 1/2) -> (r_ex I 10 = 9/2 /\ r_ey I 10 = 1/2) -> (r_ex I 11 = 4 /\ r_ey I 11 = 1) ->
  r_minimum_allowed_height I = / 100000 -> height1 I 3 = / 200000 -> height1 I 2 = 1 -> height1 I 4 = 1 ->
  r_beta_w_dry I = 0 -> r_beta_uh_dry I = 1/10 ->
  mom2 I (r_xmom I) 2 = 1 -> mom2 I (r_xmom I) 3 = 0 -> mom2 I (r_xmom I) 4 = u ->
  (u = 0 -> xmom_edges I 9 = 0) /\ (u = -1 -> xmom_edges I 9 = / 2000000).
Proof.
  intros V U B S0 S1 S2 (C2x & C2y) (C3x & C3y) (C4x & C4y) (E0x & E0y) (E1x & E1y) (E2x & E2y) M H3 H2 H4 Bw Bu M2 M3 M4.
  assert (HF : hfactor I 3 = 0).
  { apply ReconProofs.hfactor_dry; rewrite M; [lra|]. eapply Rle_trans; [apply Rmin_r|]. rewrite H3. lra. }
  assert (A2 : area2 I 3 = 2/3).
  { unfold area2, dy2, dx1, dy1, dx2, nb0, nb1, nb2. cbn [Nat.mul Nat.add]. rewrite S0, S1, S2, C2x, C2y, C3x, C3y, C4x, C4y. field. }
  assert (HE : height_edges I 9 = / 200000).
  { unfold height_edges, extrapolated. cbn [Nat.div Nat.divmod fst Nat.modulo Nat.sub snd]. unfold to_update. rewrite U. cbn [Z.eqb negb].
    unfold cell_jumps. rewrite B, A2. cbn [Z.eqb Pos.eqb Z.leb Z.compare Pos.compare Pos.compare_cont].
    rewrite (proj2 (Rleb_false (2/3) 0)) by lra. rewrite HF, Bw. unfold typical_jumps.
    rewrite (proj2 (Rltb_false 0 _)) by lra. cbn [flat jump fst snd]. rewrite H3. lra. }
  assert (XE : xmom_edges I 9 = (mom2 I (r_xmom I) 3 + jump (typical_jumps I (mom2 I (r_xmom I)) (1/10) 3) 0) * / 200000).
  { unfold xmom_edges, mom_edges, extrapolated. rewrite HE. cbn [Nat.div Nat.divmod fst Nat.modulo Nat.sub snd]. unfold to_update. rewrite U, V. cbn [Z.eqb Pos.eqb negb andb].
    unfold cell_jumps. rewrite B, A2. cbn [Z.eqb Pos.eqb Z.leb Z.compare Pos.compare Pos.compare_cont].
    rewrite (proj2 (Rleb_false (2/3) 0)) by lra. rewrite HF, Bu. do 3 f_equal. f_equal. ring. }
  assert (T : 0 < tiny < 1/4).
  { unfold tiny. split; [apply Rinv_0_lt_compat, pow_lt; lra|]. replace (1/4) with (/ 4) by field. apply Rinv_lt_contravar; [|].
    - apply Rmult_lt_0_compat; [lra|apply pow_lt; lra].
    - change 100%nat with (1 + 99)%nat. rewrite pow_add. assert (1 <= 10 ^ 99) by (apply pow_R1_Rle; lra). lra. }
  assert (J : edge_jumps I 3 (1/2 * u - 1/2) (- (3/2) * u - 3/2) = (1/2, u/2, -(u+1)/2)).
  { unfold edge_jumps, dxv, dyv. cbn [Nat.mul Nat.add]. rewrite C3x, C3y, E0x, E0y, E1x, E1y, E2x, E2y. f_equal; [f_equal|]; field. }
  rewrite XE, M3. unfold typical_jumps. rewrite (proj2 (Rltb_true 0 (1/10))) by lra. cbv zeta.
  assert (N0 : nb0 I 3 = 2%nat) by exact S0. assert (N1 : nb1 I 3 = 4%nat) by exact S1. assert (N2 : nb2 I 3 = 3%nat) by exact S2.
  rewrite A2. unfold dy2, dx1, dy1, dx2. rewrite N0, N1, N2, M2, M3, M4, C2x, C2y, C3x, C3y, C4x, C4y.
  match goal with |- context [edge_jumps I 3 ?a ?b] => replace a with (1/2 * u - 1/2) by field; replace b with (- (3/2) * u - 3/2) by field end.
  rewrite J. unfold limit_gradient, limit_phi, limit_step. cbn [jump fst snd].
  assert (Q1 : u <= 0 -> find_qmax (1 - 0) (u - 1) (0 - 1) = 1).
  { intros Hu. unfold find_qmax. rewrite (Rmax_left (1 - 0)) by (apply Rmax_lub; lra). rewrite Rmax_left; lra. }
  assert (Q2 : u <= 0 -> find_qmin (1 - 0) (u - 1) (0 - 1) = u).
  { intros Hu. unfold find_qmin. rewrite (Rmin_left (1 - 0 + (u - 1))) by lra. rewrite (Rmin_right (1 - 0)) by lra. rewrite Rmin_left; lra. }
  clear M4 XE. split; intros Hu; rewrite Q1, Q2 by lra; subst u.
  - replace (-(0+1)/2) with (-(1/2)) by field. replace (0/2) with 0 by field.
    rewrite (proj2 (Rltb_false (1/2) (- tiny))) by lra. rewrite (proj2 (Rltb_true tiny (1/2))) by lra.
    rewrite (proj2 (Rltb_false 0 (- tiny))) by lra. rewrite (proj2 (Rltb_false tiny 0)) by lra.
    rewrite (proj2 (Rltb_true (- (1/2)) (- tiny))) by lra. rewrite (proj2 (Rltb_false tiny (- (1/2)))) by lra. cbn [fst].
    replace (1 / (1/2)) with 2 by field. replace (0 / - (1/2)) with 0 by field.
    rewrite (Rmin_left 2 1000) by lra. rewrite (Rmin_left 2 2) by lra. rewrite (Rmin_left 0 2) by lra. rewrite Rmin_left by lra. lra.
  - replace (-(-1+1)/2) with 0 by field. replace (-1/2) with (-(1/2)) by field.
    rewrite (proj2 (Rltb_false (1/2) (- tiny))) by lra. rewrite (proj2 (Rltb_true tiny (1/2))) by lra.
    rewrite (proj2 (Rltb_false 0 (- tiny))) by lra. rewrite (proj2 (Rltb_false tiny 0)) by lra.
    rewrite (proj2 (Rltb_true (- (1/2)) (- tiny))) by lra. rewrite (proj2 (Rltb_false tiny (- (1/2)))) by lra. cbn [fst].
    replace (1 / (1/2)) with 2 by field. replace (-1 / - (1/2)) with 2 by field.
    rewrite (Rmin_left 2 1000) by lra. rewrite !(Rmin_left 2 2) by lra. rewrite Rmin_left by lra. lra.
Qed.

(** The state after [distribute_step] in a part where triangles 0 to 4 have
    their own numbers. *)
Lemma film_part n full here : (5 <= n)%nat -> (forall k, (k < 5)%nat -> here k = Some k) ->
  let c := ex_part n full (fun j => j) here (fun _ => 0) (1/10) in
  mesh_ok c ->
  exists q' x', distribute_step c film_q (Some (ex_rest film_u (fun _ => 0))) = (q', Some (boundary_step c q' x')) /\
    (here 5%nat = None -> x_ue x' 9%nat = 0) /\ (here 5%nat = Some 5%nat -> (6 <= n)%nat -> x_ue x' 9%nat = / 2000000).
Proof.
  intros Hn Hh c ok. assert (Em : mah c = / 100000) by reflexivity. assert (mp : 0 < mah c) by (rewrite Em; lra).
  destruct (protect_values c film_q (ex_rest film_u (fun _ => 0)) mp) as (P1 & P2 & _).
  unfold distribute_step. destruct (protect_step c film_q (ex_rest film_u (fun _ => 0))) as [q' x1]. cbn [fst snd] in *.
  unfold extrapolate_step. rewrite (ok_recon c ok q' x1). eexists _, _. split; [reflexivity|]. cbn [x_ue].
  set (I := recon_of c q' x1).
  assert (P : forall k, (k < n)%nat -> q' k = film_q k /\ x_xmom x1 k = (if Nat.eqb k 3 then 0 else film_u k)).
  { intros k Hk. destruct (P1 k Hk) as (-> & -> & _). change (bed c k) with 0. rewrite Em. unfold film_q. cbn [x_xmom ex_rest].
    destruct (Nat.eqb k 3); [rewrite Rmax_left, (proj2 (Rltb_true _ _)) by lra; auto|rewrite Rmax_left, (proj2 (Rltb_false _ _)) by lra; auto]. }
  assert (H : forall k, (k < n)%nat -> height1 I k = film_q k).
  { intros k Hk. change (height1 I k) with (Rmax (q' k - 0) 0). rewrite (proj1 (P k Hk)). unfold film_q.
    destruct (Nat.eqb k 3); rewrite Rmax_left; lra. }
  assert (W : forall k, (k < n)%nat -> mom1 I (r_xmom I) k = if Nat.eqb k 3 then 0 else film_u k).
  { intros k Hk. unfold mom1, wet_cell. change (r_velocity I) with 1%Z. cbn [Z.eqb Pos.eqb]. rewrite (H k Hk).
    change (r_minimum_allowed_height I) with (/ 100000). change (r_xmom I) with (x_xmom x1). rewrite (proj2 (P k Hk)). unfold film_q.
    destruct (Nat.eqb k 3); [rewrite (proj2 (Rltb_false _ _)) by lra; reflexivity|rewrite (proj2 (Rltb_true _ _)) by lra; field]. }
  assert (D : forall k i j, r_surrogate I (3 * k + i) = j -> (j < n)%nat -> dry_side I k i = (Nat.eqb j 3 || Nat.eqb j k)).
  { intros k i j Ej Hj. unfold dry_side. rewrite Ej, (H j Hj). change (r_minimum_allowed_height I) with (/ 100000). f_equal. unfold film_q.
    destruct (Nat.eqb j 3); [apply Rltb_true; lra|apply Rltb_false; lra]. }
  assert (Sg : forall k i m, (i < 3)%nat -> (m < 5)%nat -> ex_other k i = Some m -> r_surrogate I (3 * k + i) = m).
  { intros k i m Hi Hm E. unfold I. cbn [r_surrogate recon_of cf_rec c ex_part]. unfold ex_neighbour. rewrite div3, mod3, E, (Hh m Hm) by auto.
    rewrite (proj2 (Z.leb_le 0 (Z.of_nat m))) by lia. apply Nat2Z.id. }
  assert (Ss : forall k, r_surrogate I (3 * k + 2) = k).
  { intros k. unfold I. cbn [r_surrogate recon_of cf_rec c ex_part]. unfold ex_neighbour. rewrite div3, mod3 by lia. cbn [ex_other].
    destruct (Z.leb_spec 0 (- Z.of_nat (3 * k + 2) - 1)); [lia|reflexivity]. }
  assert (S20 : r_surrogate I 6 = 1%nat) by (apply (Sg 2%nat 0%nat); [lia|lia|reflexivity]).
  assert (S30 : r_surrogate I 9 = 2%nat) by (apply (Sg 3%nat 0%nat); [lia|lia|reflexivity]).
  assert (S31 : r_surrogate I 10 = 4%nat) by (apply (Sg 3%nat 1%nat); [lia|lia|reflexivity]).
  assert (S32 : r_surrogate I 11 = 3%nat) by (apply (Ss 3%nat)).
  assert (S40 : r_surrogate I 12 = 3%nat) by (apply (Sg 4%nat 0%nat); [lia|lia|reflexivity]).
  assert (S42 : r_surrogate I 14 = 4%nat) by (apply (Ss 4%nat)).
  assert (M2 : mom2 I (r_xmom I) 2 = 1).
  { unfold mom2, surrounded. rewrite (D 2%nat 0%nat 1%nat S20) by lia. cbn [Nat.eqb orb andb]. rewrite W by lia. reflexivity. }
  assert (M3 : mom2 I (r_xmom I) 3 = 0) by (unfold mom2; destruct (surrounded I 3); [reflexivity|rewrite W by lia; reflexivity]).
  assert (Nb : r_number_of_boundaries I 3 = 1%Z).
  { unfold I. cbn [r_number_of_boundaries recon_of cf_rec c ex_part filter]. unfold ex_neighbour.
    rewrite !div3, !mod3 by lia. cbn [ex_other Nat.ltb Nat.leb]. rewrite !Hh by lia. reflexivity. }
  assert (F : forall u, mom2 I (r_xmom I) 4 = u -> (u = 0 -> xmom_edges I 9 = 0) /\ (u = -1 -> xmom_edges I 9 = / 2000000)).
  { intros u Eu. apply film_edge; auto; try reflexivity; try (rewrite H by lia; reflexivity); unfold I; cbn [r_cx r_cy r_ex r_ey recon_of cf_rec c ex_part];
      unfold ex_mid_x, ex_mid_y, ex_high; cbn [Nat.div Nat.divmod fst Nat.modulo Nat.sub snd Nat.even]; split; cbn [INR]; lra. }
  split.
  - intros H5. apply (F 0); [|reflexivity]. unfold mom2, surrounded.
    rewrite (D 4%nat 0%nat 3%nat S40), (D 4%nat 2%nat 4%nat S42) by lia. rewrite (D 4%nat 1%nat 4%nat) by (try lia; unfold I; cbn; rewrite H5; reflexivity).
    reflexivity.
  - intros H5 H6. apply (F (-1)); [|reflexivity]. unfold mom2, surrounded.
    rewrite (D 4%nat 1%nat 5%nat) by (try lia; unfold I; cbn; rewrite H5; reflexivity).
    cbn [Nat.eqb orb]. rewrite andb_false_r. cbn [andb]. rewrite W by lia. reflexivity.
Qed.

Theorem C78_dry_limiter_refuted :
  let C := ex_C (fun _ => 0) (1/10) in let L := ex_L (fun _ => 0) (1/10) in
  distribution C 2 L ex_up (fun _ => 3%nat) ex_source /\
  same_start C 2 L ex_up (ex_states film_q film_u (fun _ => 0)) (ex_state film_q film_u (fun _ => 0)) /\
  (* the edge between triangle 3 and triangle 2, which process 0 owns *)
  neighbours (cf_dom (L 0%nat)) 9 = 2%Z /\
  exists x X, RKModel.rest _ (p_distribute L (ex_states film_q film_u (fun _ => 0)) 0%nat) = Some x /\
    RKModel.rest _ (distribute xstate (distribute_step C) (ex_state film_q film_u (fun _ => 0))) = Some X /\
    x_ue x 9%nat = 0 /\ x_ue X 9%nat = / 2000000.
Proof.
  cbv zeta. split; [apply ex_distribution|]. split; [apply ex_start|]. split; [reflexivity|].
  destruct (film_part 5 (fun j => Nat.ltb j 3) (ex_here 0) ltac:(lia)
    ltac:(intros k Hk; unfold ex_here; rewrite (proj2 (Nat.ltb_lt k 5) Hk); reflexivity) (ex_L_ok (fun _ => 0) (1/10) 0 ltac:(lia)))
    as (q' & x' & E & A & _).
  destruct (film_part 6 (fun _ => true) (fun k => Some k) ltac:(lia) ltac:(auto) (ex_C_ok (fun _ => 0) (1/10))) as (Q' & X' & E' & _ & A').
  specialize (A eq_refl). specialize (A' eq_refl ltac:(lia)).
  exists (boundary_step (ex_L (fun _ => 0) (1/10) 0) q' x'), (boundary_step (ex_C (fun _ => 0) (1/10)) Q' X').
  split; [|split; [|split; [exact A|exact A']]].
  - unfold p_distribute, distribute, set_qx. cbn [RKModel.rest]. 
    change (distribute_step (ex_L (fun _ => 0) (1/10) 0) film_q (Some (ex_rest film_u (fun _ => 0))) = (q', Some (boundary_step (ex_L (fun _ => 0) (1/10) 0) q' x'))) in E.
    change (snd (distribute_step (ex_L (fun _ => 0) (1/10) 0) film_q (Some (ex_rest film_u (fun _ => 0)))) = Some (boundary_step (ex_L (fun _ => 0) (1/10) 0) q' x')).
    rewrite E. reflexivity.
  - change (snd (distribute_step (ex_C (fun _ => 0) (1/10)) film_q (Some (ex_rest film_u (fun _ => 0)))) = Some (boundary_step (ex_C (fun _ => 0) (1/10)) Q' X')).
    change (ex_C (fun _ => 0) (1/10)) with (ex_part 6 (fun _ => true) (fun j => j) (fun k => Some k) (fun _ => 0) (1/10)).
    rewrite E'. reflexivity.
Qed.
Print Assumptions C78_dry_limiter_refuted.
