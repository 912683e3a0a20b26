(** C68, continued: the discharge routine around the formulas. *)
From Coq Require Import Reals Lra Lia List Bool Rpower Ratan.
From Verif Require Import RealLib CulvertModel CulvertProofs CulvertProps.
Import ListNotations.
Open Scope R_scope.

(** What the routine needs of a formula: [C68_box], [C68_pipe] and [C68_weir]
    provide it. *)
Definition sound_formula (formula : R -> R -> R -> option flow) : Prop :=
  forall driving delta outlet, 0 < driving -> 0 <= delta ->
    exists f, formula driving delta outlet = Some f /\ 0 <= Qf f /\ 0 < farea f.

Lemma sgn_cases x : (0 < x /\ sgn x = 1) \/ (x < 0 /\ sgn x = -1) \/ (x = 0 /\ sgn x = 0).
Proof. unfold sgn. destruct (Rltb_spec 0 x); [left; lra|]. destruct (Rltb_spec x 0); [right; left; lra|right; right; split; lra]. Qed.

Lemma velocity_head_nonneg b e : 0 <= velocity_head b e.
Proof.
  unfold velocity_head. destruct (e_velocity e) as (u, v). pose proof grav_pos.
  destruct b; (apply Rmult_le_pos; [apply Rmult_le_pos; [lra|apply pow2_ge_0]|apply Rlt_le, Rinv_0_lt_compat; lra]).
Qed.

Lemma smoothing_range ts tc : 0 <= ts -> 0 <= smoothing ts tc <= 1 /\ (0 < smoothing ts tc).
Proof.
  intros H. unfold smoothing. destruct (Rltb_spec 0 ts) as [L|L]; [|lra].
  assert (M : ts <= Rmax (Rmax ts tc) (1 / 1000000)) by (eapply Rle_trans; [apply Rmax_l|apply Rmax_l]).
  set (m := Rmax _ _) in *. clearbody m. assert (0 < ts / m) by (apply Rdiv_lt_0_compat; lra).
  assert (ts / m <= 1). { apply (Rmult_le_reg_r m); [lra|]. unfold Rdiv. rewrite Rmult_assoc, Rinv_l by lra. lra. } lra.
Qed.

(** The energy the routine compares at the two ends. *)
Definition driving_level (c : settings) (e : enquiry) : R :=
  if use_velocity_head c then total_energy_at (use_new_velocity_head c) e else e_stage e.

Lemma routine_delta c in0 in1 :
  (if use_velocity_head c then total_energy_at (use_new_velocity_head c) in0 - total_energy_at (use_new_velocity_head c) in1
   else e_stage in0 - e_stage in1) = driving_level c in0 - driving_level c in1.
Proof. unfold driving_level. destruct (use_velocity_head c); reflexivity. Qed.

(** The smoothed difference, and the arguments the formula is called with. *)
Definition new_delta (c : settings) (in0 in1 : enquiry) (st : sstate) : R :=
  smooth_delta st + smoothing (timestep c) (timescale c) * (driving_level c in0 - driving_level c in1 - smooth_delta st).
Definition upstream (c : settings) (in0 in1 : enquiry) (st : sstate) : enquiry := if Rleb 0 (new_delta c in0 in1 st) then in0 else in1.
Definition downstream (c : settings) (in0 in1 : enquiry) (st : sstate) : enquiry := if Rleb 0 (new_delta c in0 in1 st) then in1 else in0.
Definition driving_head (c : settings) (e : enquiry) : R :=
  if use_velocity_head c then specific_energy (use_new_velocity_head c) e else e_depth e.
Definition sound_at (formula : R -> R -> R -> option flow) (driving delta outlet : R) : Prop :=
  exists f, formula driving delta outlet = Some f /\ 0 <= Qf f /\ 0 < farea f.

Lemma driving_head_pos c e : 1 / 100 < e_depth e -> 0 < driving_head c e.
Proof.
  intros H. unfold driving_head, specific_energy. pose proof (velocity_head_nonneg (use_new_velocity_head c) e). destruct (use_velocity_head c); lra.
Qed.

Lemma routine_at c size formula in0 in1 old st :
  (1 / 100 < e_depth (upstream c in0 in1 st) ->
    sound_at formula (driving_head c (upstream c in0 in1 st)) (Rabs (new_delta c in0 in1 st)) (e_depth (downstream c in0 in1 st))) ->
  0 <= timestep c -> 0 < size ->
  let sd := smooth_delta st + smoothing (timestep c) (timescale c) * (driving_level c in0 - driving_level c in1 - smooth_delta st) in
  exists r, discharge_routine c size formula in0 in1 old st = Some r /\
    smooth_delta (after r) = sd /\
    inflow r = Rleb 0 sd /\ delta_total_energy r = Rabs sd /\
    0 <= discharge r /\ 0 <= barrel_velocity r <= 10 /\
    let inf := if Rleb 0 sd then in0 else in1 in
    let outf := if Rleb 0 sd then in1 else in0 in
    (e_depth inf <= 1 / 100 -> discharge r = 0 /\ barrel_velocity r = 0) /\
    (1 / 100 < e_depth inf -> exists driving f,
       driving = (if use_velocity_head c then specific_energy (use_new_velocity_head c) inf else e_depth inf) /\
       formula driving (Rabs sd) (e_depth outf) = Some f /\
       discharge r = barrel_velocity r * farea f /\ discharge r <= Qf f /\
       smooth_Q (after r) = smooth_Q st + smoothing (timestep c) (timescale c) * (Qf f * sgn sd - smooth_Q st) /\
       discharge r <= Rabs (smooth_Q (after r)) /\ (0 < discharge r -> sgn (smooth_Q (after r)) = sgn sd)).
Proof.
  intros Hf Ht Hs sd. unfold discharge_routine. destruct (Rleb_spec size 0); [lra|]. rewrite routine_delta.
  unfold smooth_energy. fold sd.
  assert (Ab : (if Rleb 0 sd then sd else - sd) = Rabs sd).
  { destruct (Rleb_spec 0 sd); [rewrite Rabs_right by lra; reflexivity|rewrite Rabs_left by lra; reflexivity]. }
  cbv zeta. rewrite Ab. set (inf := if Rleb 0 sd then in0 else in1). set (outf := if Rleb 0 sd then in1 else in0).
  set (ts := smoothing (timestep c) (timescale c)) in *.
  destruct (Rltb_spec (1 / 100) (e_depth inf)) as [D|D].
  - pose proof (velocity_head_nonneg (use_new_velocity_head c) inf) as VH.
    assert (SE : 0 < specific_energy (use_new_velocity_head c) inf) by (unfold specific_energy; lra).
    destruct (Rltb_spec (specific_energy (use_new_velocity_head c) inf) 0); [lra|].
    set (driving := if use_velocity_head c then specific_energy (use_new_velocity_head c) inf else e_depth inf).
    assert (Dr : 0 < driving) by (unfold driving; destruct (use_velocity_head c); lra).
    destruct (Hf D) as (f & Ef & F1 & F2). change (formula driving (Rabs sd) (e_depth outf) = Some f) in Ef. rewrite Ef. cbn [bind].
    unfold smooth_discharge. set (sq := smooth_Q st + ts * (Qf f * sgn sd - smooth_Q st)).
    set (Q := if Reqb (sgn sq) (sgn sd) then Rmin (Rabs sq) (Qf f) else 0).
    assert (Q0 : 0 <= Q <= Qf f).
    { unfold Q. destruct (Reqb (sgn sq) (sgn sd)); [|lra]. split; [apply Rmin_glb; [apply Rabs_pos|exact F1]|apply Rmin_r]. }
    assert (Q1 : Q <= Rabs sq).
    { unfold Q. destruct (Reqb (sgn sq) (sgn sd)); [apply Rmin_l|apply Rabs_pos]. }
    assert (Q2 : 0 < Q -> sgn sq = sgn sd).
    { unfold Q. destruct (Reqb_spec (sgn sq) (sgn sd)) as [Es|_]; [intros _; exact Es|lra]. }
    destruct (Reqb_spec (farea f) 0) as [N|_]; [lra|]. cbv beta iota zeta.
    assert (U : 0 <= Q / farea f) by (apply Rmult_le_pos; [lra|apply Rlt_le, Rinv_0_lt_compat, F2]).
    assert (E : Q / farea f * farea f = Q) by (field; lra).
    destruct (Rltb_spec 10 (Q / farea f)) as [L|L]; (eexists; split; [reflexivity|]);
      cbn [smooth_delta smooth_Q after inflow delta_total_energy discharge barrel_velocity].
    + assert (10 * farea f <= Q) by (rewrite <- E; apply Rmult_le_compat_r; lra).
      refine (conj eq_refl (conj eq_refl (conj eq_refl (conj _ (conj _ (conj _ _)))))); try lra.
      intros _. exists driving, f. refine (conj eq_refl (conj Ef (conj _ (conj _ (conj eq_refl (conj _ _)))))); try lra; intros _; apply Q2; lra.
    + refine (conj eq_refl (conj eq_refl (conj eq_refl (conj _ (conj _ (conj _ _)))))); try lra.
      intros _. exists driving, f. refine (conj eq_refl (conj Ef (conj _ (conj _ (conj eq_refl (conj Q1 Q2)))))); lra.
  - eexists. split; [reflexivity|]. cbn [smooth_delta smooth_Q after inflow delta_total_energy discharge barrel_velocity].
    refine (conj eq_refl (conj eq_refl (conj eq_refl (conj _ (conj _ (conj _ _)))))); try lra.
Qed.
(** No call fails. The discharge is not negative, moves at most at the velocity
    limit, and is at most what the formula gives; nothing enters a culvert whose
    upstream end is dry. The smoothed difference decides the direction. *)
Theorem C68_routine c size formula in0 in1 old st :
  sound_formula formula -> 0 <= timestep c -> 0 < size ->
  let sd := smooth_delta st + smoothing (timestep c) (timescale c) * (driving_level c in0 - driving_level c in1 - smooth_delta st) in
  exists r, discharge_routine c size formula in0 in1 old st = Some r /\
    smooth_delta (after r) = sd /\
    inflow r = Rleb 0 sd /\ delta_total_energy r = Rabs sd /\
    0 <= discharge r /\ 0 <= barrel_velocity r <= 10 /\
    let inf := if Rleb 0 sd then in0 else in1 in
    let outf := if Rleb 0 sd then in1 else in0 in
    (e_depth inf <= 1 / 100 -> discharge r = 0 /\ barrel_velocity r = 0) /\
    (1 / 100 < e_depth inf -> exists driving f,
       driving = (if use_velocity_head c then specific_energy (use_new_velocity_head c) inf else e_depth inf) /\
       formula driving (Rabs sd) (e_depth outf) = Some f /\
       discharge r = barrel_velocity r * farea f /\ discharge r <= Qf f /\
       smooth_Q (after r) = smooth_Q st + smoothing (timestep c) (timescale c) * (Qf f * sgn sd - smooth_Q st) /\
       discharge r <= Rabs (smooth_Q (after r)) /\ (0 < discharge r -> sgn (smooth_Q (after r)) = sgn sd)).
Proof.
  intros Hf. apply routine_at. intros D. apply Hf; [apply driving_head_pos, D|apply Rabs_pos].
Qed.
Print Assumptions C68_routine.

(** Without smoothing the water goes from the higher energy to the lower, and
    stays where it is if they are equal. *)
Theorem C68_downhill c size formula in0 in1 old st r :
  sound_formula formula -> 0 < size -> (timestep c = 0 \/ (1 / 1000000 <= timestep c /\ timescale c <= timestep c)) ->
  discharge_routine c size formula in0 in1 old st = Some r ->
  (inflow r = true -> driving_level c in1 <= driving_level c in0) /\
  (inflow r = false -> driving_level c in0 < driving_level c in1) /\
  delta_total_energy r = Rabs (driving_level c in0 - driving_level c in1) /\
  (driving_level c in0 = driving_level c in1 -> discharge r = 0).
Proof.
  intros Hf Hs Hc E. assert (Ht : 0 <= timestep c) by (destruct Hc; lra).
  assert (T : smoothing (timestep c) (timescale c) = 1).
  { unfold smoothing. destruct (Rltb_spec 0 (timestep c)); [|reflexivity]. rewrite (Rmax_left (timestep c)), Rmax_left by lra. field. lra. }
  destruct (C68_routine c size formula in0 in1 old st Hf Ht Hs) as (r' & E' & P1 & P2 & P3 & P4 & P5 & P6 & P7).
  rewrite E in E'. injection E' as <-. rewrite T in *.
  replace (smooth_delta st + 1 * (driving_level c in0 - driving_level c in1 - smooth_delta st)) with (driving_level c in0 - driving_level c in1) in * by ring.
  set (dl := driving_level c in0 - driving_level c in1) in *. split; [|split; [|split]].
  - intros I. rewrite I in P2. symmetry in P2. apply Rleb_true in P2. unfold dl in P2. lra.
  - intros I. rewrite I in P2. symmetry in P2. apply Rleb_false in P2. unfold dl in P2. lra.
  - exact P3.
  - intros Eq. assert (Z : dl = 0) by (unfold dl; lra).
    destruct (Rlt_dec (1 / 100) (e_depth (if Rleb 0 dl then in0 else in1))) as [L|L]; [|apply P6; lra].
    destruct (P7 L) as (dr & f & _ & _ & _ & _ & Sq & Dq & _). rewrite Z in Sq.
    assert (S0 : sgn 0 = 0) by (destruct (sgn_cases 0) as [?|[?|?]]; lra). rewrite S0 in Sq.
    replace (smooth_Q st + 1 * (Qf f * 0 - smooth_Q st)) with 0 in Sq by ring. rewrite Sq, Rabs_R0 in Dq. lra.
Qed.
Print Assumptions C68_downhill.

(** The smoothed difference lies between the old one and the present one, so with
    a constant difference the direction settles. *)
Theorem C68_smoothing c size formula in0 in1 old st r :
  sound_formula formula -> 0 <= timestep c -> 0 < size ->
  discharge_routine c size formula in0 in1 old st = Some r ->
  let dl := driving_level c in0 - driving_level c in1 in
  Rmin (smooth_delta st) dl <= smooth_delta (after r) <= Rmax (smooth_delta st) dl /\
  (0 <= smooth_delta st -> 0 < dl -> inflow r = true) /\ (smooth_delta st <= 0 -> dl < 0 -> inflow r = false).
Proof.
  intros Hf Ht Hs E dl. destruct (C68_routine c size formula in0 in1 old st Hf Ht Hs) as (r' & E' & P1 & P2 & _).
  rewrite E in E'. injection E' as <-. fold dl in P1, P2. destruct (smoothing_range (timestep c) (timescale c) Ht) as (T1 & T2).
  set (t := smoothing (timestep c) (timescale c)) in *. set (s := smooth_delta st) in *. rewrite P1. rewrite P2. clearbody t s dl. split; [|split].
  - split; [unfold Rmin; destruct (Rle_dec s dl); nra|unfold Rmax; destruct (Rle_dec s dl); nra].
  - intros A B. apply Rleb_true. nra.
  - intros A B. apply Rleb_false. nra.
Qed.
Print Assumptions C68_smoothing.

(** The constructor stores the absolute value of the first difference as the
    smoothed difference, and the discharge without its sign. If the second inlet
    is the higher one, the first calls with smoothing move water uphill. *)
Theorem C68_initial_sign_refuted c size formula in0 in1 :
  sound_formula formula ->
  (forall driving delta outlet f, 0 < driving -> 0 < delta -> formula driving delta outlet = Some f -> 0 < Qf f) ->
  0 < size -> 1 / 1000000 <= timestep c -> 2 * timestep c < timescale c ->
  driving_level c in0 < driving_level c in1 -> 1 / 100 < e_depth in0 -> 1 / 100 < e_depth in1 ->
  exists st r, initial c size formula in0 in1 = Some st /\
    discharge_routine c size formula in0 in1 (driving_level c in1 - driving_level c in0) st = Some r /\
    inflow r = true /\ 0 < discharge r.
Proof.
  intros Hf Hpos Hs Ht1 Ht2 Hl D0 D1. set (c0 := Settings (use_velocity_head c) (use_new_velocity_head c) (timestep c) 0).
  assert (Hf0 : 0 <= timestep c0) by (unfold c0; cbn [timestep]; lra).
  destruct (C68_routine c0 size formula in0 in1 0 (SState 0 0) Hf Hf0 Hs) as (r0 & E0 & P1 & P2 & P3 & P4 & P5 & _ & P7).
  cbn [smooth_delta smooth_Q] in *. assert (T0 : smoothing (timestep c0) (timescale c0) = 1).
  { unfold c0, smoothing. cbn [timestep timescale]. destruct (Rltb_spec 0 (timestep c)); [|reflexivity]. rewrite (Rmax_left (timestep c)), Rmax_left by lra. field. lra. }
  rewrite T0 in *. change (driving_level c0) with (driving_level c) in *.
  set (a := driving_level c in1 - driving_level c in0) in *. assert (Ha : 0 < a) by (unfold a; lra).
  replace (0 + 1 * (driving_level c in0 - driving_level c in1 - 0)) with (- a) in * by (unfold a; ring).
  assert (LB : Rleb 0 (- a) = false) by (apply Rleb_false; lra). rewrite LB in *. rewrite Rabs_Ropp, Rabs_right in P3 by lra.
  destruct (P7 D1) as (dr & f & Edr & Ef & _). rewrite Rabs_Ropp, (Rabs_right a) in Ef by lra.
  assert (Drp : 0 < dr).
  { rewrite Edr. pose proof (velocity_head_nonneg (use_new_velocity_head c) in1). unfold c0; cbn [use_velocity_head use_new_velocity_head]. unfold specific_energy.
    destruct (use_velocity_head c); lra. }
  pose proof (Hpos _ _ _ _ Drp Ha Ef) as Qp. destruct (Hf dr a (e_depth in0) Drp ltac:(lra)) as (f' & Ef' & _ & Fa). rewrite Ef in Ef'. injection Ef' as <-.
  assert (Q0p : 0 < discharge r0).
  { revert E0. unfold discharge_routine. destruct (Rleb_spec size 0); [lra|]. rewrite routine_delta. rewrite T0. cbn [smooth_delta smooth_Q]. unfold smooth_energy.
    change (driving_level c0) with (driving_level c).
    replace (0 + 1 * (driving_level c in0 - driving_level c in1 - 0)) with (- a) by (unfold a; ring). cbv zeta. rewrite LB, Ropp_involutive.
    destruct (Rltb_spec (1 / 100) (e_depth in1)); [|lra]. destruct (Rltb _ 0); [discriminate|]. rewrite <- Edr, Ef. cbn [bind]. unfold smooth_discharge.
    assert (S1 : sgn (- a) = -1) by (destruct (sgn_cases (- a)) as [?|[?|?]]; lra). rewrite S1.
    replace (0 + 1 * (Qf f * -1 - 0)) with (- Qf f) by ring. assert (S2 : sgn (- Qf f) = -1) by (destruct (sgn_cases (- Qf f)) as [?|[?|?]]; lra). rewrite S2.
    assert (M1 : Reqb (-1) (-1) = true) by (destruct (Reqb_spec (-1) (-1)); [reflexivity|lra]). rewrite M1, Rabs_Ropp, (Rabs_right (Qf f)), Rmin_left by lra.
    destruct (Rltb _ _); intros E; injection E as <-; cbn [discharge]; lra. }
  exists (SState (1 * a) (discharge r0)). 
  assert (Ht : 0 <= timestep c) by lra.
  set (ts := smoothing (timestep c) (timescale c)).
  assert (Ts : 0 < ts < 1 / 2).
  { unfold ts, smoothing. destruct (Rltb_spec 0 (timestep c)); [|lra]. rewrite (Rmax_right (timestep c)), Rmax_left by lra. split; [apply Rdiv_lt_0_compat; lra|].
    apply (Rmult_lt_reg_r (timescale c)); [lra|]. unfold Rdiv. rewrite Rmult_assoc, Rinv_l by lra. lra. }
  set (st := SState (1 * a) (discharge r0)).
  assert (SD : 1 * a + ts * (driving_level c in0 - driving_level c in1 - 1 * a) = a * (1 - 2 * ts)) by (unfold a; ring).
  assert (SDp : 0 < a * (1 - 2 * ts)) by (apply Rmult_lt_0_compat; lra).
  destruct (C68_routine c size formula in0 in1 a st Hf Ht Hs) as (r & E & R1 & R2 & R3 & R4 & R5 & _ & R7).
  exists r. split; [unfold initial; fold c0; rewrite E0; cbn [bind]; rewrite P3; reflexivity|]. split; [exact E|].
  unfold st in R2, R7. cbn [smooth_delta smooth_Q] in R2, R7. fold ts in R2, R7. rewrite SD in *.
  assert (LT : Rleb 0 (a * (1 - 2 * ts)) = true) by (apply Rleb_true; lra). rewrite LT in *. split; [exact R2|].
  revert E. unfold discharge_routine. destruct (Rleb_spec size 0); [lra|]. rewrite routine_delta. fold ts. unfold st. cbn [smooth_delta smooth_Q]. unfold smooth_energy.
  rewrite SD. cbv zeta. rewrite LT. destruct (Rltb_spec (1 / 100) (e_depth in0)); [|lra]. destruct (Rltb _ 0); [discriminate|].
  destruct (R7 D0) as (dr1 & f1 & Edr1 & Ef1 & _). rewrite (Rabs_right (a * (1 - 2 * ts))) in Ef1 by lra. rewrite <- Edr1, Ef1. cbn [bind].
  assert (Drp1 : 0 < dr1).
  { rewrite Edr1. pose proof (velocity_head_nonneg (use_new_velocity_head c) in0). unfold specific_energy. destruct (use_velocity_head c); lra. }
  pose proof (Hpos _ _ _ _ Drp1 SDp Ef1) as Qp1. destruct (Hf dr1 _ (e_depth in1) Drp1 (Rlt_le _ _ SDp)) as (f' & Ef' & _ & Fa1). rewrite Ef1 in Ef'. injection Ef' as <-.
  unfold smooth_discharge. assert (S1 : sgn (a * (1 - 2 * ts)) = 1) by (destruct (sgn_cases (a * (1 - 2 * ts))) as [?|[?|?]]; lra). rewrite S1.
  assert (SQ : 0 < discharge r0 + ts * (Qf f1 * 1 - discharge r0)).
  { replace (discharge r0 + ts * (Qf f1 * 1 - discharge r0)) with ((1 - ts) * discharge r0 + ts * Qf f1) by ring.
    assert (0 < (1 - ts) * discharge r0) by (apply Rmult_lt_0_compat; lra). assert (0 < ts * Qf f1) by (apply Rmult_lt_0_compat; lra). lra. }
  set (sq := discharge r0 + ts * (Qf f1 * 1 - discharge r0)) in *. assert (S2 : sgn sq = 1) by (destruct (sgn_cases sq) as [?|[?|?]]; lra). rewrite S2.
  assert (M1 : Reqb 1 1 = true) by (destruct (Reqb_spec 1 1); [reflexivity|lra]). rewrite M1, (Rabs_right sq) by lra.
  assert (0 < Rmin sq (Qf f1)) by (apply Rmin_glb_lt; assumption).
  destruct (Rltb _ _); intros E; injection E as <-; cbn [discharge]; lra.
Qed.
Print Assumptions C68_initial_sign_refuted.

(** ** The three culverts *)

Definition good_box (width depth blockage barrels : R) (ls : losses) : Prop :=
  0 < width /\ 0 < depth /\ 0 <= blockage < 1 /\ 0 < barrels /\ lossy ls.

Theorem C68_box_sound width depth blockage barrels ls : good_box width depth blockage barrels ls ->
  sound_formula (boyd_box width depth blockage barrels ls) /\
  forall driving delta outlet f, 0 < driving -> 0 < delta ->
    boyd_box width depth blockage barrels ls driving delta outlet = Some f -> 0 < Qf f.
Proof.
  intros (H1 & H2 & H3 & H4 & H5). split.
  - intros driving delta outlet Hd Hl. destruct (C68_box width depth blockage barrels ls driving delta outlet H1 H2 ltac:(lra) H4 H5 Hd Hl) as (f & E & _ & P).
    exists f. split; [exact E|]. destruct (P ltac:(lra)) as ((A & B & _) & _). lra.
  - intros driving delta outlet f Hd Hl E. revert E. unfold boyd_box. destruct (Rleb_spec 1 blockage); [lra|].
    rewrite box_inlet_ok by assumption. cbn [bind]. pose proof (box_inlet_flow_pos width depth blockage barrels driving H1 H4 ltac:(lra)) as HQ.
    set (Q := box_inlet_flow width depth blockage barrels driving) in *. set (bw := (1 - blockage) * width * barrels).
    assert (Hbw : 0 < bw) by (unfold bw; repeat apply Rmult_lt_0_compat; lra).
    assert (Dc : exists d, box_dcrit Q bw = Some d /\ 0 < d).
    { unfold box_dcrit. rewrite div_ok by (pose proof (pow_lt bw 2 Hbw); lra). cbn [bind]. rewrite powr_pos.
      - eexists; split; [reflexivity|apply Rpower_pos].
      - pose proof grav_pos. apply Rdiv_lt_0_compat; [apply Rdiv_lt_0_compat; [apply pow_lt, HQ|lra]|apply pow_lt, Hbw]. }
    destruct Dc as (d & -> & Hdc). cbn [bind]. destruct (box_section_spec bw depth d Hbw H2 Hdc) as (od & p & Es & Hod & Hp). rewrite Es.
    assert (Ha : 0 < bw * od) by (apply Rmult_lt_0_compat; lra). rewrite div_ok by lra. cbn [bind].
    assert (Hr : 0 < bw * od / p) by (apply Rdiv_lt_0_compat; lra). rewrite tailwater_ok by (try assumption; lra). cbn [bind].
    assert (X : exists od' p', (if Rltb depth outlet then (depth, bw * depth, 2 * (bw + depth)) else (od, bw * od, p)) = (od', bw * od', p')
              /\ 0 < od' <= depth /\ bw + 2 * od' <= p').
    { destruct (Rltb depth outlet); [exists depth, (2 * (bw + depth)); repeat split; lra|exists od, p; repeat split; lra]. }
    destruct X as (od' & p' & -> & Hod' & Hp').
    assert (Ha' : 0 < bw * od') by (apply Rmult_lt_0_compat; lra). assert (Hr' : 0 < bw * od' / p') by (apply Rdiv_lt_0_compat; lra).
    destruct (Rltb_spec delta driving) as [L|L].
    + rewrite div_ok by lra. cbn [bind]. rewrite tailwater_ok by (try assumption; lra). cbn [bind].
      assert (V : 0 < sqrt (delta / resistance ls (bw * od' / p'))) by (apply sqrt_lt_R0, Rdiv_lt_0_compat; [exact Hl|apply resistance_pos, H5]).
      assert (Qp : 0 < Rmin Q (bw * od' * sqrt (delta / resistance ls (bw * od' / p')))) by (apply Rmin_glb_lt; [exact HQ|apply Rmult_lt_0_compat; lra]).
      rewrite (finish_ok _ (bw * od') width barrels od' true) by lra. intros E. injection E as <-. exact Qp.
    + cbn [bind]. rewrite (finish_ok Q (bw * od) width barrels od true) by lra. intros E. injection E as <-. exact HQ.
Qed.
Print Assumptions C68_box_sound.

Theorem C68_pipe_sound diameter blockage barrels ls :
  0 < diameter -> 0 <= blockage < 1 -> 0 < barrels -> lossy ls -> sound_formula (boyd_pipe diameter blockage barrels ls).
Proof.
  intros H1 H2 H3 H4 driving delta outlet Hd Hl.
  destruct (C68_pipe diameter blockage barrels ls driving delta outlet H1 ltac:(lra) H3 H4 Hd Hl) as (f & E & _ & P).
  exists f. split; [exact E|]. destruct (P ltac:(lra)) as (_ & (A & B & _) & _). lra.
Qed.
Print Assumptions C68_pipe_sound.

(** The weir: no call loops for ever, and its flow is what [C68_routine] says. *)
Theorem C68_weir_routine width depth blockage barrels t ls c size in0 in1 old st :
  0 < width -> 0 < depth -> 0 <= blockage < 1 -> 0 < barrels -> 0 <= z1 t -> 0 <= z2 t -> lossy ls ->
  0 <= timestep c -> 0 < size ->
  exists n r, (forall fuel, (n <= fuel)%nat -> discharge_routine c size (weir_orifice fuel width depth blockage barrels t ls) in0 in1 old st = Some r) /\
    inflow r = Rleb 0 (new_delta c in0 in1 st) /\ 0 <= discharge r /\ 0 <= barrel_velocity r <= 10 /\
    (e_depth (upstream c in0 in1 st) <= 1 / 100 -> discharge r = 0) /\
    (1 / 100 < e_depth (upstream c in0 in1 st) -> discharge r <= weir_inlet_flow width depth blockage barrels t (driving_head c (upstream c in0 in1 st))).
Proof.
  intros H1 H2 H3 H4 H5 H6 H7 Ht Hs. set (formula := fun fuel => weir_orifice fuel width depth blockage barrels t ls).
  set (e := upstream c in0 in1 st) in *. set (o := downstream c in0 in1 st).
  set (sd := new_delta c in0 in1 st) in *.
  assert (X : exists n f, forall fuel, (n <= fuel)%nat -> 1 / 100 < e_depth e ->
     formula fuel (driving_head c e) (Rabs sd) (e_depth o) = Some f /\ 0 <= Qf f /\ 0 < farea f /\ Qf f <= weir_inlet_flow width depth blockage barrels t (driving_head c e)).
  { destruct (Rlt_dec (1 / 100) (e_depth e)) as [D|D].
    - destruct (C68_weir width depth blockage barrels t ls (driving_head c e) (Rabs sd) (e_depth o) H1 H2 ltac:(lra) H4 H5 H6 H7 (driving_head_pos c e D) (Rabs_pos sd))
        as (n & f & F1 & _ & F3).
      exists n, f. intros fuel Hf _. destruct (F3 ltac:(lra)) as ((A & B & _) & _). split; [apply F1; exact Hf|]. lra.
    - exists O, (Flow 0 0 0 0). intros. lra. }
  destruct X as (n & f & X).
  assert (At : forall fuel, (n <= fuel)%nat -> 1 / 100 < e_depth e -> sound_at (formula fuel) (driving_head c e) (Rabs sd) (e_depth o)).
  { intros fuel Hf D. exists f. destruct (X fuel Hf D) as (A & B & C & _). auto. }
  destruct (routine_at c size (formula n) in0 in1 old st (At n (le_n n)) Ht Hs) as (r & E & P1 & P2 & P3 & P4 & P5 & P6 & P7).
  exists n, r. split.
  - intros fuel Hf. fold (formula fuel). rewrite <- E. unfold discharge_routine. destruct (Rleb size 0); [reflexivity|].
    rewrite routine_delta. unfold smooth_energy. fold (new_delta c in0 in1 st). fold sd. cbv zeta.
    change (if Rleb 0 sd then in0 else in1) with e. change (if Rleb 0 sd then in1 else in0) with o.
    assert (Ab : (if Rleb 0 sd then sd else - sd) = Rabs sd).
    { destruct (Rleb_spec 0 sd); [rewrite Rabs_right by lra; reflexivity|rewrite Rabs_left by lra; reflexivity]. }
    rewrite Ab. change (if use_velocity_head c then specific_energy (use_new_velocity_head c) e else e_depth e) with (driving_head c e).
    destruct (Rltb_spec (1 / 100) (e_depth e)) as [D|D]; [|reflexivity].
    destruct (X fuel Hf D) as (-> & _). destruct (X n (le_n n) D) as (-> & _). reflexivity.
  - split; [exact P2|]. split; [exact P4|]. split; [exact P5|]. split; [intros D; apply P6; exact D|].
    intros D. destruct (P7 D) as (dr & f' & Edr & Ef' & _ & Q2 & _).
    change (dr = driving_head c e) in Edr. change (formula n dr (Rabs sd) (e_depth o) = Some f') in Ef'. rewrite Edr in Ef'.
    destruct (X n (le_n n) D) as (Ef & _ & _ & Bd). rewrite Ef in Ef'. injection Ef' as <-. lra.
Qed.
Print Assumptions C68_weir_routine.

(** Where the difference in energy is at least the driving energy, the box takes
    the inlet flow whatever the losses: a culvert with losses of a thousand
    velocity heads passes a flow that would need more than a hundred metres of
    head with one metre available. The pipe does not do this ([C68_pipe]). *)
Theorem C68_box_losses_refuted : exists f,
  boyd_box 1 1 0 1 (Losses 1000 0 10) 1 1 0 = Some f /\ 100 < head_loss (Losses 1000 0 10) f (1 + 2 * odepth f).
Proof.
  assert (Hl : lossy (Losses 1000 0 10)) by (unfold lossy; cbn; repeat split; try lra; left; lra).
  destruct (C68_box 1 1 0 1 (Losses 1000 0 10) 1 1 0 ltac:(lra) ltac:(lra) ltac:(lra) ltac:(lra) Hl ltac:(lra) ltac:(lra)) as (f & E & _ & P).
  exists f. split; [exact E|]. destruct (P ltac:(lra)) as ((_ & A & _) & _ & Q & _). specialize (Q ltac:(lra)).
  replace ((1 - 0) * 1 * 1 * 1) with 1 in A by ring.
  assert (Qv : Qf f = 544 / 1000 * sqrt grav).
  { rewrite Q. unfold box_inlet_flow. rewrite !Rpower_mult_distr || idtac. unfold Rpower. rewrite ln_1, !Rmult_0_r, exp_0, Rmin_left; [ring|].
    pose proof sqrt_grav_pos. lra. }
  unfold head_loss, resistance. cbn [sum_loss manning clength]. rewrite Qv. pose proof grav_pos as G.
  assert (E2 : (544 / 1000 * sqrt grav / farea f) ^ 2 = (544 / 1000) ^ 2 * grav / (farea f) ^ 2).
  { rewrite <- (sqrt_def grav) at 2 by lra. field. lra. }
  rewrite E2. replace (0 ^ 2 * 10 / Rpower (farea f / (1 + 2 * odepth f)) (133333 / 100000)) with 0.
  2: { field. pose proof (Rpower_pos (farea f / (1 + 2 * odepth f)) (133333 / 100000)). lra. }
  assert (F2 : 0 < farea f ^ 2 <= 1). { split; [apply pow_lt; lra|]. cbn. nra. }
  set (a2 := farea f ^ 2) in *. unfold grav.
  replace ((544 / 1000) ^ 2 * (98 / 10) / a2 * (1000 / 2 / (98 / 10) + 0)) with (500 * (544 / 1000) ^ 2 / a2) by (field; lra).
  apply (Rmult_lt_reg_r a2); [lra|]. replace (500 * (544 / 1000) ^ 2 / a2 * a2) with (500 * (544 / 1000) ^ 2) by (field; lra). lra.
Qed.
Print Assumptions C68_box_losses_refuted.

(** A box culvert, one metre square and ten metres long, under one metre of
    head at one end and half a metre at the other: the routine answers, and the
    constructor's first values move water uphill. *)
Example C68_example_box : good_box 1 1 0 1 (Losses 1 (1 / 100) 10).
Proof. unfold good_box, lossy; cbn; repeat split; try lra; left; lra. Qed.

Definition pool (h : R) : enquiry := Enquiry h 0 0 0 None (1, 0).

Lemma pool_level c h : driving_level c (pool h) = h.
Proof.
  unfold driving_level, total_energy_at, velocity_head, e_velocity, e_water_depth, pool. cbn [e_stage e_elev e_xmom e_ymom outward fst snd].
  assert (Z : 0 * h / 1 = 0) by field. unfold Rdiv. rewrite !Rmult_0_r, !Rmult_0_l, Rplus_0_l.
  destruct (use_velocity_head c); [|reflexivity]. destruct (use_new_velocity_head c).
  - rewrite Rmin_left by lra. replace (0 ^ 2) with 0 by ring. rewrite Rmult_0_r, Rmult_0_l. ring.
  - replace (0 ^ 2 + 0 ^ 2) with 0 by ring. rewrite sqrt_0. replace (0 ^ 2) with 0 by ring. rewrite Rmult_0_r, Rmult_0_l. ring.
Qed.

Example C68_example_initial : exists st r,
  initial (Settings true false 1 10) 1 (boyd_box 1 1 0 1 (Losses 1 (1 / 100) 10)) (pool (1 / 2)) (pool 1) = Some st /\
  discharge_routine (Settings true false 1 10) 1 (boyd_box 1 1 0 1 (Losses 1 (1 / 100) 10)) (pool (1 / 2)) (pool 1) (1 - 1 / 2) st = Some r /\
  inflow r = true /\ 0 < discharge r.
Proof.
  destruct (C68_box_sound _ _ _ _ _ C68_example_box) as (S1 & S2). set (c := Settings true false 1 10).
  pose proof (pool_level c) as L.
  assert (D : forall h, 0 < h -> e_depth (pool h) = h) by (intros h Hh; unfold e_depth, e_invert, pool; cbn [e_stage invert e_elev]; rewrite Rmax_left by lra; lra).
  destruct (C68_initial_sign_refuted c 1 _ (pool (1 / 2)) (pool 1) S1 S2) as (st & r & A & B & C & E).
  - lra.
  - unfold c; cbn [timestep]; lra.
  - unfold c; cbn [timestep timescale]; lra.
  - rewrite !L. lra.
  - rewrite D; lra.
  - rewrite D; lra.
  - exists st, r. rewrite !L in B. auto.
Qed.

Example C68_example_downhill : exists r,
  discharge_routine (Settings true false 1 0) 1 (boyd_box 1 1 0 1 (Losses 1 (1 / 100) 10)) (pool (1 / 2)) (pool 1) 0 (SState 0 0) = Some r /\ inflow r = false.
Proof.
  destruct (C68_box_sound _ _ _ _ _ C68_example_box) as (S1 & _). set (c := Settings true false 1 0).
  destruct (C68_routine c 1 _ (pool (1 / 2)) (pool 1) 0 (SState 0 0) S1) as (r & E & _ & I & _); [unfold c; cbn; lra|lra|].
  exists r. split; [exact E|]. rewrite I, !pool_level. apply Rleb_false. cbn [smooth_delta]. unfold c, smoothing. cbn [timestep timescale].
  destruct (Rltb_spec 0 1); [|lra]. rewrite (Rmax_left 1 0), Rmax_left by lra. lra.
Qed.
