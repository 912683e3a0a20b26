(** C69: Froude similarity of the culvert formulas. Scaling every length by [l]
    multiplies a flow by [l] to the 5/2 and a depth by [l]. *)
From Coq Require Import Reals Lra Lia List Bool Rpower Ratan.
From Verif Require Import RealLib CulvertModel CulvertProofs CulvertProps.
Import ListNotations.
Open Scope R_scope.

Lemma Rpower_scale l x a : 0 < l -> 0 < x -> Rpower (l * x) a = Rpower l a * Rpower x a.
Proof. intros H1 H2. symmetry. apply Rpower_mult_distr; assumption. Qed.

Lemma Rmin_scale k x y : 0 < k -> Rmin (k * x) (k * y) = k * Rmin x y.
Proof. intros H. unfold Rmin. destruct (Rle_dec (k * x) (k * y)), (Rle_dec x y); try reflexivity; nra. Qed.

Lemma l52 l a b : 0 < l -> a + b = 3 / 2 -> l * (Rpower l a * Rpower l b) = Rpower l (5 / 2).
Proof. intros H E. rewrite <- Rpower_plus, E. rewrite <- (Rpower_1 l) at 1 by exact H. rewrite <- Rpower_plus. f_equal. lra. Qed.

Lemma box_flow_similar l width depth blockage barrels driving :
  0 < l -> 0 < width -> 0 < depth -> 0 < driving ->
  box_inlet_flow (l * width) (l * depth) blockage barrels (l * driving) = Rpower l (5 / 2) * box_inlet_flow width depth blockage barrels driving.
Proof.
  intros Hl Hw Hd He. unfold box_inlet_flow. rewrite !Rpower_scale by assumption. rewrite <- Rmin_scale by apply Rpower_pos. f_equal.
  - rewrite <- (l52 l (3 / 2) 0 Hl) by lra. rewrite (Rpower_O l Hl). ring.
  - rewrite <- (l52 l (89 / 100) (61 / 100) Hl) by lra. ring.
Qed.

Theorem C69_box_inlet l width depth blockage barrels driving :
  0 < l -> 0 < width -> 0 < depth -> 0 < driving -> exists Q,
  box_inlet (1 - blockage) width depth barrels driving = Some Q /\
  box_inlet (1 - blockage) (l * width) (l * depth) barrels (l * driving) = Some (Rpower l (5 / 2) * Q).
Proof.
  intros Hl Hw Hd He. eexists. split; [apply box_inlet_ok; assumption|].
  rewrite box_inlet_ok by (apply Rmult_lt_0_compat; assumption). rewrite box_flow_similar by assumption. reflexivity.
Qed.
Print Assumptions C69_box_inlet.

Lemma pipe_flow_similar l D barrels driving : 0 < l -> 0 < D -> 0 < driving ->
  pipe_inlet_flow (l * D) barrels (l * driving) = Rpower l (5 / 2) * pipe_inlet_flow D barrels driving.
Proof.
  intros Hl Hd He. unfold pipe_inlet_flow. rewrite !Rpower_scale by assumption.
  assert (E : forall a b, a + b = 5 / 2 -> Rpower l a * Rpower l b = Rpower l (5 / 2)) by (intros a b E; rewrite <- Rpower_plus, E; reflexivity).
  replace (Rpower l (5 / 2) * (barrels * sqrt grav * Rmin (421 / 1000 * Rpower D (87 / 100) * Rpower driving (163 / 100)) (530 / 1000 * Rpower D (187 / 100) * Rpower driving (63 / 100))))
    with (barrels * sqrt grav * (Rpower l (5 / 2) * Rmin (421 / 1000 * Rpower D (87 / 100) * Rpower driving (163 / 100)) (530 / 1000 * Rpower D (187 / 100) * Rpower driving (63 / 100)))) by ring.
  rewrite <- (Rmin_scale (Rpower l (5 / 2))) by apply Rpower_pos. f_equal. f_equal.
  - rewrite <- (E (87 / 100) (163 / 100)) by lra. ring.
  - rewrite <- (E (187 / 100) (63 / 100)) by lra. ring.
Qed.

Theorem C69_pipe_inlet l D barrels driving : 0 < l -> 0 < D -> 0 < barrels -> 0 < driving -> exists Q,
  pipe_inlet D barrels driving = Some Q /\
  pipe_inlet (l * D) barrels (l * driving) = Some (Rpower l (5 / 2) * Q).
Proof.
  intros Hl Hd Hb He. eexists. split; [apply pipe_inlet_ok; assumption|].
  rewrite <- pipe_flow_similar by assumption. apply pipe_inlet_ok; try assumption; apply Rmult_lt_0_compat; assumption.
Qed.
Print Assumptions C69_pipe_inlet.

Lemma sqrt_Rpower l : 0 < l -> l * (l * sqrt l) = Rpower l (5 / 2).
Proof. intros H. rewrite <- power_3_2 by exact H. rewrite <- (Rpower_1 l) at 1 by exact H. rewrite <- Rpower_plus. f_equal. lra. Qed.

Lemma weir_flow_similar l width depth blockage barrels t driving : 0 < l -> 0 < driving ->
  weir_inlet_flow (l * width) (l * depth) blockage barrels t (l * driving) = Rpower l (5 / 2) * weir_inlet_flow width depth blockage barrels t driving.
Proof.
  intros Hl He. unfold weir_inlet_flow. rewrite sqrt_mult by lra. rewrite <- (sqrt_Rpower l Hl). pose proof (sqrt_lt_R0 l Hl) as S.
  replace (17 / 10 * (l * driving * (sqrt l * sqrt driving))) with (l * sqrt l * (17 / 10 * (driving * sqrt driving))) by ring.
  replace (8 / 10 * sqrt grav * (l * depth) * (sqrt l * sqrt driving)) with (l * sqrt l * (8 / 10 * sqrt grav * depth * sqrt driving)) by ring.
  rewrite Rmin_scale by (apply Rmult_lt_0_compat; assumption). field.
Qed.

Theorem C69_weir_inlet l width depth blockage barrels t driving :
  0 < l -> 0 < width -> 0 < depth -> blockage < 1 -> 0 < barrels -> 0 <= z1 t -> 0 <= z2 t -> 0 < driving -> exists Q,
  weir_inlet (1 - blockage) width depth barrels t driving = Some Q /\
  weir_inlet (1 - blockage) (l * width) (l * depth) barrels t (l * driving) = Some (Rpower l (5 / 2) * Q).
Proof.
  intros Hl Hw Hd Hb Hn H1 H2 He. eexists. split; [apply weir_inlet_ok; assumption|].
  rewrite <- weir_flow_similar by assumption. apply weir_inlet_ok; try assumption; apply Rmult_lt_0_compat; assumption.
Qed.
Print Assumptions C69_weir_inlet.

(** The equation the weir's loop solves is similar as well, *)
Theorem C69_weir_section l t w x : 0 < l -> 0 < w -> 0 <= z1 t -> 0 <= z2 t -> 0 < x ->
  section_factor t (l * w) (l * x) = Rpower l (5 / 2) * section_factor t w x.
Proof.
  intros Hl Hw H1 H2 Hx. unfold section_factor. pose proof (topw_pos t w Hw H1 H2 x ltac:(lra)) as T. pose proof (wetted_pos t w Hw H1 H2 x Hx) as A.
  assert (E1 : topw t (l * w) (l * x) = l * topw t w x) by (unfold topw; ring).
  assert (E2 : wetted t (l * w) (l * x) = l * l * wetted t w x) by (unfold wetted; rewrite E1; ring).
  rewrite E1, E2, (sqrt_mult l), (sqrt_mult (l * l)), sqrt_square by (try lra; apply Rmult_le_pos; lra). rewrite <- (sqrt_Rpower l Hl).
  pose proof (sqrt_lt_R0 l Hl) as S. pose proof (sqrt_lt_R0 _ T) as S2.
  assert (El : sqrt l * sqrt l = l) by (apply sqrt_def; lra). set (s := sqrt l) in *. clearbody s.
  set (a := sqrt (wetted t w x)). set (b := sqrt (topw t w x)) in *. set (A' := wetted t w x). clearbody a b A'. rewrite <- El. field. split; lra.
Qed.
Print Assumptions C69_weir_section.

(** the box's critical depth up to its rounded exponent, *)
Theorem C69_box_dcrit l Q w : 0 < l -> 0 < Q -> 0 < w -> exists d, 0 < d /\
  box_dcrit Q w = Some d /\ box_dcrit (Rpower l (5 / 2) * Q) (l * w) = Some (Rpower l (999999 / 1000000) * d).
Proof.
  intros Hl HQ Hw. unfold box_dcrit. pose proof grav_pos as G. pose proof (Rpower_pos l (5 / 2)) as Pl.
  assert (Hlw : 0 < l * w) by (apply Rmult_lt_0_compat; lra).
  rewrite !div_ok by (apply pow_nonzero; lra). cbn [bind].
  assert (X : 0 < Q ^ 2 / grav / w ^ 2) by (repeat apply Rdiv_lt_0_compat; try lra; apply pow_lt; lra).
  assert (E : (Rpower l (5 / 2) * Q) ^ 2 / grav / (l * w) ^ 2 = Rpower l 3 * (Q ^ 2 / grav / w ^ 2)).
  { replace ((Rpower l (5 / 2) * Q) ^ 2) with (Rpower l (5 / 2) * Rpower l (5 / 2) * Q ^ 2) by ring.
    rewrite <- Rpower_plus. replace (5 / 2 + 5 / 2) with (3 + (1 + 1)) by lra. rewrite !Rpower_plus, (Rpower_1 l Hl). field. repeat split; lra. }
  rewrite E, !powr_pos by (first [exact X | apply Rmult_lt_0_compat; [apply Rpower_pos|exact X]]).
  exists (Rpower (Q ^ 2 / grav / w ^ 2) (333333 / 1000000)). split; [apply Rpower_pos|]. split; [reflexivity|].
  rewrite Rpower_scale by (try exact X; apply Rpower_pos). rewrite Rpower_mult. replace (3 * (333333 / 1000000)) with (999999 / 1000000) by lra. reflexivity.
Qed.
Print Assumptions C69_box_dcrit.

(** but not the pipe's: the code multiplies by the diameter to the 5/2 where the
    formula divides by it. *)
Theorem C69_pipe_dcrit_refuted : exists l Q D d d', 0 < l /\ 0 < Q /\ 0 < D /\
  pipe_dcrit Q D = Some d /\ pipe_dcrit (Rpower l (5 / 2) * Q) (l * D) = Some d' /\ l * d < d'.
Proof.
  pose proof sqrt_grav_pos as G.
  assert (R4 : Rpower 4 (5 / 2) = 32).
  { rewrite <- (sqrt_Rpower 4) by lra. replace 4 with (2 * 2) at 3 by ring. rewrite sqrt_square by lra. lra. }
  assert (R1 : forall a, Rpower 1 a = 1) by (intros a; unfold Rpower; rewrite ln_1, Rmult_0_r, exp_0; reflexivity).
  set (q := sqrt grav / 1024). assert (Hq : 0 < q) by (unfold q; lra).
  exists 4, q, 1.
  assert (U : Rpower (/ 1024) (1 / (375 / 100)) < 1).
  { pose proof (Rlt_Rpower_l (/ 1024) 1 (1 / (375 / 100)) ltac:(lra) ltac:(lra)) as U. rewrite R1 in U. exact U. }
  assert (E1 : pipe_dcrit q 1 = Some (1 / (126 / 100) * Rpower (/ 1024) (1 / (375 / 100)))).
  { unfold pipe_dcrit. rewrite (powr_pos 1) by lra. cbn [bind]. rewrite R1. replace (q / sqrt grav * 1) with (/ 1024) by (unfold q; field; lra).
    rewrite !powr_pos by lra. cbn [bind]. rewrite div_ok by lra. cbn [bind].
    destruct (Rltb_spec (85 / 100) (1 / (126 / 100) * Rpower (/ 1024) (1 / (375 / 100)) / 1)) as [L|L]; [exfalso|reflexivity]. lra. }
  assert (E2 : pipe_dcrit (Rpower 4 (5 / 2) * q) (4 * 1) = Some (4 / (126 / 100))).
  { unfold pipe_dcrit. rewrite R4, Rmult_1_r. rewrite (powr_pos 4) by lra. cbn [bind]. rewrite R4. replace (32 * q / sqrt grav * 32) with 1 by (unfold q; field; lra).
    rewrite !powr_pos by lra. cbn [bind]. rewrite !R1. rewrite div_ok by lra. cbn [bind].
    destruct (Rltb_spec (85 / 100) (4 / (126 / 100) * 1 / 4)) as [L|L]; [exfalso; lra|f_equal; ring]. }
  eexists. eexists. rewrite E1, E2. refine (conj _ (conj Hq (conj _ (conj eq_refl (conj eq_refl _))))); try lra.
Qed.
Print Assumptions C69_pipe_dcrit_refuted.

(** With the division, the formula is similar. *)
Definition pipe_dcrit_corrected (Q D : R) : R :=
  let x := Q / (sqrt grav * Rpower D (5 / 2)) in
  let dcrit1 := D / (126 / 100) * Rpower x (1 / (375 / 100)) in
  let dcrit2 := D / (95 / 100) * Rpower x (1 / (195 / 100)) in
  if Rltb (85 / 100) (dcrit1 / D) then dcrit2 else dcrit1.

Theorem C69_pipe_dcrit_corrected l Q D : 0 < l -> 0 < Q -> 0 < D ->
  pipe_dcrit_corrected (Rpower l (5 / 2) * Q) (l * D) = l * pipe_dcrit_corrected Q D.
Proof.
  intros Hl HQ HD. unfold pipe_dcrit_corrected. pose proof sqrt_grav_pos as G. pose proof (Rpower_pos D (5 / 2)). pose proof (Rpower_pos l (5 / 2)).
  rewrite (Rpower_scale l D) by assumption.
  replace (Rpower l (5 / 2) * Q / (sqrt grav * (Rpower l (5 / 2) * Rpower D (5 / 2)))) with (Q / (sqrt grav * Rpower D (5 / 2))) by (field; repeat split; lra).
  cbv zeta. set (x := Q / (sqrt grav * Rpower D (5 / 2))).
  replace (l * D / (126 / 100) * Rpower x (1 / (375 / 100)) / (l * D)) with (D / (126 / 100) * Rpower x (1 / (375 / 100)) / D) by (field; lra).
  destruct (Rltb _ _); field.
Qed.
Print Assumptions C69_pipe_dcrit_corrected.

Example C69_example : exists Q, box_inlet (1 - 0) 1 1 1 1 = Some Q /\ box_inlet (1 - 0) (4 * 1) (4 * 1) 1 (4 * 1) = Some (32 * Q).
Proof.
  destruct (C69_box_inlet 4 1 1 0 1 1) as (Q & A & B); try lra. exists Q. split; [exact A|]. rewrite B. f_equal. f_equal.
  rewrite <- (sqrt_Rpower 4) by lra. replace 4 with (2 * 2) at 3 by ring. rewrite sqrt_square by lra. lra.
Qed.
