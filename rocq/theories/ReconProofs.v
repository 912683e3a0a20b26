(** Lemmas about the gradient limiter and the reconstruction. *)
From Coq Require Import Reals List ZArith Arith Bool Lia Lra Psatz.
From Verif Require Import RealLib FluxModel FluxFunctionProofs ReconModel.
Local Open Scope R_scope.

Lemma find_bounds dq0 dq1 dq2 :
  find_qmin dq0 dq1 dq2 <= 0 <= find_qmax dq0 dq1 dq2.
Proof. unfold find_qmin, find_qmax. split; [apply Rmin_r|apply Rmax_r]. Qed.

Lemma find_qmin_ge q0 q1 q2 qk lo :
  lo <= q0 -> lo <= q1 -> lo <= q2 -> lo <= qk ->
  lo - qk <= find_qmin (q0 - qk) (q1 - q0) (q2 - q0).
Proof. intros. unfold find_qmin. repeat apply Rmin_glb; lra. Qed.
Lemma find_qmax_le q0 q1 q2 qk hi :
  q0 <= hi -> q1 <= hi -> q2 <= hi -> qk <= hi ->
  find_qmax (q0 - qk) (q1 - q0) (q2 - q0) <= hi - qk.
Proof. intros. unfold find_qmax. repeat apply Rmax_lub; lra. Qed.

Lemma div_nonneg_neg a b : a <= 0 -> b < 0 -> 0 <= a / b.
Proof.
  intros. replace (a / b) with (- a / - b) by (field; lra).
  apply Rmult_le_pos; [lra|]. apply Rlt_le, Rinv_0_lt_compat; lra.
Qed.
Lemma div_nonneg a b : 0 <= a -> 0 < b -> 0 <= a / b.
Proof. intros. apply Rmult_le_pos; [lra|]. apply Rlt_le, Rinv_0_lt_compat; lra. Qed.

Section Limit.
Variables qmin qmax : R.
Hypothesis Hmin : qmin <= 0.
Hypothesis Hmax : 0 <= qmax.

Lemma limit_step_spec r r0 d : 0 <= r -> 0 <= r0 ->
  let s := limit_step qmin qmax (r, r0) d in
  0 <= fst s <= r /\ 0 <= snd s /\
  (tiny < d -> fst s * d <= qmax) /\ (d < - tiny -> qmin <= fst s * d).
Proof.
  intros Hr Hr0. pose proof tiny_pos as Ht. unfold limit_step. cbv zeta.
  destruct (Rltb_spec d (- tiny)) as [L|L].
  - rewrite (proj2 (Rltb_false tiny d)) by lra. cbn [fst snd].
    assert (0 <= qmin / d) by (apply div_nonneg_neg; lra).
    pose proof (Rmin_l (qmin / d) r). pose proof (Rmin_r (qmin / d) r).
    assert (0 <= Rmin (qmin / d) r) by (apply Rmin_glb; auto).
    repeat split; auto; try lra. intros _.
    assert (E : qmin / d * d = qmin) by (field; lra). nra.
  - destruct (Rltb_spec tiny d) as [G|G]; cbn [fst snd].
    + assert (0 <= qmax / d) by (apply div_nonneg; lra).
      pose proof (Rmin_l (qmax / d) r). pose proof (Rmin_r (qmax / d) r).
      assert (0 <= Rmin (qmax / d) r) by (apply Rmin_glb; auto).
      repeat split; auto; try lra. intros _.
      assert (E : qmax / d * d = qmax) by (field; lra). nra.
    + pose proof (Rmin_l r0 r). pose proof (Rmin_r r0 r).
      assert (0 <= Rmin r0 r) by (apply Rmin_glb; auto).
      repeat split; auto; try lra.
Qed.

Lemma limit_phi_spec d beta : 0 <= beta ->
  let phi := limit_phi d qmin qmax beta in
  0 <= phi <= 1 /\
  forall i, (i < 3)%nat ->
    (tiny < jump d i -> jump d i * phi <= beta * qmax) /\
    (jump d i < - tiny -> beta * qmin <= jump d i * phi).
Proof.
  intros Hb. cbv zeta. unfold limit_phi. cbv zeta. pose proof tiny_pos as Ht.
  pose proof (limit_step_spec 1000 1 (jump d 0) ltac:(lra) ltac:(lra)) as H0. cbv zeta in H0.
  destruct (limit_step qmin qmax (1000, 1) (jump d 0)) as [r0 s0]. cbn [fst snd] in H0.
  destruct H0 as (A0 & B0 & C0 & D0).
  pose proof (limit_step_spec r0 s0 (jump d 1) ltac:(lra) ltac:(lra)) as H1. cbv zeta in H1.
  destruct (limit_step qmin qmax (r0, s0) (jump d 1)) as [r1 s1]. cbn [fst snd] in H1.
  destruct H1 as (A1 & B1 & C1 & D1).
  pose proof (limit_step_spec r1 s1 (jump d 2) ltac:(lra) ltac:(lra)) as H2. cbv zeta in H2.
  destruct (limit_step qmin qmax (r1, s1) (jump d 2)) as [r2 s2]. cbn [fst snd] in *.
  destruct H2 as (A2 & B2 & C2 & D2).
  set (phi := Rmin (r2 * beta) 1).
  assert (P1 : phi <= r2 * beta) by apply Rmin_l. assert (P2 : phi <= 1) by apply Rmin_r.
  assert (P0 : 0 <= phi) by (apply Rmin_glb; [apply Rmult_le_pos; lra|lra]).
  split; [lra|].
  assert (K : forall x r, r2 <= r -> (tiny < x -> r * x <= qmax) -> (x < - tiny -> qmin <= r * x) ->
    (tiny < x -> x * phi <= beta * qmax) /\ (x < - tiny -> beta * qmin <= x * phi)).
  { intros x r Hr Hx1 Hx2. split; intros Hx.
    - specialize (Hx1 Hx).
      assert (x * phi <= x * (r2 * beta)) by (apply Rmult_le_compat_l; lra).
      assert (r2 * x <= r * x) by (apply Rmult_le_compat_r; lra).
      assert (beta * (r2 * x) <= beta * qmax) by (apply Rmult_le_compat_l; lra). lra.
    - specialize (Hx2 Hx).
      assert ((- x) * phi <= (- x) * (r2 * beta)) by (apply Rmult_le_compat_l; lra).
      assert (r2 * - x <= r * - x) by (apply Rmult_le_compat_r; lra).
      assert (beta * (r2 * - x) <= beta * - qmin) by (apply Rmult_le_compat_l; lra). lra. }
  intros i Hi. destruct i as [|[|[|i]]]; [| | |lia].
  - apply (K _ r0); auto. lra.
  - apply (K _ r1); auto. lra.
  - apply (K _ r2); auto. lra.
Qed.

Lemma jump_limited d beta i : (i < 3)%nat ->
  jump (limit_gradient d qmin qmax beta) i = jump d i * limit_phi d qmin qmax beta.
Proof. intros. destruct i as [|[|[|i]]]; [reflexivity..|lia]. Qed.

Lemma limit_gradient_range d beta i : 0 <= beta -> (i < 3)%nat ->
  beta * qmin - tiny <= jump (limit_gradient d qmin qmax beta) i <= beta * qmax + tiny.
Proof.
  intros Hb Hi. rewrite jump_limited by auto. pose proof tiny_pos as Ht.
  destruct (limit_phi_spec d beta Hb) as ((P0 & P1) & K). destruct (K i Hi) as (K1 & K2).
  set (phi := limit_phi d qmin qmax beta) in *. set (x := jump d i) in *.
  assert (0 <= beta * qmax) by (apply Rmult_le_pos; auto).
  assert (beta * qmin <= 0) by nra.
  destruct (Rlt_le_dec tiny x) as [L|L].
  - specialize (K1 L). assert (0 <= x * phi) by (apply Rmult_le_pos; lra). lra.
  - destruct (Rlt_le_dec x (- tiny)) as [L2|L2].
    + specialize (K2 L2). assert (0 <= - x * phi) by (apply Rmult_le_pos; lra). lra.
    + assert (- tiny <= x * phi <= tiny) by (split; nra). lra.
Qed.

Lemma limit_gradient_sum d beta :
  jump d 0 + jump d 1 + jump d 2 = 0 ->
  jump (limit_gradient d qmin qmax beta) 0 + jump (limit_gradient d qmin qmax beta) 1
  + jump (limit_gradient d qmin qmax beta) 2 = 0.
Proof.
  intros H. rewrite !jump_limited by lia. rewrite <- !Rmult_plus_distr_r, H. ring.
Qed.
End Limit.

Section Recon.
Variable I : recon.

Lemma hfactor_range k : 0 < r_minimum_allowed_height I -> 0 <= hfactor I k <= 1.
Proof.
  intros Hm. unfold hfactor. cbv zeta.
  match goal with |- 0 <= Rmin ?a ?b <= 1 => set (A := a); set (B := b) end.
  assert (HB : 0 <= B <= 1).
  { unfold B. split; [apply Rmax_l|]. apply Rmax_lub; [lra|].
    eapply Rle_trans; [apply Rmin_r|]. apply Rmin_r. }
  assert (HA : 0 <= A).
  { unfold A. match goal with |- 0 <= 12 / 10 * ?x / (?y + _) => pose proof (Rmax_r (Rmin (Rmin (height1 I (nb0 I k)) (Rmin (height1 I (nb1 I k)) (height1 I (nb2 I k)))) (height1 I k) - r_minimum_allowed_height I) 0);
      pose proof (Rmax_r (Rmin (Rmin (height1 I (nb0 I k)) (Rmin (height1 I (nb1 I k)) (height1 I (nb2 I k)))) (height1 I k)) 0) end.
    apply div_nonneg; lra. }
  split; [apply Rmin_glb; lra|]. eapply Rle_trans; [apply Rmin_r|]. lra.
Qed.

Lemma hfactor_dry k : 0 < r_minimum_allowed_height I ->
  Rmin (Rmin (height1 I (nb0 I k)) (Rmin (height1 I (nb1 I k)) (height1 I (nb2 I k)))) (height1 I k)
    <= r_minimum_allowed_height I ->
  hfactor I k = 0.
Proof.
  intros Hm H. pose proof (hfactor_range k Hm) as HR. apply Rle_antisym; [|lra].
  unfold hfactor. cbv zeta. eapply Rle_trans; [apply Rmin_l|].
  rewrite (Rmax_right (_ - r_minimum_allowed_height I) 0) by lra.
  unfold Rdiv. rewrite Rmult_0_r, Rmult_0_l. lra.
Qed.

Lemma beta_range beta beta_dry k : 0 < r_minimum_allowed_height I ->
  0 <= beta <= 1 -> 0 <= beta_dry <= 1 ->
  0 <= beta_dry + (beta - beta_dry) * hfactor I k <= 1.
Proof. intros Hm H1 H2. pose proof (hfactor_range k Hm). split; nra. Qed.

Lemma typical_range q beta k lo hi i :
  0 <= beta <= 1 -> (i < 3)%nat ->
  lo <= q k <= hi -> lo <= q (nb0 I k) <= hi -> lo <= q (nb1 I k) <= hi -> lo <= q (nb2 I k) <= hi ->
  lo - tiny <= q k + jump (typical_jumps I q beta k) i <= hi + tiny.
Proof.
  intros Hb Hi Hk H0 H1 H2. pose proof tiny_pos as Ht. unfold typical_jumps.
  destruct (Rltb 0 beta); [|destruct i as [|[|[|i]]]; cbn; lra].
  cbv zeta.
  match goal with |- context [limit_gradient ?d ?a ?b ?c] => set (dd := d); set (mn := a); set (mx := b) end.
  assert (B : mn <= 0 <= mx) by apply find_bounds.
  assert (M1 : lo - q k <= mn) by (apply find_qmin_ge; lra).
  assert (M2 : mx <= hi - q k) by (apply find_qmax_le; lra).
  pose proof (limit_gradient_range mn mx (proj1 B) (proj2 B) dd beta i (proj1 Hb) Hi).
  assert (mn <= beta * mn) by nra. assert (beta * mx <= mx) by nra. lra.
Qed.

Lemma single_range q k n lo hi i :
  0 <= r_beta_w I <= 1 -> (i < 3)%nat ->
  lo <= q k <= hi -> lo <= q n <= hi ->
  lo - tiny <= q k + jump (single_jumps I q k n) i <= hi + tiny.
Proof.
  intros Hb Hi Hk Hn. unfold single_jumps. cbv zeta.
  set (beta := r_beta_w I) in *.
  destruct (Rleb_spec 0 (q n - q k)) as [L|L].
  - match goal with |- context [limit_gradient ?d ?a ?b ?c] => 
      pose proof (limit_gradient_range a b ltac:(lra) ltac:(lra) d beta i (proj1 Hb) Hi) as K end.
    assert (beta * (q n - q k) <= q n - q k) by nra. lra.
  - match goal with |- context [limit_gradient ?d ?a ?b ?c] => 
      pose proof (limit_gradient_range a b ltac:(lra) ltac:(lra) d beta i (proj1 Hb) Hi) as K end.
    assert (q n - q k <= beta * (q n - q k)) by nra. lra.
Qed.

Lemma internal_neighbour_surrogate k n : internal_neighbour I k = Some n ->
  n = nb0 I k \/ n = nb1 I k \/ n = nb2 I k.
Proof.
  unfold internal_neighbour. destruct (negb _); [intros H; injection H; auto|].
  destruct (negb _); [intros H; injection H; auto|]. destruct (negb _); [intros H; injection H; auto|discriminate].
Qed.

Lemma cell_jumps_range q beta beta_dry k d lo hi i :
  0 < r_minimum_allowed_height I -> 0 <= beta <= 1 -> 0 <= beta_dry <= 1 -> 0 <= r_beta_w I <= 1 ->
  (i < 3)%nat -> lo <= q k <= hi ->
  lo <= q (nb0 I k) <= hi -> lo <= q (nb1 I k) <= hi -> lo <= q (nb2 I k) <= hi ->
  cell_jumps I q beta beta_dry k = Some d ->
  lo - tiny <= q k + jump d i <= hi + tiny.
Proof.
  intros Hm Hb Hbd Hbw Hi Hk H0 H1 H2 E. pose proof tiny_pos as Ht. unfold cell_jumps in E.
  assert (F : lo - tiny <= q k + jump flat i <= hi + tiny) by (destruct i as [|[|[|i]]]; cbn; lra).
  destruct (_ =? 3)%Z; [injection E as <-; exact F|].
  destruct (_ <=? 1)%Z.
  - destruct (Rleb (area2 I k) 0); injection E as <-; [exact F|].
    apply typical_range; auto. apply beta_range; auto.
  - destruct (internal_neighbour I k) as [n|] eqn:En; [|discriminate]. injection E as <-.
    apply single_range; auto. apply internal_neighbour_surrogate in En as [->|[->| ->]]; auto.
Qed.

Lemma edge_jumps_sum k a b :
  dxv I k 0 + dxv I k 1 + dxv I k 2 = 0 -> dyv I k 0 + dyv I k 1 + dyv I k 2 = 0 ->
  jump (edge_jumps I k a b) 0 + jump (edge_jumps I k a b) 1 + jump (edge_jumps I k a b) 2 = 0.
Proof.
  intros Hx Hy. cbn.
  replace (a * dxv I k 0 + b * dyv I k 0 + (a * dxv I k 1 + b * dyv I k 1) + (a * dxv I k 2 + b * dyv I k 2))
    with (a * (dxv I k 0 + dxv I k 1 + dxv I k 2) + b * (dyv I k 0 + dyv I k 1 + dyv I k 2)) by ring.
  rewrite Hx, Hy. ring.
Qed.

Lemma cell_jumps_sum q beta beta_dry k d :
  dxv I k 0 + dxv I k 1 + dxv I k 2 = 0 -> dyv I k 0 + dyv I k 1 + dyv I k 2 = 0 ->
  cell_jumps I q beta beta_dry k = Some d -> jump d 0 + jump d 1 + jump d 2 = 0.
Proof.
  intros Hx Hy E. unfold cell_jumps in E.
  assert (F : jump flat 0 + jump flat 1 + jump flat 2 = 0) by (cbn; ring).
  destruct (_ =? 3)%Z; [injection E as <-; exact F|].
  destruct (_ <=? 1)%Z.
  - destruct (Rleb (area2 I k) 0); injection E as <-; [exact F|].
    unfold typical_jumps. destruct (Rltb 0 _); [|exact F]. cbv zeta.
    apply limit_gradient_sum. apply edge_jumps_sum; auto.
  - destruct (internal_neighbour I k) as [n|] eqn:En; [|discriminate]. injection E as <-.
    unfold single_jumps. cbv zeta. destruct (Rleb 0 _); apply limit_gradient_sum, edge_jumps_sum; auto.
Qed.

(** A constant quantity is reproduced exactly. *)
Lemma limit_zero qmin qmax beta i : (i < 3)%nat -> jump (limit_gradient (0, 0, 0) qmin qmax beta) i = 0.
Proof. intros. destruct i as [|[|[|i]]]; [cbn; ring..|lia]. Qed.

Lemma cell_jumps_const q beta beta_dry k d c i :
  (i < 3)%nat -> q k = c -> q (nb0 I k) = c -> q (nb1 I k) = c -> q (nb2 I k) = c ->
  cell_jumps I q beta beta_dry k = Some d -> jump d i = 0.
Proof.
  intros Hi Hk H0 H1 H2 E. unfold cell_jumps in E.
  assert (F : jump flat i = 0) by (destruct i as [|[|[|i]]]; reflexivity).
  destruct (_ =? 3)%Z; [injection E as <-; exact F|].
  destruct (_ <=? 1)%Z.
  - destruct (Rleb (area2 I k) 0); injection E as <-; [exact F|].
    unfold typical_jumps. destruct (Rltb 0 _); [|exact F]. cbv zeta. rewrite Hk, H0, H1, H2.
    replace (edge_jumps I k _ _) with (0, 0, 0).
    + apply limit_zero; auto.
    + unfold edge_jumps. f_equal; [f_equal|]; ring.
  - destruct (internal_neighbour I k) as [n|] eqn:En; [|discriminate]. injection E as <-.
    assert (Hn : q n = c) by (apply internal_neighbour_surrogate in En as [->|[->| ->]]; auto).
    unfold single_jumps. cbv zeta. rewrite Hk, Hn.
    replace (edge_jumps I k _ _) with (0, 0, 0).
    + destruct (Rleb 0 _); apply limit_zero; auto.
    + unfold edge_jumps. f_equal; [f_equal|]; ring.
Qed.
End Recon.
