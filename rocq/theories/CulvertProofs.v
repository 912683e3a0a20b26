From Coq Require Import Reals Lra Lia List Bool Rpower Ratan.
From Verif Require Import RealLib CulvertModel.
Import ListNotations.
Open Scope R_scope.

Lemma grav_pos : 0 < grav. Proof. unfold grav; lra. Qed.
Lemma sqrt_grav_pos : 0 < sqrt grav. Proof. apply sqrt_lt_R0, grav_pos. Qed.
Lemma powr_pos x a : 0 < x -> powr x a = Some (Rpower x a).
Proof. intros H. unfold powr, pw. destruct (Rltb_spec x 0); [lra|]. destruct (Reqb_spec x 0); [lra|reflexivity]. Qed.
Lemma div_ok x y : y <> 0 -> div x y = Some (x / y).
Proof. intros H. unfold div. destruct (Reqb_spec y 0); [contradiction|reflexivity]. Qed.
Lemma root_ok x : 0 <= x -> root x = Some (sqrt x).
Proof. intros H. unfold root. destruct (Rltb_spec x 0); [lra|reflexivity]. Qed.
Lemma Rpower_pos x a : 0 < Rpower x a.
Proof. unfold Rpower. apply exp_pos. Qed.

(** Losses that leave something to divide by. *)
Definition lossy (ls : losses) : Prop := 0 <= sum_loss ls /\ 0 <= clength ls /\ (0 < sum_loss ls \/ 0 < manning ls ^ 2 * clength ls).

Definition resistance (ls : losses) (hr : R) : R := sum_loss ls / 2 / grav + manning ls ^ 2 * clength ls / Rpower hr (133333 / 100000).

Lemma resistance_pos ls hr : lossy ls -> 0 < resistance ls hr.
Proof.
  intros (H1 & H2 & H3). unfold resistance. pose proof grav_pos. pose proof (Rpower_pos hr (133333 / 100000)) as P.
  assert (A : 0 <= sum_loss ls / 2 / grav) by (apply Rmult_le_pos; [lra|apply Rlt_le, Rinv_0_lt_compat; lra]).
  assert (B : 0 <= manning ls ^ 2 * clength ls) by (apply Rmult_le_pos; [apply pow2_ge_0|exact H2]).
  assert (C : 0 <= manning ls ^ 2 * clength ls / Rpower hr (133333 / 100000)) by (apply Rmult_le_pos; [exact B|apply Rlt_le, Rinv_0_lt_compat; exact P]).
  destruct H3 as [H3|H3].
  - assert (0 < sum_loss ls / 2 / grav) by (apply Rdiv_lt_0_compat; lra). lra.
  - assert (0 < manning ls ^ 2 * clength ls / Rpower hr (133333 / 100000)) by (apply Rdiv_lt_0_compat; lra). lra.
Qed.

Lemma tailwater_ok ls delta hr : lossy ls -> 0 <= delta -> 0 < hr ->
  tailwater_velocity ls delta hr = Some (sqrt (delta / resistance ls hr)).
Proof.
  intros Hl Hd Hh. unfold tailwater_velocity. rewrite powr_pos by exact Hh. cbn [bind].
  pose proof (Rpower_pos hr (133333 / 100000)) as P. rewrite div_ok by lra. cbn [bind]. fold (resistance ls hr).
  pose proof (resistance_pos ls hr Hl) as Q. rewrite div_ok by lra. cbn [bind]. apply root_ok.
  apply Rmult_le_pos; [exact Hd|apply Rlt_le, Rinv_0_lt_compat, Q].
Qed.

Lemma velocity_nonneg ls delta hr : 0 <= sqrt (delta / resistance ls hr).
Proof. apply sqrt_pos. Qed.

(** ** Newton's iteration for the critical depth *)

Section newton.
Variables (t : trapezoid) (w : R).
Hypotheses (Hw : 0 < w) (Hz1 : 0 <= z1 t) (Hz2 : 0 <= z2 t).
Let z := z1 t + z2 t.

Definition topw (x : R) : R := w + (z1 t + z2 t) * x.
Definition wetted (x : R) : R := 1 / 2 * x * (w + topw x).
(** Area to the 3/2 over the root of the width: the flow over the root of g. *)
Definition section_factor (x : R) : R := wetted x * sqrt (wetted x) / sqrt (topw x).
Definition section_slope (x : R) : R := section_factor x * (3 / 2 * (topw x / wetted x) - 1 / 2 * (z / topw x)).

Lemma topw_pos x : 0 <= x -> 0 < topw x.
Proof. intros H. unfold topw. assert (0 <= (z1 t + z2 t) * x) by (apply Rmult_le_pos; lra). lra. Qed.
Lemma wetted_pos x : 0 < x -> 0 < wetted x.
Proof. intros H. unfold wetted. pose proof (topw_pos x ltac:(lra)). apply Rmult_lt_0_compat; lra. Qed.
Lemma section_pos x : 0 < x -> 0 < section_factor x.
Proof.
  intros H. unfold section_factor. pose proof (wetted_pos x H). pose proof (topw_pos x ltac:(lra)).
  apply Rdiv_lt_0_compat; [apply Rmult_lt_0_compat; [lra|apply sqrt_lt_R0; lra]|apply sqrt_lt_R0; lra].
Qed.

(** The factor in the slope times [x] exceeds one. *)
Lemma slope_factor x : 0 < x -> 1 < x * (3 / 2 * (topw x / wetted x) - 1 / 2 * (z / topw x)).
Proof.
  intros H. pose proof (wetted_pos x H) as A. pose proof (topw_pos x ltac:(lra)) as T.
  assert (Zx : 0 <= z * x) by (apply Rmult_le_pos; unfold z; lra).
  assert (Tx : topw x = w + z * x) by reflexivity.
  assert (E : x * (3 / 2 * (topw x / wetted x) - 1 / 2 * (z / topw x)) = 3 * topw x / (w + topw x) - 1 / 2 * (z * x / topw x)).
  { unfold wetted. field. repeat split; lra. }
  rewrite E. assert (B1 : 3 / 2 <= 3 * topw x / (w + topw x)).
  { apply (Rmult_le_reg_r (w + topw x)); [lra|]. unfold Rdiv at 2. rewrite Rmult_assoc, Rinv_l by lra. lra. }
  assert (B2 : z * x / topw x < 1).
  { apply (Rmult_lt_reg_r (topw x)); [lra|]. unfold Rdiv. rewrite Rmult_assoc, Rinv_l by lra. lra. }
  lra.
Qed.

Lemma slope_pos x : 0 < x -> 0 < section_slope x.
Proof.
  intros H. unfold section_slope. apply Rmult_lt_0_compat; [apply section_pos; exact H|].
  pose proof (slope_factor x H). set (k := 3 / 2 * (topw x / wetted x) - 1 / 2 * (z / topw x)) in *. clearbody k.
  destruct (Rlt_dec 0 k); [assumption|]. nra.
Qed.

(** The tangent at [x] stays below. *)
Lemma tangent x y : 0 < x -> 0 < y -> section_factor x + section_slope x * (y - x) <= section_factor y.
Proof.
  intros Hx Hy. pose proof (wetted_pos x Hx) as Ax. pose proof (wetted_pos y Hy) as Ay.
  pose proof (topw_pos x ltac:(lra)) as Tx. pose proof (topw_pos y ltac:(lra)) as Ty. pose proof (section_pos x Hx) as Fx.
  assert (Q : section_factor x * (3 / 2 * (wetted y / wetted x) - 1 / 2 * (topw y / topw x)) <= section_factor y).
  { unfold section_factor.
    set (ax := sqrt (wetted x)) in *. set (ay := sqrt (wetted y)) in *. set (tx := sqrt (topw x)) in *. set (ty := sqrt (topw y)) in *.
    assert (Eax : wetted x = ax * ax) by (symmetry; apply sqrt_def; lra). assert (Eay : wetted y = ay * ay) by (symmetry; apply sqrt_def; lra).
    assert (Etx : topw x = tx * tx) by (symmetry; apply sqrt_def; lra). assert (Ety : topw y = ty * ty) by (symmetry; apply sqrt_def; lra).
    assert (Pax : 0 < ax) by (apply sqrt_lt_R0; lra). assert (Pay : 0 < ay) by (apply sqrt_lt_R0; lra).
    assert (Ptx : 0 < tx) by (apply sqrt_lt_R0; lra). assert (Pty : 0 < ty) by (apply sqrt_lt_R0; lra).
    rewrite Eax, Eay, Etx, Ety. clearbody ax ay tx ty. clear - Pax Pay Ptx Pty.
    apply Rminus_le.
    replace (ax * ax * ax / tx * (3 / 2 * (ay * ay / (ax * ax)) - 1 / 2 * (ty * ty / (tx * tx))) - ay * ay * ay / ty)
      with (- ((ay * tx - ax * ty) * (ay * tx - ax * ty) * (2 * (ay * tx) + ax * ty) / (2 * tx * tx * tx * ty))).
    2: { field. repeat split; lra. }
    apply Ropp_le_cancel. rewrite Ropp_0, Ropp_involutive. apply Rmult_le_pos.
    - apply Rmult_le_pos; [apply Rle_0_sqr|]. assert (0 < ay * tx) by (apply Rmult_lt_0_compat; lra). assert (0 < ax * ty) by (apply Rmult_lt_0_compat; lra). lra.
    - apply Rlt_le, Rinv_0_lt_compat. repeat apply Rmult_lt_0_compat; lra. }
  eapply Rle_trans; [|exact Q]. unfold section_slope.
  replace (section_factor x + section_factor x * (3 / 2 * (topw x / wetted x) - 1 / 2 * (z / topw x)) * (y - x))
    with (section_factor x * (1 + (3 / 2 * (topw x / wetted x) - 1 / 2 * (z / topw x)) * (y - x))) by ring.
  apply Rmult_le_compat_l; [lra|].
  apply Rminus_le. replace (1 + (3 / 2 * (topw x / wetted x) - 1 / 2 * (z / topw x)) * (y - x) - (3 / 2 * (wetted y / wetted x) - 1 / 2 * (topw y / topw x)))
    with (- (3 / 4 * z * ((y - x) * (y - x)) / wetted x)).
  - apply Ropp_le_cancel. rewrite Ropp_0, Ropp_involutive. apply Rmult_le_pos; [|apply Rlt_le, Rinv_0_lt_compat, Ax].
    apply Rmult_le_pos; [unfold z; lra|apply Rle_0_sqr].
  - assert (Wy : wetted y = wetted x + topw x * (y - x) + z * ((y - x) * (y - x)) / 2) by (unfold wetted, topw, z; field).
    assert (Wt : topw y = topw x + z * (y - x)) by (unfold topw, z; ring). rewrite Wy, Wt. field. split; lra.
Qed.

Lemma sqrt_power x : 0 < x -> Rpower x (1 / 2) = sqrt x.
Proof. intros H. replace (1 / 2) with (/ 2) by lra. apply Rpower_sqrt. exact H. Qed.
Lemma power_3_2 x : 0 < x -> Rpower x (3 / 2) = x * sqrt x.
Proof.
  intros H. replace (3 / 2) with (1 + / 2) by lra. rewrite Rpower_plus, Rpower_1, Rpower_sqrt by exact H. reflexivity.
Qed.

Lemma step_spec q x : 0 < x -> newton_step t w (q * sqrt (981 / 100)) x = Some (- (section_factor x - q) / section_slope x).
Proof.
  intros H. pose proof (wetted_pos x H) as A. pose proof (topw_pos x ltac:(lra)) as T. unfold newton_step.
  change (w + (z1 t + z2 t) * x) with (topw x). change (1 / 2 * x * (w + topw x)) with (wetted x).
  assert (P1 : 0 < z1 t ^ 2 + 1) by (pose proof (pow2_ge_0 (z1 t)); lra). assert (P2 : 0 < z2 t ^ 2 + 1) by (pose proof (pow2_ge_0 (z2 t)); lra).
  rewrite (powr_pos _ _ P1), (powr_pos _ _ P2). cbn [bind]. rewrite div_ok.
  2: { pose proof (Rpower_pos (z1 t ^ 2 + 1) (1 / 2)). pose proof (Rpower_pos (z2 t ^ 2 + 1) (1 / 2)).
       assert (0 < (Rpower (z1 t ^ 2 + 1) (1 / 2) + Rpower (z2 t ^ 2 + 1) (1 / 2)) * x) by (apply Rmult_lt_0_compat; lra). lra. }
  cbn [bind]. rewrite !(powr_pos (wetted x)) by exact A. cbn [bind]. destruct (Rleb_spec (topw x) 0); [lra|]. cbn [bind].
  rewrite power_3_2, sqrt_power by exact A.
  assert (E1 : Rpower (topw x) (- (1 / 2)) = / sqrt (topw x)) by (rewrite Rpower_Ropp, sqrt_power by exact T; reflexivity).
  assert (E2 : Rpower (topw x) (- (3 / 2)) = / (topw x * sqrt (topw x))) by (rewrite Rpower_Ropp, power_3_2 by exact T; reflexivity).
  rewrite E1, E2. assert (S1 : 0 < sqrt (topw x)) by (apply sqrt_lt_R0; exact T). assert (S2 : 0 < sqrt (wetted x)) by (apply sqrt_lt_R0; exact A).
  assert (G : 0 < sqrt (981 / 100)) by (apply sqrt_lt_R0; lra).
  assert (Es : wetted x * sqrt (wetted x) * - (1 / 2) * / (topw x * sqrt (topw x)) * (z1 t + z2 t) + / sqrt (topw x) * (3 / 2) * sqrt (wetted x) * topw x = section_slope x).
  { unfold section_slope, section_factor, z. field. repeat split; lra. }
  rewrite Es. pose proof (slope_pos x H). rewrite div_ok by lra. f_equal. f_equal. unfold section_factor. field. split; lra.
Qed.

(** From a positive depth one round leads to a positive depth not below the
    critical depth, *)
Lemma step_above q x : 0 < x -> 0 <= q -> let x' := x + - (section_factor x - q) / section_slope x in
  0 < x' /\ q <= section_factor x' /\ (q <= section_factor x -> x' <= x).
Proof.
  intros H Hq x'. pose proof (slope_pos x H) as S. pose proof (section_pos x H) as F.
  assert (P : 0 < x').
  { unfold x'. assert (B : section_factor x < x * section_slope x).
    { unfold section_slope. pose proof (slope_factor x H) as L. set (k := 3 / 2 * (topw x / wetted x) - 1 / 2 * (z / topw x)) in *. clearbody k.
      replace (x * (section_factor x * k)) with (section_factor x * (x * k)) by ring. nra. }
    apply (Rmult_lt_reg_r (section_slope x)); [exact S|]. rewrite Rmult_0_l, Rmult_plus_distr_r. unfold Rdiv. rewrite Rmult_assoc, Rinv_l by lra. lra. }
  split; [exact P|]. split.
  - eapply Rle_trans; [|apply (tangent x x' H P)]. replace (x' - x) with (- (section_factor x - q) / section_slope x) by (unfold x'; ring).
    right. field. lra.
  - intros L. unfold x'. assert (0 <= (section_factor x - q) / section_slope x) by (apply Rmult_le_pos; [lra|apply Rlt_le, Rinv_0_lt_compat, S]).
    unfold Rdiv in *. rewrite Ropp_mult_distr_l_reverse. lra.
Qed.

(** so the loop ends. *)
Lemma loop_ends q : 0 <= q -> forall (k : nat) x dyc, 0 < x -> q <= section_factor x -> x <= INR k * (1 / 100000) ->
  exists d, (forall fuel, (S k <= fuel)%nat -> critical_depth fuel t w (q * sqrt (981 / 100)) x dyc = Some d) /\ 0 < d /\ q <= section_factor d /\ d <= x.
Proof.
  intros Hq. induction k as [|k IH]; intros x dyc Hx Hf Hk; [cbn in Hk; lra|].
  destruct (Rltb (1 / 100000) (Rabs dyc)) eqn:B.
  - destruct (step_above q x Hx Hq) as (P1 & P2 & P3). specialize (P3 Hf). set (dy := - (section_factor x - q) / section_slope x) in *.
    destruct (Rltb (1 / 100000) (Rabs dy)) eqn:B'.
    + apply Rltb_true in B'. destruct (IH (x + dy) dy P1 P2) as (d & D1 & D2 & D3 & D4).
      { rewrite S_INR in Hk. assert (dy <= 0) by lra. rewrite Rabs_left1 in B' by lra. lra. }
      exists d. split; [|split; [exact D2|split; [exact D3|lra]]].
      intros fuel Hfu. destruct fuel as [|fuel]; [lia|]. cbn [critical_depth]. rewrite B. rewrite step_spec by exact Hx. cbn [bind]. apply D1. lia.
    + exists (x + dy). split; [|split; [exact P1|split; [exact P2|exact P3]]].
      intros fuel Hfu. destruct fuel as [|fuel]; [lia|]. cbn [critical_depth]. rewrite B. rewrite step_spec by exact Hx. cbn [bind]. fold dy.
      destruct fuel; cbn [critical_depth]; rewrite B'; reflexivity.
  - exists x. split; [|split; [exact Hx|split; [exact Hf|lra]]]. intros fuel Hfu. destruct fuel; cbn [critical_depth]; rewrite B; reflexivity.
Qed.

Lemma dcrit_ends q : 0 <= q -> exists n d, (forall fuel, (n <= fuel)%nat -> dcrit_of fuel t w (q * sqrt (981 / 100)) = Some d) /\ 0 < d /\ q <= section_factor d.
Proof.
  intros Hq. set (x0 := 1 / 100000). assert (X0 : 0 < x0) by (unfold x0; lra).
  destruct (step_above q x0 X0 Hq) as (P1 & P2 & _). set (dy := - (section_factor x0 - q) / section_slope x0) in *.
  destruct (INR_archimed (1 / 100000) (x0 + dy)) as (k & Hk); [lra|].
  destruct (loop_ends q Hq k (x0 + dy) dy P1 P2) as (d & D1 & D2 & D3 & _); [lra|].
  exists (S (S k)), d. split; [|split; [exact D2|exact D3]]. intros fuel Hf. destruct fuel as [|fuel]; [lia|].
  unfold dcrit_of. cbn [critical_depth]. destruct (Rltb_spec (1 / 100000) (Rabs (1 / 1000))) as [_|N].
  - fold x0. rewrite step_spec by exact X0. cbn [bind]. fold dy. apply D1. lia.
  - exfalso. apply N. rewrite Rabs_right by lra. lra.
Qed.
End newton.
