(** Proofs about the conversions between latitude and longitude and UTM *)
From Coq Require Import Ascii Reals List ZArith Bool Lra Lia.
From Verif Require Import RealLib GridModel GridProofs RedfearnModel RedfearnProofs LatLongModel.
Import ListNotations.
Local Open Scope R_scope.

Lemma inside_spec x lo hi : reflect (lo <= x < hi) (inside x lo hi).
Proof. unfold inside. destruct (Rleb_spec lo x), (Rltb_spec x hi); cbn; constructor; lra. Qed.

Lemma temp_range Long : -180 <= Long -> -180 <= long_temp Long < 180 /\ exists k, (0 <= k)%Z /\ long_temp Long = Long - 360 * IZR k.
Proof.
  intros H. unfold long_temp. assert (P : 0 <= (Long + 180) / 360) by lra. pose proof (trunc_nonneg _ P) as B. split; [lra|].
  exists (trunc ((Long + 180) / 360)). split; [apply trunc_nonneg_pos; exact P|]. lra.
Qed.
Lemma temp_same Long : -180 <= Long < 180 -> long_temp Long = Long.
Proof. intros H. unfold long_temp. rewrite (trunc_between ((Long + 180) / 360) 0); [lra| |lia]. lra. Qed.

Definition plain_zone (t : R) : Z := (trunc ((t + 180) / 6) + 1)%Z.
Lemma plain_range t : -180 <= t < 180 -> (1 <= plain_zone t <= 60)%Z /\ long_origin (plain_zone t) - 3 <= t < long_origin (plain_zone t) + 3.
Proof.
  intros H. unfold plain_zone, long_origin. assert (F : 0 <= (t + 180) / 6 < 60) by lra.
  pose proof (trunc_range _ 0 60 F ltac:(lia)). pose proof (trunc_nonneg _ (proj1 F)). split; [lia|]. rewrite plus_IZR. lra.
Qed.

Lemma rad_neg x : rad (- x) = - rad x.
Proof. unfold rad. ring. Qed.
Lemma distance_neg a e phi : meridian_distance a e (- phi) = - meridian_distance a e phi.
Proof. unfold meridian_distance. rewrite <- !Ropp_mult_distr_r, !sin_neg. ring. Qed.
Lemma radius_neg a e s : radius a e (- s) = radius a e s.
Proof. unfold radius. do 2 f_equal. ring. Qed.
Lemma foot_neg a e M : foot a e (- M) = - foot a e M.
Proof.
  unfold foot. cbv zeta. set (e1 := (1 - sqrt (1 - e)) / (1 + sqrt (1 - e))). set (g := a * _).
  replace (- M / g) with (- (M / g)) by (unfold Rdiv; ring). rewrite <- !Ropp_mult_distr_r, !sin_neg. ring.
Qed.
Lemma foot_zero a e : foot a e 0 = 0.
Proof. pose proof (foot_neg a e 0) as H. rewrite Ropp_0 in H. lra. Qed.
Lemma lat_even ep T C D : lat_part ep T C (- D) = lat_part ep T C D.
Proof. unfold lat_part. field. Qed.
Lemma long_odd ep T C D : long_part ep T C (- D) = - long_part ep T C D.
Proof. unfold long_part. field. Qed.
