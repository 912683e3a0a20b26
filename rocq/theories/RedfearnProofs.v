(** Proofs about the projection of latitudes and longitudes *)
From Coq Require Import Reals List ZArith Bool Lra Lia.
From Verif Require Import RealLib GridModel GridProofs RedfearnModel.
Import ListNotations.
Local Open Scope R_scope.

Lemma trunc_between x n : IZR n <= x < IZR n + 1 -> (0 <= n)%Z -> trunc x = n.
Proof.
  intros H N. assert (0 <= x) by (pose proof (IZR_le 0 n N); lra). pose proof (trunc_nonneg x H0) as B.
  apply Z.le_antisymm; apply Z.lt_succ_r, lt_IZR; rewrite succ_IZR; lra.
Qed.
Lemma trunc_range x lo hi : IZR lo <= x < IZR hi -> (0 <= lo)%Z -> (lo <= trunc x < hi)%Z.
Proof.
  intros H N. assert (P : 0 <= x) by (pose proof (IZR_le 0 lo N); lra). pose proof (trunc_nonneg x P) as B. split.
  - apply Z.lt_succ_r, lt_IZR. rewrite succ_IZR. lra.
  - apply lt_IZR. lra.
Qed.

Lemma rho_neg s : rho (- s) = rho s.
Proof. unfold rho. do 2 f_equal. f_equal. ring. Qed.
Lemma nu_neg s : nu (- s) = nu s.
Proof. unfold nu. do 2 f_equal. f_equal. ring. Qed.
Lemma meridian_neg phi : meridian (- phi) = - meridian phi.
Proof.
  unfold meridian. cbv zeta. rewrite <- !Ropp_mult_distr_r, !sin_neg. ring.
Qed.
Lemma northing_neg nu psi s c t omega : northing_terms nu psi (- s) c (- t) omega = - northing_terms nu psi s c t omega.
Proof. unfold northing_terms. field. Qed.
Lemma northing_mirror nu psi s c t omega : northing_terms nu psi s c t (- omega) = northing_terms nu psi s c t omega.
Proof. unfold northing_terms. field. Qed.
Lemma easting_neg nu psi c t omega : easting_terms nu psi c (- t) omega = easting_terms nu psi c t omega.
Proof. unfold easting_terms. field. Qed.
Lemma easting_mirror nu psi c t omega : easting_terms nu psi c t (- omega) = - easting_terms nu psi c t omega.
Proof. unfold easting_terms. field. Qed.

(** The coordinates without the false origin and the scale *)
Definition across (lat d : R) : R :=
  let phi := lat * PI / 180 in easting_terms (nu (sin phi)) (nu (sin phi) / rho (sin phi)) (cos phi) (tan phi) (d * PI / 180).
Definition along (lat d : R) : R :=
  let phi := lat * PI / 180 in meridian phi + northing_terms (nu (sin phi)) (nu (sin phi) / rho (sin phi)) (sin phi) (cos phi) (tan phi) (d * PI / 180).
Lemma angle_neg x : - x * PI / 180 = - (x * PI / 180).
Proof. field. Qed.
Lemma across_west lat d : across lat (- d) = - across lat d.
Proof. unfold across. cbv zeta. rewrite angle_neg. apply easting_mirror. Qed.
Lemma along_west lat d : along lat (- d) = along lat d.
Proof. unfold along. cbv zeta. rewrite angle_neg, northing_mirror. reflexivity. Qed.
Lemma across_south lat d : across (- lat) d = across lat d.
Proof. unfold across. cbv zeta. rewrite angle_neg, sin_neg, cos_neg, tan_neg, nu_neg, rho_neg. apply easting_neg. Qed.
Lemma along_south lat d : along (- lat) d = - along lat d.
Proof. unfold along. cbv zeta. rewrite angle_neg, sin_neg, cos_neg, tan_neg, nu_neg, rho_neg, meridian_neg, northing_neg. ring. Qed.

Lemma redfearn_zone lat lon fe fn z k : redfearn lat lon fe fn (Some z) None k =
  Some (z, default 500000 fe + default (9996 / 10000) k * across lat (lon - central z),
        default (if Rltb lat 0 then 10000000 else 0) fn + default (9996 / 10000) k * along lat (lon - central z)).
Proof. reflexivity. Qed.
Lemma redfearn_own lat lon fe fn z k : zone_of lon = Some z -> redfearn lat lon fe fn None None k = redfearn lat lon fe fn (Some z) None k.
Proof. intros H. unfold redfearn. rewrite H. reflexivity. Qed.
Lemma redfearn_zone_of lat lon fe fn k r : redfearn lat lon fe fn None None k = Some r -> zone_of lon = Some (fst (fst r)).
Proof. unfold redfearn. destruct (zone_of lon) as [z|]; [|discriminate]. cbv zeta. intros H. inversion H. reflexivity. Qed.
