(** C121: rotations and the centroid of a slip surface *)
From Coq Require Import Reals Lra Lia.
From Verif Require Import SlipCentroidModel.
Local Open Scope R_scope.

Definition rad (a : R) : R := a / 180 * PI.

(** Rotations by 0 and a right angle, anticlockwise; they compose, and keep
    distances and orientation *)
Theorem C121_rotation p a :
  rotate_coordinates p 0 = p /\ rotate_coordinates p 90 = (- snd p, fst p) /\
  (forall b, rotate_coordinates (rotate_coordinates p a) b = rotate_coordinates p (a + b)) /\
  rotate_coordinates (rotate_coordinates p a) (- a) = p /\
  rotate_coordinates p (a + 360) = rotate_coordinates p a.
Proof.
  destruct p as [x y]. unfold rotate_coordinates. cbn [fst snd].
  assert (D : forall b, (a + b) / 180 * PI = a / 180 * PI + b / 180 * PI) by (intros b; lra).
  split; [|split; [|split; [|split]]].
  - replace (0 / 180 * PI) with 0 by lra. rewrite cos_0, sin_0. f_equal; ring.
  - replace (90 / 180 * PI) with (PI / 2) by lra. rewrite cos_PI2, sin_PI2. f_equal; ring.
  - intros b. rewrite D, cos_plus, sin_plus. f_equal; ring.
  - replace (- a / 180 * PI) with (- (a / 180 * PI)) by lra. rewrite cos_neg, sin_neg. pose proof (sin2_cos2 (a / 180 * PI)) as Q. unfold Rsqr in Q.
    f_equal; [transitivity (x * (sin (a / 180 * PI) * sin (a / 180 * PI) + cos (a / 180 * PI) * cos (a / 180 * PI)))|transitivity (y * (sin (a / 180 * PI) * sin (a / 180 * PI) + cos (a / 180 * PI) * cos (a / 180 * PI)))]; try ring; rewrite Q; ring.
  - rewrite D. replace (360 / 180 * PI) with (2 * PI) by lra. rewrite cos_plus, sin_plus, cos_2PI, sin_2PI. f_equal; ring.
Qed.
Print Assumptions C121_rotation.
Theorem C121_isometry p q a :
  let p' := rotate_coordinates p a in let q' := rotate_coordinates q a in
  (fst p' - fst q') ^ 2 + (snd p' - snd q') ^ 2 = (fst p - fst q) ^ 2 + (snd p - snd q) ^ 2 /\
  fst p' * snd q' - snd p' * fst q' = fst p * snd q - snd p * fst q.
Proof.
  destruct p as [x y], q as [u v]. unfold rotate_coordinates. cbn [fst snd]. pose proof (sin2_cos2 (a / 180 * PI)) as Q. unfold Rsqr in Q.
  set (s := sin (a / 180 * PI)) in *. set (c := cos (a / 180 * PI)) in *. split.
  - transitivity (((x - u) ^ 2 + (y - v) ^ 2) * (s * s + c * c)); [ring|rewrite Q; ring].
  - transitivity ((x * v - y * u) * (s * s + c * c)); [ring|rewrite Q; ring].
Qed.
Print Assumptions C121_isometry.
(** The centroid lies half the length along the strike, measured clockwise from
    north, and half the width against the direction of dip, to the right of the
    strike, and up the dip *)
Theorem C121_centroid o depth len width strike dip :
  okada_origin_2_slip_centroid o depth len width strike dip =
  (fst o + 1000 * (len / 2 * sin (rad strike) - width / 2 * cos (rad dip) * cos (rad strike)),
   snd o + 1000 * (len / 2 * cos (rad strike) + width / 2 * cos (rad dip) * sin (rad strike)),
   depth - width / 2 * sin (rad dip)).
Proof.
  unfold okada_origin_2_slip_centroid, rotate_coordinates, rad. cbn [fst snd].
  replace (- (strike - 90) / 180 * PI) with (PI / 2 - strike / 180 * PI) by lra. rewrite cos_shift, sin_shift. apply f_equal2; [apply f_equal2; field|reflexivity].
Qed.
Print Assumptions C121_centroid.
(** Its distance from the origin is half the diagonal of the surface *)
Theorem C121_distance o depth len width strike dip x y z : okada_origin_2_slip_centroid o depth len width strike dip = (x, y, z) ->
  ((x - fst o) / 1000) ^ 2 + ((y - snd o) / 1000) ^ 2 + (z - depth) ^ 2 = (len / 2) ^ 2 + (width / 2) ^ 2.
Proof.
  rewrite C121_centroid. intros H. injection H; intros <- <- <-. pose proof (sin2_cos2 (rad strike)) as Q. pose proof (sin2_cos2 (rad dip)) as Q'. unfold Rsqr in *.
  set (s := sin (rad strike)) in *. set (c := cos (rad strike)) in *. set (u := sin (rad dip)) in *. set (w := cos (rad dip)) in *.
  transitivity (((len / 2) ^ 2 + (width / 2) ^ 2 * (w * w)) * (s * s + c * c) + (width / 2) ^ 2 * (u * u)); [field|]. rewrite Q.
  transitivity ((len / 2) ^ 2 + (width / 2) ^ 2 * (u * u + w * w)); [ring|rewrite Q'; ring].
Qed.
Print Assumptions C121_distance.
(** It is not deeper than the origin for dips from 0 to 180 degrees *)
Theorem C121_depth o depth len width strike dip x y z : 0 <= width -> 0 <= dip <= 180 ->
  okada_origin_2_slip_centroid o depth len width strike dip = (x, y, z) -> depth - width / 2 <= z <= depth.
Proof.
  intros W D. rewrite C121_centroid. intros H. injection H; intros <- _ _. pose proof PI_RGT_0 as P.
  assert (S1 : 0 <= sin (rad dip)) by (apply sin_ge_0; unfold rad; nra). destruct (SIN_bound (rad dip)) as [_ S2]. nra.
Qed.
Print Assumptions C121_depth.

(** Cases: a surface striking north and dipping down vertically *)
Example C121_case : okada_origin_2_slip_centroid (0, 0) 10 4 6 0 90 = (0, 2000, 7).
Proof.
  rewrite C121_centroid. unfold rad. cbn [fst snd]. replace (0 / 180 * PI) with 0 by lra. replace (90 / 180 * PI) with (PI / 2) by lra.
  rewrite sin_0, cos_0, sin_PI2, cos_PI2. apply f_equal2; [apply f_equal2; lra|lra].
Qed.
Example C121_depth_case : 10 - 6 / 2 <= 7 <= 10.
Proof. apply (C121_depth (0, 0) 10 4 6 0 90 0 2000 7); [lra|lra|apply C121_case]. Qed.
