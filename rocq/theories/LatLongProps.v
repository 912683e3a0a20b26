(** C112: the conversions between latitude and longitude and UTM *)
From Coq Require Import Ascii Reals List ZArith Bool Lra Lia.
From Verif Require Import RealLib GridModel GridProofs RedfearnModel RedfearnProofs LatLongModel LatLongProofs.
Import ListNotations.
Local Open Scope R_scope.

(** South-west Norway and Svalbard have wider zones. *)
Definition special (Lat t : R) : Prop := (56 <= Lat < 64 /\ 3 <= t < 12) \/ (72 <= Lat < 84 /\ 0 <= t < 42).

(** East of 180 west, any number of times around: the zone is from 1 to 60, and
    its meridian within 3 degrees, or 6 in the wider zones. *)
Theorem C112_zone_partial Lat Long : -180 <= Long ->
  exists t k, -180 <= t < 180 /\ t = Long - 360 * IZR k /\ (1 <= zone_number Lat Long <= 60)%Z /\
    (~ special Lat t -> long_origin (zone_number Lat Long) - 3 <= t < long_origin (zone_number Lat Long) + 3) /\
    long_origin (zone_number Lat Long) - 6 <= t < long_origin (zone_number Lat Long) + 6.
Proof.
  intros H. destruct (temp_range Long H) as [B (k & _ & K)]. exists (long_temp Long), k. split; [exact B|]. split; [exact K|].
  destruct (plain_range _ B) as [P1 P2]. unfold zone_number. cbv zeta. fold (plain_zone (long_temp Long)).
  set (t := long_temp Long) in *. unfold special.
  destruct (inside_spec Lat 56 64), (inside_spec t 3 12), (inside_spec Lat 72 84); try lra; cbn [andb];
    try (destruct (inside_spec t 0 9); [|destruct (inside_spec t 9 21); [|destruct (inside_spec t 21 33); [|destruct (inside_spec t 33 42)]]]);
    (split; [lia|split; [intros N|]; try lra; try (exfalso; apply N; lra); unfold long_origin; lra]).
Qed.
Print Assumptions C112_zone_partial.

(** West of 180 west the longitude is not brought back: the number of the zone
    is 0 or less. *)
Theorem C112_west_refuted Lat Long : -540 < Long <= -186 -> (zone_number Lat Long <= 0)%Z.
Proof.
  intros H. assert (T : long_temp Long = Long).
  { unfold long_temp, trunc. rewrite (proj2 (Rltb_true _ 0)) by lra. pose proof (int_part_bounds (- ((Long + 180) / 360))) as B.
    assert (Int_part (- ((Long + 180) / 360)) = 0%Z) as ->; [|cbn; lra]. apply Z.le_antisymm; apply Z.lt_succ_r, lt_IZR; rewrite succ_IZR; lra. }
  unfold zone_number. cbv zeta. rewrite T.
  destruct (inside_spec Long 3 12), (inside_spec Long 0 9), (inside_spec Long 9 21), (inside_spec Long 21 33), (inside_spec Long 33 42); try lra.
  rewrite andb_false_r. assert (Z : (trunc ((Long + 180) / 6) + 1 <= 0)%Z).
  { unfold trunc. rewrite (proj2 (Rltb_true _ 0)) by lra. pose proof (int_part_bounds (- ((Long + 180) / 6))) as B.
    assert (1 <= Int_part (- ((Long + 180) / 6)))%Z; [|lia]. apply Z.lt_succ_r, lt_IZR. rewrite succ_IZR. lra. }
  destruct (inside Lat 72 84); exact Z.
Qed.
Print Assumptions C112_west_refuted.

(** The zone is that of [redfearn] outside the wider zones, with the same
    meridian. *)
Theorem C112_same_zone_partial Lat Long : -180 <= Long < 180 -> ~ special Lat Long ->
  zone_of Long = Some (zone_number Lat Long) /\ central (zone_number Lat Long) = long_origin (zone_number Lat Long).
Proof.
  intros H N. split; [|unfold central, long_origin; lra].
  assert (E : zone_number Lat Long = plain_zone Long).
  { unfold zone_number. cbv zeta. rewrite (temp_same Long H). fold (plain_zone Long). unfold special in N.
    destruct (inside_spec Lat 56 64), (inside_spec Long 3 12), (inside_spec Lat 72 84); try lra; cbn [andb]; try reflexivity;
      try (exfalso; apply N; lra);
      (destruct (inside_spec Long 0 9); [exfalso; apply N; lra|]; destruct (inside_spec Long 9 21); [exfalso; apply N; lra|];
       destruct (inside_spec Long 21 33); [exfalso; apply N; lra|]; destruct (inside_spec Long 33 42); [exfalso; apply N; lra|]; reflexivity). }
  rewrite E. destruct (plain_range Long H) as [R _]. unfold zone_of. cbv zeta.
  assert (T : trunc ((Long - -186) / 6) = plain_zone Long).
  { apply trunc_between; [|lia]. destruct (plain_range Long H) as [_ C]. unfold long_origin in C. lra. }
  rewrite T. destruct (Z.ltb_spec 60 (plain_zone Long)); [lia|].
  rewrite (proj2 (Z.leb_le 1 _)), (proj2 (Z.leb_le _ 60)), orb_true_r by lia. reflexivity.
Qed.
Print Assumptions C112_same_zone_partial.
(** In south-west Norway the two differ. *)
Theorem C112_same_zone_refuted Lat Long : 56 <= Lat < 64 -> 3 <= Long < 6 -> zone_number Lat Long = 32%Z /\ zone_of Long = Some 31%Z.
Proof.
  intros A B. split.
  - unfold zone_number. cbv zeta. rewrite temp_same by lra. destruct (inside_spec Lat 56 64); [|lra]. destruct (inside_spec Long 3 12); [|lra].
    destruct (inside_spec Lat 72 84); [lra|]. reflexivity.
  - unfold zone_of. cbv zeta. rewrite (trunc_between ((Long - -186) / 6) 31); [reflexivity|lra|lia].
Qed.
Print Assumptions C112_same_zone_refuted.

(** North and south of the equator, below the wider zones: same easting, and
    northings that add up to 10000000. *)
Theorem C112_equator a e Lat Long z x y : 0 < Lat < 56 -> LLtoUTM a e Lat Long = (z, x, y) -> LLtoUTM a e (- Lat) Long = (z, x, 10000000 - y).
Proof.
  intros L. unfold LLtoUTM. cbv zeta.
  assert (Z : zone_number (- Lat) Long = zone_number Lat Long).
  { unfold zone_number. cbv zeta. destruct (inside_spec (- Lat) 56 64), (inside_spec Lat 56 64), (inside_spec (- Lat) 72 84), (inside_spec Lat 72 84); try lra. reflexivity. }
  rewrite Z, rad_neg, sin_neg, cos_neg, tan_neg, radius_neg, distance_neg.
  rewrite (proj2 (Rltb_false Lat 0)), (proj2 (Rltb_true (- Lat) 0)) by lra.
  intros H. injection H; intros <- <- <-. clear H Z.
  replace (- tan (rad Lat) * - tan (rad Lat)) with (tan (rad Lat) * tan (rad Lat)) by ring. f_equal. ring.
Qed.
Print Assumptions C112_equator.

(** On the meridian of a zone the easting is 500000, and back again the
    longitude is exact; on the equator too the latitude is exact. *)
Theorem C112_meridian_partial a e Lat z : (1 <= z <= 60)%Z -> -56 < Lat < 56 ->
  exists y, LLtoUTM a e Lat (long_origin z) = (z, 500000, y) /\
    (forall southern, snd (UTMtoLL a e y 500000 z southern) = long_origin z) /\
    (Lat = 0 -> UTMtoLL a e y 500000 z false = (0, long_origin z)).
Proof.
  intros Z L. pose proof (IZR_le 1 z (proj1 Z)) as Z1. pose proof (IZR_le z 60 (proj2 Z)) as Z2.
  assert (B : -180 <= long_origin z < 180) by (unfold long_origin; lra).
  assert (E : zone_number Lat (long_origin z) = z).
  { unfold zone_number. cbv zeta. rewrite (temp_same _ B). destruct (inside_spec Lat 56 64), (inside_spec Lat 72 84); try lra. cbn [andb].
    rewrite (trunc_between _ (z - 1)); [lia| |lia]. rewrite minus_IZR. unfold long_origin. lra. }
  unfold LLtoUTM. cbv zeta. rewrite E, (temp_same _ B). eexists. split.
  - assert (EP : forall ep T C, east_part ep T C 0 = 0) by (intros; unfold east_part; lra).
    replace (cos (rad Lat) * (rad (long_origin z) - rad (long_origin z))) with 0 by ring. rewrite EP. f_equal. f_equal. ring.
  - assert (D0 : forall r, (500000 - 500000) / r = 0) by (intros r; unfold Rdiv; ring).
    assert (LP : forall ep T C, long_part ep T C 0 = 0) by (intros; unfold long_part; lra).
    split.
    + intros southern. unfold UTMtoLL. cbv zeta. cbn [snd]. rewrite D0, LP. unfold Rdiv. ring.
    + intros ->. unfold UTMtoLL. cbv zeta. rewrite D0, LP. rewrite (proj2 (Rltb_false 0 0)) by lra.
      replace (rad 0) with 0 by (unfold rad; ring). rewrite tan_0.
      assert (M0 : meridian_distance a e 0 = 0) by (unfold meridian_distance; rewrite !Rmult_0_r, sin_0; ring).
      rewrite M0. match goal with |- context [foot a e ?M] => replace M with 0 by (unfold Rdiv; ring) end.
      rewrite foot_zero, tan_0. f_equal; unfold Rdiv; ring.
Qed.
Print Assumptions C112_meridian_partial.

(** Points on either side of a meridian, below the wider zones: same northing,
    and eastings on either side of 500000. *)
Lemma zone_about Lat z d : (1 <= z <= 60)%Z -> -56 < Lat < 56 -> -3 < d < 3 ->
  zone_number Lat (long_origin z + d) = z /\ long_temp (long_origin z + d) = long_origin z + d.
Proof.
  intros Z L D. pose proof (IZR_le 1 z (proj1 Z)) as Z1. pose proof (IZR_le z 60 (proj2 Z)) as Z2.
  assert (B : -180 <= long_origin z + d < 180) by (unfold long_origin; lra). split; [|apply temp_same; exact B].
  unfold zone_number. cbv zeta. rewrite (temp_same _ B). destruct (inside_spec Lat 56 64), (inside_spec Lat 72 84); try lra. cbn [andb].
  rewrite (trunc_between _ (z - 1)); [lia| |lia]. rewrite minus_IZR. unfold long_origin. lra.
Qed.
Theorem C112_mirror a e Lat z d x y : (1 <= z <= 60)%Z -> -56 < Lat < 56 -> -3 < d < 3 ->
  LLtoUTM a e Lat (long_origin z + d) = (z, x, y) -> LLtoUTM a e Lat (long_origin z - d) = (z, 1000000 - x, y).
Proof.
  intros Z L D. destruct (zone_about Lat z d Z L D) as [A B]. destruct (zone_about Lat z (- d) Z L ltac:(lra)) as [A' B'].
  replace (long_origin z + - d) with (long_origin z - d) in A', B' by ring. unfold LLtoUTM. cbv zeta. rewrite A, B, A', B'.
  replace (cos (rad Lat) * (rad (long_origin z + d) - rad (long_origin z))) with (cos (rad Lat) * rad d) by (unfold rad; ring).
  replace (cos (rad Lat) * (rad (long_origin z - d) - rad (long_origin z))) with (- (cos (rad Lat) * rad d)) by (unfold rad; ring).
  set (w := cos (rad Lat) * rad d).
  assert (O : forall ep T C, east_part ep T C (- w) = - east_part ep T C w) by (intros; unfold east_part; field).
  assert (V : forall ep T C, north_part ep T C (- w) = north_part ep T C w) by (intros; unfold north_part; field).
  rewrite O, V. intros H. assert (H1 := f_equal (fun t => snd (fst t)) H). assert (H2 := f_equal snd H). cbn [fst snd] in H1, H2. clear H.
  rewrite H2, <- H1. f_equal. f_equal. ring.
Qed.
Print Assumptions C112_mirror.
Example C112_mirror_case a e : exists x y, LLtoUTM a e 30 (long_origin 56 + 1) = (56%Z, x, y) /\ LLtoUTM a e 30 (long_origin 56 - 1) = (56%Z, 1000000 - x, y).
Proof.
  destruct (LLtoUTM a e 30 (long_origin 56 + 1)) as [[z x] y] eqn:E. exists x, y.
  assert (z = 56%Z) as ->.
  { assert (H := f_equal (fun t => fst (fst t)) E). cbn [fst] in H. rewrite <- H. unfold LLtoUTM. cbn [fst]. apply (zone_about 30 56 1); [lia|lra|lra]. }
  split; [reflexivity|]. apply C112_mirror; [lia|lra|lra|exact E].
Qed.

(** Back from UTM: mirror images of the easting have the same latitude and
    mirror images of the longitude; mirror images of the northing likewise. *)
Theorem C112_back a e y d z lat lon : UTMtoLL a e y (500000 + d) z false = (lat, lon) ->
  UTMtoLL a e y (500000 - d) z false = (lat, 2 * long_origin z - lon) /\
  UTMtoLL a e (- y) (500000 + d) z false = (- lat, lon) /\
  UTMtoLL a e (10000000 - y) (500000 + d) z true = (- lat, lon).
Proof.
  assert (G : forall y x, UTMtoLL a e (10000000 - y) x z true = UTMtoLL a e (- y) x z false).
  { intros y' x. unfold UTMtoLL. cbv zeta. replace (10000000 - y' - 10000000) with (- y') by ring. reflexivity. }
  rewrite G. unfold UTMtoLL. cbv zeta. intros H.
  assert (H1 := f_equal fst H). assert (H2 := f_equal snd H). cbn [fst snd] in H1, H2. clear H. subst lat lon.
  replace (500000 + d - 500000) with d by ring. replace (500000 - d - 500000) with (- d) by ring. split.
  - replace (- d / _) with (- (d / (radius a e (sin (foot a e (y / (9996 / 10000)))) * (9996 / 10000)))) by (unfold Rdiv; ring).
    rewrite lat_even, long_odd. f_equal. unfold Rdiv. ring.
  - assert (K : UTMtoLL a e (- y) (500000 + d) z false = (- fst (UTMtoLL a e y (500000 + d) z false), snd (UTMtoLL a e y (500000 + d) z false))).
    { unfold UTMtoLL. cbv zeta. cbn [fst snd]. replace (- y / (9996 / 10000)) with (- (y / (9996 / 10000))) by (unfold Rdiv; ring).
      rewrite foot_neg, sin_neg, cos_neg, tan_neg, radius_neg. set (p := foot a e (y / (9996 / 10000))).
      replace (- tan p * - tan p) with (tan p * tan p) by ring. replace (1 - e * - sin p * - sin p) with (1 - e * sin p * sin p) by ring.
      f_equal. unfold Rdiv. ring. }
    unfold UTMtoLL in K. cbv zeta in K. cbn [fst snd] in K. replace (500000 + d - 500000) with d in K by ring. split; exact K.
Qed.
Print Assumptions C112_back.

(** The letter of a latitude from 80 south to 84 north: bands of 8 degrees from
    C, without I and O; the last band has 12. *)
Definition letters : list ascii := ["C"; "D"; "E"; "F"; "G"; "H"; "J"; "K"; "L"; "M"; "N"; "P"; "Q"; "R"; "S"; "T"; "U"; "V"; "W"; "X"]%char.
Lemma band_skip upper Lat l c lo : Lat < lo -> band upper Lat ((lo, c) :: l) = band lo Lat l.
Proof. intros H. cbn [band]. destruct (Rleb_spec lo Lat); [lra|]. rewrite andb_false_r. reflexivity. Qed.
Lemma band_take upper Lat l c lo : lo <= Lat < upper -> band upper Lat ((lo, c) :: l) = c.
Proof. intros H. cbn [band]. destruct (Rleb_spec lo Lat); [|lra]. destruct (Rltb_spec Lat upper); [reflexivity|lra]. Qed.
Theorem C112_letter Lat :
  (forall n, (n < 20)%nat -> 8 * INR n - 80 <= Lat < 8 * INR n - 72 -> letter Lat = nth n letters "Z"%char) /\
  (72 <= Lat <= 84 -> letter Lat = "X"%char) /\ (Lat < -80 \/ 84 < Lat -> letter Lat = "Z"%char).
Proof.
  split; [|split].
  - intros n Hn. unfold letter. cbn [letter_bands tl].
    do 20 (destruct n as [|n]; [cbn [INR nth letters]; intros H;
      (destruct (Rleb_spec 72 Lat);
       [first [exfalso; lra|destruct (Rleb_spec Lat 84); [reflexivity|lra]]
       |first [exfalso; lra|rewrite andb_false_r; repeat (rewrite band_skip by lra); rewrite band_take by lra; reflexivity]])|]). lia.
  - intros H. unfold letter. destruct (Rleb_spec Lat 84); [|lra]. destruct (Rleb_spec 72 Lat); [reflexivity|lra].
  - intros [H|H]; unfold letter; cbn [letter_bands tl].
    + destruct (Rleb_spec 72 Lat); [lra|]. rewrite andb_false_r. repeat (rewrite band_skip by lra). reflexivity.
    + destruct (Rleb_spec Lat 84); [lra|]. cbn [andb].
      cbn [band]. repeat (match goal with |- context [Rltb Lat ?u] => destruct (Rltb_spec Lat u); [lra|] end; cbn [andb]). reflexivity.
Qed.
Print Assumptions C112_letter.

(** Cases *)
Example C112_zone_case : exists t k, -180 <= t < 180 /\ t = 511 - 360 * IZR k /\ (1 <= zone_number (-30) 511 <= 60)%Z.
Proof. destruct (C112_zone_partial (-30) 511 ltac:(lra)) as (t & k & A & B & C & _). exists t, k. tauto. Qed.
Example C112_west_case : (zone_number 0 (-190) <= 0)%Z.
Proof. apply C112_west_refuted. lra. Qed.
Example C112_same_zone_case : zone_of 151 = Some (zone_number (-30) 151).
Proof. apply C112_same_zone_partial; [lra|]. unfold special. intros [?|?]; lra. Qed.
Example C112_same_zone_refuted_case : zone_number 60 5 = 32%Z /\ zone_of 5 = Some 31%Z.
Proof. apply C112_same_zone_refuted; lra. Qed.
Example C112_equator_case a e : exists z x y, LLtoUTM a e 30 151 = (z, x, y) /\ LLtoUTM a e (Ropp 30) 151 = (z, x, 10000000 - y).
Proof. eexists. eexists. eexists. split; [reflexivity|]. apply C112_equator; [lra|reflexivity]. Qed.
Example C112_meridian_case a e : exists y, LLtoUTM a e 0 (long_origin 56) = (56%Z, 500000, y) /\ UTMtoLL a e y 500000 56 false = (0, long_origin 56).
Proof. destruct (C112_meridian_partial a e 0 56 ltac:(lia) ltac:(lra)) as (y & A & _ & B). exists y. split; [exact A|exact (B eq_refl)]. Qed.
Example C112_back_case a e : exists lat lon, UTMtoLL a e 1000 (500000 + 7) 56 false = (lat, lon) /\ UTMtoLL a e 1000 (500000 - 7) 56 false = (lat, 2 * long_origin 56 - lon).
Proof. eexists. eexists. split; [reflexivity|]. apply (C112_back a e 1000 7 56). reflexivity. Qed.
Example C112_letter_case : letter (-33) = "H"%char /\ letter 0 = "N"%char /\ letter 90 = "Z"%char.
Proof.
  split; [|split].
  - apply (proj1 (C112_letter (-33)) 5%nat); [lia|cbn; lra].
  - apply (proj1 (C112_letter 0) 10%nat); [lia|cbn; lra].
  - apply C112_letter. lra.
Qed.
