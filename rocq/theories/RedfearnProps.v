(** C111: the projection of latitudes and longitudes *)
From Coq Require Import Reals List ZArith Bool Lra Lia.
From Verif Require Import RealLib GridModel GridProofs RedfearnModel RedfearnProofs.
Import ListNotations.
Local Open Scope R_scope.

(** Degrees, minutes and seconds are in range and give the angle back, unless
    it is between -1 and 0. *)
Definition back (dec : R) : option R := let '(dd, mm, ss) := decimal_degrees2degminsec dec in degminsec2decimal_degrees (IZR dd) (IZR mm) ss.
Lemma parts dec : exists dd mm ss, decimal_degrees2degminsec dec = (((if Rltb dec 0 then -1 else 1) * dd)%Z, mm, ss) /\
  (0 <= dd)%Z /\ IZR dd <= Rabs dec < IZR dd + 1 /\ (0 <= mm < 60)%Z /\ 0 <= ss < 60 /\ Rabs dec = IZR dd + IZR mm / 60 + ss / 3600.
Proof.
  unfold decimal_degrees2degminsec. cbv zeta. exists (trunc (Rabs dec)). eexists. eexists. split; [reflexivity|].
  pose proof (Rabs_pos dec) as P. pose proof (trunc_nonneg _ P) as B. pose proof (trunc_nonneg_pos _ P) as Q.
  assert (F : 0 <= (Rabs dec - IZR (trunc (Rabs dec))) * 60 < 60) by lra.
  pose proof (trunc_nonneg _ (proj1 F)) as B2. pose proof (trunc_range _ 0 60 F ltac:(lia)) as R2.
  split; [exact Q|]. split; [exact B|]. split; [exact R2|]. split; [lra|]. field.
Qed.
Theorem C111_degrees_partial dec :
  (let '(dd, mm, ss) := decimal_degrees2degminsec dec in (0 <= mm < 60)%Z /\ 0 <= ss < 60) /\
  (0 <= dec \/ dec <= -1 -> back dec = Some dec).
Proof.
  destruct (parts dec) as (dd & mm & ss & E & D & B & M & S & T). unfold back. rewrite E. split; [split; assumption|]. intros H.
  unfold degminsec2decimal_degrees. assert (M0 : 0 <= IZR mm) by (apply (IZR_le 0); lia).
  rewrite (proj2 (Rltb_false (IZR mm) 0)), (proj2 (Rltb_false ss 0)) by lra. cbn [orb]. cbv zeta. f_equal.
  pose proof (IZR_le 0 dd D) as D0. rewrite mult_IZR. destruct H as [H|H].
  - rewrite (proj2 (Rltb_false dec 0)) by lra. rewrite Rmult_1_l, (proj2 (Rltb_false (IZR dd) 0)), (Rabs_right (IZR dd)) by lra.
    rewrite (Rabs_right dec) in T by lra. lra.
  - rewrite (proj2 (Rltb_true dec 0)) by lra. rewrite (Rabs_left dec) in * by lra.
    assert (D1 : (0 < dd)%Z) by (apply lt_IZR; lra). pose proof (IZR_lt 0 dd D1).
    rewrite (proj2 (Rltb_true (-1 * IZR dd) 0)) by lra. rewrite Rabs_left by lra. lra.
Qed.
Print Assumptions C111_degrees_partial.
(** Between -1 and 0 the sign is lost. *)
Theorem C111_degrees_refuted dec : -1 < dec < 0 -> back dec = Some (- dec).
Proof.
  intros H. destruct (parts dec) as (dd & mm & ss & E & D & B & M & S & T). unfold back. rewrite E.
  rewrite (Rabs_left dec) in * by lra. assert (dd = 0%Z) by (assert (dd < 1)%Z by (apply lt_IZR; lra); lia). subst dd.
  rewrite (proj2 (Rltb_true dec 0)) by lra. cbn [Z.mul].
  unfold degminsec2decimal_degrees. assert (M0 : 0 <= IZR mm) by (apply (IZR_le 0); lia).
  rewrite (proj2 (Rltb_false (IZR mm) 0)), (proj2 (Rltb_false ss 0)), (proj2 (Rltb_false 0 0)) by lra. cbn [orb]. cbv zeta. f_equal.
  rewrite Rabs_R0. lra.
Qed.
Print Assumptions C111_degrees_refuted.

(** From 180 west to 180 east the zone is one of 60, and its meridian is at most
    3 degrees away. *)
Theorem C111_zone_partial lon : -180 <= lon < 180 ->
  exists z, zone_of lon = Some z /\ (1 <= z <= 60)%Z /\ central z - 3 <= lon < central z + 3.
Proof.
  intros H. unfold zone_of. cbv zeta. assert (F : 1 <= (lon - -186) / 6 < 61) by lra.
  pose proof (trunc_range _ 1 61 F ltac:(lia)) as Z. pose proof (trunc_nonneg ((lon - -186) / 6) ltac:(lra)) as B.
  exists (trunc ((lon - -186) / 6)). destruct (Z.ltb_spec 60 (trunc ((lon - -186) / 6))); [lia|].
  rewrite (proj2 (Z.leb_le 1 _)), (proj2 (Z.leb_le _ 60)), orb_true_r by lia. split; [reflexivity|]. split; [lia|]. unfold central. lra.
Qed.
Print Assumptions C111_zone_partial.
(** From 180 on the zone is that of the longitude less 360, but the longitude
    is not changed: it is at least 357 degrees away from the meridian. *)
Theorem C111_wrap_refuted lon : 180 <= lon < 540 ->
  exists z, zone_of lon = Some z /\ zone_of (lon - 360) = Some z /\ 357 <= lon - central z < 363.
Proof.
  intros H. destruct (C111_zone_partial (lon - 360) ltac:(lra)) as (z & E & R & C). exists z. split; [|split; [exact E|lra]].
  unfold zone_of. cbv zeta. assert (T : trunc ((lon - -186) / 6) = (z + 60)%Z).
  { apply trunc_between; [|lia]. rewrite plus_IZR. unfold central in C. lra. }
  rewrite T. destruct (Z.ltb_spec 60 (z + 60)); [|lia]. replace (z + 60 - 60)%Z with z by lia.
  rewrite (proj2 (Z.leb_le 1 _)), (proj2 (Z.leb_le _ 60)), orb_true_r by lia. reflexivity.
Qed.
Print Assumptions C111_wrap_refuted.
(** Some longitudes beyond 180 west pass as the zone -1, which stands for no
    zone. *)
Theorem C111_no_zone_refuted lon : -198 < lon <= -192 -> zone_of lon = Some (-1)%Z.
Proof.
  intros H. unfold zone_of. cbv zeta. assert (T : trunc ((lon - -186) / 6) = (-1)%Z).
  { unfold trunc. rewrite (proj2 (Rltb_true _ 0)) by lra. pose proof (int_part_bounds (- ((lon - -186) / 6))) as B.
    assert (Int_part (- ((lon - -186) / 6)) = 1%Z); [|lia]. apply Z.le_antisymm; apply Z.lt_succ_r, lt_IZR; rewrite succ_IZR; lra. }
  rewrite T. reflexivity.
Qed.
Print Assumptions C111_no_zone_refuted.

(** The projection is symmetric about its meridian and about the equator, and
    their crossing is the false origin. *)
Theorem C111_symmetry lat d fe fn z k x y : redfearn lat (central z + d) (Some fe) (Some fn) (Some z) None k = Some (z, x, y) ->
  redfearn lat (central z - d) (Some fe) (Some fn) (Some z) None k = Some (z, 2 * fe - x, y) /\
  redfearn (- lat) (central z + d) (Some fe) (Some fn) (Some z) None k = Some (z, x, 2 * fn - y) /\
  redfearn 0 (central z) (Some fe) (Some fn) (Some z) None k = Some (z, fe, fn) /\
  (d = 0 -> x = fe) /\ (lat = 0 -> y = fn).
Proof.
  rewrite !redfearn_zone. cbn [default]. replace (central z + d - central z) with d by ring. replace (central z - d - central z) with (- d) by ring.
  replace (central z - central z) with 0 by ring. intros H. inversion H. clear H.
  rewrite across_west, along_west, across_south, along_south.
  assert (A0 : forall l, across l 0 = 0) by (intros l; pose proof (across_west l 0) as E; rewrite Ropp_0 in E; lra).
  assert (L0 : forall e, along 0 e = 0) by (intros e; pose proof (along_south 0 e) as E; rewrite Ropp_0 in E; lra).
  split; [f_equal; f_equal; f_equal; ring|]. split; [f_equal; f_equal; ring|].
  split; [rewrite A0, L0; f_equal; f_equal; [f_equal|]; ring|]. split; intros ->; [rewrite A0|rewrite L0]; ring.
Qed.
Print Assumptions C111_symmetry.

(** With the meridian of the zone given in its place, the coordinates are the
    same, with no zone; both are refused. *)
Theorem C111_meridian lat lon fe fn k z x y : redfearn lat lon fe fn None None k = Some (z, x, y) ->
  redfearn lat lon fe fn None (Some (central z)) k = Some ((-1)%Z, x, y) /\ redfearn lat lon fe fn (Some z) None k = Some (z, x, y) /\
  redfearn lat lon fe fn (Some z) (Some (central z)) k = None.
Proof.
  intros H. pose proof (redfearn_zone_of _ _ _ _ _ _ H) as Z. cbn [fst] in Z. rewrite (redfearn_own _ _ _ _ z) in H by exact Z.
  split; [|split; [exact H|reflexivity]]. unfold redfearn in *. rewrite Z. cbv zeta in *. cbn [default] in *. inversion H. reflexivity.
Qed.
Print Assumptions C111_meridian.

(** With any meridian given, a point is projected as one at the same distance
    from the meridian of a zone. *)
Theorem C111_any_meridian lat cm d fe fn k z' x y : redfearn lat (cm + d) fe fn None (Some cm) k = Some (z', x, y) ->
  z' = (-1)%Z /\ forall z, redfearn lat (central z + d) fe fn (Some z) None k = Some (z, x, y).
Proof.
  unfold redfearn. cbv zeta. cbn [default]. destruct (zone_of (cm + d)) as [w|]; [|discriminate]. replace (cm + d - cm) with d by ring.
  intros H. assert (E := f_equal (default ((0%Z, 0), 0)) H). cbn [default] in E. clear H.
  assert (E1 := f_equal (fun t => fst (fst t)) E). assert (E2 := f_equal (fun t => snd (fst t)) E). assert (E3 := f_equal snd E). cbn [fst snd] in E1, E2, E3.
  split; [auto|]. intros z. replace (central z + d - central z) with d by ring. rewrite E2, E3. reflexivity.
Qed.
Print Assumptions C111_any_meridian.
Example C111_any_meridian_case : exists x y, redfearn (-30) (150 + 1) None None None (Some 150) None = Some ((-1)%Z, x, y) /\ redfearn (-30) (central 56 + 1) None None (Some 56%Z) None None = Some (56%Z, x, y).
Proof.
  destruct (redfearn (-30) (150 + 1) None None None (Some 150) None) as [[[z x] y]|] eqn:E.
  - exists x, y. destruct (C111_any_meridian _ _ _ _ _ _ _ _ _ E) as [-> H]. split; [reflexivity|apply H].
  - exfalso. destruct (C111_zone_partial (150 + 1) ltac:(lra)) as (z & Z & _). unfold redfearn in E. rewrite Z in E. discriminate.
Qed.

(** A list of points between 180 west and 180 east: each is projected in the
    common zone. *)
Definition within (p : R * R) : Prop := -180 <= snd p < 180.
Lemma convert_known fe fn : forall points z l z', (1 <= z)%Z -> Forall within points -> convert_from fe fn z points = Some (l, z') ->
  z' = z /\ Forall2 (fun p q => redfearn (fst p) (snd p) fe fn None None None = Some (z, fst q, snd q)) points l.
Proof.
  induction points as [|[lat lon] points IH]; intros z l z' Z W H; cbn [convert_from] in H.
  - injection H; intros <- <-. split; [reflexivity|constructor].
  - inversion W as [|? ? W1 W2]; subst. unfold within in W1. cbn [snd] in W1.
    destruct (redfearn lat lon fe fn None None None) as [[[z1 x] y]|] eqn:E; [|discriminate].
    destruct (C111_zone_partial lon W1) as (z2 & E2 & R2 & _). pose proof (redfearn_zone_of _ _ _ _ _ _ E) as E3. cbn [fst] in E3.
    assert (z2 = z1) by congruence. subst z2. unfold reconcile in H.
    destruct (Z.eqb_spec z z1) as [<-|].
    + destruct (convert_from fe fn z points) as [[l' z'']|] eqn:C; [|discriminate]. injection H; intros <- <-.
      destruct (IH z l' z'' Z W2 C) as [-> F]. split; [reflexivity|]. constructor; [exact E|exact F].
    + destruct (Z.eqb_spec z (-1)); [lia|]. destruct (Z.eqb_spec z1 (-1)); [lia|discriminate].
Qed.
Theorem C111_points_partial fe fn points l z : Forall within points -> points <> [] ->
  (convert_from_latlon_to_utm fe fn points = Some (l, z) <->
   Forall2 (fun p q => redfearn (fst p) (snd p) fe fn None None None = Some (z, fst q, snd q)) points l).
Proof.
  intros W Ne. unfold convert_from_latlon_to_utm. split.
  - destruct points as [|[lat lon] points]; [congruence|]. cbn [convert_from].
    inversion W as [|? ? W1 W2]; subst. unfold within in W1. cbn [snd] in W1.
    destruct (redfearn lat lon fe fn None None None) as [[[z1 x] y]|] eqn:E; [|discriminate].
    destruct (C111_zone_partial lon W1) as (z2 & E2 & R2 & _). pose proof (redfearn_zone_of _ _ _ _ _ _ E) as E3. cbn [fst] in E3.
    assert (z2 = z1) by congruence. subst z2. unfold reconcile. destruct (Z.eqb_spec (-1) z1); [lia|]. rewrite Z.eqb_refl.
    destruct (convert_from fe fn z1 points) as [[l' z'']|] eqn:C; [|discriminate]. intros H. injection H; intros <- <-.
    destruct (convert_known fe fn points z1 l' z'' ltac:(lia) W2 C) as [-> F]. constructor; [exact E|exact F].
  - assert (G : forall points l own, own = z \/ own = (-1)%Z -> Forall2 (fun p q => redfearn (fst p) (snd p) fe fn None None None = Some (z, fst q, snd q)) points l ->
      convert_from fe fn own points = Some (l, match points with [] => own | _ => z end)).
    { clear. intros points l own O F. revert own O. induction F as [|[lat lon] [x y] points l E F IH]; intros own O; [reflexivity|].
      cbn [convert_from fst snd] in *. rewrite E. unfold reconcile.
      destruct (Z.eqb_spec own z) as [->|].
      - rewrite (IH z) by (left; reflexivity). destruct points; reflexivity.
      - destruct O as [O|O]; [contradiction|]. subst own. rewrite Z.eqb_refl. rewrite (IH z) by (left; reflexivity). destruct points; reflexivity. }
    intros F. rewrite (G points l (-1)%Z (or_intror eq_refl) F). destruct points; [congruence|reflexivity].
Qed.
Print Assumptions C111_points_partial.

(** Points on both sides of the equator are accepted, each with the false
    northing of its own side: no false northing gives these coordinates. *)
Theorem C111_hemispheres_refuted lat lon : 0 < lat -> -180 <= lon < 180 ->
  exists l z, convert_from_latlon_to_utm None None [(lat, lon); (- lat, lon)] = Some (l, z) /\
    forall F z', convert_from_latlon_to_utm None (Some F) [(lat, lon); (- lat, lon)] <> Some (l, z').
Proof.
  intros L B. destruct (C111_zone_partial lon B) as (z & Z & R & _).
  set (e := 500000 + 9996 / 10000 * across lat (lon - central z)). set (n := 9996 / 10000 * along lat (lon - central z)).
  assert (E : forall fn, redfearn lat lon None fn None None None = Some (z, e, default 0 fn + n) /\
                         redfearn (- lat) lon None fn None None None = Some (z, e, default 10000000 fn - n)).
  { intros fn. rewrite !(redfearn_own _ _ _ _ z) by exact Z. rewrite !redfearn_zone, across_south, along_south.
    rewrite (proj2 (Rltb_false lat 0)), (proj2 (Rltb_true (- lat) 0)) by lra. unfold e, n. cbn [default]. split; f_equal; f_equal; ring. }
  assert (G : forall fn, convert_from_latlon_to_utm None fn [(lat, lon); (- lat, lon)] = Some ([(e, default 0 fn + n); (e, default 10000000 fn - n)], z)).
  { intros fn. destruct (E fn) as [E1 E2]. apply C111_points_partial.
    - constructor; [exact B|]. constructor; [exact B|]. constructor.
    - discriminate.
    - repeat constructor; assumption. }
  exists [(e, 0 + n); (e, 10000000 - n)], z. split; [exact (G None)|]. intros F z'. rewrite (G (Some F)). cbn [default]. intros H.
  assert (H1 : F + n = 0 + n) by congruence. assert (H2 : F - n = 10000000 - n) by congruence. lra.
Qed.
Print Assumptions C111_hemispheres_refuted.

(** Cases *)
Example C111_degrees_case : back (-3 / 2) = Some (-3 / 2).
Proof. apply C111_degrees_partial. right. lra. Qed.
Example C111_degrees_refuted_case : back (-1 / 2) = Some (1 / 2).
Proof. rewrite C111_degrees_refuted by lra. f_equal. lra. Qed.
Example C111_zone_case : exists z, zone_of 151 = Some z /\ (1 <= z <= 60)%Z /\ central z - 3 <= 151 < central z + 3.
Proof. apply C111_zone_partial. lra. Qed.
Example C111_wrap_case : exists z, zone_of 180 = Some z /\ zone_of (180 - 360) = Some z /\ 357 <= 180 - central z < 363.
Proof. apply C111_wrap_refuted. lra. Qed.
Example C111_no_zone_case : zone_of (-195) = Some (-1)%Z.
Proof. apply C111_no_zone_refuted. lra. Qed.
Example C111_symmetry_case : exists x y, redfearn (-30) (central 56 + 1) (Some 500000) (Some 0) (Some 56%Z) None None = Some (56%Z, x, y) /\
  redfearn (-30) (central 56 - 1) (Some 500000) (Some 0) (Some 56%Z) None None = Some (56%Z, 2 * 500000 - x, y).
Proof. eexists. eexists. split; [reflexivity|]. apply C111_symmetry. reflexivity. Qed.
Example C111_meridian_case : exists z x y, redfearn (-30) 151 None None None None None = Some (z, x, y) /\
  redfearn (-30) 151 None None None (Some (central z)) None = Some ((-1)%Z, x, y).
Proof.
  destruct C111_zone_case as (z & E & _). eexists. eexists. eexists. split; [rewrite (redfearn_own _ _ _ _ z) by exact E; reflexivity|].
  eapply proj1, C111_meridian. rewrite (redfearn_own _ _ _ _ z) by exact E. reflexivity.
Qed.
Example C111_points_case : exists l z, convert_from_latlon_to_utm None None [(-30, 151)] = Some (l, z) /\ length l = 1%nat.
Proof.
  destruct C111_zone_case as (z & E & _).
  destruct (redfearn (-30) 151 None None None None None) as [[[z1 x] y]|] eqn:D; [|rewrite (redfearn_own _ _ _ _ z) in D by exact E; discriminate].
  exists [(x, y)], z1. split; [|reflexivity]. apply C111_points_partial; [repeat constructor; cbn; lra|discriminate|repeat constructor; exact D].
Qed.
Example C111_hemispheres_case : exists l z, convert_from_latlon_to_utm None None [(1, 151); (-1, 151)] = Some (l, z) /\
  forall F z', convert_from_latlon_to_utm None (Some F) [(1, 151); (-1, 151)] <> Some (l, z').
Proof. apply (C111_hemispheres_refuted 1 151); lra. Qed.
