(** C24, C57: georeferences. *)
From Coq Require Import Reals List ZArith Bool Lia Lra.
From Verif Require Import RealLib GeoRefModel.
Import ListNotations.
Local Open Scope R_scope.

Lemma shift_shift a b c d rows : shift c d (shift a b rows) = shift (a + c) (b + d) rows.
Proof. unfold shift. rewrite map_map. apply map_ext. intros (x, y). cbn. f_equal; ring. Qed.
Lemma shift_zero a b rows : a = 0 -> b = 0 -> shift a b rows = rows.
Proof.
  intros -> ->. unfold shift. rewrite (map_ext _ (fun p => p)); [apply map_id|]. intros (x, y). cbn. f_equal; ring.
Qed.

(** The two conversions are inverse to each other on N x 2 arrays. *)
Theorem C24_inverse : forall g rows,
  (exists q, get_absolute g (Table rows) = Some q /\ get_relative g q = Some (Table rows)) /\
  (exists q, get_relative g (Table rows) = Some q /\ get_absolute g q = Some (Table rows)).
Proof.
  intros g rows. split; eexists; (split; [reflexivity|]); cbn [get_absolute get_relative]; destruct (is_absolute g); cbn [negb]; auto;
    rewrite shift_shift, shift_zero by ring; reflexivity.
Qed.
Print Assumptions C24_inverse.

(** Position in the plane of a point with coordinates relative to [g]. *)
Definition position (g : option georef) (p : R * R) : R * R :=
  match g with Some g => (fst p + xllcorner g, snd p + yllcorner g) | None => p end.

(** Changing the georeference leaves every position unchanged; a single point
    is turned into an array of one. *)
Theorem C24_change : forall self p g q, change_points_geo_ref self p g = Some q ->
  (forall g', g = Some g' -> ident g' = ident self -> g' = self) ->
  exists before after, q = Table after /\ (p = Table before \/ exists x y, p = Single [x; y] /\ before = [(x, y)]) /\
  map (position (Some self)) after = map (position g) before.
Proof.
  intros self p g q H Hid. unfold change_points_geo_ref in H.
  set (rows := match p with Single [x; y] => Some [(x, y)] | Single _ => None | Table rows => Some rows | Other => None end) in *.
  assert (Hrows : forall r, rows = Some r -> p = Table r \/ exists x y, p = Single [x; y] /\ r = [(x, y)]).
  { intros r. unfold rows. destruct p as [[|x [|y [|]]]|r0|]; try discriminate; intros E; injection E as <-; eauto. }
  destruct rows as [r|] eqn:Er; [|discriminate].
  exists r. destruct g as [g|]; cbn [negb] in H.
  - destruct (Nat.eqb_spec (ident g) (ident self)) as [E|E]; cbn [negb] in H; injection H as <-.
    + rewrite (Hid g eq_refl E). eauto.
    + eexists. split; [reflexivity|]. split; [auto|]. rewrite shift_shift. unfold shift. rewrite map_map. apply map_ext. intros (x, y). cbn [position fst snd]. f_equal; ring.
  - injection H as <-. eexists. split; [reflexivity|]. split; [auto|]. unfold shift. rewrite map_map. apply map_ext. intros (x, y). cbn [position fst snd]. f_equal; ring.
Qed.
Print Assumptions C24_change.

(** [get_absolute] gives the positions, up to 1e-8 (the offsets it neglects),
    and exactly when the offsets are zero or not both below 1e-8. *)
Theorem C24_absolute : forall g rows, exists after, get_absolute g (Table rows) = Some (Table after) /\
  length after = length rows /\
  (forall i p q, nth_error rows i = Some p -> nth_error after i = Some q ->
     Rabs (fst q - fst (position (Some g) p)) <= / 10 ^ 8 /\ Rabs (snd q - snd (position (Some g) p)) <= / 10 ^ 8) /\
  ((xllcorner g = 0 /\ yllcorner g = 0) \/ / 10 ^ 8 < Rabs (xllcorner g) \/ / 10 ^ 8 < Rabs (yllcorner g) -> after = map (position (Some g)) rows).
Proof.
  intros g rows. cbn [get_absolute]. assert (P : 0 < / 10 ^ 8) by (apply Rinv_0_lt_compat, pow_lt; lra). unfold is_absolute. rewrite Rabs_R0, Rmult_0_r, Rplus_0_r, !Rminus_0_r.
  set (eps := / 10 ^ 8) in *. clearbody eps. eexists. split; [reflexivity|].
  destruct (Rleb_spec (Rabs (xllcorner g)) eps) as [H1|H1], (Rleb_spec (Rabs (yllcorner g)) eps) as [H2|H2]; cbn [andb negb].
  1: { split; [reflexivity|]. split.
       - intros i (x, y) q E1 E2. rewrite E1 in E2. injection E2 as <-. cbn [position fst snd].
         replace (x - (x + xllcorner g)) with (- xllcorner g) by ring. replace (y - (y + yllcorner g)) with (- yllcorner g) by ring. rewrite !Rabs_Ropp. auto.
       - intros [(E1 & E2)|[E|E]]; try lra. rewrite (map_ext _ (fun p => p)); [symmetry; apply map_id|]. intros (x, y). cbn [position fst snd]. rewrite E1, E2. f_equal; ring. }
  all: unfold shift; split; [apply map_length|]; split; [|intros _; apply map_ext; intros (x, y); reflexivity];
    intros i (x, y) q E1 E2; rewrite nth_error_map, E1 in E2; injection E2 as <-; cbn [position fst snd];
    unfold Rminus; rewrite !Rplus_opp_r, Rabs_R0; lra.
Qed.
Print Assumptions C24_absolute.

(** An offset of 1e-8 is added by change_points_geo_ref but not by
    get_absolute, so they can disagree about absolute positions. *)
Theorem C24_small_offset_refuted : exists g0 g x y, ident g0 <> ident g /\ xllcorner g0 = 0 /\ yllcorner g0 = 0 /\
  change_points_geo_ref g0 (Table [(x, y)]) (Some g) <> get_absolute g (Table [(x, y)]).
Proof.
  exists (Geo 0 (-1) Undefined 0 0), (Geo 1 (-1) Undefined (/ 10 ^ 8) 0), 0, 0. cbn [ident xllcorner yllcorner]. repeat split; auto.
  assert (P : 0 < / 10 ^ 8) by (apply Rinv_0_lt_compat, pow_lt; lra).
  unfold change_points_geo_ref, get_absolute, is_absolute. cbn [ident Nat.eqb negb xllcorner yllcorner].
  rewrite Rabs_R0, Rmult_0_r, Rplus_0_r, !Rminus_0_r, Rabs_R0. set (eps := / 10 ^ 8) in *. clearbody eps. rewrite Rabs_right by lra.
  destruct (Rleb_spec eps eps); [|lra]. destruct (Rleb_spec 0 eps); [|lra]. cbn [andb negb shift map fst snd]. intros H. injection H. lra.
Qed.
Print Assumptions C24_small_offset_refuted.

(** A single point cannot be converted with these two methods although both
    have a branch for it; change_points_geo_ref accepts it. *)
Theorem C24_single_point_refuted : forall g x y, get_absolute g (Single [x; y]) = None /\ get_relative g (Single [x; y]) = None /\
  change_points_geo_ref g (Single [x; y]) None = Some (Table [(x + - xllcorner g, y + - yllcorner g)]).
Proof. repeat split. Qed.
Print Assumptions C24_single_point_refuted.

Example C24_example : exists q, get_absolute (Geo 0 56 Southern 100 200) (Table [(1, 2)]) = Some q.
Proof. eexists. reflexivity. Qed.

(** ** C57: reconciling two georeferences *)

Definition specified_zone (g : georef) : Prop := zone g <> (-1)%Z.
Definition compatible (a b : georef) : Prop :=
  (zone a = zone b \/ ~ specified_zone a \/ ~ specified_zone b) /\ (hemi a = hemi b \/ hemi a = Undefined \/ hemi b = Undefined).

(** It succeeds exactly when the two are compatible; then both have the same
    zone and hemisphere, none that was specified has been changed, and the
    origins are as before.  The order of the two does not matter. *)
Theorem C57_reconcile : forall a b, let '(a', b', ok) := reconcile_zones a b in
  (ok = true <-> compatible a b) /\
  (ok = true -> zone a' = zone b' /\ hemi a' = hemi b' /\
     (specified_zone a -> zone a' = zone a) /\ (specified_zone b -> zone b' = zone b) /\
     (hemi a <> Undefined -> hemi a' = hemi a) /\ (hemi b <> Undefined -> hemi b' = hemi b)) /\
  (ident a' = ident a /\ xllcorner a' = xllcorner a /\ yllcorner a' = yllcorner a /\ ident b' = ident b /\ xllcorner b' = xllcorner b /\ yllcorner b' = yllcorner b) /\
  reconcile_zones b a = (b', a', ok).
Proof.
  intros (ia, za, ha, xa, ya) (ib, zb, hb, xb, yb). unfold reconcile_zones, compatible, specified_zone, default_zone. cbn [zone hemi ident xllcorner yllcorner].
  rewrite (Z.eqb_sym zb za).
  destruct (Z.eqb_spec za zb) as [E1|E1], (Z.eqb_spec za (-1)) as [E2|E2], (Z.eqb_spec zb (-1)) as [E3|E3]; try congruence; subst;
  destruct ha, hb; cbn; (split; [|split; [|split; [auto 10|reflexivity]]]);
  try (split; [intros; try discriminate; tauto|intros; try reflexivity; exfalso; intuition congruence]);
  try (intros; discriminate); try (intros _; repeat (split; auto); try congruence; intros K; exfalso; apply K; reflexivity).
Qed.
Print Assumptions C57_reconcile.

(** But a failing call can leave its arguments changed: the zone is taken
    over before the hemispheres are found to differ. *)
Theorem C57_failure_not_atomic_refuted : exists a b a' b', reconcile_zones a b = (a', b', false) /\ a' <> a.
Proof.
  exists (Geo 0 (-1) Southern 0 0), (Geo 1 56 Northern 0 0). eexists _, _. split; [reflexivity|]. intros H. discriminate (f_equal zone H).
Qed.
Print Assumptions C57_failure_not_atomic_refuted.

Example C57_example : compatible (Geo 0 (-1) Southern 0 0) (Geo 1 56 Undefined 0 0).
Proof. unfold compatible, specified_zone. cbn. intuition congruence. Qed.
