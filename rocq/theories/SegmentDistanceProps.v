(** C119: the squared distance of a point from a segment, and the nearest segment *)
From Coq Require Import Reals List Arith Bool Lra Lia.
From Verif Require Import RealLib SegmentDistanceModel.
Import ListNotations.
Local Open Scope R_scope.

(** The point of the segment from [a] to [b] at the fraction [t] *)
Definition along (a b : point) (t : R) : point := (fst a + t * (fst b - fst a), snd a + t * (snd b - snd a)).
(** The squared distance of two points *)
Definition gap (p q : point) : R := (fst p - fst q) ^ 2 + (snd p - snd q) ^ 2.
(** [d] is the least squared distance of [pt] from the points of the segment *)
Definition least (pt a b : point) (d : R) : Prop :=
  (exists t, 0 <= t <= 1 /\ d = gap pt (along a b t)) /\ (forall t, 0 <= t <= 1 -> d <= gap pt (along a b t)).

Lemma gap_nonneg p q : 0 <= gap p q.
Proof. unfold gap. pose proof (pow2_ge_0 (fst p - fst q)). pose proof (pow2_ge_0 (snd p - snd q)). lra. Qed.
Lemma raw_least pt a b d : raw_distance pt a b = Some d -> least pt a b d.
Proof.
  destruct pt as [x y], a as [ax ay], b as [bx by_]. unfold raw_distance, least, along, gap. cbn [fst snd].
  set (L := sqrt ((bx - ax) ^ 2 + (by_ - ay) ^ 2)). destruct (Reqb_spec L 0) as [Z|Z]; [discriminate|].
  assert (LL : L * L = (bx - ax) ^ 2 + (by_ - ay) ^ 2) by (apply sqrt_sqrt; pose proof (pow2_ge_0 (bx - ax)); pose proof (pow2_ge_0 (by_ - ay)); lra).
  assert (Lp : 0 < L) by (pose proof (sqrt_pos ((bx - ax) ^ 2 + (by_ - ay) ^ 2)); fold L in H; lra).
  set (s := (x - ax) * ((bx - ax) / L) + (y - ay) * ((by_ - ay) / L)).
  assert (sL : s * L = (x - ax) * (bx - ax) + (y - ay) * (by_ - ay)) by (unfold s; field; exact Z).
  set (w := (x - ax) ^ 2 + (y - ay) ^ 2).
  assert (Q : forall t, (x - (ax + t * (bx - ax))) ^ 2 + (y - (ay + t * (by_ - ay))) ^ 2 = w - s ^ 2 + (t * L - s) ^ 2).
  { intros t. replace (w - s ^ 2 + (t * L - s) ^ 2) with (w - 2 * t * (s * L) + t ^ 2 * (L * L)) by ring. rewrite sL, LL. unfold w. ring. }
  assert (Q1 : (x - bx) ^ 2 + (y - by_) ^ 2 = w - s ^ 2 + (L - s) ^ 2).
  { replace (L - s) with (1 * L - s) by ring. rewrite <- Q. ring. }
  set (e := (x - bx) ^ 2 + (y - by_) ^ 2) in *. clearbody s w e. destruct (Rltb_spec s L) as [H1|H1]; [destruct (Rltb_spec 0 s) as [H2|H2]|]; cbn [andb]; intros E; injection E; intros <-.
  - split.
    + exists (s / L). split; [split; [apply Rlt_le, Rdiv_lt_0_compat; lra|apply (Rmult_le_reg_r L); [lra|unfold Rdiv; rewrite Rmult_assoc, Rinv_l; lra]]|].
      rewrite Q. replace (s / L * L - s) with 0 by (field; exact Z). ring.
    + intros t _. rewrite Q. pose proof (pow2_ge_0 (t * L - s)). lra.
  - split.
    + unfold Rmin. destruct (Rle_dec w e); [exists 0|exists 1]; (split; [lra|]); rewrite Q, ?Q1; ring.
    + intros t [T0 T1]. rewrite Q. eapply Rle_trans; [apply Rmin_l|]. pose proof (Rmult_le_pos t L T0 (Rlt_le _ _ Lp)). nra.
  - split.
    + unfold Rmin. destruct (Rle_dec w e); [exists 0|exists 1]; (split; [lra|]); rewrite Q, ?Q1; ring.
    + intros t [T0 T1]. rewrite Q. eapply Rle_trans; [apply Rmin_r|]. rewrite Q1. assert (t * L <= L) by nra. nra.
Qed.
Lemma raw_nonneg pt a b d : raw_distance pt a b = Some d -> 0 <= d.
Proof. intros H. destruct (raw_least _ _ _ _ H) as [[t [_ ->]] _]. apply gap_nonneg. Qed.
Lemma squared_raw pt a b : squared_distance pt a b = raw_distance pt a b.
Proof.
  unfold squared_distance. destruct (raw_distance pt a b) as [d|] eqn:E; [|reflexivity]. apply raw_nonneg in E.
  destruct (Rltb_spec d (- (1 / 1000000))); [lra|]. destruct (Rltb_spec d 0); [lra|reflexivity].
Qed.
Lemma sqrt_zero a b : sqrt (a ^ 2 + b ^ 2) = 0 -> a = 0 /\ b = 0.
Proof.
  intros H. pose proof (pow2_ge_0 a). pose proof (pow2_ge_0 b). apply sqrt_eq_0 in H; [|lra].
  split; [assert (K : a ^ 2 = 0) by lra|assert (K : b ^ 2 = 0) by lra]; cbn in K; rewrite Rmult_1_r in K; apply Rmult_integral in K; tauto.
Qed.

(** The distance is the least one; it is refused for repeated points only *)
Theorem C119_least pt a b d : squared_distance pt a b = Some d -> least pt a b d /\ 0 <= d.
Proof. rewrite squared_raw. intros H. split; [apply raw_least; exact H|apply (raw_nonneg pt a b); exact H]. Qed.
Print Assumptions C119_least.
Theorem C119_refused pt a b : squared_distance pt a b = None <-> a = b.
Proof.
  rewrite squared_raw. unfold raw_distance. destruct a as [ax ay], b as [bx by_]. cbn [fst snd].
  destruct (Reqb_spec (sqrt ((bx - ax) ^ 2 + (by_ - ay) ^ 2)) 0) as [Z|Z].
  - split; [|reflexivity]. intros _. apply sqrt_zero in Z. f_equal; lra.
  - split; [destruct (_ && _); discriminate|]. intros E. injection E; intros -> ->. exfalso. apply Z.
    replace ((bx - bx) ^ 2 + (by_ - by_) ^ 2) with 0 by ring. apply sqrt_0.
Qed.
Print Assumptions C119_refused.
(** Only points of the segment are at distance 0, and the direction of the
    segment does not matter *)
Theorem C119_on pt a b d : squared_distance pt a b = Some d -> (d = 0 <-> exists t, 0 <= t <= 1 /\ pt = along a b t).
Proof.
  intros H. destruct (C119_least _ _ _ _ H) as [[[t [T E]] U] P]. split.
  - intros Z. exists t. split; [exact T|]. rewrite E in Z. unfold gap in Z. destruct pt as [x y]. cbn [fst snd] in *.
    pose proof (pow2_ge_0 (x - fst (along a b t))). pose proof (pow2_ge_0 (y - snd (along a b t))).
    destruct (sqrt_zero (x - fst (along a b t)) (y - snd (along a b t))) as [A B]; [rewrite Z; apply sqrt_0|].
    rewrite (surjective_pairing (along a b t)). f_equal; lra.
  - intros (u & T' & ->). specialize (U u T'). unfold gap in U at 1. assert (gap (along a b u) (along a b u) = 0) by (unfold gap; ring). unfold gap in H0. lra.
Qed.
Print Assumptions C119_on.
Theorem C119_direction pt a b : squared_distance pt a b = squared_distance pt b a.
Proof.
  destruct (squared_distance pt a b) as [d|] eqn:E, (squared_distance pt b a) as [e|] eqn:F; [|..|reflexivity].
  - destruct (C119_least _ _ _ _ E) as [[[t [T Et]] U] _], (C119_least _ _ _ _ F) as [[[u [T' Eu]] V] _]. f_equal.
    assert (W : forall c d r, along c d (1 - r) = along d c r) by (intros c e0 r; unfold along; f_equal; ring).
    assert (A := U (1 - u) ltac:(lra)). assert (B := V (1 - t) ltac:(lra)). rewrite W in A, B. lra.
  - apply C119_refused in F. symmetry in F. apply (C119_refused pt) in F. congruence.
  - apply C119_refused in E. symmetry in E. apply (C119_refused pt) in E. congruence.
Qed.
Print Assumptions C119_direction.

Lemma argmin_spec l m i : argmin l = Some (m, i) ->
  (i < length l)%nat /\ nth i l 0 = m /\ (forall j, (j < length l)%nat -> m <= nth j l 0) /\ (forall j, (j < i)%nat -> m < nth j l 0).
Proof.
  revert m i. induction l as [|x l IH]; intros m i; [discriminate|]. cbn [argmin]. destruct (argmin l) as [[m' i']|] eqn:E.
  - destruct (IH m' i' eq_refl) as (A & B & C & D). destruct (Rleb_spec x m') as [K|K]; intros H; injection H; intros <- <-; (split; [cbn; lia|]); (split; [cbn; first [reflexivity|exact B]|]); split.
    + intros [|j] Hj; cbn; [lra|]. specialize (C j ltac:(cbn in Hj; lia)). lra.
    + intros j Hj. lia.
    + intros [|j] Hj; cbn; [lra|]. apply C. cbn in Hj. lia.
    + intros [|j] Hj; cbn; [lra|]. apply D. lia.
  - destruct l as [|y l]; [|cbn in E; destruct (argmin l) as [[? ?]|]; [destruct (Rleb _ _)|]; discriminate].
    intros H. injection H; intros <- <-. split; [cbn; lia|]. split; [reflexivity|]. split; [intros [|j] Hj; cbn in *; [lra|lia]|intros j Hj; lia].
Qed.
Lemma distances_spec pt l ds : distances pt l = Some ds ->
  length ds = (length l - 1)%nat /\ forall i z, (i < length ds)%nat -> squared_distance pt (nth i l z) (nth (S i) l z) = Some (nth i ds 0).
Proof.
  revert ds. induction l as [|a l IH]; intros ds H; [injection H; intros <-; split; [reflexivity|intros i z Hi; cbn in Hi; lia]|].
  destruct l as [|b l]; [injection H; intros <-; split; [reflexivity|intros i z Hi; cbn in Hi; lia]|].
  change (match squared_distance pt a b, distances pt (b :: l) with Some d, Some ds => Some (d :: ds) | _, _ => None end = Some ds) in H.
  destruct (squared_distance pt a b) as [d|] eqn:E; [|discriminate]. destruct (distances pt (b :: l)) as [es|] eqn:F; [|discriminate].
  injection H; intros <-. destruct (IH es eq_refl) as [A B]. split; [cbn in *; lia|]. intros [|i] z Hi; [exact E|]. apply B. cbn in Hi. lia.
Qed.
(** The nearest segment: no point of the polyline is nearer, and it is the first *)
Theorem C119_nearest pt l d i : find_nearest_segment pt l = Some (d, i) ->
  forall z, (i + 1 < length l)%nat /\ least pt (nth i l z) (nth (i + 1) l z) d /\
  (forall j t, (j + 1 < length l)%nat -> 0 <= t <= 1 -> d <= gap pt (along (nth j l z) (nth (j + 1) l z) t)) /\
  (forall j t, (j < i)%nat -> 0 <= t <= 1 -> d < gap pt (along (nth j l z) (nth (j + 1) l z) t)).
Proof.
  unfold find_nearest_segment. destruct (distances pt l) as [ds|] eqn:E; [|discriminate]. intros H z.
  destruct (distances_spec _ _ _ E) as [N S1]. destruct (argmin_spec _ _ _ H) as (A & B & C & D).
  assert (W : forall j, (j < length ds)%nat -> least pt (nth j l z) (nth (j + 1) l z) (nth j ds 0)).
  { intros j Hj. apply C119_least. rewrite Nat.add_1_r. apply S1. exact Hj. }
  split; [lia|]. split; [rewrite <- B; apply W; exact A|]. split.
  - intros j t Hj T. destruct (W j) as [_ U]; [lia|]. specialize (U t T). specialize (C j ltac:(lia)). lra.
  - intros j t Hj T. destruct (W j) as [_ U]; [lia|]. specialize (U t T). specialize (D j Hj). lra.
Qed.
Print Assumptions C119_nearest.
(** It exists for two or more points of which no two neighbours are equal *)
Theorem C119_exists pt l z : (1 < length l)%nat -> (forall i, (i + 1 < length l)%nat -> nth i l z <> nth (i + 1) l z) ->
  exists d i, find_nearest_segment pt l = Some (d, i).
Proof.
  intros N H. assert (K : exists ds, distances pt l = Some ds).
  { clear N. induction l as [|a l IH]; [exists []; reflexivity|]. destruct l as [|b l]; [exists []; reflexivity|].
    destruct IH as [ds E]; [intros i Hi; apply (H (S i)); cbn in *; lia|].
    assert (Hab : a <> b) by (apply (H 0%nat); cbn; lia).
    destruct (squared_distance pt a b) as [d|] eqn:F; [|apply C119_refused in F; contradiction].
    exists (d :: ds). change (match squared_distance pt a b, distances pt (b :: l) with Some d, Some ds => Some (d :: ds) | _, _ => None end = Some (d :: ds)). rewrite F, E. reflexivity. }
  destruct K as [ds E]. unfold find_nearest_segment. rewrite E. destruct (distances_spec _ _ _ E) as [M _]. destruct ds as [|x ds]; [cbn in M; lia|].
  cbn [argmin]. destruct (argmin ds) as [[m i]|]; [destruct (Rleb x m)|]; eauto.
Qed.
Print Assumptions C119_exists.

(** Cases *)
Example C119_case : exists d, squared_distance (1, 1) (0, 0) (2, 0) = Some d /\ d <= 1.
Proof.
  destruct (squared_distance (1, 1) (0, 0) (2, 0)) as [d|] eqn:E.
  - exists d. split; [reflexivity|]. destruct (C119_least _ _ _ _ E) as [[_ U] _]. specialize (U (1 / 2) ltac:(lra)). unfold gap, along in U. cbn in U. lra.
  - apply C119_refused in E. injection E; intros. lra.
Qed.
Example C119_nearest_case : exists d i, find_nearest_segment (1, 1) [(0, 0); (2, 0); (2, 5)] = Some (d, i).
Proof.
  apply (C119_exists _ _ (0, 0)); [cbn; lia|]. intros [|[|i]] Hi; cbn in *; [intros E; injection E; intros; lra|intros E; injection E; intros; lra|lia].
Qed.
