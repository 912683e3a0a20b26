(** Property C21: intersection of segments. *)
From Coq Require Import Reals List Arith Bool Lia Lra Psatz.
From Verif Require Import RealLib PolygonModel PolygonProofs.
Local Open Scope R_scope.

Definition on_segment (p q r : point) : Prop :=
  exists t, 0 <= t <= 1 /\ px p = px q + t * (px r - px q) /\ py p = py q + t * (py r - py q).

(** Cross product of the directions of the two lines, as the code forms it. *)
Definition cross_dirs (p0 p1 p2 p3 : point) : R :=
  (py p3 - py p2) * (px p1 - px p0) - (px p3 - px p2) * (py p1 - py p0).

Lemma meet_params x0 y0 x1 y1 x2 y2 x3 y3 t s :
  x0 + t * (x1 - x0) = x2 + s * (x3 - x2) -> y0 + t * (y1 - y0) = y2 + s * (y3 - y2) ->
  let denom := (y3 - y2) * (x1 - x0) - (x3 - x2) * (y1 - y0) in
  t * denom = (x3 - x2) * (y0 - y2) - (y3 - y2) * (x0 - x2) /\ s * denom = (x2 - x0) * (y1 - y0) - (y2 - y0) * (x1 - x0).
Proof.
  intros Hx Hy. cbv zeta.
  assert (A : t * (x1 - x0) = x2 + s * (x3 - x2) - x0) by lra. assert (B : t * (y1 - y0) = y2 + s * (y3 - y2) - y0) by lra.
  assert (A' : s * (x3 - x2) = x0 + t * (x1 - x0) - x2) by lra. assert (B' : s * (y3 - y2) = y0 + t * (y1 - y0) - y2) by lra. split.
  - replace (t * ((y3 - y2) * (x1 - x0) - (x3 - x2) * (y1 - y0))) with ((y3 - y2) * (t * (x1 - x0)) - (x3 - x2) * (t * (y1 - y0))) by ring.
    rewrite A, B. ring.
  - replace (s * ((y3 - y2) * (x1 - x0) - (x3 - x2) * (y1 - y0))) with ((s * (y3 - y2)) * (x1 - x0) - (s * (x3 - x2)) * (y1 - y0)) by ring.
    rewrite A', B'. ring.
Qed.

(** Segments whose directions are not parallel within the tolerance: never an
    exception; status 1 exactly when they meet, with the common point, and
    status 0 when they do not. *)
Theorem C21_not_parallel :
  forall p0 p1 p2 p3 rtol atol, 0 <= rtol -> 0 <= atol -> atol < Rabs (cross_dirs p0 p1 p2 p3) ->
  (exists p, intersection p0 p1 p2 p3 rtol atol = Some (1%nat, PointValue p) /\ on_segment p p0 p1 /\ on_segment p p2 p3) \/
  (intersection p0 p1 p2 p3 rtol atol = Some (0%nat, NoValue) /\ forall p, on_segment p p0 p1 -> on_segment p p2 p3 -> False).
Proof.
  intros (x0, y0) (x1, y1) (x2, y2) (x3, y3) rtol atol Hr Ha. unfold cross_dirs, intersection. cbn [px py fst snd].
  set (denom := (y3 - y2) * (x1 - x0) - (x3 - x2) * (y1 - y0)). intros Hd.
  assert (Hd0 : denom <> 0) by (intros Z; rewrite Z, Rabs_R0 in Hd; lra).
  assert (Cl : close0 denom rtol atol = false).
  { unfold close0. rewrite Rminus_0_r, Rabs_R0, Rmult_0_r, Rplus_0_r. apply Rleb_false, Hd. }
  rewrite Cl.
  set (u0 := ((x3 - x2) * (y0 - y2) - (y3 - y2) * (x0 - x2)) / denom).
  set (u1 := ((x2 - x0) * (y1 - y0) - (y2 - y0) * (x1 - x0)) / denom).
  assert (Ex : x0 + u0 * (x1 - x0) = x2 + u1 * (x3 - x2)) by (unfold u0, u1, denom in *; field; exact Hd0).
  assert (Ey : y0 + u0 * (y1 - y0) = y2 + u1 * (y3 - y2)) by (unfold u0, u1, denom in *; field; exact Hd0).
  assert (Ac : forall a, allclose a a rtol atol = true).
  { intros a. unfold allclose. rewrite Rminus_diag_eq, Rabs_R0 by reflexivity. apply Rleb_true. pose proof (Rabs_pos a). nra. }
  rewrite Ex, Ey, !Ac. cbn [negb]. rewrite <- Ex, <- Ey.
  destruct (Rleb_spec 0 u0), (Rleb_spec u0 1), (Rleb_spec 0 u1), (Rleb_spec u1 1); cbn [andb].
  1: { left. exists (x0 + u0 * (x1 - x0), y0 + u0 * (y1 - y0)). split; [reflexivity|]. cbn [px py fst snd].
       split; [exists u0|exists u1]; cbn [px py fst snd]; split; auto. }
  all: right; split; [reflexivity|]; intros (x, y) (t & Ht & Hx & Hy) (s & Hs & Hx' & Hy'); cbn [px py fst snd] in *;
       destruct (meet_params x0 y0 x1 y1 x2 y2 x3 y3 t s) as (Mt & Ms); [congruence|congruence|]; fold denom in Mt, Ms;
       assert (Et : t = u0) by (unfold u0; apply (Rmult_eq_reg_r denom); auto; unfold Rdiv; rewrite Rmult_assoc, Rinv_l, Rmult_1_r by exact Hd0; exact Mt);
       assert (Es : s = u1) by (unfold u1; apply (Rmult_eq_reg_r denom); auto; unfold Rdiv; rewrite Rmult_assoc, Rinv_l, Rmult_1_r by exact Hd0; exact Ms);
       lra.
Qed.
Print Assumptions C21_not_parallel.

(** Parallel lines a distance apart: status 4. *)
Theorem C21_parallel :
  forall p0 p1 p2 p3 rtol atol, Rabs (cross_dirs p0 p1 p2 p3) <= atol ->
  let u0 := (px p3 - px p2) * (py p0 - py p2) - (py p3 - py p2) * (px p0 - px p2) in
  let u1 := (px p2 - px p0) * (py p1 - py p0) - (py p2 - py p0) * (px p1 - px p0) in
  atol < Rabs u0 \/ atol < Rabs u1 ->
  intersection p0 p1 p2 p3 rtol atol = Some (4%nat, NoValue).
Proof.
  intros (x0, y0) (x1, y1) (x2, y2) (x3, y3) rtol atol. unfold cross_dirs, intersection. cbn [px py fst snd]. intros Hd H.
  unfold close0. rewrite !Rminus_0_r, Rabs_R0, Rmult_0_r, Rplus_0_r.
  rewrite (proj2 (Rleb_true _ _) Hd).
  assert (E : forall a b, atol < Rabs a \/ atol < Rabs b -> Rleb (Rabs a) atol && Rleb (Rabs b) atol = false).
  { intros a b [K|K]; [rewrite (proj2 (Rleb_false (Rabs a) atol) K); reflexivity|].
    rewrite (proj2 (Rleb_false (Rabs b) atol) K). apply andb_false_r. }
  rewrite (E _ _ H). reflexivity.
Qed.
Print Assumptions C21_parallel.

(** Status 2 returns a segment whose two ends are ends of the given segments,
    each accepted by [point_on_line] on the other one. *)
Theorem C21_overlap :
  forall p0 p1 p2 p3 rtol atol v, intersection p0 p1 p2 p3 rtol atol = Some (2%nat, v) ->
  exists q r, v = SegmentValue q r /\
  forall p, p = q \/ p = r ->
  ((p = p0 \/ p = p1) /\ on_line_py p p2 p3 rtol atol = true) \/
  ((p = p2 \/ p = p3) /\ on_line_py p p0 p1 rtol atol = true).
Proof.
  intros p0 p1 p2 p3 rtol atol v H. unfold intersection in H.
  destruct p0 as [x0 y0], p1 as [x1 y1], p2 as [x2 y2], p3 as [x3 y3].
  destruct (close0 _ rtol atol) in H.
  2: { destruct (negb _) in H; [discriminate|]. destruct (negb _) in H; [discriminate|]. destruct (_ && _) in H; discriminate. }
  destruct (_ && _) in H; [|discriminate].
  destruct (on_line_py (x0, y0) _ _ _ _) eqn:E0, (on_line_py (x1, y1) _ _ _ _) eqn:E1,
           (on_line_py (x2, y2) _ _ _ _) eqn:E2, (on_line_py (x3, y3) _ _ _ _) eqn:E3; cbn [collinear_result] in H;
  try discriminate; injection H as <-; eexists; eexists; (split; [reflexivity|]); intros p [-> | ->];
  solve [left; split; auto | right; split; auto].
Qed.
Print Assumptions C21_overlap.

(** ** Collinear segments *)

(** Points of a line given by their abscissa along a unit direction. *)
Definition on_axis (o d : point) (s : R) : point := (px o + s * px d, py o + s * py d).

Lemma on_line_axis o d s q r rtol atol : px d * px d + py d * py d = 1 -> 0 <= rtol -> 0 <= atol ->
  on_line_py (on_axis o d s) (on_axis o d q) (on_axis o d r) rtol atol =
  Rleb (- tiny_dot) ((s - q) * (r - q)) && Rleb (- tiny_len) (Rabs (r - q) - Rabs (s - q)).
Proof.
  intros Hd Hr Ha. unfold on_line_py, on_axis, point_on_line. cbn [px py fst snd].
  set (dx := px d) in *. set (dy := py d) in *.
  replace (px o + s * dx - (px o + q * dx)) with ((s - q) * dx) by ring.
  replace (py o + s * dy - (py o + q * dy)) with ((s - q) * dy) by ring.
  replace (px o + r * dx - (px o + q * dx)) with ((r - q) * dx) by ring.
  replace (py o + r * dy - (py o + q * dy)) with ((r - q) * dy) by ring.
  replace ((s - q) * dy * ((r - q) * dx) + - ((s - q) * dx) * ((r - q) * dy)) with 0 by ring. rewrite Rabs_R0.
  replace (0 / _) with 0 by (unfold Rdiv; ring).
  rewrite (proj2 (Rleb_true 0 atol) Ha), (proj2 (Rleb_true 0 rtol) Hr).
  assert (D : forall a, dist (a * dx) (a * dy) = Rabs a).
  { intros a. unfold dist. replace (a * dx * (a * dx) + a * dy * (a * dy)) with (a * a * (dx * dx + dy * dy)) by ring.
    rewrite Hd, Rmult_1_r. apply sqrt_Rsqr_abs. }
  rewrite !D. replace ((s - q) * dx * ((r - q) * dx) + (s - q) * dy * ((r - q) * dy)) with ((s - q) * (r - q) * (dx * dx + dy * dy)) by ring.
  rewrite Hd, Rmult_1_r.
  destruct (Reqb _ 0); reflexivity.
Qed.

Definition between (s q r : R) : Prop := q <= s <= r \/ r <= s <= q.
Definition separated (a b : R) : Prop := a = b \/ tiny_len < Rabs (a - b).

Lemma tiny_facts : 0 < tiny_dot /\ 0 < tiny_len /\ tiny_dot < tiny_len * tiny_len.
Proof.
  assert (P : forall n, 0 < 10 ^ n) by (intros; apply pow_lt; lra).
  split; [apply Rinv_0_lt_compat, P|]. split; [apply Rinv_0_lt_compat, P|].
  unfold tiny_dot, tiny_len. rewrite <- Rinv_mult, <- pow_add.
  apply Rinv_lt_contravar; [apply Rmult_lt_0_compat; apply P|]. apply Rlt_pow; [lra|lia].
Qed.

Lemma axis_between s q r : separated s q -> separated s r -> separated q r ->
  (Rleb (- tiny_dot) ((s - q) * (r - q)) && Rleb (- tiny_len) (Rabs (r - q) - Rabs (s - q)) = true <-> between s q r).
Proof.
  destruct tiny_facts as (T1 & T2 & T3). unfold separated. generalize dependent tiny_dot. generalize dependent tiny_len.
  intros tl T2 td T1 T3 S1 S2 S3. rewrite andb_true_iff, !Rleb_true. unfold between. split.
  - intros (H1 & H2). destruct (Rle_dec q r) as [L|L].
    + rewrite (Rabs_right (r - q)) in H2 by lra.
      assert (q <= s).
      { destruct S1 as [->|S1]; [lra|]. destruct (Rle_dec q s); auto. exfalso. rewrite Rabs_left in S1 by lra.
        destruct S3 as [->|S3]; [rewrite (Rabs_left (s - r)) in H2; lra|]. rewrite Rabs_left1 in S3 by lra. nra. }
      rewrite (Rabs_right (s - q)) in H2 by lra. destruct S2 as [->|S2]; [lra|].
      left. split; auto. destruct (Rle_dec s r); auto. exfalso. rewrite Rabs_right in S2 by lra. lra.
    + rewrite (Rabs_left (r - q)) in H2 by lra.
      assert (s <= q).
      { destruct S1 as [->|S1]; [lra|]. destruct (Rle_dec s q); auto. exfalso. rewrite Rabs_right in S1 by lra.
        destruct S3 as [->|S3]; [lra|]. rewrite Rabs_right in S3 by lra. nra. }
      rewrite (Rabs_left1 (s - q)) in H2 by lra. destruct S2 as [->|S2]; [lra|].
      right. split; auto. destruct (Rle_dec r s); auto. exfalso. rewrite Rabs_left in S2 by lra. lra.
  - intros [H|H].
    + rewrite (Rabs_right (r - q)), (Rabs_right (s - q)) by lra. split; [|lra]. assert (0 <= (s - q) * (r - q)) by (apply Rmult_le_pos; lra). lra.
    + rewrite (Rabs_left1 (r - q)), (Rabs_left1 (s - q)) by lra. split; [|lra].
      assert (0 <= (q - s) * (q - r)) by (apply Rmult_le_pos; lra). nra.
Qed.

(** Exactly collinear segments whose ends coincide or are more than 1e-15
    apart are classified without an exception: status 3 exactly when they are
    disjoint, otherwise status 2 with a segment common to both. *)
Theorem C21_collinear :
  forall o d s0 s1 s2 s3 rtol atol,
  px d * px d + py d * py d = 1 -> 0 <= rtol -> 0 <= atol ->
  separated s0 s2 -> separated s0 s3 -> separated s1 s2 -> separated s1 s3 -> separated s0 s1 -> separated s2 s3 ->
  let res := intersection (on_axis o d s0) (on_axis o d s1) (on_axis o d s2) (on_axis o d s3) rtol atol in
  (res = Some (3%nat, NoValue) /\ forall s, between s s0 s1 -> between s s2 s3 -> False) \/
  (exists a b, res = Some (2%nat, SegmentValue (on_axis o d a) (on_axis o d b)) /\
   between a s0 s1 /\ between a s2 s3 /\ between b s0 s1 /\ between b s2 s3).
Proof.
  intros o d s0 s1 s2 s3 rtol atol Hd Hr Ha S02 S03 S12 S13 S01 S23.
  assert (Sy : forall a b, separated a b -> separated b a) by (intros a b [->|H]; [left; auto|right; rewrite Rabs_minus_sym; auto]).
  cbv zeta. unfold intersection.
  change (on_axis o d s0) with (px o + s0 * px d, py o + s0 * py d). change (on_axis o d s1) with (px o + s1 * px d, py o + s1 * py d).
  change (on_axis o d s2) with (px o + s2 * px d, py o + s2 * py d). change (on_axis o d s3) with (px o + s3 * px d, py o + s3 * py d).
  cbv beta iota.
  replace ((py o + s3 * py d - (py o + s2 * py d)) * (px o + s1 * px d - (px o + s0 * px d)) -
           (px o + s3 * px d - (px o + s2 * px d)) * (py o + s1 * py d - (py o + s0 * py d))) with 0 by ring.
  replace ((px o + s3 * px d - (px o + s2 * px d)) * (py o + s0 * py d - (py o + s2 * py d)) -
           (py o + s3 * py d - (py o + s2 * py d)) * (px o + s0 * px d - (px o + s2 * px d))) with 0 by ring.
  replace ((px o + s2 * px d - (px o + s0 * px d)) * (py o + s1 * py d - (py o + s0 * py d)) -
           (py o + s2 * py d - (py o + s0 * py d)) * (px o + s1 * px d - (px o + s0 * px d))) with 0 by ring.
  unfold close0. rewrite Rminus_0_r, Rabs_R0, Rmult_0_r, Rplus_0_r, (proj2 (Rleb_true 0 atol) Ha). cbn [andb].
  change (px o + s0 * px d, py o + s0 * py d) with (on_axis o d s0). change (px o + s1 * px d, py o + s1 * py d) with (on_axis o d s1).
  change (px o + s2 * px d, py o + s2 * py d) with (on_axis o d s2). change (px o + s3 * px d, py o + s3 * py d) with (on_axis o d s3).
  rewrite !on_line_axis by auto.
  pose proof (axis_between s0 s2 s3 S02 S03 S23) as B0. pose proof (axis_between s1 s2 s3 S12 S13 S23) as B1.
  pose proof (axis_between s2 s0 s1 (Sy _ _ S02) (Sy _ _ S12) S01) as B2. pose proof (axis_between s3 s0 s1 (Sy _ _ S03) (Sy _ _ S13) S01) as B3.
  set (c0 := _ && _) in B0. set (c1 := _ && _) in B1. set (c2 := _ && _) in B2. set (c3 := _ && _) in B3.
  fold c0 c1 c2 c3. clearbody c0 c1 c2 c3. clear -B0 B1 B2 B3. unfold between in *.
  assert (F : forall c P, (c = true <-> P) -> c = false -> ~ P) by (intros c P H -> K; apply H in K; discriminate).
  destruct c0; [assert (Q0 := proj1 B0 eq_refl)|assert (Q0 := F _ _ B0 eq_refl)];
  (destruct c1; [assert (Q1 := proj1 B1 eq_refl)|assert (Q1 := F _ _ B1 eq_refl)]);
  (destruct c2; [assert (Q2 := proj1 B2 eq_refl)|assert (Q2 := F _ _ B2 eq_refl)]);
  (destruct c3; [assert (Q3 := proj1 B3 eq_refl)|assert (Q3 := F _ _ B3 eq_refl)]);
  clear B0 B1 B2 B3 F; cbn [collinear_result];
  first [ exfalso; lra
        | left; split; [reflexivity|]; intros s Ks Kt; lra
        | right; first [ exists s0, s1; split; [reflexivity|]; repeat split; solve [lra|auto]
                       | exists s2, s3; split; [reflexivity|]; repeat split; solve [lra|auto]
                       | exists s0, s3; split; [reflexivity|]; repeat split; solve [lra|auto]
                       | exists s2, s1; split; [reflexivity|]; repeat split; solve [lra|auto]
                       | exists s0, s2; split; [reflexivity|]; repeat split; solve [lra|auto]
                       | exists s3, s1; split; [reflexivity|]; repeat split; solve [lra|auto] ] ].
Qed.
Print Assumptions C21_collinear.

(** Closer than that the function raises: two segments on a line with a gap
    of half of 1e-15. *)
Theorem C21_collinear_refuted :
  forall rtol atol, 0 <= rtol -> 0 <= atol ->
  intersection (0, 0) (1, 0) (1 + tiny_len / 2, 0) (2, 0) rtol atol = None.
Proof.
  intros rtol atol Hr Ha. destruct tiny_facts as (T1 & T2 & T3).
  assert (T4 : tiny_len < / 10) by (unfold tiny_len; lra).
  assert (A : forall s q r, on_line_py (s, 0) (q, 0) (r, 0) rtol atol =
    Rleb (- tiny_dot) ((s - q) * (r - q)) && Rleb (- tiny_len) (Rabs (r - q) - Rabs (s - q))).
  { intros s q r. rewrite <- (on_line_axis (0, 0) (1, 0) s q r rtol atol) by (auto; cbn; lra).
    unfold on_axis. cbn [px py fst snd]. f_equal; f_equal; ring. }
  unfold intersection.
  replace ((0 - 0) * (1 - 0) - (2 - (1 + tiny_len / 2)) * (0 - 0)) with 0 by ring.
  replace ((2 - (1 + tiny_len / 2)) * (0 - 0) - (0 - 0) * (0 - (1 + tiny_len / 2))) with 0 by ring.
  replace ((1 + tiny_len / 2 - 0) * (0 - 0) - (0 - 0) * (1 - 0)) with 0 by ring.
  unfold close0. rewrite Rminus_0_r, Rabs_R0, Rmult_0_r, Rplus_0_r, (proj2 (Rleb_true 0 atol) Ha). cbn [andb].
  rewrite !A.
  set (tl := tiny_len) in *. set (td := tiny_dot) in *. clearbody tl td.
  rewrite (Rabs_right (2 - (1 + tl / 2))), (Rabs_left (0 - (1 + tl / 2))), (Rabs_left (1 - (1 + tl / 2))),
          (Rabs_right (1 - 0)), (Rabs_right (1 + tl / 2 - 0)), (Rabs_right (2 - 0)) by lra.
  rewrite (proj2 (Rleb_false (- td) ((0 - (1 + tl / 2)) * (2 - (1 + tl / 2))))) by nra.
  rewrite (proj2 (Rleb_false (- td) ((1 - (1 + tl / 2)) * (2 - (1 + tl / 2)))))
    by (replace ((1 - (1 + tl / 2)) * (2 - (1 + tl / 2))) with (- (tl / 2) + tl * tl / 4) by field; assert (tl * tl < tl * / 10) by (apply Rmult_lt_compat_l; lra); lra).
  rewrite (proj2 (Rleb_true (- td) ((1 + tl / 2 - 0) * (1 - 0)))) by lra.
  rewrite (proj2 (Rleb_true (- tl) (1 - 0 - (1 + tl / 2 - 0)))) by lra.
  rewrite (proj2 (Rleb_false (- tl) (1 - 0 - (2 - 0)))) by lra.
  rewrite andb_false_r. reflexivity.
Qed.
Print Assumptions C21_collinear_refuted.

(** The parallel test compares a product of lengths with an absolute
    tolerance: two perpendicular segments of length 1e-4 that cross in their
    midpoints are reported as collinear and disjoint with the default
    tolerances. *)
Theorem C21_short_crossing_refuted :
  let h := / 20000 in
  intersection (- h, 0) (h, 0) (0, - h) (0, h) (/ 10 ^ 5) (/ 10 ^ 8) = Some (3%nat, NoValue) /\
  on_segment (0, 0) (- h, 0) (h, 0) /\ on_segment (0, 0) (0, - h) (0, h).
Proof.
  cbv zeta. split; [|split; exists (/ 2); cbn; repeat split; lra].
  assert (P : forall x0 y0 x1 y1 x2 y2, (y0 - y1) * (x2 - x1) - (x0 - x1) * (y2 - y1) = / 200000000 \/ (y0 - y1) * (x2 - x1) - (x0 - x1) * (y2 - y1) = - / 200000000 ->
     (x2 - x1) * (x2 - x1) + (y2 - y1) * (y2 - y1) = / 100000000 ->
     on_line_py (x0, y0) (x1, y1) (x2, y2) (/ 10 ^ 5) (/ 10 ^ 8) = false).
  { intros x0 y0 x1 y1 x2 y2 Hc Hd. unfold on_line_py, point_on_line. cbn [px py fst snd]. rewrite Hd.
    replace ((y0 - y1) * (x2 - x1) + - (x0 - x1) * (y2 - y1)) with ((y0 - y1) * (x2 - x1) - (x0 - x1) * (y2 - y1)) by ring.
    assert (Ab : Rabs ((y0 - y1) * (x2 - x1) - (x0 - x1) * (y2 - y1)) = / 200000000).
    { destruct Hc as [-> | ->]; [apply Rabs_right; lra|]. rewrite Rabs_left; lra. }
    rewrite Ab. rewrite (proj2 (Reqb_false (/ 100000000) 0)) by lra.
    rewrite (proj2 (Rleb_false (/ 200000000 / / 100000000) (/ 10 ^ 5))) by lra. reflexivity. }
  assert (K : forall x, - / 10 ^ 8 <= x <= / 10 ^ 8 -> close0 x (/ 10 ^ 5) (/ 10 ^ 8) = true).
  { intros x Hx. unfold close0. rewrite Rminus_0_r, Rabs_R0, Rmult_0_r. apply Rleb_true. rewrite Rplus_0_r. apply Rabs_le. exact Hx. }
  unfold intersection. rewrite !K by lra. cbn [andb].
  rewrite !P by lra. reflexivity.
Qed.
Print Assumptions C21_short_crossing_refuted.

(** ** The C routine [__line_segment_intersection] *)
Theorem C21_c_routine :
  forall A B C D,
  (forall p, line_segment_intersection A B C D = Some p -> on_segment p A B /\ on_segment p C D) /\
  (let side P Q X := (px Q - px P) * (py X - py P) - (px X - px P) * (py Q - py P) in
   side A B C * side A B D < 0 -> side C D A * side C D B < 0 -> line_segment_intersection A B C D <> None).
Proof.
  intros (ax, ay) (bx, by_) (cx, cy) (dx, dy). unfold line_segment_intersection. cbv zeta. cbn [px py fst snd].
  split.
  - intros p H.
    destruct ((Reqb ax bx && Reqb ay by_) || (Reqb cx dx && Reqb cy dy)) eqn:E0; [discriminate|].
    destruct (_ || _ || _ || _) in H; [discriminate|].
    set (Bx := bx - ax) in *. set (By := by_ - ay) in *. set (Cx := cx - ax) in *. set (Cy := cy - ay) in *.
    set (Dx := dx - ax) in *. set (Dy := dy - ay) in *.
    assert (HB : 0 < Bx * Bx + By * By).
    { apply orb_false_iff in E0 as (E0 & _). destruct (Reqb_spec ax bx) as [E1|E1], (Reqb_spec ay by_) as [E2|E2]; cbn in E0;
      [discriminate|..]; unfold Bx, By; nra. }
    set (L := sqrt (Bx * Bx + By * By)) in *.
    assert (HL : 0 < L) by (apply sqrt_lt_R0, HB). assert (HLL : L * L = Bx * Bx + By * By) by (apply sqrt_sqrt; lra).
    set (c := Bx / L) in *. set (s := By / L) in *.
    assert (Ec : Bx = c * L) by (unfold c; field; lra). assert (Es : By = s * L) by (unfold s; field; lra).
    assert (Hcs : c * c + s * s = 1).
    { apply (Rmult_eq_reg_r (L * L)); [|nra]. replace ((c * c + s * s) * (L * L)) with ((c * L) * (c * L) + (s * L) * (s * L)) by ring.
      rewrite <- Ec, <- Es, HLL. ring. }
    clearbody c s L. clear HLL HB.
    set (Cyr := Cy * c - Cx * s) in *. set (Dyr := Dy * c - Dx * s) in *.
    set (Cxr := Cx * c + Cy * s) in *. set (Dxr := Dx * c + Dy * s) in *.
    destruct ((Rltb Cyr 0 && Rltb Dyr 0) || (Rleb 0 Cyr && Rleb 0 Dyr)) eqn:E1; [discriminate|].
    assert (Hop : (Cyr < 0 /\ 0 <= Dyr) \/ (0 <= Cyr /\ Dyr < 0)).
    { destruct (Rltb_spec Cyr 0), (Rltb_spec Dyr 0), (Rleb_spec 0 Cyr), (Rleb_spec 0 Dyr); cbn in E1; try discriminate; lra. }
    assert (Hne : Dyr - Cyr <> 0) by lra.
    set (pos := Dxr + (Cxr - Dxr) * Dyr / (Dyr - Cyr)) in *.
    destruct (Rltb_spec pos 0) as [|P0]; [discriminate|]. destruct (Rltb_spec L pos) as [|P1]; [discriminate|]. cbn in H. injection H as <-.
    split.
    + exists (pos / L). cbn [px py fst snd]. fold Bx By. split.
      * split; [apply Rmult_le_pos; [lra|left; apply Rinv_0_lt_compat, HL]|].
        apply (Rmult_le_reg_r L); [exact HL|]. unfold Rdiv. rewrite Rmult_assoc, Rinv_l by lra. lra.
      * rewrite Ec, Es. split; field; lra.
    + set (r := Dyr / (Dyr - Cyr)).
      assert (Hr : 0 <= r <= 1).
      { unfold r. destruct Hop as [Hop|Hop].
        - split; [apply Rmult_le_pos; [lra|left; apply Rinv_0_lt_compat; lra]|].
          apply (Rmult_le_reg_r (Dyr - Cyr)); [lra|]. unfold Rdiv. rewrite Rmult_assoc, Rinv_l by lra. lra.
        - replace (Dyr / (Dyr - Cyr)) with ((- Dyr) / (Cyr - Dyr)) by (field; lra).
          split; [apply Rmult_le_pos; [lra|left; apply Rinv_0_lt_compat; lra]|].
          apply (Rmult_le_reg_r (Cyr - Dyr)); [lra|]. unfold Rdiv. rewrite Rmult_assoc, Rinv_l by lra. lra. }
      assert (Epos : pos = Dxr + r * (Cxr - Dxr)) by (unfold pos, r; field; exact Hne).
      assert (Ey : Dyr + r * (Cyr - Dyr) = 0) by (unfold r; field; exact Hne).
      (* back to the original axes *)
      assert (Rx : forall X Y, (X * c + Y * s) * c - (Y * c - X * s) * s = X).
      { intros X Y. replace ((X * c + Y * s) * c - (Y * c - X * s) * s) with (X * (c * c + s * s)) by ring. rewrite Hcs. ring. }
      assert (Ry : forall X Y, (X * c + Y * s) * s + (Y * c - X * s) * c = Y).
      { intros X Y. replace ((X * c + Y * s) * s + (Y * c - X * s) * c) with (Y * (c * c + s * s)) by ring. rewrite Hcs. ring. }
      exists (1 - r). cbn [px py fst snd]. split; [lra|]. split.
      * pose proof (Rx Cx Cy) as K1. pose proof (Rx Dx Dy) as K2. fold Cxr Cyr in K1. fold Dxr Dyr in K2.
        rewrite Epos. assert (c * (Dxr + r * (Cxr - Dxr)) = Dx + r * (Cx - Dx)).
        { rewrite <- K1, <- K2. replace (Dxr * c - Dyr * s + r * (Cxr * c - Cyr * s - (Dxr * c - Dyr * s))) with
            (c * (Dxr + r * (Cxr - Dxr)) - s * (Dyr + r * (Cyr - Dyr))) by ring. rewrite Ey. ring. }
        rewrite (Rmult_comm _ c), H. unfold Dx, Cx. ring.
      * pose proof (Ry Cx Cy) as K1. pose proof (Ry Dx Dy) as K2. fold Cxr Cyr in K1. fold Dxr Dyr in K2.
        rewrite Epos. assert (s * (Dxr + r * (Cxr - Dxr)) = Dy + r * (Cy - Dy)).
        { rewrite <- K1, <- K2. replace (Dxr * s + Dyr * c + r * (Cxr * s + Cyr * c - (Dxr * s + Dyr * c))) with
            (s * (Dxr + r * (Cxr - Dxr)) + c * (Dyr + r * (Cyr - Dyr))) by ring. rewrite Ey. ring. }
        rewrite (Rmult_comm _ s), H. unfold Dy, Cy. ring.
  - intros S1 S2 H.
    destruct ((Reqb ax bx && Reqb ay by_) || (Reqb cx dx && Reqb cy dy)) eqn:E0.
    { apply orb_true_iff in E0 as [E0|E0]; apply andb_true_iff in E0 as (E1 & E2); apply Reqb_true in E1, E2; subst; nra. }
    destruct (_ || _ || _ || _) eqn:E1 in H.
    { apply orb_true_iff in E1 as [E1|E1]; [apply orb_true_iff in E1 as [E1|E1]; [apply orb_true_iff in E1 as [E1|E1]|]|];
      apply andb_true_iff in E1 as (E1 & E2); apply Reqb_true in E1, E2; subst; nra. }
    set (Bx := bx - ax) in *. set (By := by_ - ay) in *. set (Cx := cx - ax) in *. set (Cy := cy - ay) in *.
    set (Dx := dx - ax) in *. set (Dy := dy - ay) in *.
    assert (HB : 0 < Bx * Bx + By * By).
    { apply orb_false_iff in E0 as (E0 & _). destruct (Reqb_spec ax bx) as [E1'|E1'], (Reqb_spec ay by_) as [E2'|E2']; cbn in E0;
      [discriminate|..]; unfold Bx, By; nra. }
    set (L := sqrt (Bx * Bx + By * By)) in *.
    assert (HL : 0 < L) by (apply sqrt_lt_R0, HB). assert (HLL : L * L = Bx * Bx + By * By) by (apply sqrt_sqrt; lra).
    set (c := Bx / L) in *. set (s := By / L) in *.
    assert (Ec : Bx = c * L) by (unfold c; field; lra). assert (Es : By = s * L) by (unfold s; field; lra).
    assert (Hcs : c * c + s * s = 1).
    { apply (Rmult_eq_reg_r (L * L)); [|nra]. replace ((c * c + s * s) * (L * L)) with ((c * L) * (c * L) + (s * L) * (s * L)) by ring.
      rewrite <- Ec, <- Es, HLL. ring. }
    clearbody c s L. clear HLL HB E0 E1.
    set (Cyr := Cy * c - Cx * s) in *. set (Dyr := Dy * c - Dx * s) in *.
    set (Cxr := Cx * c + Cy * s) in *. set (Dxr := Dx * c + Dy * s) in *.
    assert (S1' : Cyr * Dyr < 0).
    { replace (Bx * Cy - Cx * By) with (L * Cyr) in S1 by (rewrite Ec, Es; unfold Cyr; ring).
      replace (Bx * Dy - Dx * By) with (L * Dyr) in S1 by (rewrite Ec, Es; unfold Dyr; ring).
      assert (0 < L * L) by nra. replace (L * Cyr * (L * Dyr)) with ((L * L) * (Cyr * Dyr)) in S1 by ring.
      destruct (Rlt_dec (Cyr * Dyr) 0); auto. exfalso. assert (0 <= L * L * (Cyr * Dyr)) by (apply Rmult_le_pos; lra). lra. }
    assert (Hop : (Cyr < 0 /\ 0 < Dyr) \/ (0 < Cyr /\ Dyr < 0)).
    { clear -S1'. revert S1'. generalize Cyr Dyr. intros u v K.
      destruct (Rlt_dec u 0); [left|right].
      - split; [assumption|]. destruct (Rlt_dec 0 v); [assumption|]. exfalso. nra.
      - assert (u <> 0) by (intros ->; lra). split; [lra|]. destruct (Rlt_dec v 0); [assumption|]. exfalso. assert (0 <= u * v) by (apply Rmult_le_pos; lra). lra. }
    assert (E1 : (Rltb Cyr 0 && Rltb Dyr 0) || (Rleb 0 Cyr && Rleb 0 Dyr) = false) by (rdestruct; auto; lra).
    rewrite E1 in H. assert (Hne : Dyr - Cyr <> 0) by lra.
    set (pos := Dxr + (Cxr - Dxr) * Dyr / (Dyr - Cyr)) in *.
    assert (Epos : pos * (Dyr - Cyr) = Cxr * Dyr - Dxr * Cyr) by (unfold pos; field; exact Hne).
    (* side of A and of B with respect to CD in the rotated frame *)
    assert (SA : (dx - cx) * (ay - cy) - (ax - cx) * (dy - cy) = Cxr * Dyr - Dxr * Cyr).
    { unfold Cxr, Dyr, Dxr, Cyr. replace ((Cx * c + Cy * s) * (Dy * c - Dx * s) - (Dx * c + Dy * s) * (Cy * c - Cx * s)) with
        ((Cx * Dy - Dx * Cy) * (c * c + s * s)) by ring. rewrite Hcs. unfold Cx, Cy, Dx, Dy. ring. }
    assert (SB : (dx - cx) * (by_ - cy) - (bx - cx) * (dy - cy) = Cxr * Dyr - Dxr * Cyr - L * (Dyr - Cyr)).
    { replace by_ with (ay + By) by (unfold By; ring). replace bx with (ax + Bx) by (unfold Bx; ring).
      replace ((dx - cx) * (ay + By - cy) - (ax + Bx - cx) * (dy - cy)) with
        (((dx - cx) * (ay - cy) - (ax - cx) * (dy - cy)) + ((dx - cx) * By - Bx * (dy - cy))) by ring.
      rewrite SA, Ec, Es. generalize (Cxr * Dyr - Dxr * Cyr). intros z. unfold Cyr, Dyr, Cx, Cy, Dx, Dy. ring. }
    rewrite SA, SB, <- Epos in S2. replace (pos * (Dyr - Cyr) - L * (Dyr - Cyr)) with ((pos - L) * (Dyr - Cyr)) in S2 by ring.
    assert (S2' : pos * (pos - L) < 0).
    { assert (0 < (Dyr - Cyr) * (Dyr - Cyr)) by nra. replace (pos * (Dyr - Cyr) * ((pos - L) * (Dyr - Cyr))) with (((Dyr - Cyr) * (Dyr - Cyr)) * (pos * (pos - L))) in S2 by ring.
      destruct (Rlt_dec (pos * (pos - L)) 0); auto. exfalso.
      assert (0 <= (Dyr - Cyr) * (Dyr - Cyr) * (pos * (pos - L))) by (apply Rmult_le_pos; lra). lra. }
    assert (0 < pos < L) by nra.
    assert (E2 : Rltb pos 0 || Rltb L pos = false) by (clearbody pos; rdestruct; auto; lra). rewrite E2 in H. discriminate.
Qed.
Print Assumptions C21_c_routine.

(** Non-vacuity: the diagonals of the unit square cross in (1/2, 1/2). *)
Example C21_example : / 10 ^ 8 < Rabs (cross_dirs (0, 0) (1, 1) (0, 1) (1, 0)) /\
  separated 0 1 /\ line_segment_intersection (0, 0) (1, 1) (0, 1) (1, 0) <> None.
Proof.
  split; [|split].
  - unfold cross_dirs. cbn [px py fst snd]. rewrite Rabs_left by lra. lra.
  - right. rewrite Rabs_left by lra. unfold tiny_len. lra.
  - apply C21_c_routine; cbn; lra.
Qed.
