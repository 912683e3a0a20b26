(** C19 for triangles: with [closed=False], the decision for a point and a
    triangle is exact. *)
From Coq Require Import Reals List Arith Bool Lia Lra.
From Verif Require Import RealLib ArrayLib PolygonModel PolygonProofs PolygonProps.
Import ListNotations.
Local Open Scope R_scope.

(** Barycentric coordinates. *)
Lemma barycentric t p : tri_cross t <> 0 ->
  let '(a, b, c) := t in exists l m n, l + m + n = 1 /\ px p = l * px a + m * px b + n * px c /\ py p = l * py a + m * py b + n * py c.
Proof.
  destruct t as [[[ax ay] [bx by_]] [cx cy]], p as [x y]. unfold tri_cross. cbn [px py fst snd]. intros D.
  exists (((bx - x) * (cy - y) - (cx - x) * (by_ - y)) / ((bx - ax) * (cy - ay) - (cx - ax) * (by_ - ay))),
         (((cx - x) * (ay - y) - (ax - x) * (cy - y)) / ((bx - ax) * (cy - ay) - (cx - ax) * (by_ - ay))),
         (((ax - x) * (by_ - y) - (bx - x) * (ay - y)) / ((bx - ax) * (cy - ay) - (cx - ax) * (by_ - ay))).
  repeat split; field; exact D.
Qed.

Lemma barycentric_unique ax ay bx by_ cx cy l m n l' m' n' :
  (bx - ax) * (cy - ay) - (cx - ax) * (by_ - ay) <> 0 -> l + m + n = 1 -> l' + m' + n' = 1 ->
  l * ax + m * bx + n * cx = l' * ax + m' * bx + n' * cx -> l * ay + m * by_ + n * cy = l' * ay + m' * by_ + n' * cy ->
  l = l' /\ m = m' /\ n = n'.
Proof.
  intros D S S' X Y.
  assert (l = 1 - m - n) as -> by lra. assert (l' = 1 - m' - n') as -> by lra.
  assert (E1 : (m - m') * (bx - ax) + (n - n') * (cx - ax) = 0) by lra.
  assert (E2 : (m - m') * (by_ - ay) + (n - n') * (cy - ay) = 0) by lra.
  set (D0 := (bx - ax) * (cy - ay) - (cx - ax) * (by_ - ay)) in *.
  assert (M : (m - m') * D0 = 0).
  { transitivity (((m - m') * (bx - ax) + (n - n') * (cx - ax)) * (cy - ay) - ((m - m') * (by_ - ay) + (n - n') * (cy - ay)) * (cx - ax)); [unfold D0; ring|].
    rewrite E1, E2. ring. }
  assert (N : (n - n') * D0 = 0).
  { transitivity (((m - m') * (by_ - ay) + (n - n') * (cy - ay)) * (bx - ax) - ((m - m') * (bx - ax) + (n - n') * (cx - ax)) * (by_ - ay)); [unfold D0; ring|].
    rewrite E1, E2. ring. }
  apply Rmult_integral in M, N. destruct M as [M|M]; [|contradiction]. destruct N as [N|N]; [|contradiction]. lra.
Qed.

(** The crossing test as a sign of the coordinate opposite the edge. *)
Lemma crosses_sign x y ax ay bx by_ w : w = (bx - ax) * (y - ay) - (x - ax) * (by_ - ay) ->
  crosses_left x y (ax, ay) (bx, by_) = (Rltb ay y && Rleb y by_ && Rltb w 0) || (Rltb by_ y && Rleb y ay && Rltb 0 w).
Proof.
  intros ->. unfold crosses_left. cbn [px py fst snd].
  destruct (Rltb ay y) eqn:A, (Rleb y by_) eqn:B; cbn [andb orb];
  try apply Rltb_true in A; try apply Rltb_false in A; try apply Rleb_true in B; try apply Rleb_false in B.
  - (* upwards *)
    assert (Rltb by_ y = false) as -> by (apply Rltb_false; lra). cbn [andb orb]. rewrite orb_false_r.
    assert (P : 0 < by_ - ay) by lra.
    assert (E : ax + (y - ay) / (by_ - ay) * (bx - ax) - x = ((bx - ax) * (y - ay) - (x - ax) * (by_ - ay)) * / (by_ - ay)) by (field; lra).
    set (w := (bx - ax) * (y - ay) - (x - ax) * (by_ - ay)) in *.
    assert (Pi : 0 < / (by_ - ay)) by (apply Rinv_0_lt_compat; auto).
    destruct (Rltb w 0) eqn:W; [apply Rltb_true in W; apply Rltb_true|apply Rltb_false in W; apply Rltb_false].
    + assert (w * / (by_ - ay) < 0); [|lra]. replace 0 with (0 * / (by_ - ay)) by ring. apply Rmult_lt_compat_r; auto.
    + assert (0 <= w * / (by_ - ay)); [|lra]. apply Rmult_le_pos; lra.
  - (* by_ < y: no crossing since ay < y too *)
    assert (Rleb y ay = false) as -> by (apply Rleb_false; lra). rewrite !andb_false_r. reflexivity.
  - (* y <= ay and y <= by_ *)
    assert (Rltb by_ y = false) as -> by (apply Rltb_false; lra). reflexivity.
  - (* downwards *)
    assert (Rltb by_ y = true) as -> by (apply Rltb_true; lra). assert (Rleb y ay = true) as -> by (apply Rleb_true; lra). cbn [andb].
    assert (P : 0 < ay - by_) by lra.
    assert (E : x - (ax + (y - ay) / (by_ - ay) * (bx - ax)) = ((bx - ax) * (y - ay) - (x - ax) * (by_ - ay)) * / (ay - by_)) by (field; lra).
    set (w := (bx - ax) * (y - ay) - (x - ax) * (by_ - ay)) in *.
    assert (Pi : 0 < / (ay - by_)) by (apply Rinv_0_lt_compat; auto).
    destruct (Rltb 0 w) eqn:W; [apply Rltb_true in W; apply Rltb_true|apply Rltb_false in W; apply Rltb_false].
    + assert (0 < w * / (ay - by_)); [|lra]. apply Rmult_lt_0_compat; auto.
    + assert (w * / (ay - by_) <= 0); [|lra]. replace 0 with (0 * / (ay - by_)) by ring. apply Rmult_le_compat_r; lra.
Qed.

(** One vertex on one side of the horizontal line, two on the other. *)
Lemma one_against_two A B C l m n : l + m + n = 1 -> l * A + m * B + n * C = 0 ->
  (A < 0 /\ 0 <= B /\ 0 <= C) \/ (0 <= A /\ B < 0 /\ C < 0) -> m <> 0 -> n <> 0 -> ~ (l = 0 /\ 0 <= m /\ 0 <= n) ->
  ((0 < l /\ 0 < m /\ 0 < n) <-> (m < 0 /\ n < 0) \/ (0 < m /\ 0 < n)).
Proof.
  intros S Y Sd Hm Hn Ne. split; [intros (H1 & H2 & H3); auto|]. intros [(H1 & H2)|(H1 & H2)].
  - exfalso. assert (1 < l) by lra. destruct Sd as [(HA & HB & HC)|(HA & HB & HC)].
    + assert (l * A < 0) by (replace 0 with (l * 0) by ring; apply Rmult_lt_compat_l; lra).
      assert (m * B <= 0) by (replace 0 with (m * 0) by ring; apply Rmult_le_compat_neg_l; lra).
      assert (n * C <= 0) by (replace 0 with (n * 0) by ring; apply Rmult_le_compat_neg_l; lra). lra.
    + assert (0 <= l * A) by (apply Rmult_le_pos; lra).
      assert (0 < m * B) by (replace (m * B) with (- m * - B) by ring; apply Rmult_lt_0_compat; lra).
      assert (0 < n * C) by (replace (n * C) with (- n * - C) by ring; apply Rmult_lt_0_compat; lra). lra.
  - split; [|auto]. destruct (Rlt_le_dec 0 l) as [H|H]; [auto|exfalso].
    destruct Sd as [(HA & HB & HC)|(HA & HB & HC)].
    + assert (0 <= m * B) by (apply Rmult_le_pos; lra). assert (0 <= n * C) by (apply Rmult_le_pos; lra).
      assert (l <> 0) by (intros E; apply Ne; lra).
      assert (0 < l * A) by (replace (l * A) with (- l * - A) by ring; apply Rmult_lt_0_compat; lra). lra.
    + assert (l * A <= 0) by (replace 0 with (l * 0) by ring; destruct (Req_dec l 0) as [->|]; [lra|apply Rmult_le_compat_neg_l; lra]).
      assert (m * B < 0) by (replace 0 with (m * 0) by ring; apply Rmult_lt_compat_l; lra).
      assert (n * C < 0) by (replace 0 with (n * 0) by ring; apply Rmult_lt_compat_l; lra). lra.
Qed.

Lemma xor_signs (u v : R) : u <> 0 -> v <> 0 ->
  xorb (Rltb u 0) (Rltb 0 v) = true <-> (u < 0 /\ v < 0) \/ (0 < u /\ 0 < v).
Proof.
  intros Hu Hv. destruct (Rltb u 0) eqn:U, (Rltb 0 v) eqn:V; cbn;
  try apply Rltb_true in U; try apply Rltb_false in U; try apply Rltb_true in V; try apply Rltb_false in V.
  - split; [discriminate|]. intros [?|?]; lra.
  - split; [|auto]. intros _. left. lra.
  - split; [|auto]. intros _. right. lra.
  - split; [discriminate|]. intros [?|?]; lra.
Qed.

Lemma same_sign_scaled D m n : D <> 0 -> ((n * D < 0 /\ m * D < 0) \/ (0 < n * D /\ 0 < m * D) <-> (m < 0 /\ n < 0) \/ (0 < m /\ 0 < n)).
Proof.
  intros HD. destruct (Rdichotomy D 0 HD) as [H|H].
  - assert (E : forall a, (a * D < 0 <-> 0 < a) /\ (0 < a * D <-> a < 0)).
    { intros a. split; split; intros K.
      - destruct (Rlt_le_dec 0 a); [auto|]. assert (0 <= a * D); [|lra]. replace (a * D) with (- a * - D) by ring. apply Rmult_le_pos; lra.
      - replace (a * D) with (- (a * - D)) by ring. assert (0 < a * - D) by (apply Rmult_lt_0_compat; lra). lra.
      - destruct (Rlt_le_dec a 0); [auto|]. assert (0 <= a * - D) by (apply Rmult_le_pos; lra). lra.
      - replace (a * D) with (- a * - D) by ring. apply Rmult_lt_0_compat; lra. }
    destruct (E m), (E n). tauto.
  - assert (E : forall a, (a * D < 0 <-> a < 0) /\ (0 < a * D <-> 0 < a)).
    { intros a. split; split; intros K.
      - destruct (Rlt_le_dec a 0); [auto|]. assert (0 <= a * D) by (apply Rmult_le_pos; lra). lra.
      - replace (a * D) with (- (- a * D)) by ring. assert (0 < - a * D) by (apply Rmult_lt_0_compat; lra). lra.
      - destruct (Rlt_le_dec 0 a); [auto|]. assert (0 <= - a * D) by (apply Rmult_le_pos; lra). lra.
      - apply Rmult_lt_0_compat; lra. }
    destruct (E m), (E n). tauto.
Qed.

Lemma on_line_collinear x y ax ay bx by_ : point_on_line x y ax ay bx by_ 0 0 = true -> (ax, ay) <> (bx, by_) ->
  (bx - ax) * (y - ay) - (x - ax) * (by_ - ay) = 0.
Proof.
  intros H Ne. unfold point_on_line in H.
  assert (Dn : 0 < (bx - ax) * (bx - ax) + (by_ - ay) * (by_ - ay)).
  { pose proof (Rle_0_sqr (bx - ax)) as P1. pose proof (Rle_0_sqr (by_ - ay)) as P2. unfold Rsqr in P1, P2.
    destruct (Req_dec (bx - ax) 0) as [E1|E1].
    - assert (by_ - ay <> 0) as E2 by (intros E2; apply Ne; f_equal; lra). apply Rlt_0_sqr in E2. unfold Rsqr in E2. lra.
    - apply Rlt_0_sqr in E1. unfold Rsqr in E1. lra. }
  assert (Reqb ((bx - ax) * (bx - ax) + (by_ - ay) * (by_ - ay)) 0 = false) as Ez by (apply Reqb_false; lra). rewrite Ez in H.
  destruct (Rleb (Rabs ((y - ay) * (bx - ax) + - (x - ax) * (by_ - ay)) / ((bx - ax) * (bx - ax) + (by_ - ay) * (by_ - ay))) 0) eqn:K; [|discriminate].
  apply Rleb_true in K. set (w := (y - ay) * (bx - ax) + - (x - ax) * (by_ - ay)) in *.
  assert (W : Rabs w <= 0).
  { pose proof (Rabs_pos w). apply (Rmult_le_reg_r (/ ((bx - ax) * (bx - ax) + (by_ - ay) * (by_ - ay)))); [apply Rinv_0_lt_compat; auto|]. unfold Rdiv in K. lra. }
  assert (w = 0). { destruct (Req_dec w 0); [auto|]. apply Rabs_pos_lt in H0. lra. }
  unfold w in H0. lra.
Qed.

Lemma straddle_on_edge A B l m : (A < 0 /\ 0 <= B) \/ (0 <= A /\ B < 0) -> l + m = 1 -> l * A + m * B = 0 -> 0 <= l /\ 0 <= m.
Proof.
  intros Sd S Y. assert (l = 1 - m) as -> by lra.
  assert (E : m * (B - A) = - A) by lra. assert (E' : (1 - m) * (B - A) = B) by lra.
  destruct Sd as [(HA & HB)|(HA & HB)].
  - split.
    + destruct (Rlt_le_dec (1 - m) 0) as [K|K]; [|auto]. assert ((1 - m) * (B - A) < 0); [|lra].
      replace ((1 - m) * (B - A)) with (- ((m - 1) * (B - A))) by ring. assert (0 < (m - 1) * (B - A)) by (apply Rmult_lt_0_compat; lra). lra.
    + destruct (Rlt_le_dec m 0) as [K|K]; [|auto]. assert (0 < - m * (B - A)) by (apply Rmult_lt_0_compat; lra). lra.
  - split.
    + destruct (Rlt_le_dec (1 - m) 0) as [K|K]; [|auto]. assert (0 < (m - 1) * (A - B)) by (apply Rmult_lt_0_compat; lra). lra.
    + destruct (Rlt_le_dec m 0) as [K|K]; [|auto]. assert (0 < - m * (A - B)) by (apply Rmult_lt_0_compat; lra). lra.
Qed.

(** The parity of the crossed edges, for a point on no edge. *)
Lemma parity ay by_ cy y D l m n : D <> 0 -> l + m + n = 1 -> y = l * ay + m * by_ + n * cy ->
  ~ (n = 0 /\ 0 <= l /\ 0 <= m) -> ~ (l = 0 /\ 0 <= m /\ 0 <= n) -> ~ (m = 0 /\ 0 <= n /\ 0 <= l) ->
  (forall h, ay = h -> by_ = h -> cy = h -> False) ->
  let cr u v w := (Rltb u y && Rleb y v && Rltb w 0) || (Rltb v y && Rleb y u && Rltb 0 w) in
  xorb (cr ay by_ (n * D)) (xorb (cr by_ cy (l * D)) (cr cy ay (m * D))) = true <-> 0 < l /\ 0 < m /\ 0 < n.
Proof.
  intros HD S Y Nab Nbc Nca Flat cr.
  assert (Y0 : l * (ay - y) + m * (by_ - y) + n * (cy - y) = 0).
  { replace (l * (ay - y) + m * (by_ - y) + n * (cy - y)) with (l * ay + m * by_ + n * cy - (l + m + n) * y) by ring. rewrite S, <- Y. ring. }
  assert (Sx : forall u v, u <> 0 -> v <> 0 -> (xorb (Rltb (u * D) 0) (Rltb 0 (v * D)) = true <-> (u < 0 /\ v < 0) \/ (0 < u /\ 0 < v))).
  { intros u v Hu Hv. rewrite xor_signs by (apply Rmult_integral_contrapositive; auto). rewrite (same_sign_scaled D v u HD). tauto. }
  assert (Sx' : forall u v, u <> 0 -> v <> 0 -> (xorb (Rltb 0 (u * D)) (Rltb (v * D) 0) = true <-> (u < 0 /\ v < 0) \/ (0 < u /\ 0 < v))).
  { intros u v Hu Hv. rewrite xorb_comm, Sx by auto. tauto. }
  assert (Le : forall u, Rleb y u = negb (Rltb u y)).
  { intros u. destruct (Rltb u y) eqn:E; cbn; [apply Rleb_false; apply Rltb_true in E; lra|apply Rleb_true; apply Rltb_false in E; lra]. }
  unfold cr. rewrite !Le.
  destruct (Rltb ay y) eqn:EA, (Rltb by_ y) eqn:EB, (Rltb cy y) eqn:EC;
    try (apply Rltb_true in EA); try (apply Rltb_false in EA); try (apply Rltb_true in EB); try (apply Rltb_false in EB);
    try (apply Rltb_true in EC); try (apply Rltb_false in EC); cbn [andb negb orb]; rewrite ?orb_false_r, ?xorb_false_l, ?xorb_false_r.
  - (* all below *) split; [discriminate|]. intros (P1 & P2 & P3). exfalso.
    assert (0 < l * (y - ay)) by (apply Rmult_lt_0_compat; lra). assert (0 < m * (y - by_)) by (apply Rmult_lt_0_compat; lra).
    assert (0 < n * (y - cy)) by (apply Rmult_lt_0_compat; lra). lra.
  - (* c alone *)
    assert (l <> 0). { intros E. apply Nbc. split; [auto|]. rewrite E in *. apply (straddle_on_edge (by_ - y) (cy - y)); lra. }
    assert (m <> 0). { intros E. apply Nca. split; [auto|]. rewrite E in *. apply (straddle_on_edge (cy - y) (ay - y)); lra. }
    rewrite Sx by auto. pose proof (one_against_two (cy - y) (ay - y) (by_ - y) n l m) as H1. tauto || (destruct H1; [lra|lra|lra|auto|auto|tauto|]; tauto).
  - (* b alone *)
    assert (l <> 0). { intros E. apply Nbc. split; [auto|]. rewrite E in *. apply (straddle_on_edge (by_ - y) (cy - y)); lra. }
    assert (n <> 0). { intros E. apply Nab. split; [auto|]. rewrite E in *. apply (straddle_on_edge (ay - y) (by_ - y)); lra. }
    first [rewrite Sx by auto | rewrite Sx' by auto]. pose proof (one_against_two (by_ - y) (cy - y) (ay - y) m n l) as H1. destruct H1; [lra|lra|lra|auto|auto|tauto|]; tauto.
  - (* a alone *)
    assert (m <> 0). { intros E. apply Nca. split; [auto|]. rewrite E in *. apply (straddle_on_edge (cy - y) (ay - y)); lra. }
    assert (n <> 0). { intros E. apply Nab. split; [auto|]. rewrite E in *. apply (straddle_on_edge (ay - y) (by_ - y)); lra. }
    first [rewrite Sx by auto | rewrite Sx' by auto]. pose proof (one_against_two (ay - y) (by_ - y) (cy - y) l m n) as H1. destruct H1; [lra|lra|lra|auto|auto|tauto|]; tauto.
  - (* a alone, above *)
    assert (m <> 0). { intros E. apply Nca. split; [auto|]. rewrite E in *. apply (straddle_on_edge (cy - y) (ay - y)); lra. }
    assert (n <> 0). { intros E. apply Nab. split; [auto|]. rewrite E in *. apply (straddle_on_edge (ay - y) (by_ - y)); lra. }
    first [rewrite Sx by auto | rewrite Sx' by auto]. pose proof (one_against_two (ay - y) (by_ - y) (cy - y) l m n) as H1. destruct H1; [lra|lra|lra|auto|auto|tauto|]; tauto.
  - (* b alone *)
    assert (l <> 0). { intros E. apply Nbc. split; [auto|]. rewrite E in *. apply (straddle_on_edge (by_ - y) (cy - y)); lra. }
    assert (n <> 0). { intros E. apply Nab. split; [auto|]. rewrite E in *. apply (straddle_on_edge (ay - y) (by_ - y)); lra. }
    first [rewrite Sx by auto | rewrite Sx' by auto]. pose proof (one_against_two (by_ - y) (cy - y) (ay - y) m n l) as H1. destruct H1; [lra|lra|lra|auto|auto|tauto|]; tauto.
  - (* c alone *)
    assert (l <> 0). { intros E. apply Nbc. split; [auto|]. rewrite E in *. apply (straddle_on_edge (by_ - y) (cy - y)); lra. }
    assert (m <> 0). { intros E. apply Nca. split; [auto|]. rewrite E in *. apply (straddle_on_edge (cy - y) (ay - y)); lra. }
    first [rewrite Sx by auto | rewrite Sx' by auto]. pose proof (one_against_two (cy - y) (ay - y) (by_ - y) n l m) as H1. destruct H1; [lra|lra|lra|auto|auto|tauto|]; tauto.
  - (* all above *) split; [discriminate|]. intros (P1 & P2 & P3). exfalso.
    assert (0 <= l * (ay - y)) by (apply Rmult_le_pos; lra). assert (0 <= m * (by_ - y)) by (apply Rmult_le_pos; lra).
    assert (0 <= n * (cy - y)) by (apply Rmult_le_pos; lra).
    assert (Z1 : l * (ay - y) = 0) by lra. assert (Z2 : m * (by_ - y) = 0) by lra. assert (Z3 : n * (cy - y) = 0) by lra.
    apply Rmult_integral in Z1, Z2, Z3. apply (Flat y); lra.
Qed.

(** C19: for a triangle that is not degenerate, the test with
    [closed=False] accepts exactly the points of its interior. *)
Theorem C19_triangle :
  forall a b c p, tri_cross (a, b, c) <> 0 ->
  (point_inside [a; b; c] false p = true <-> convex_combination true p (a, b, c)).
Proof.
  intros [ax ay] [bx by_] [cx cy] [x y] D. pose proof (barycentric _ (x, y) D) as (l & m & n & S & X & Y).
  unfold tri_cross in D. cbn [px py fst snd] in *. set (D0 := (bx - ax) * (cy - ay) - (cx - ax) * (by_ - ay)) in *.
  assert (CC : convex_combination true (x, y) ((ax, ay), (bx, by_), (cx, cy)) <-> 0 < l /\ 0 < m /\ 0 < n).
  { unfold convex_combination. cbn [px py fst snd]. split.
    - intros (l' & m' & n' & P & S' & X' & Y').
      destruct (barycentric_unique ax ay bx by_ cx cy l m n l' m' n') as (-> & -> & ->); auto; lra.
    - intros P. exists l, m, n. auto. }
  rewrite CC. clear CC.
  assert (L : l = 1 - m - n) by lra.
  assert (Wab : n * D0 = (bx - ax) * (y - ay) - (x - ax) * (by_ - ay)) by (rewrite X, Y, L; unfold D0; ring).
  assert (Wbc : l * D0 = (cx - bx) * (y - by_) - (x - bx) * (cy - by_)) by (rewrite X, Y, L; unfold D0; ring).
  assert (Wca : m * D0 = (ax - cx) * (y - cy) - (x - cx) * (ay - cy)) by (rewrite X, Y, L; unfold D0; ring).
  assert (Ed : edges_of [(ax, ay); (bx, by_); (cx, cy)] = [((ax, ay), (bx, by_)); ((bx, by_), (cx, cy)); ((cx, cy), (ax, ay))]) by reflexivity.
  assert (Main : (exists p, In p [(ax, ay); (bx, by_); (cx, cy)] /\ px p <= x) -> (exists p, In p [(ax, ay); (bx, by_); (cx, cy)] /\ x <= px p) ->
    (exists p, In p [(ax, ay); (bx, by_); (cx, cy)] /\ py p <= y) -> (exists p, In p [(ax, ay); (bx, by_); (cx, cy)] /\ y <= py p) ->
    (point_inside [(ax, ay); (bx, by_); (cx, cy)] false (x, y) = true <-> 0 < l /\ 0 < m /\ 0 < n)).
  { intros B1 B2 B3 B4. rewrite (C19_decision _ _ _ _ B1 B2 B3 B4), Ed. cbn [existsb fst snd px py orb].
    assert (Nab : (ax, ay) <> (bx, by_)). { intros E. inversion E; subst. apply D. unfold D0. ring. }
    assert (Nbc : (bx, by_) <> (cx, cy)). { intros E. inversion E; subst. apply D. unfold D0. ring. }
    assert (Nca : (cx, cy) <> (ax, ay)). { intros E. inversion E; subst. apply D. unfold D0. ring. }
    destruct (point_on_line x y ax ay bx by_ 0 0) eqn:Oab.
    { cbn [orb]. split; [discriminate|]. intros (_ & _ & P). exfalso. apply on_line_collinear in Oab; [|auto]. rewrite <- Wab in Oab.
      apply Rmult_integral in Oab as [K|K]; [lra|contradiction]. }
    destruct (point_on_line x y bx by_ cx cy 0 0) eqn:Obc.
    { cbn [orb]. split; [discriminate|]. intros (P & _ & _). exfalso. apply on_line_collinear in Obc; [|auto]. rewrite <- Wbc in Obc.
      apply Rmult_integral in Obc as [K|K]; [lra|contradiction]. }
    destruct (point_on_line x y cx cy ax ay 0 0) eqn:Oca.
    { cbn [orb]. split; [discriminate|]. intros (_ & P & _). exfalso. apply on_line_collinear in Oca; [|auto]. rewrite <- Wca in Oca.
      apply Rmult_integral in Oca as [K|K]; [lra|contradiction]. }
    cbn [orb].
    pose proof (parity ay by_ cy y D0 l m n D S Y) as Pt. cbv zeta in Pt.
    rewrite <- (Pt) .
    - cbn [filter fst snd].
      rewrite (crosses_sign x y ax ay bx by_ _ Wab), (crosses_sign x y bx by_ cx cy _ Wbc), (crosses_sign x y cx cy ax ay _ Wca).
      repeat match goal with |- context [if ?b then _ else _] => destruct b end; cbn [length Nat.odd Nat.even negb xorb]; tauto || (unfold Nat.odd; cbn; tauto).
    - intros (E & P1 & P2). assert (K : point_on_line x y ax ay bx by_ 0 0 = true); [|rewrite K in Oab; discriminate].
      apply (point_on_line_exact _ _ _ _ _ _ 0 0 m); [lra|lra|lra|rewrite X, L, E; ring|rewrite Y, L, E; ring].
    - intros (E & P1 & P2). assert (K : point_on_line x y bx by_ cx cy 0 0 = true); [|rewrite K in Obc; discriminate].
      assert (M1 : m = 1 - n) by lra.
      apply (point_on_line_exact _ _ _ _ _ _ 0 0 n); [lra|lra|lra|rewrite X, E, M1; ring|rewrite Y, E, M1; ring].
    - intros (E & P1 & P2). assert (K : point_on_line x y cx cy ax ay 0 0 = true); [|rewrite K in Oca; discriminate].
      assert (M1 : n = 1 - l) by lra.
      apply (point_on_line_exact _ _ _ _ _ _ 0 0 l); [lra|lra|lra|rewrite X, E, M1; ring|rewrite Y, E, M1; ring].
    - intros h E1 E2 E3. apply D. unfold D0. subst. ring. }
  assert (Dec : forall (f : point -> R) h, (exists p, In p [(ax, ay); (bx, by_); (cx, cy)] /\ f p <= h) \/ (forall p, In p [(ax, ay); (bx, by_); (cx, cy)] -> h < f p)).
  { intros f h. destruct (Rle_lt_dec (f (ax, ay)) h); [left; exists (ax, ay); cbn; auto|].
    destruct (Rle_lt_dec (f (bx, by_)) h); [left; exists (bx, by_); cbn; auto|].
    destruct (Rle_lt_dec (f (cx, cy)) h); [left; exists (cx, cy); cbn; auto|].
    right. intros q [<-|[<-|[<-|[]]]]; auto. }
  assert (Dec' : forall (f : point -> R) h, (exists p, In p [(ax, ay); (bx, by_); (cx, cy)] /\ h <= f p) \/ (forall p, In p [(ax, ay); (bx, by_); (cx, cy)] -> f p < h)).
  { intros f h. destruct (Dec (fun q => - f q) (- h)) as [(q & Iq & Hq)|H]; [left; exists q; split; [auto|lra]|right; intros q Iq; specialize (H q Iq); lra]. }
  assert (Out : forall z va vb vc, z = l * va + m * vb + n * vc -> (va < z /\ vb < z /\ vc < z) \/ (z < va /\ z < vb /\ z < vc) -> 0 < l /\ 0 < m /\ 0 < n -> False).
  { intros z va vb vc Z Sd (P1 & P2 & P3). assert (Z0 : l * (va - z) + m * (vb - z) + n * (vc - z) = 0) by (rewrite Z, L; ring).
    destruct Sd as [(H1 & H2 & H3)|(H1 & H2 & H3)].
    - assert (0 < l * (z - va)) by (apply Rmult_lt_0_compat; lra). assert (0 < m * (z - vb)) by (apply Rmult_lt_0_compat; lra). assert (0 < n * (z - vc)) by (apply Rmult_lt_0_compat; lra). lra.
    - assert (0 < l * (va - z)) by (apply Rmult_lt_0_compat; lra). assert (0 < m * (vb - z)) by (apply Rmult_lt_0_compat; lra). assert (0 < n * (vc - z)) by (apply Rmult_lt_0_compat; lra). lra. }
  assert (Tri : forall P : point -> Prop, (forall p, In p [(ax, ay); (bx, by_); (cx, cy)] -> P p) -> P (ax, ay) /\ P (bx, by_) /\ P (cx, cy)).
  { intros P H. repeat split; apply H; cbn; auto. }
  assert (Fin : forall Q : Prop, point_inside [(ax, ay); (bx, by_); (cx, cy)] false (x, y) = false -> (Q -> False) -> (point_inside [(ax, ay); (bx, by_); (cx, cy)] false (x, y) = true <-> Q)).
  { intros Q E H. rewrite E. split; [discriminate|tauto]. }
  destruct (Dec px x) as [B1|B1].
  2:{ apply Fin; [refine (proj1 (C19_bounding_box _ false x y _ _)); [tauto|discriminate]|]. apply Tri in B1. eapply Out; [exact X|right; exact B1]. }
  destruct (Dec' px x) as [B2|B2].
  2:{ apply Fin; [refine (proj1 (C19_bounding_box _ false x y _ _)); [tauto|discriminate]|]. apply Tri in B2. eapply Out; [exact X|left; exact B2]. }
  destruct (Dec py y) as [B3|B3].
  2:{ apply Fin; [refine (proj1 (C19_bounding_box _ false x y _ _)); [tauto|discriminate]|]. apply Tri in B3. eapply Out; [exact Y|right; exact B3]. }
  destruct (Dec' py y) as [B4|B4].
  2:{ apply Fin; [refine (proj1 (C19_bounding_box _ false x y _ _)); [tauto|discriminate]|]. apply Tri in B4. eapply Out; [exact Y|left; exact B4]. }
  apply Main; auto.
Qed.
Print Assumptions C19_triangle.

(** Non-vacuity: a point inside and one outside. *)
Example C19_triangle_example :
  point_inside [(0, 0); (4, 0); (0, 4)] false (1, 1) = true /\ point_inside [(0, 0); (4, 0); (0, 4)] false (3, 3) = false.
Proof.
  assert (D : tri_cross ((0, 0), (4, 0), (0, 4)) <> 0) by (unfold tri_cross; cbn; lra). split.
  - apply (C19_triangle _ _ _ (1, 1) D). exists (1 / 2), (1 / 4), (1 / 4). cbn. lra.
  - destruct (point_inside [(0, 0); (4, 0); (0, 4)] false (3, 3)) eqn:E; [|reflexivity]. exfalso.
    apply (C19_triangle _ _ _ (3, 3) D) in E as (l & m & n & P & S & X & Y). cbn in *. lra.
Qed.
