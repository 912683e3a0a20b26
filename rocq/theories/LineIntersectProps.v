(** C51 (line_intersect), C52 (polygon_overlap), C53 (interpolate_polyline). *)
From Coq Require Import Reals List Arith Bool Lia Lra Psatz.
From Verif Require Import RealLib PolygonModel PolygonProofs.
Import ListNotations.
Local Open Scope R_scope.

(** ** The crossing of a line and an edge *)

Lemma line_vs_edge_sound p0 p1 t0 t1 a b : line_vs_edge p0 p1 t0 t1 = Some (a, b) ->
  px p0 + a * (px p1 - px p0) = px t0 + b * (px t1 - px t0) /\
  py p0 + a * (py p1 - py p0) = py t0 + b * (py t1 - py t0).
Proof.
  destruct p0 as (x0, y0), p1 as (x1, y1), t0 as (x2, y2), t1 as (x3, y3). unfold line_vs_edge. cbn [px py fst snd].
  set (D := (x1 - x0) * - (y3 - y2) + (y1 - y0) * (x3 - x2)). destruct (Reqb_spec D 0) as [|HD]; [discriminate|].
  cbn [negb]. intros H. injection H as <- <-.
  assert (HD' : (x3 - x2) * - (y1 - y0) + (y3 - y2) * (x1 - x0) <> 0) by (unfold D in HD; lra).
  unfold D in *. split; field; auto.
Qed.

Lemma line_vs_edge_complete p0 p1 t0 t1 a b :
  (px p1 - px p0) * - (py t1 - py t0) + (py p1 - py p0) * (px t1 - px t0) <> 0 ->
  px p0 + a * (px p1 - px p0) = px t0 + b * (px t1 - px t0) ->
  py p0 + a * (py p1 - py p0) = py t0 + b * (py t1 - py t0) ->
  line_vs_edge p0 p1 t0 t1 = Some (a, b).
Proof.
  intros HD E1 E2. destruct (line_vs_edge p0 p1 t0 t1) as [(a', b')|] eqn:E.
  - destruct (line_vs_edge_sound _ _ _ _ _ _ E) as (F1 & F2).
    destruct p0 as (x0, y0), p1 as (x1, y1), t0 as (x2, y2), t1 as (x3, y3). cbn [px py fst snd] in *.
    assert (Ga : (a - a') * ((x1 - x0) * - (y3 - y2) + (y1 - y0) * (x3 - x2)) = 0).
    { replace ((a - a') * ((x1 - x0) * - (y3 - y2) + (y1 - y0) * (x3 - x2))) with
        (- (y3 - y2) * ((x0 + a * (x1 - x0)) - (x0 + a' * (x1 - x0))) + (x3 - x2) * ((y0 + a * (y1 - y0)) - (y0 + a' * (y1 - y0)))) by ring.
      rewrite E1, E2, F1, F2. ring. }
    assert (Gb : (b - b') * ((x1 - x0) * - (y3 - y2) + (y1 - y0) * (x3 - x2)) = 0).
    { replace ((b - b') * ((x1 - x0) * - (y3 - y2) + (y1 - y0) * (x3 - x2))) with
        ((y1 - y0) * ((x2 + b * (x3 - x2)) - (x2 + b' * (x3 - x2))) - (x1 - x0) * ((y2 + b * (y3 - y2)) - (y2 + b' * (y3 - y2)))) by ring.
      rewrite <- E1, <- E2, <- F1, <- F2. ring. }
    apply Rmult_integral in Ga as [Ga|Ga]; [|contradiction]. apply Rmult_integral in Gb as [Gb|Gb]; [|contradiction].
    replace a' with a by lra. replace b' with b by lra. reflexivity.
  - exfalso. unfold line_vs_edge in E. cbv zeta in E. rewrite (proj2 (Reqb_false _ _) HD) in E. discriminate.
Qed.

(** ** The loop over the three edges *)

Definition crossing_at (p0 p1 : point) (P : R -> Prop) (e : point * point) : Prop :=
  exists a b, line_vs_edge p0 p1 (fst e) (snd e) = Some (a, b) /\ 0 <= b <= 1 /\ P a.

Lemma line_edges_spec p0 p1 edges : forall A B,
  line_edges p0 p1 edges A B = true <->
  (exists e, In e edges /\ crossing_at p0 p1 (fun a => 0 <= a <= 1) e) \/
  ((1 <= A)%nat \/ exists e, In e edges /\ crossing_at p0 p1 (fun a => 1 < a) e) /\
  ((1 <= B)%nat \/ exists e, In e edges /\ crossing_at p0 p1 (fun a => a < 0) e).
Proof.
  induction edges as [|(t0, t1) edges IH]; intros A B.
  - cbn [line_edges]. rewrite andb_true_iff, !Nat.leb_le. split; [intros (H1 & H2); right; split; left; assumption|].
    intros [(e & [] & _)|([H1|(e & [] & _)] & [H2|(e2 & [] & _)])]. auto.
  - cbn [line_edges].
    assert (Hd : forall P, (exists e, In e ((t0, t1) :: edges) /\ crossing_at p0 p1 P e) <->
      crossing_at p0 p1 P (t0, t1) \/ (exists e, In e edges /\ crossing_at p0 p1 P e)).
    { intros P. split.
      - intros (e & [<-|He] & K); [auto|right; eauto].
      - intros [K|(e & He & K)]; [exists (t0, t1)|exists e]; cbn; auto. }
    rewrite !Hd. clear Hd.
    destruct (line_vs_edge p0 p1 t0 t1) as [(a, b)|] eqn:E.
    + assert (Hc : forall P, crossing_at p0 p1 P (t0, t1) <-> 0 <= b <= 1 /\ P a).
      { intros P. unfold crossing_at. cbn [fst snd]. rewrite E. split.
        - intros (a' & b' & K & K1 & K2). injection K as <- <-. auto.
        - intros K. exists a, b. auto. }
      rewrite !Hc. clear Hc E.
      destruct (Rleb 0 a && Rleb a 1 && Rleb 0 b && Rleb b 1) eqn:E1.
      { split; [intros _|auto]. rewrite !andb_true_iff, !Rleb_true in E1. left. left. lra. }
      assert (N : ~ (0 <= b <= 1 /\ 0 <= a <= 1)).
      { intros K. rewrite !(proj2 (Rleb_true _ _)) in E1 by lra. discriminate. }
      rewrite IH. clear IH.
      destruct (Rltb 1 a && Rleb 0 b && Rleb b 1) eqn:EA.
      * rewrite !andb_true_iff, Rltb_true, !Rleb_true in EA.
        rewrite (proj2 (Rltb_false a 0)) by lra. cbn [andb].
        assert ((1 <= S A)%nat) by lia. assert (0 <= b <= 1 /\ 1 < a) by lra. assert (~ (0 <= b <= 1 /\ a < 0)) by lra. tauto.
      * assert (NA : ~ (0 <= b <= 1 /\ 1 < a)).
        { intros K. rewrite (proj2 (Rltb_true 1 a)), !(proj2 (Rleb_true _ _)) in EA by lra. discriminate. }
        destruct (Rltb a 0 && Rleb 0 b && Rleb b 1) eqn:EB.
        -- rewrite !andb_true_iff, Rltb_true, !Rleb_true in EB.
           assert ((1 <= S B)%nat) by lia. assert (0 <= b <= 1 /\ a < 0) by lra. tauto.
        -- assert (NB : ~ (0 <= b <= 1 /\ a < 0)).
           { intros K. rewrite (proj2 (Rltb_true a 0)), !(proj2 (Rleb_true _ _)) in EB by lra. discriminate. }
           tauto.
    + assert (Hc : forall P, ~ crossing_at p0 p1 P (t0, t1)).
      { intros P (a & b & K & _). cbn [fst snd] in K. congruence. }
      rewrite IH. pose proof (Hc (fun a => 0 <= a <= 1)). pose proof (Hc (fun a => 1 < a)). pose proof (Hc (fun a => a < 0)). tauto.
Qed.

(** ** C51 *)

(** The point at parameter [s] of the line through [p0] and [p1]. *)
Definition along (p0 p1 : point) (s : R) : point := (px p0 + s * (px p1 - px p0), py p0 + s * (py p1 - py p0)).

Lemma edge_in_triangle t e b : In e (tri_edges t) -> 0 <= b <= 1 -> convex_combination false (along (fst e) (snd e) b) t.
Proof.
  destruct t as ((u, v), w). cbn [tri_edges In]. intros [<- | [<- | [<- | []]]] Hb; unfold convex_combination, along; cbn [px py fst snd].
  - exists (1 - b), b, 0. repeat split; try lra; ring.
  - exists 0, (1 - b), b. repeat split; try lra; ring.
  - exists b, 0, (1 - b). repeat split; try lra; ring.
Qed.

Lemma triangle_convex t p q r s : convex_combination false p t -> convex_combination false q t -> 0 <= s <= 1 ->
  px r = px p + s * (px q - px p) -> py r = py p + s * (py q - py p) -> convex_combination false r t.
Proof.
  destruct t as ((u, v), w). unfold convex_combination. intros (l & m & n & H1 & H2 & H3 & H4) (l' & m' & n' & K1 & K2 & K3 & K4) Hs Ex Ey.
  assert (G : forall f g, 0 <= f -> 0 <= g -> 0 <= (1 - s) * f + s * g).
  { intros f g Hf Hg. assert (0 <= (1 - s) * f) by (apply Rmult_le_pos; lra). assert (0 <= s * g) by (apply Rmult_le_pos; lra). lra. }
  exists ((1 - s) * l + s * l'), ((1 - s) * m + s * m'), ((1 - s) * n + s * n'). repeat split.
  - apply G; lra.
  - apply G; lra.
  - apply G; lra.
  - replace ((1 - s) * l + s * l' + ((1 - s) * m + s * m') + ((1 - s) * n + s * n')) with ((1 - s) * (l + m + n) + s * (l' + m' + n')) by ring.
    rewrite H2, K2. ring.
  - rewrite Ex, H3, K3. ring.
  - rewrite Ey, H4, K4. ring.
Qed.

(** Leaving a triangle along an affine line of barycentric coordinates. *)
Lemma leave l1 l2 l3 m1 m2 m3 : 0 <= l1 -> 0 <= l2 -> 0 <= l3 -> m1 + m2 + m3 = 0 -> (m1 <> 0 \/ m2 <> 0 \/ m3 <> 0) ->
  exists r, 0 <= r /\ 0 <= l1 + r * m1 /\ 0 <= l2 + r * m2 /\ 0 <= l3 + r * m3 /\
   ((m1 < 0 /\ l1 + r * m1 = 0) \/ (m2 < 0 /\ l2 + r * m2 = 0) \/ (m3 < 0 /\ l3 + r * m3 = 0)).
Proof.
  intros L1 L2 L3 Hm Hn.
  assert (Pos : forall l m r, 0 <= l -> 0 <= r -> (m < 0 -> r <= l / - m) -> 0 <= l + r * m).
  { intros l m r Hl Hr Hq. destruct (Rlt_dec m 0) as [Km|Km].
    - specialize (Hq Km). assert (r * - m <= l). { apply (Rmult_le_compat_r (- m)) in Hq; [|lra]. replace (l / - m * - m) with l in Hq by (field; lra). exact Hq. } lra.
    - assert (0 <= r * m) by (apply Rmult_le_pos; lra). lra. }
  assert (Nn : forall l m, 0 <= l -> m < 0 -> 0 <= l / - m).
  { intros l m Hl Km. apply Rmult_le_pos; [exact Hl|left; apply Rinv_0_lt_compat; lra]. }
  assert (Z : forall l m, m < 0 -> l + l / - m * m = 0) by (intros l m Km; field; lra).
  (* the smallest exit among the decreasing coordinates *)
  assert (G : exists r, 0 <= r /\ (m1 < 0 -> r <= l1 / - m1) /\ (m2 < 0 -> r <= l2 / - m2) /\ (m3 < 0 -> r <= l3 / - m3) /\
    ((m1 < 0 /\ r = l1 / - m1) \/ (m2 < 0 /\ r = l2 / - m2) \/ (m3 < 0 /\ r = l3 / - m3))).
  { set (e1 := l1 / - m1) in *. set (e2 := l2 / - m2) in *. set (e3 := l3 / - m3) in *.
    assert (P1 : m1 < 0 -> 0 <= e1) by (intros; apply Nn; auto). assert (P2 : m2 < 0 -> 0 <= e2) by (intros; apply Nn; auto).
    assert (P3 : m3 < 0 -> 0 <= e3) by (intros; apply Nn; auto). clearbody e1 e2 e3. clear Pos Nn Z.
    destruct (Rlt_dec m1 0) as [K1|K1], (Rlt_dec m2 0) as [K2|K2], (Rlt_dec m3 0) as [K3|K3];
    try (specialize (P1 K1)); try (specialize (P2 K2)); try (specialize (P3 K3)).
    - exfalso. lra.
    - destruct (Rle_dec e1 e2); [exists e1|exists e2]; repeat split; try (intros; lra); try lra; auto.
    - destruct (Rle_dec e1 e3); [exists e1|exists e3]; repeat split; try (intros; lra); try lra; auto.
    - exists e1; repeat split; try (intros; lra); auto.
    - destruct (Rle_dec e2 e3); [exists e2|exists e3]; repeat split; try (intros; lra); try lra; auto.
    - exists e2; repeat split; try (intros; lra); auto.
    - exists e3; repeat split; try (intros; lra); auto.
    - exfalso. lra. }
  destruct G as (r & Hr & G1 & G2 & G3 & G4). exists r. split; [exact Hr|].
  split; [apply Pos; auto|]. split; [apply Pos; auto|]. split; [apply Pos; auto|].
  destruct G4 as [(K & ->)|[(K & ->)|(K & ->)]]; [left|right; left|right; right]; split; auto.
Qed.

(** From a point of the triangle on the line, moving in direction [sg], one
    edge is crossed. *)
Lemma leave_triangle p0 p1 t s sg : tri_cross t <> 0 -> p0 <> p1 -> (sg = 1 \/ sg = - 1) ->
  convex_combination false (along p0 p1 s) t ->
  exists e r, In e (tri_edges t) /\ 0 <= r /\ crossing_at p0 p1 (fun a => a = s + sg * r) e.
Proof.
  destruct p0 as (x0, y0), p1 as (x1, y1), t as (((ax, ay), (bx, by_)), (cx, cy)). unfold tri_cross, along. cbn [px py fst snd].
  intros HD Hne Hsg (l & m & n & (Hl & Hm & Hn) & Hsum & Ex & Ey). cbn [px py fst snd] in *.
  set (D := (bx - ax) * (cy - ay) - (cx - ax) * (by_ - ay)) in *. set (ux := x1 - x0) in *. set (uy := y1 - y0) in *.
  assert (Hu : ux <> 0 \/ uy <> 0).
  { destruct (Req_dec ux 0) as [Z1|]; [|auto]. destruct (Req_dec uy 0) as [Z2|]; [|auto]. exfalso. apply Hne. f_equal; unfold ux, uy in *; lra. }
  set (ma := sg * (ux * (by_ - cy) + uy * (cx - bx)) / D). set (mb := sg * (ux * (cy - ay) + uy * (ax - cx)) / D). set (mc := sg * (ux * (ay - by_) + uy * (bx - ax)) / D).
  assert (S0 : ma + mb + mc = 0) by (unfold ma, mb, mc; field; exact HD).
  assert (Sx : ma * ax + mb * bx + mc * cx = sg * ux) by (unfold ma, mb, mc, D in *; field; exact HD).
  assert (Sy : ma * ay + mb * by_ + mc * cy = sg * uy) by (unfold ma, mb, mc, D in *; field; exact HD).
  assert (NZ : ma <> 0 \/ mb <> 0 \/ mc <> 0).
  { destruct (Req_dec ma 0) as [Z1|]; [|auto]. destruct (Req_dec mb 0) as [Z2|]; [|auto]. destruct (Req_dec mc 0) as [Z3|]; [|auto].
    exfalso. rewrite Z1, Z2, Z3 in Sx, Sy. destruct Hsg as [-> | ->]; lra. }
  assert (Da : ma <> 0 -> ux * - (cy - by_) + uy * (cx - bx) <> 0).
  { intros K Z. apply K. unfold ma. replace (ux * (by_ - cy) + uy * (cx - bx)) with (ux * - (cy - by_) + uy * (cx - bx)) by ring. rewrite Z. unfold Rdiv. ring. }
  assert (Db : mb <> 0 -> ux * - (ay - cy) + uy * (ax - cx) <> 0).
  { intros K Z. apply K. unfold mb. replace (ux * (cy - ay) + uy * (ax - cx)) with (ux * - (ay - cy) + uy * (ax - cx)) by ring. rewrite Z. unfold Rdiv. ring. }
  assert (Dc : mc <> 0 -> ux * - (by_ - ay) + uy * (bx - ax) <> 0).
  { intros K Z. apply K. unfold mc. replace (ux * (ay - by_) + uy * (bx - ax)) with (ux * - (by_ - ay) + uy * (bx - ax)) by ring. rewrite Z. unfold Rdiv. ring. }
  clearbody ma mb mc.
  destruct (leave l m n ma mb mc Hl Hm Hn S0 NZ) as (r & Hr & La & Lb & Lc & Hz).
  assert (Px : x0 + (s + sg * r) * ux = (l + r * ma) * ax + (m + r * mb) * bx + (n + r * mc) * cx).
  { replace (x0 + (s + sg * r) * ux) with (x0 + s * ux + r * (sg * ux)) by ring. rewrite Ex, <- Sx. ring. }
  assert (Py : y0 + (s + sg * r) * uy = (l + r * ma) * ay + (m + r * mb) * by_ + (n + r * mc) * cy).
  { replace (y0 + (s + sg * r) * uy) with (y0 + s * uy + r * (sg * uy)) by ring. rewrite Ey, <- Sy. ring. }
  assert (Sum : (l + r * ma) + (m + r * mb) + (n + r * mc) = 1).
  { replace (l + r * ma + (m + r * mb) + (n + r * mc)) with ((l + m + n) + r * (ma + mb + mc)) by ring. rewrite Hsum, S0. ring. }
  set (la := l + r * ma) in *. set (lb := m + r * mb) in *. set (lc := n + r * mc) in *.
  destruct Hz as [(K & Z)|[(K & Z)|(K & Z)]].
  - exists ((bx, by_), (cx, cy)), r. split; [cbn; auto|]. split; [exact Hr|]. exists (s + sg * r), lc. cbn [fst snd].
    split; [|split; [lra|reflexivity]]. apply line_vs_edge_complete; cbn [px py fst snd]; fold ux uy.
    + apply Da. lra.
    + rewrite Px, Z. replace lb with (1 - lc) by lra. ring.
    + rewrite Py, Z. replace lb with (1 - lc) by lra. ring.
  - exists ((cx, cy), (ax, ay)), r. split; [cbn; auto|]. split; [exact Hr|]. exists (s + sg * r), la. cbn [fst snd].
    split; [|split; [lra|reflexivity]]. apply line_vs_edge_complete; cbn [px py fst snd]; fold ux uy.
    + apply Db. lra.
    + rewrite Px, Z. replace lc with (1 - la) by lra. ring.
    + rewrite Py, Z. replace lc with (1 - la) by lra. ring.
  - exists ((ax, ay), (bx, by_)), r. split; [cbn; auto|]. split; [exact Hr|]. exists (s + sg * r), lb. cbn [fst snd].
    split; [|split; [lra|reflexivity]]. apply line_vs_edge_complete; cbn [px py fst snd]; fold ux uy.
    + apply Dc. lra.
    + rewrite Px, Z. replace la with (1 - lb) by lra. ring.
    + rewrite Py, Z. replace la with (1 - lb) by lra. ring.
Qed.

(** The test is exact for a line of two distinct points and a non-degenerate
    triangle: true exactly when the segment meets the closed triangle. *)
Theorem C51_line_triangle : forall p0 p1 t, p0 <> p1 -> tri_cross t <> 0 ->
  (triangle_line_intersect p0 p1 t = true <->
   exists s, 0 <= s <= 1 /\ convex_combination false (along p0 p1 s) t).
Proof.
  intros p0 p1 t Hne HD. unfold triangle_line_intersect. rewrite line_edges_spec.
  assert (Snd : forall P e, In e (tri_edges t) -> crossing_at p0 p1 P e -> exists a, P a /\ convex_combination false (along p0 p1 a) t).
  { intros P e He (a & b & K & Kb & Ka). exists a. split; [exact Ka|].
    apply line_vs_edge_sound in K as (K1 & K2). pose proof (edge_in_triangle t e b He Kb) as C. unfold along in *. rewrite K1, K2. exact C. }
  split.
  - intros [(e & He & K)|([?|(e1 & He1 & K1)] & [?|(e2 & He2 & K2)])]; try lia.
    + destruct (Snd _ _ He K) as (a & Ka & C). exists a. auto.
    + destruct (Snd _ _ He1 K1) as (a1 & Ka1 & C1). destruct (Snd _ _ He2 K2) as (a2 & Ka2 & C2).
      exists 0. split; [lra|]. apply (triangle_convex t _ _ _ (- a2 / (a1 - a2)) C2 C1).
      * split; [apply Rmult_le_pos; [lra|left; apply Rinv_0_lt_compat; lra]|].
        apply (Rmult_le_reg_r (a1 - a2)); [lra|]. unfold Rdiv. rewrite Rmult_assoc, Rinv_l by lra. lra.
      * unfold along. cbn [px py fst snd]. field. lra.
      * unfold along. cbn [px py fst snd]. field. lra.
  - intros (s & Hs & C).
    destruct (leave_triangle p0 p1 t s 1 HD Hne (or_introl eq_refl) C) as (e1 & r1 & He1 & Hr1 & K1).
    destruct (leave_triangle p0 p1 t s (- 1) HD Hne (or_intror eq_refl) C) as (e2 & r2 & He2 & Hr2 & K2).
    destruct K1 as (a1 & b1 & K1 & Kb1 & Ka1), K2 as (a2 & b2 & K2 & Kb2 & Ka2).
    destruct (Rle_dec a1 1) as [H1|H1].
    { left. exists e1. split; [exact He1|]. exists a1, b1. repeat split; auto; lra. }
    destruct (Rle_dec 0 a2) as [H2|H2].
    { left. exists e2. split; [exact He2|]. exists a2, b2. repeat split; auto; lra. }
    right. split; right; [exists e1|exists e2]; (split; [assumption|]); [exists a1, b1|exists a2, b2]; repeat split; auto; lra.
Qed.
Print Assumptions C51_line_triangle.

(** The list returned: increasing, without repetition, exactly the triangles
    met (by [separate_flags_spec] on the two ended array). *)
Theorem C51_line_intersect : forall triangles p0 p1, p0 <> p1 -> (forall t, In t triangles -> tri_cross t <> 0) ->
  line_intersect triangles p0 p1 = filter (fun k => nth k (map (triangle_line_intersect p0 p1) triangles) false) (seq 0 (length triangles)) /\
  (forall k d, In k (line_intersect triangles p0 p1) <->
     (k < length triangles)%nat /\ exists s, 0 <= s <= 1 /\ convex_combination false (along p0 p1 s) (nth k triangles d)).
Proof.
  intros triangles p0 p1 Hne HD. unfold line_intersect. rewrite separate_flags_spec, firstn_app, Nat.sub_diag, firstn_O, app_nil_r, firstn_all.
  unfold trues. rewrite map_length. split; [reflexivity|]. intros k d. rewrite filter_In, in_seq. split.
  - intros (Hk & K). cbn in Hk. split; [lia|].
    rewrite (nth_indep _ false (triangle_line_intersect p0 p1 d)), map_nth in K by (rewrite map_length; lia).
    apply C51_line_triangle in K; auto. apply HD, nth_In. lia.
  - intros (Hk & K). split; [lia|].
    rewrite (nth_indep _ false (triangle_line_intersect p0 p1 d)), map_nth by (rewrite map_length; lia).
    apply C51_line_triangle; auto. apply HD, nth_In. lia.
Qed.
Print Assumptions C51_line_intersect.

(** A line of two equal points meets nothing, even inside the triangle. *)
Theorem C51_point_refuted :
  (forall p t, triangle_line_intersect p p t = false) /\
  convex_combination false (along (1, 1) (1, 1) 0) ((0, 0), (4, 0), (0, 4)).
Proof.
  split.
  - intros p ((a, b), c). unfold triangle_line_intersect, tri_edges, line_edges, line_vs_edge.
    rewrite !(proj2 (Reqb_true _ 0)) by ring. reflexivity.
  - exists (1 / 2), (1 / 4), (1 / 4). cbn. lra.
Qed.
Print Assumptions C51_point_refuted.

Example C51_example : (0, 0) <> (1, 1) :> point /\ tri_cross ((0, 0), (4, 0), (0, 4)) <> 0 /\
  triangle_line_intersect (1, 1) (2, 1) ((0, 0), (4, 0), (0, 4)) = true.
Proof.
  split; [intros K; injection K; lra|]. split; [cbn; lra|].
  apply C51_line_triangle; [intros K; injection K; lra|cbn; lra|].
  exists 0. split; [lra|]. exists (1 / 2), (1 / 4), (1 / 4). cbn. lra.
Qed.

(** ** C52 *)

(** A polygon edge meeting a triangle edge that is not parallel to it is
    always found. *)
Theorem C52_crossing : forall polygon t p0 p1 t0 t1 a b,
  In (p0, p1) (edges_of polygon) -> In (t0, t1) (tri_edges t) ->
  (px p1 - px p0) * (py t1 - py t0) <> (py p1 - py p0) * (px t1 - px t0) ->
  0 <= a <= 1 -> 0 <= b <= 1 -> along p0 p1 a = along t0 t1 b ->
  triangle_polygon_overlap polygon t = true.
Proof.
  intros polygon t p0 p1 t0 t1 a b Hp Ht Hn Ha Hb E.
  assert (L : line_vs_edge p0 p1 t0 t1 = Some (a, b)).
  { apply line_vs_edge_complete; [lra|exact (f_equal fst E)|exact (f_equal snd E)]. }
  unfold triangle_polygon_overlap.
  assert (G : forall pairs A B, In ((p0, p1), (t0, t1)) pairs -> overlap_pairs pairs A B = true).
  { induction pairs as [|((q0, q1), (s0, s1)) pairs IH]; intros A B; cbn [In overlap_pairs]; [tauto|].
    intros [K|K].
    - injection K as -> -> -> ->. rewrite L. rewrite !(proj2 (Rleb_true _ _)) by lra. reflexivity.
    - destruct (line_vs_edge q0 q1 s0 s1) as [(a', b')|]; [|apply IH, K].
      destruct (_ && _ && _ && _); [reflexivity|]. destruct (_ || _); [reflexivity|apply IH, K]. }
  apply G, in_prod; assumption.
Qed.
Print Assumptions C52_crossing.

(** What the counters A and B add is not sound: the unit square and this
    triangle are separated by the line 5x + 3y = 10, and yet reported as
    overlapping. *)
Lemma overlap_step p0 p1 t0 t1 a b pairs A B : line_vs_edge p0 p1 t0 t1 = Some (a, b) ->
  overlap_pairs (((p0, p1), (t0, t1)) :: pairs) A B =
  if Rleb 0 a && Rleb a 1 && Rleb 0 b && Rleb b 1 then true else
  let A := if Rleb 0 b && Rleb b 1 && Rltb 1 a then S A else A in
  let B := if Rleb 0 a && Rleb a 1 && Rltb 1 b then S B else B in
  if (A =? 4)%nat || (B =? 3)%nat then true else overlap_pairs pairs A B.
Proof. intros E. cbn [overlap_pairs]. rewrite E. reflexivity. Qed.

Lemma overlap_skip p0 p1 t0 t1 pairs A B : (px p1 - px p0) * - (py t1 - py t0) + (py p1 - py p0) * (px t1 - px t0) = 0 ->
  overlap_pairs (((p0, p1), (t0, t1)) :: pairs) A B = overlap_pairs pairs A B.
Proof. intros E. cbn [overlap_pairs]. unfold line_vs_edge. cbv zeta. rewrite (proj2 (Reqb_true _ 0) E). reflexivity. Qed.

Ltac edge_values a b :=
  rewrite (overlap_step _ _ _ _ a b) by (apply line_vs_edge_complete; cbn [px py fst snd]; lra);
  rdecide; cbn [andb orb Nat.eqb].
Ltac edge_parallel := rewrite overlap_skip by (cbn [px py fst snd]; lra).

Theorem C52_disjoint_refuted :
  let square := [(0, 0); (1, 0); (1, 1); (0, 1)] in let t := ((3, -1), (10, 10), (0, 4)) in
  triangle_polygon_overlap square t = true /\ tri_cross t <> 0 /\
  (forall p, In p square -> 5 * px p + 3 * py p < 10) /\
  (forall p, convex_combination false p t -> 10 < 5 * px p + 3 * py p).
Proof.
  cbv zeta. split; [|split; [cbn; lra|split]].
  - unfold triangle_polygon_overlap. cbn [edges_of length seq map nth Nat.modulo Nat.divmod Nat.sub fst snd list_prod tri_edges app].
    (* edge (0,0)-(1,0) *)
    edge_values (40 / 11) (1 / 11). edge_values (- 20 / 3) (5 / 3). edge_values (12 / 5) (4 / 5).
    (* edge (1,0)-(1,1) *)
    edge_values (- 29 / 7) (- 2 / 7). edge_values (23 / 5) (9 / 10). edge_values (7 / 3) (1 / 3).
    reflexivity.
  - intros p [<- | [<- | [<- | [<- | []]]]]; cbn; lra.
  - intros p (l & m & n & (Hl & Hm & Hn) & Hs & -> & ->). cbn [px py fst snd]. lra.
Qed.
Print Assumptions C52_disjoint_refuted.

(** And a polygon of three vertices strictly inside a triangle is missed. *)
Theorem C52_inside_refuted :
  let polygon := [(2, 2); (3, 2); (2, 3)] in let t := ((0, 0), (10, 0), (0, 10)) in
  triangle_polygon_overlap polygon t = false /\ tri_cross t <> 0 /\
  (forall p, In p polygon -> convex_combination true p t).
Proof.
  cbv zeta. split; [|split; [cbn; lra|]].
  - unfold triangle_polygon_overlap. cbn [edges_of length seq map nth Nat.modulo Nat.divmod Nat.sub fst snd list_prod tri_edges app].
    edge_parallel. edge_values (6) (1 / 5). edge_values (- 2) (4 / 5).
    edge_values (- 2) (1 / 2). edge_parallel. edge_values (3) (1 / 2).
    edge_values (3) (1 / 5). edge_values (- 5) (4 / 5). edge_parallel.
    reflexivity.
  - intros p [<- | [<- | [<- | []]]]; [exists (6 / 10), (2 / 10), (2 / 10)|exists (5 / 10), (3 / 10), (2 / 10)|exists (5 / 10), (2 / 10), (3 / 10)];
    cbn; lra.
Qed.
Print Assumptions C52_inside_refuted.

Example C52_example : triangle_polygon_overlap [(0, 0); (2, 0); (2, 2); (0, 2)] ((1, 1), (3, 1), (1, 3)) = true.
Proof.
  apply (C52_crossing _ _ (2, 0) (2, 2) (1, 1) (3, 1) (1 / 2) (1 / 2)); [cbn; auto|cbn; auto|cbn; lra|lra|lra|].
  unfold along. cbn. f_equal; lra.
Qed.

(** ** C53 *)

(** The segments of the polyline that the tolerance test accepts for [p]. *)
Definition accepts (nodes : nat -> point) (neighbour : nat -> option nat) (rtol atol : R) (p : point) (j : nat) : bool :=
  match neighbour j with
  | None => false
  | Some m => point_on_line (px p) (py p) (px (nodes j)) (py (nodes j)) (px (nodes m)) (py (nodes m)) rtol atol
  end.

Definition last_accepted nodes neighbour rtol atol p n j :=
  (j < n)%nat /\ accepts nodes neighbour rtol atol p j = true /\
  forall k, (j < k < n)%nat -> accepts nodes neighbour rtol atol p k = false.

Lemma interp_spec data nodes neighbour rtol atol p initial : forall n,
  (forall j m, last_accepted nodes neighbour rtol atol p n j -> neighbour j = Some m ->
     interpolate_polyline data nodes neighbour n rtol atol p initial =
     (data m - data j) / dist (px (nodes m) - px (nodes j)) (py (nodes m) - py (nodes j)) *
       dist (px p - px (nodes j)) (py p - py (nodes j)) + data j) /\
  ((forall k, (k < n)%nat -> accepts nodes neighbour rtol atol p k = false) ->
     interpolate_polyline data nodes neighbour n rtol atol p initial = initial).
Proof.
  induction n as [|n (IH1 & IH2)].
  - split; [intros j m (H & _); lia|reflexivity].
  - unfold interpolate_polyline in *. rewrite seq_S, fold_left_app. cbn [fold_left Nat.add].
    set (v := fold_left _ (seq 0 n) initial) in *.
    destruct (accepts nodes neighbour rtol atol p n) eqn:E; unfold accepts in E.
    + destruct (neighbour n) as [m'|] eqn:En; [|discriminate].
      destruct (nodes n) as (x0, y0) eqn:E0. destruct (nodes m') as (x1, y1) eqn:E1. cbn [px py fst snd] in E. rewrite E. split.
      * intros j m (Hj & Hacc & Hl) Hm. destruct (Nat.eq_dec j n) as [->|Hjn].
        -- assert (m' = m) as <- by congruence. rewrite E0, E1. reflexivity.
        -- specialize (Hl n ltac:(lia)). unfold accepts in Hl. rewrite En, E0, E1 in Hl. cbn [px py fst snd] in Hl. congruence.
      * intros H. specialize (H n ltac:(lia)). unfold accepts in H. rewrite En, E0, E1 in H. cbn [px py fst snd] in H. congruence.
    + assert (Ev : match neighbour n with
          | Some m => let '(x0, y0) := nodes n in let '(x1, y1) := nodes m in
             if point_on_line (px p) (py p) x0 y0 x1 y1 rtol atol
             then (data m - data n) / dist (x1 - x0) (y1 - y0) * dist (px p - x0) (py p - y0) + data n else v
          | None => v end = v).
      { destruct (neighbour n) as [m'|]; [|reflexivity]. destruct (nodes n), (nodes m'). cbn [px py fst snd] in E. rewrite E. reflexivity. }
      rewrite Ev. split.
      * intros j m (Hj & Hacc & Hl) Hm. apply IH1; [|exact Hm]. split; [|split; [exact Hacc|intros k Hk; apply Hl; lia]].
        destruct (Nat.eq_dec j n) as [->|]; [|lia]. unfold accepts in Hacc. congruence.
      * intros H. apply IH2. intros k Hk. apply H. lia.
Qed.

Lemma dist_scale t a b : 0 <= t -> dist (t * a) (t * b) = t * dist a b.
Proof.
  intros Ht. unfold dist. replace (t * a * (t * a) + t * b * (t * b)) with (t * t * (a * a + b * b)) by ring.
  rewrite sqrt_mult by nra. rewrite sqrt_square by exact Ht. reflexivity.
Qed.

Lemma dist_zero p q : dist (px q - px p) (py q - py p) = 0 -> p = q.
Proof.
  destruct p as (a, b), q as (c, d). unfold dist. cbn [px py fst snd]. intros K.
  apply sqrt_eq_0 in K; [|apply Rplus_le_le_0_compat; apply Rle_0_sqr].
  change (Rsqr (c - a) + Rsqr (d - b) = 0) in K. pose proof (Rle_0_sqr (c - a)). pose proof (Rle_0_sqr (d - b)).
  assert (Z1 : Rsqr (c - a) = 0) by lra. assert (Z2 : Rsqr (d - b) = 0) by lra.
  apply Rsqr_0_uniq in Z1, Z2. f_equal; lra.
Qed.

(** A point on the segment from node [j] to its neighbour [m] gets the value
    linear between the two, if [j] is the last segment that the tolerance
    test accepts; at every point of the polyline some segment is accepted; a
    point accepted by no segment keeps its initial value. *)
Theorem C53_linear : forall data nodes neighbour rtol atol n j m t initial,
  0 <= rtol -> 0 <= atol -> (j < n)%nat -> neighbour j = Some m -> nodes j <> nodes m -> 0 <= t <= 1 ->
  let p := along (nodes j) (nodes m) t in
  accepts nodes neighbour rtol atol p j = true /\
  (last_accepted nodes neighbour rtol atol p n j ->
   interpolate_polyline data nodes neighbour n rtol atol p initial = data j + t * (data m - data j)).
Proof.
  intros data nodes neighbour rtol atol n j m t initial Hr Ha Hj Hm Hne Ht p.
  split.
  - unfold accepts. rewrite Hm. apply (point_on_line_exact _ _ _ _ _ _ rtol atol t); auto.
  - intros L. rewrite (proj1 (interp_spec data nodes neighbour rtol atol p initial n) j m L Hm).
    unfold p, along. cbn [px py fst snd].
    replace (px (nodes j) + t * (px (nodes m) - px (nodes j)) - px (nodes j)) with (t * (px (nodes m) - px (nodes j))) by ring.
    replace (py (nodes j) + t * (py (nodes m) - py (nodes j)) - py (nodes j)) with (t * (py (nodes m) - py (nodes j))) by ring.
    rewrite dist_scale by lra. set (len := dist _ _).
    assert (len <> 0).
    { intros K. apply Hne, dist_zero, K. }
    field. assumption.
Qed.
Print Assumptions C53_linear.

Theorem C53_unmatched : forall data nodes neighbour rtol atol n p initial,
  (forall k, (k < n)%nat -> accepts nodes neighbour rtol atol p k = false) ->
  interpolate_polyline data nodes neighbour n rtol atol p initial = initial.
Proof. intros. apply interp_spec. assumption. Qed.
Print Assumptions C53_unmatched.

(** At a node shared by two segments it does not matter which of them comes
    last: the value is the one given there. *)
Theorem C53_node : forall data nodes neighbour rtol atol n i j m initial,
  neighbour j = Some m -> nodes j <> nodes m -> (i = j \/ i = m) ->
  last_accepted nodes neighbour rtol atol (nodes i) n j ->
  interpolate_polyline data nodes neighbour n rtol atol (nodes i) initial = data i.
Proof.
  intros data nodes neighbour rtol atol n i j m initial Hm Hne Hi L.
  rewrite (proj1 (interp_spec data nodes neighbour rtol atol (nodes i) initial n) j m L Hm).
  destruct Hi as [-> | ->].
  - rewrite (Rminus_diag_eq (px (nodes j)) (px (nodes j)) eq_refl), (Rminus_diag_eq (py (nodes j)) (py (nodes j)) eq_refl). replace (dist 0 0) with 0; [ring|].
    unfold dist. rewrite Rmult_0_l, Rplus_0_l, sqrt_0. reflexivity.
  - set (len := dist _ _).
    assert (len <> 0).
    { intros K. apply Hne, dist_zero, K. }
    field. assumption.
Qed.
Print Assumptions C53_node.

(** Non-vacuity: one segment of two nodes, queried a quarter of the way. *)
Example C53_example :
  let nodes := fun i => if (i =? 0)%nat then (0, 0) else (4, 0) in
  let data := fun i => if (i =? 0)%nat then 10 else 20 in
  let neighbour := fun i => if (i =? 0)%nat then Some 1%nat else None in
  interpolate_polyline data nodes neighbour 2 0 0 (1, 0) 0 = 12.5.
Proof.
  cbv zeta.
  assert (E : (1, 0) = along (0, 0) (4, 0) (1 / 4)) by (unfold along; cbn; f_equal; lra). rewrite E.
  set (nodes := fun i : nat => if (i =? 0)%nat then (0, 0) else (4, 0)). set (data := fun i : nat => if (i =? 0)%nat then 10 else 20).
  set (neighbour := fun i : nat => if (i =? 0)%nat then Some 1%nat else None).
  pose proof (C53_linear data nodes neighbour 0 0 2 0 1 (1 / 4) 0 (Rle_refl 0) (Rle_refl 0) ltac:(lia) eq_refl) as T.
  cbv zeta in T. destruct T as (T1 & T2).
  - unfold nodes. cbn. intros K. injection K. lra.
  - lra.
  - change (along (nodes 0%nat) (nodes 1%nat) (1 / 4)) with (along (0, 0) (4, 0) (1 / 4)) in *. rewrite T2.
    + unfold data. cbn. lra.
    + split; [lia|]. split; [exact T1|]. intros k Hk. assert (k = 1%nat) as -> by lia. reflexivity.
Qed.
