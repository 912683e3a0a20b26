(** Proofs about CrossSectionModel. *)
From Coq Require Import Reals List Arith Bool Lia Lra Permutation.
From Verif Require Import RealLib ArrayLib PolygonModel PolygonProofs PolygonProps SegmentProps InsideTriangleProps CrossSectionModel.
Import ListNotations.
Local Open Scope R_scope.

(** ** Points of the line *)
Definition on_way (p0 p1 : point) (s : R) : point := (px p0 + s * (px p1 - px p0), py p0 + s * (py p1 - py p0)).

Lemma point_eq p q : px p = px q -> py p = py q -> p = q.
Proof. destruct p, q. cbn. congruence. Qed.

Lemma on_way_0 p0 p1 : on_way p0 p1 0 = p0.
Proof. apply point_eq; cbn; ring. Qed.
Lemma on_way_1 p0 p1 : on_way p0 p1 1 = p1.
Proof. apply point_eq; cbn; ring. Qed.

Lemma on_way_inj p0 p1 s s' : p0 <> p1 -> on_way p0 p1 s = on_way p0 p1 s' -> s = s'.
Proof.
  intros Ne E. unfold on_way in E. injection E as E1 E2.
  destruct (Req_dec (px p1 - px p0) 0) as [Z|Z].
  - destruct (Req_dec (py p1 - py p0) 0) as [Z'|Z'].
    + exfalso. apply Ne, point_eq; lra.
    + apply (Rmult_eq_reg_r (py p1 - py p0)); [lra|auto].
  - apply (Rmult_eq_reg_r (px p1 - px p0)); [lra|auto].
Qed.

Lemma dist_scaled t x y : dist (t * x) (t * y) = Rabs t * dist x y.
Proof.
  unfold dist. replace (t * x * (t * x) + t * y * (t * y)) with (t * t * (x * x + y * y)) by ring.
  rewrite sqrt_mult; [|apply Rle_0_sqr|]. { f_equal. rewrite <- (sqrt_Rsqr_abs t). reflexivity. }
  pose proof (Rle_0_sqr x). pose proof (Rle_0_sqr y). unfold Rsqr in *. lra.
Qed.

Lemma distance_pos p q : p <> q -> 0 < distance p q.
Proof.
  intros Ne. unfold distance, dist. apply sqrt_lt_R0.
  pose proof (Rle_0_sqr (px q - px p)) as P1. pose proof (Rle_0_sqr (py q - py p)) as P2. unfold Rsqr in *.
  destruct (Req_dec (px q - px p) 0) as [E1|E1].
  - assert (py q - py p <> 0) as E2 by (intros E2; apply Ne, point_eq; lra). apply Rlt_0_sqr in E2. unfold Rsqr in E2. lra.
  - apply Rlt_0_sqr in E1. unfold Rsqr in E1. lra.
Qed.

Lemma distance_on_way p0 p1 s s' : distance (on_way p0 p1 s) (on_way p0 p1 s') = Rabs (s' - s) * distance p0 p1.
Proof.
  unfold distance, on_way. cbn [px py fst snd]. rewrite <- dist_scaled. f_equal; ring.
Qed.

Lemma point_eqb_true p q : point_eqb p q = true <-> p = q.
Proof.
  unfold point_eqb. rewrite andb_true_iff, !Reqb_true. split; [intros (A & B); apply point_eq; auto|intros ->; auto].
Qed.
Lemma point_eqb_way p0 p1 s s' : p0 <> p1 -> point_eqb (on_way p0 p1 s) (on_way p0 p1 s') = Reqb s s'.
Proof.
  intros Ne. destruct (Reqb s s') eqn:E.
  - apply Reqb_true in E as ->. apply point_eqb_true. reflexivity.
  - apply Reqb_false in E. destruct (point_eqb _ _) eqn:E'; [|reflexivity]. apply point_eqb_true, on_way_inj in E'; [contradiction|auto].
Qed.

(** ** Coordinates relative to a triangle *)
Definition opp (u v p : point) : R := (px u - px p) * (py v - py p) - (px v - px p) * (py u - py p).

Lemma opp_on_way u v p0 p1 s : opp u v (on_way p0 p1 s) = opp u v p0 - s * cross_dirs p0 p1 u v.
Proof. unfold opp, on_way, cross_dirs. cbn [px py fst snd]. ring. Qed.

Lemma opp_sum u v w p : opp u v p + opp v w p + opp w u p = tri_cross (u, v, w).
Proof. unfold opp, tri_cross. ring. Qed.

Lemma tri_cross_rot u v w : tri_cross (v, w, u) = tri_cross (u, v, w).
Proof. unfold tri_cross. ring. Qed.

Lemma on_edge u v w p : tri_cross (u, v, w) <> 0 ->
  (on_segment p u v <-> opp u v p = 0 /\ 0 <= opp v w p / tri_cross (u, v, w) /\ 0 <= opp w u p / tri_cross (u, v, w)).
Proof.
  intros D. split.
  - intros (t & Ht & X & Y).
    assert (E1 : opp v w p = (1 - t) * tri_cross (u, v, w)) by (unfold opp, tri_cross; rewrite X, Y; ring).
    assert (E2 : opp w u p = t * tri_cross (u, v, w)) by (unfold opp, tri_cross; rewrite X, Y; ring).
    rewrite E1, E2. split; [unfold opp; rewrite X, Y; ring|]. unfold Rdiv. rewrite !Rmult_assoc, !Rinv_r by auto. lra.
  - intros (E & P1 & P2). exists (opp w u p / tri_cross (u, v, w)).
    pose proof (opp_sum u v w p) as Sm. rewrite E in Sm.
    assert (S1 : opp v w p / tri_cross (u, v, w) + opp w u p / tri_cross (u, v, w) = 1).
    { unfold Rdiv. rewrite <- Rmult_plus_distr_r. replace (opp v w p + opp w u p) with (tri_cross (u, v, w)) by lra. apply Rinv_r; auto. }
    split; [lra|].
    assert (G : forall f : point -> R, (f = px \/ f = py) -> f p * tri_cross (u, v, w) = opp v w p * f u + opp w u p * f v + opp u v p * f w).
    { intros f [-> | ->]; unfold opp, tri_cross; ring. }
    assert (G' : forall f : point -> R, (f = px \/ f = py) -> f p = f u + opp w u p / tri_cross (u, v, w) * (f v - f u)).
    { intros f Hf. apply (Rmult_eq_reg_r (tri_cross (u, v, w))); [|auto]. rewrite (G f Hf), E.
      replace ((f u + opp w u p / tri_cross (u, v, w) * (f v - f u)) * tri_cross (u, v, w))
        with (f u * tri_cross (u, v, w) + (opp w u p / tri_cross (u, v, w) * tri_cross (u, v, w)) * (f v - f u)) by ring.
      assert (Q : opp w u p / tri_cross (u, v, w) * tri_cross (u, v, w) = opp w u p) by (field; auto). rewrite Q, <- Sm. ring. }
    split; apply G'; auto.
Qed.

Lemma strictly_inside u v w p : tri_cross (u, v, w) <> 0 ->
  (convex_combination true p (u, v, w) <->
   0 < opp u v p / tri_cross (u, v, w) /\ 0 < opp v w p / tri_cross (u, v, w) /\ 0 < opp w u p / tri_cross (u, v, w)).
Proof.
  intros D. split.
  - intros (l & m & n & (P1 & P2 & P3) & Sm & X & Y).
    assert (L : l = 1 - m - n) by lra.
    assert (opp u v p = n * tri_cross (u, v, w)) as -> by (unfold opp, tri_cross; rewrite X, Y, L; ring).
    assert (opp v w p = l * tri_cross (u, v, w)) as -> by (unfold opp, tri_cross; rewrite X, Y, L; ring).
    assert (opp w u p = m * tri_cross (u, v, w)) as -> by (unfold opp, tri_cross; rewrite X, Y, L; ring).
    unfold Rdiv. rewrite !Rmult_assoc, !Rinv_r by auto. lra.
  - intros (P1 & P2 & P3). exists (opp v w p / tri_cross (u, v, w)), (opp w u p / tri_cross (u, v, w)), (opp u v p / tri_cross (u, v, w)).
    split; [auto|]. split.
    { unfold Rdiv. rewrite <- !Rmult_plus_distr_r. replace (opp v w p + opp w u p + opp u v p) with (tri_cross (u, v, w)) by (rewrite <- (opp_sum u v w p); ring). apply Rinv_r; auto. }
    split; unfold opp, tri_cross in *; field; auto.
Qed.

(** Membership of the closed triangle. *)
Definition in_triangle (t : triangle) (p : point) : Prop := convex_combination false p t.

Lemma in_triangle_opp u v w p : tri_cross (u, v, w) <> 0 ->
  (in_triangle (u, v, w) p <->
   0 <= opp u v p / tri_cross (u, v, w) /\ 0 <= opp v w p / tri_cross (u, v, w) /\ 0 <= opp w u p / tri_cross (u, v, w)).
Proof.
  intros D. split.
  - intros (l & m & n & (P1 & P2 & P3) & Sm & X & Y).
    assert (L : l = 1 - m - n) by lra.
    assert (opp u v p = n * tri_cross (u, v, w)) as -> by (unfold opp, tri_cross; rewrite X, Y, L; ring).
    assert (opp v w p = l * tri_cross (u, v, w)) as -> by (unfold opp, tri_cross; rewrite X, Y, L; ring).
    assert (opp w u p = m * tri_cross (u, v, w)) as -> by (unfold opp, tri_cross; rewrite X, Y, L; ring).
    unfold Rdiv. rewrite !Rmult_assoc, !Rinv_r by auto. lra.
  - intros (P1 & P2 & P3). exists (opp v w p / tri_cross (u, v, w)), (opp w u p / tri_cross (u, v, w)), (opp u v p / tri_cross (u, v, w)).
    split; [auto|]. split.
    { unfold Rdiv. rewrite <- !Rmult_plus_distr_r. replace (opp v w p + opp w u p + opp u v p) with (tri_cross (u, v, w)) by (rewrite <- (opp_sum u v w p); ring). apply Rinv_r; auto. }
    split; unfold opp, tri_cross in *; field; auto.
Qed.

(** ** Clipping by affine functions *)
Definition affine (f : R * R) (s : R) : R := fst f + s * snd f.

Lemma clip fs : forall a b, a <= b ->
  (forall s, a <= s <= b -> ~ (forall f, In f fs -> 0 <= affine f s)) \/
  exists lo hi, a <= lo /\ lo <= hi /\ hi <= b /\
  (forall s, a <= s <= b -> ((forall f, In f fs -> 0 <= affine f s) <-> lo <= s <= hi)) /\
  (lo = a \/ exists f, In f fs /\ snd f <> 0 /\ affine f lo = 0) /\ (hi = b \/ exists f, In f fs /\ snd f <> 0 /\ affine f hi = 0).
Proof.
  induction fs as [|f fs IH]; intros a b Hab.
  - right. exists a, b. split; [lra|]. split; [auto|]. split; [lra|]. split; [|auto]. intros s Hs. split; [auto|intros _ f []].
  - destruct (IH a b Hab) as [No|(lo & hi & H1 & H2 & H3 & H4 & H5 & H6)].
    { left. intros s Hs K. apply (No s Hs). intros g Ig. apply K. right. auto. }
    assert (H5' : lo = a \/ exists g, In g (f :: fs) /\ snd g <> 0 /\ affine g lo = 0).
    { destruct H5 as [->|(g & Ig & P)]; [auto|right; exists g; split; [right; auto|auto]]. }
    assert (H6' : hi = b \/ exists g, In g (f :: fs) /\ snd g <> 0 /\ affine g hi = 0).
    { destruct H6 as [->|(g & Ig & P)]; [auto|right; exists g; split; [right; auto|auto]]. }
    assert (Spl : forall s, (forall g, In g (f :: fs) -> 0 <= affine g s) <-> 0 <= affine f s /\ (forall g, In g fs -> 0 <= affine g s)).
    { intros s. split; [intros K; split; [apply K; left; auto|intros g Ig; apply K; right; auto]|intros (K1 & K2) g [<-|Ig]; auto]. }
    destruct f as [al be]. destruct (Rtotal_order be 0) as [Hb|[Hb|Hb]].
    + (* decreasing: s <= root *)
      set (r := al / - be).
      assert (Rt : forall s, 0 <= affine (al, be) s <-> s <= r).
      { intros s. unfold affine, r. cbn [fst snd].
        assert (E : al + s * be = (al / - be - s) * - be) by (field; lra). rewrite E. split; intros K.
        - destruct (Rle_lt_dec s (al / - be)); [auto|]. assert (0 < (s - al / - be) * - be) by (apply Rmult_lt_0_compat; lra). lra.
        - apply Rmult_le_pos; lra. }
      assert (Rz : affine (al, be) r = 0) by (unfold affine, r; cbn [fst snd]; field; lra).
      destruct (Rlt_le_dec r lo) as [K|K].
      * left. intros s Hs A. apply Spl in A as (A1 & A2). apply Rt in A1. apply (H4 s Hs) in A2. lra.
      * destruct (Rle_lt_dec hi r) as [K'|K'].
        -- right. exists lo, hi. split; [auto|]. split; [auto|]. split; [auto|]. split; [|auto].
           intros s Hs. rewrite Spl, Rt, (H4 s Hs). lra.
        -- right. exists lo, r. split; [auto|]. split; [auto|]. split; [lra|]. split; [|split; [auto|right; exists (al, be); cbn [In snd]; split; [auto|split; [lra|auto]]]].
           intros s Hs. rewrite Spl, Rt, (H4 s Hs). lra.
    + (* constant *)
      destruct (Rle_lt_dec 0 al) as [K|K].
      * right. exists lo, hi. split; [auto|]. split; [auto|]. split; [auto|]. split; [|auto].
        intros s Hs. rewrite Spl, (H4 s Hs). unfold affine. cbn [fst snd]. rewrite Hb. lra.
      * left. intros s Hs A. apply Spl in A as (A1 & _). unfold affine in A1. cbn [fst snd] in A1. rewrite Hb in A1. lra.
    + (* increasing: root <= s *)
      set (r := - al / be).
      assert (Rt : forall s, 0 <= affine (al, be) s <-> r <= s).
      { intros s. unfold affine, r. cbn [fst snd].
        assert (E : al + s * be = (s - - al / be) * be) by (field; lra). rewrite E. split; intros K.
        - destruct (Rle_lt_dec (- al / be) s); [auto|]. assert (0 < (- al / be - s) * be) by (apply Rmult_lt_0_compat; lra). lra.
        - apply Rmult_le_pos; lra. }
      assert (Rz : affine (al, be) r = 0) by (unfold affine, r; cbn [fst snd]; field; lra).
      destruct (Rlt_le_dec hi r) as [K|K].
      * left. intros s Hs A. apply Spl in A as (A1 & A2). apply Rt in A1. apply (H4 s Hs) in A2. lra.
      * destruct (Rle_lt_dec r lo) as [K'|K'].
        -- right. exists lo, hi. split; [auto|]. split; [auto|]. split; [auto|]. split; [|auto].
           intros s Hs. rewrite Spl, Rt, (H4 s Hs). lra.
        -- right. exists r, hi. split; [lra|]. split; [auto|]. split; [auto|]. split; [|split; [right; exists (al, be); cbn [In snd]; split; [auto|split; [lra|auto]]|auto]].
           intros s Hs. rewrite Spl, Rt, (H4 s Hs). lra.
Qed.

(** ** One edge *)
Definition apart (p q : point) : Prop := p = q \/ tiny_len < distance p q.

(** The line and the edge are in a position that the tolerances of
    [intersection] decide as exact arithmetic would: clearly not parallel,
    parallel and clearly not collinear, or exactly collinear with end points
    that are equal or more than 1e-15 apart. *)
Definition clear_edge (p0 p1 : point) (e : point * point) : Prop :=
  let '(u, v) := e in
  atol_default < Rabs (cross_dirs p0 p1 u v) \/
  cross_dirs p0 p1 u v = 0 /\
    (atol_default < Rabs ((px v - px u) * (py p0 - py u) - (py v - py u) * (px p0 - px u)) \/
     atol_default < Rabs ((px u - px p0) * (py p1 - py p0) - (py u - py p0) * (px p1 - px p0))) \/
  cross_dirs p0 p1 u v = 0 /\ opp u v p0 = 0 /\
    apart p0 u /\ apart p0 v /\ apart p1 u /\ apart p1 v /\ apart p0 p1 /\ apart u v.

Lemma tolerances : 0 <= rtol_default /\ 0 <= atol_default.
Proof. unfold rtol_default, atol_default. split; left; apply Rinv_0_lt_compat, pow_lt; lra. Qed.

(** Everything collinear with an edge. *)
Lemma collinear_cross u v p0 p1 : u <> v -> opp u v p0 = 0 -> cross_dirs p0 p1 u v = 0 ->
  (px u - px p0) * (py p1 - py p0) - (py u - py p0) * (px p1 - px p0) = 0.
Proof.
  intros Ne E1 E2. set (N := (px v - px u) * (px v - px u) + (py v - py u) * (py v - py u)).
  assert (NP : N <> 0).
  { unfold N. pose proof (Rle_0_sqr (px v - px u)) as P1. pose proof (Rle_0_sqr (py v - py u)) as P2. unfold Rsqr in *.
    destruct (Req_dec (px v - px u) 0) as [K|K].
    - assert (py v - py u <> 0) as K2 by (intros K2; apply Ne, point_eq; lra). apply Rlt_0_sqr in K2. unfold Rsqr in K2. lra.
    - apply Rlt_0_sqr in K. unfold Rsqr in K. lra. }
  apply (Rmult_eq_reg_l N); [|auto]. rewrite Rmult_0_r.
  transitivity (((px v - px u) * (px u - px p0) + (py v - py u) * (py u - py p0)) * - cross_dirs p0 p1 u v
                + ((px v - px u) * (px p1 - px p0) + (py v - py u) * (py p1 - py p0)) * opp u v p0).
  - unfold N, cross_dirs, opp. ring.
  - rewrite E1, E2. ring.
Qed.

(** A point collinear with the line is on it. *)
Lemma collinear_on_way p0 p1 p : p0 <> p1 -> (px p - px p0) * (py p1 - py p0) - (py p - py p0) * (px p1 - px p0) = 0 ->
  exists a, p = on_way p0 p1 a.
Proof.
  intros Ne E. destruct (Req_dec (px p1 - px p0) 0) as [Z|Z].
  - assert (Z' : py p1 - py p0 <> 0) by (intros Z'; apply Ne, point_eq; lra).
    exists ((py p - py p0) / (py p1 - py p0)). apply point_eq; cbn.
    + rewrite Z in *. assert ((px p - px p0) * (py p1 - py p0) = 0) as K by lra. apply Rmult_integral in K as [K|K]; [lra|contradiction].
    + field. auto.
  - exists ((px p - px p0) / (px p1 - px p0)). apply point_eq; cbn.
    + field. auto.
    + apply (Rmult_eq_reg_r (px p1 - px p0)); [|auto].
      replace ((py p0 + (px p - px p0) / (px p1 - px p0) * (py p1 - py p0)) * (px p1 - px p0))
        with (py p0 * (px p1 - px p0) + (px p - px p0) * (py p1 - py p0)) by (field; auto). lra.
Qed.

Lemma on_segment_way p0 p1 s a b : p0 <> p1 -> a <> b ->
  (on_segment (on_way p0 p1 s) (on_way p0 p1 a) (on_way p0 p1 b) <-> between s a b).
Proof.
  intros Ne Nab. unfold on_segment. split.
  - intros (t & Ht & X & Y). assert (E : on_way p0 p1 s = on_way p0 p1 (a + t * (b - a))).
    { apply point_eq; [rewrite X|rewrite Y]; cbn; ring. }
    apply on_way_inj in E; [|auto]. subst s. unfold between.
    destruct (Rlt_le_dec a b); [left|right]; nra.
  - intros B. exists ((s - a) / (b - a)). split.
    + unfold Rdiv. destruct B as [B|B].
      * assert (0 < / (b - a)) by (apply Rinv_0_lt_compat; lra). split; [apply Rmult_le_pos; lra|].
        apply (Rmult_le_reg_r (b - a)); [lra|]. rewrite Rmult_assoc, Rinv_l by lra. lra.
      * replace ((s - a) * / (b - a)) with ((a - s) * / (a - b)) by (field; lra).
        assert (0 < / (a - b)) by (apply Rinv_0_lt_compat; lra). split; [apply Rmult_le_pos; lra|].
        apply (Rmult_le_reg_r (a - b)); [lra|]. rewrite Rmult_assoc, Rinv_l by lra. lra.
    + assert (Q : (s - a) / (b - a) * (b - a) = s - a) by (field; lra).
      cbn. split.
      * replace (px p0 + a * (px p1 - px p0) + (s - a) / (b - a) * (px p0 + b * (px p1 - px p0) - (px p0 + a * (px p1 - px p0))))
          with (px p0 + (a + (s - a) / (b - a) * (b - a)) * (px p1 - px p0)) by ring. rewrite Q. ring.
      * replace (py p0 + a * (py p1 - py p0) + (s - a) / (b - a) * (py p0 + b * (py p1 - py p0) - (py p0 + a * (py p1 - py p0))))
          with (py p0 + (a + (s - a) / (b - a) * (b - a)) * (py p1 - py p0)) by ring. rewrite Q. ring.
Qed.

Lemma on_line_way p0 p1 s q r : p0 <> p1 ->
  apart (on_way p0 p1 s) (on_way p0 p1 q) -> apart (on_way p0 p1 s) (on_way p0 p1 r) -> apart (on_way p0 p1 q) (on_way p0 p1 r) ->
  (on_line_py (on_way p0 p1 s) (on_way p0 p1 q) (on_way p0 p1 r) rtol_default atol_default = true <-> between s q r).
Proof.
  intros Ne A1 A2 A3. pose proof (distance_pos p0 p1 Ne) as LP. set (L := distance p0 p1) in *.
  set (d := ((px p1 - px p0) / L, (py p1 - py p0) / L)).
  assert (U : px d * px d + py d * py d = 1).
  { assert (LL : L * L = (px p1 - px p0) * (px p1 - px p0) + (py p1 - py p0) * (py p1 - py p0)).
    { unfold L, distance, dist. apply sqrt_sqrt. pose proof (Rle_0_sqr (px p1 - px p0)). pose proof (Rle_0_sqr (py p1 - py p0)). unfold Rsqr in *. lra. }
    unfold d. cbn [px py fst snd].
    replace ((px p1 - px p0) / L * ((px p1 - px p0) / L) + (py p1 - py p0) / L * ((py p1 - py p0) / L))
      with (((px p1 - px p0) * (px p1 - px p0) + (py p1 - py p0) * (py p1 - py p0)) / (L * L)) by (field; lra).
    rewrite <- LL. field. lra. }
  assert (E : forall z, on_way p0 p1 z = on_axis p0 d (z * L)).
  { intros z. unfold on_way, on_axis, d. cbn [px py fst snd]. f_equal; field; lra. }
  assert (Sp : forall y z, apart (on_way p0 p1 y) (on_way p0 p1 z) -> separated (y * L) (z * L)).
  { intros y z [A|A].
    - left. f_equal. eapply on_way_inj; eauto.
    - right. rewrite distance_on_way in A. replace (y * L - z * L) with (- ((z - y) * L)) by ring.
      rewrite Rabs_Ropp, Rabs_mult, (Rabs_right L) by lra. exact A. }
  destruct tolerances. rewrite !E, on_line_axis by auto. rewrite axis_between by (apply Sp; auto).
  unfold between. assert (M : forall y z, y * L <= z * L <-> y <= z).
  { intros y z. split; intros K; [apply (Rmult_le_reg_r L); auto|apply Rmult_le_compat_r; lra]. }
  rewrite !M. tauto.
Qed.

(** What one edge records, as parameters of the line. *)
Lemma edge_spec p0 p1 u v w : p0 <> p1 -> tri_cross (u, v, w) <> 0 -> clear_edge p0 p1 (u, v) ->
  exists ps, edge_points p0 p1 (u, v) = Some (map (on_way p0 p1) ps) /\
  (forall s, In s ps -> 0 <= s <= 1 /\ on_segment (on_way p0 p1 s) u v) /\
  (cross_dirs p0 p1 u v <> 0 -> forall s, 0 <= s <= 1 -> on_segment (on_way p0 p1 s) u v -> In s ps) /\
  (cross_dirs p0 p1 u v = 0 -> forall s, 0 <= s <= 1 -> on_segment (on_way p0 p1 s) u v -> exists x y, ps = [x; y] /\ between s x y).
Proof.
  intros Ne D Cl.
  assert (Nuv : u <> v) by (intros ->; apply D; unfold tri_cross; ring).
  destruct tolerances as (T1 & T2).
  assert (Flat : cross_dirs p0 p1 u v = 0 -> forall s, on_segment (on_way p0 p1 s) u v -> opp u v p0 = 0).
  { intros Z s K. apply (on_edge u v w) in K as (K & _); [|auto]. rewrite opp_on_way, Z in K. lra. }
  unfold edge_points. cbn [fst snd]. destruct Cl as [Cl|[(Cl & Far)|(Cl & Z0 & A1 & A2 & A3 & A4 & A5 & A6)]].
  - assert (Nz : cross_dirs p0 p1 u v <> 0) by (intros Z; rewrite Z, Rabs_R0 in Cl; lra).
    destruct (C21_not_parallel p0 p1 u v rtol_default atol_default T1 T2 Cl) as [(p & E & S1 & S2)|(E & No)]; rewrite E.
    + destruct S1 as (t & Ht & X & Y). assert (Ep : p = on_way p0 p1 t) by (apply point_eq; [rewrite X|rewrite Y]; cbn; ring). subst p.
      exists [t]. split; [reflexivity|]. split; [intros s [<-|[]]; auto|]. split; [|intros Z; contradiction].
      intros _ s Hs K. left. apply (on_edge u v w) in K as (K & _); [|auto]. apply (on_edge u v w) in S2 as (S2 & _); [|auto].
      rewrite opp_on_way in K, S2. apply (Rmult_eq_reg_r (cross_dirs p0 p1 u v)); [lra|auto].
    + exists []. split; [reflexivity|]. split; [intros s []|]. split; [|intros Z; contradiction].
      intros _ s Hs K. apply (No (on_way p0 p1 s)); [|auto]. exists s. split; [auto|]. cbn. split; ring.
  - assert (E : intersection p0 p1 u v rtol_default atol_default = Some (4%nat, NoValue)).
    { apply (C21_parallel p0 p1 u v); [rewrite Cl, Rabs_R0; auto|exact Far]. }
    rewrite E. exists []. split; [reflexivity|]. split; [intros s []|]. split; [intros Z; contradiction|].
    intros _ s Hs K. exfalso. pose proof (Flat Cl s K) as Z0. pose proof (collinear_cross u v p0 p1 Nuv Z0 Cl) as Z1.
    assert (Z0' : (px v - px u) * (py p0 - py u) - (py v - py u) * (px p0 - px u) = 0) by (rewrite <- Z0; unfold opp; ring).
    rewrite Z0', Z1, Rabs_R0 in Far. lra.
  - pose proof (collinear_cross u v p0 p1 Nuv Z0 Cl) as Z1.
    assert (Z2 : (px v - px p0) * (py p1 - py p0) - (py v - py p0) * (px p1 - px p0) = 0).
    { transitivity ((px u - px p0) * (py p1 - py p0) - (py u - py p0) * (px p1 - px p0) - cross_dirs p0 p1 u v); [unfold cross_dirs; ring|]. rewrite Z1, Cl. ring. }
    destruct (collinear_on_way p0 p1 u Ne Z1) as (a & Ea). destruct (collinear_on_way p0 p1 v Ne Z2) as (b & Eb).
    assert (Nab : a <> b) by (intros ->; apply Nuv; congruence).
    assert (Inter : intersection p0 p1 u v rtol_default atol_default =
      collinear_result (on_line_py p0 u v rtol_default atol_default) (on_line_py p1 u v rtol_default atol_default)
                       (on_line_py u p0 p1 rtol_default atol_default) (on_line_py v p0 p1 rtol_default atol_default) p0 p1 u v).
    { destruct p0 as [x0 y0], p1 as [x1 y1], u as [x2 y2], v as [x3 y3]. unfold intersection. unfold cross_dirs, opp in *. cbn [px py fst snd] in *.
      assert (U0 : (x3 - x2) * (y0 - y2) - (y3 - y2) * (x0 - x2) = 0) by (rewrite <- Z0; ring).
      rewrite Cl, U0, Z1. unfold close0. rewrite Rminus_0_r, Rabs_R0, Rmult_0_r, Rplus_0_r.
      rewrite (proj2 (Rleb_true 0 atol_default) T2). reflexivity. }
    assert (Sym : forall p q, apart p q -> apart q p).
    { intros p q [->|A]; [left; auto|right]. unfold distance in *. replace (px p - px q) with (-1 * (px q - px p)) by ring.
      replace (py p - py q) with (-1 * (py q - py p)) by ring. rewrite dist_scaled, Rabs_left by lra. lra. }
    pose proof (on_way_0 p0 p1) as W0. pose proof (on_way_1 p0 p1) as W1.
    assert (B0 : on_line_py p0 u v rtol_default atol_default = true <-> between 0 a b).
    { pose proof (on_line_way p0 p1 0 a b Ne) as K. rewrite W0, <- Ea, <- Eb in K. apply K; auto. }
    assert (B1 : on_line_py p1 u v rtol_default atol_default = true <-> between 1 a b).
    { pose proof (on_line_way p0 p1 1 a b Ne) as K. rewrite W1, <- Ea, <- Eb in K. apply K; auto. }
    assert (B2 : on_line_py u p0 p1 rtol_default atol_default = true <-> between a 0 1).
    { pose proof (on_line_way p0 p1 a 0 1 Ne) as K. rewrite W0, W1, <- Ea in K. apply K; auto. }
    assert (B3 : on_line_py v p0 p1 rtol_default atol_default = true <-> between b 0 1).
    { pose proof (on_line_way p0 p1 b 0 1 Ne) as K. rewrite W0, W1, <- Eb in K. apply K; auto. }
    rewrite Inter. clear Inter.
    assert (Sg : forall s, on_segment (on_way p0 p1 s) u v <-> between s a b).
    { intros s. rewrite Ea, Eb. apply on_segment_way; auto. }
    assert (Fin : forall x y P Q, P = on_way p0 p1 x -> Q = on_way p0 p1 y -> 0 <= x <= 1 -> 0 <= y <= 1 -> between x a b -> between y a b ->
       (forall s, 0 <= s <= 1 -> between s a b -> between s x y) ->
       exists ps, Some [P; Q] = Some (map (on_way p0 p1) ps) /\
       (forall s, In s ps -> 0 <= s <= 1 /\ on_segment (on_way p0 p1 s) u v) /\
       (cross_dirs p0 p1 u v <> 0 -> forall s, 0 <= s <= 1 -> on_segment (on_way p0 p1 s) u v -> In s ps) /\
       (cross_dirs p0 p1 u v = 0 -> forall s, 0 <= s <= 1 -> on_segment (on_way p0 p1 s) u v -> exists x y, ps = [x; y] /\ between s x y)).
    { intros x y P Q -> -> Hx Hy Bx By H. exists [x; y]. split; [reflexivity|].
      split; [intros s [<-|[<-|[]]]; rewrite Sg; auto|]. split; [intros Z; contradiction|].
      intros _ s Hs K. exists x, y. split; [auto|]. apply H; [auto|apply Sg; auto]. }
    unfold between in B0, B1, B2, B3, Fin.
    destruct (on_line_py p0 u v _ _); [apply proj1 in B0; specialize (B0 eq_refl)|apply proj2 in B0; assert (B0' : ~ (a <= 0 <= b \/ b <= 0 <= a)) by (intros K; discriminate (B0 K)); clear B0];
    (destruct (on_line_py p1 u v _ _); [apply proj1 in B1; specialize (B1 eq_refl)|apply proj2 in B1; assert (B1' : ~ (a <= 1 <= b \/ b <= 1 <= a)) by (intros K; discriminate (B1 K)); clear B1]);
    (destruct (on_line_py u p0 p1 _ _); [apply proj1 in B2; specialize (B2 eq_refl)|apply proj2 in B2; assert (B2' : ~ (0 <= a <= 1 \/ 1 <= a <= 0)) by (intros K; discriminate (B2 K)); clear B2]);
    (destruct (on_line_py v p0 p1 _ _); [apply proj1 in B3; specialize (B3 eq_refl)|apply proj2 in B3; assert (B3' : ~ (0 <= b <= 1 \/ 1 <= b <= 0)) by (intros K; discriminate (B3 K)); clear B3]);
    cbn [collinear_result].
    all: try (exfalso; lra).
    all: first
      [ apply (Fin 0 1 p0 p1); [congruence|congruence|lra|lra|lra|lra|intros s Hs K; lra]
      | apply (Fin a b u v); [congruence|congruence|lra|lra|lra|lra|intros s Hs K; lra]
      | apply (Fin 0 a p0 u); [congruence|congruence|lra|lra|lra|lra|intros s Hs K; lra]
      | apply (Fin 0 b p0 v); [congruence|congruence|lra|lra|lra|lra|intros s Hs K; lra]
      | apply (Fin a 1 u p1); [congruence|congruence|lra|lra|lra|lra|intros s Hs K; lra]
      | apply (Fin b 1 v p1); [congruence|congruence|lra|lra|lra|lra|intros s Hs K; lra]
      | exists []; split; [reflexivity|]; split; [intros s []|]; split; [intros Z; contradiction|];
        intros _ s Hs K; exfalso; apply Sg in K; unfold between in K; lra ].
Qed.

(** ** One triangle *)
Definition record_param (d : list R) (s : R) : list R := if existsb (Reqb s) d then d else d ++ [s].

Lemma record_param_map p0 p1 d s : p0 <> p1 ->
  record_point (map (on_way p0 p1) d) (on_way p0 p1 s) = map (on_way p0 p1) (record_param d s).
Proof.
  intros Ne. unfold record_point, record_param.
  assert (E : existsb (point_eqb (on_way p0 p1 s)) (map (on_way p0 p1) d) = existsb (Reqb s) d).
  { induction d as [|x d IH]; [reflexivity|]. cbn [map existsb]. rewrite point_eqb_way, IH by auto. reflexivity. }
  rewrite E. destruct (existsb (Reqb s) d); [reflexivity|]. rewrite map_app. reflexivity.
Qed.

Lemma record_params_map p0 p1 ps : p0 <> p1 -> forall d,
  fold_left record_point (map (on_way p0 p1) ps) (map (on_way p0 p1) d) = map (on_way p0 p1) (fold_left record_param ps d).
Proof.
  intros Ne. induction ps as [|s ps IH]; intros d; [reflexivity|]. cbn [map fold_left]. rewrite record_param_map by auto. apply IH.
Qed.

Lemma existsb_Reqb s d : existsb (Reqb s) d = true <-> In s d.
Proof.
  rewrite existsb_exists. split; [intros (x & I & E); apply Reqb_true in E as ->; auto|intros I; exists s; split; [auto|apply Reqb_true; auto]].
Qed.

Lemma record_params_in ps : forall d, NoDup d ->
  NoDup (fold_left record_param ps d) /\ (forall s, In s (fold_left record_param ps d) <-> In s d \/ In s ps).
Proof.
  induction ps as [|x ps IH]; intros d Nd; cbn [fold_left].
  - split; [auto|]. intros s. cbn. tauto.
  - assert (Nd' : NoDup (record_param d x) /\ forall s, In s (record_param d x) <-> In s d \/ s = x).
    { unfold record_param. destruct (existsb (Reqb x) d) eqn:E.
      - apply existsb_Reqb in E. split; [auto|]. intros s. split; [auto|]. intros [H| ->]; auto.
      - assert (Nx : ~ In x d) by (intros I; apply existsb_Reqb in I; congruence). split.
        + apply (Permutation_NoDup (Permutation_cons_append d x)). constructor; auto.
        + intros s. rewrite in_app_iff. cbn. split; [intros [H|[H|[]]]; auto|intros [H|H]; auto]. }
    destruct Nd' as (Nd1 & In1). destruct (IH _ Nd1) as (A & B). split; [auto|].
    intros s. rewrite B, In1. cbn [In]. split; [intros [[H| ->]|H]; auto|intros [H|[<-|H]]; auto].
Qed.

Lemma edge_spec' p0 p1 u v w : p0 <> p1 -> tri_cross (u, v, w) <> 0 -> clear_edge p0 p1 (u, v) ->
  exists ps, edge_points p0 p1 (u, v) = Some (map (on_way p0 p1) ps) /\
  (forall s, In s ps -> 0 <= s <= 1 /\ on_segment (on_way p0 p1 s) u v) /\
  (cross_dirs p0 p1 u v <> 0 -> forall s, 0 <= s <= 1 -> on_segment (on_way p0 p1 s) u v -> In s ps) /\
  (cross_dirs p0 p1 u v = 0 -> (forall s, 0 <= s <= 1 -> on_segment (on_way p0 p1 s) u v -> False) \/
    exists x y, ps = [x; y] /\ forall s, 0 <= s <= 1 -> on_segment (on_way p0 p1 s) u v -> between s x y).
Proof.
  intros Ne D Cl. destruct (edge_spec p0 p1 u v w Ne D Cl) as (ps & H1 & H2 & H3 & H4).
  exists ps. repeat split; auto; [apply (H2 s); auto|apply (H2 s); auto|apply (H2 s); auto|]. intros Z. specialize (H4 Z).
  destruct ps as [|x [|y [|z ps]]].
  - left. intros s Hs K. destruct (H4 s Hs K) as (x & y & E & _). discriminate.
  - left. intros s Hs K. destruct (H4 s Hs K) as (x' & y & E & _). discriminate.
  - right. exists x, y. split; [auto|]. intros s Hs K. destruct (H4 s Hs K) as (x' & y' & E & B). inversion E; subst. auto.
  - left. intros s Hs K. destruct (H4 s Hs K) as (x' & y' & E & _). discriminate.
Qed.

(** The part of the line in a triangle: the parameters recorded are among
    the two ends of that part. *)
Lemma recorded p0 p1 t : p0 <> p1 -> tri_cross t <> 0 -> (forall e, In e (tri_edges t) -> clear_edge p0 p1 e) ->
  exists P, record_edges p0 p1 (tri_edges t) [] = Some (map (on_way p0 p1) P) /\ NoDup P /\
  (forall s, In s P -> ~ convex_combination true (on_way p0 p1 s) t) /\
  ((P = [] /\ forall s, 0 <= s <= 1 -> ~ in_triangle t (on_way p0 p1 s)) \/
   exists lo hi, 0 <= lo /\ lo <= hi /\ hi <= 1 /\ (forall s, 0 <= s <= 1 -> (in_triangle t (on_way p0 p1 s) <-> lo <= s <= hi)) /\
   (forall s, In s P -> s = lo \/ s = hi) /\
   (In lo P \/ lo = 0 /\ convex_combination true p0 t) /\ (In hi P \/ hi = 1 /\ convex_combination true p1 t)).
Proof.
  intros Ne D Cl. destruct t as [[a b] c]. cbn [tri_edges In] in Cl.
  pose proof D as Dbc. rewrite <- tri_cross_rot in Dbc. pose proof Dbc as Dca. rewrite <- tri_cross_rot in Dca.
  destruct (edge_spec' p0 p1 a b c Ne D) as (ps1 & E1 & A1 & B1 & C1); [auto|].
  destruct (edge_spec' p0 p1 b c a Ne Dbc) as (ps2 & E2 & A2 & B2 & C2); [auto|].
  destruct (edge_spec' p0 p1 c a b Ne Dca) as (ps3 & E3 & A3 & B3 & C3); [auto|].
  set (P := fold_left record_param ps3 (fold_left record_param ps2 (fold_left record_param ps1 []))).
  assert (PN : NoDup P /\ forall s, In s P <-> In s ps1 \/ In s ps2 \/ In s ps3).
  { destruct (record_params_in ps1 [] (NoDup_nil _)) as (N1 & I1). destruct (record_params_in ps2 _ N1) as (N2 & I2).
    destruct (record_params_in ps3 _ N2) as (N3 & I3). split; [exact N3|]. intros s. unfold P. rewrite I3, I2, I1. clear. cbn. tauto. }
  destruct PN as (PN & PI). exists P. split.
  { cbn [tri_edges record_edges]. rewrite E1. change (@nil point) with (map (on_way p0 p1) []). rewrite record_params_map, E2, record_params_map, E3, record_params_map by auto. reflexivity. }
  split; [exact PN|].
  set (DD := tri_cross (a, b, c)) in *.
  assert (Tbc : tri_cross (b, c, a) = DD) by (apply tri_cross_rot). assert (Tca : tri_cross (c, a, b) = DD) by (rewrite tri_cross_rot; exact Tbc).
  assert (On1 : forall p, on_segment p a b <-> opp a b p = 0 /\ 0 <= opp b c p / DD /\ 0 <= opp c a p / DD) by (intros p; apply (on_edge a b c p D)).
  assert (On2 : forall p, on_segment p b c <-> opp b c p = 0 /\ 0 <= opp c a p / DD /\ 0 <= opp a b p / DD).
  { intros p. rewrite (on_edge b c a p Dbc), Tbc. tauto. }
  assert (On3 : forall p, on_segment p c a <-> opp c a p = 0 /\ 0 <= opp a b p / DD /\ 0 <= opp b c p / DD).
  { intros p. rewrite (on_edge c a b p Dca), Tca. tauto. }
  pose proof (fun p => in_triangle_opp a b c p D) as InT. fold DD in InT. pose proof (fun p => strictly_inside a b c p D) as St. fold DD in St.
  assert (Z : forall x, x / DD = 0 <-> x = 0).
  { intros x. split; [intros E; apply (Rmult_eq_reg_r (/ DD)); [unfold Rdiv in E; lra|apply Rinv_neq_0_compat; auto]|intros ->; unfold Rdiv; ring]. }
  assert (Z0 : 0 / DD = 0) by (unfold Rdiv; ring).
  assert (Any : forall s, In s P -> 0 <= s <= 1 /\ (on_segment (on_way p0 p1 s) a b \/ on_segment (on_way p0 p1 s) b c \/ on_segment (on_way p0 p1 s) c a)).
  { intros s I. apply PI in I as [I|[I|I]]; [apply A1 in I as (I & I')|apply A2 in I as (I & I')|apply A3 in I as (I & I')]; auto. }
  assert (InS : forall p, on_segment p a b \/ on_segment p b c \/ on_segment p c a -> in_triangle (a, b, c) p).
  { intros p [K|[K|K]]; apply InT; [apply On1 in K as (K & K')|apply On2 in K as (K & K')|apply On3 in K as (K & K')]; rewrite K, Z0; lra. }
  split.
  { intros s I. apply Any in I as (_ & I). rewrite St. intros (S1 & S2 & S3).
    destruct I as [I|[I|I]]; [apply On1 in I as (I & _)|apply On2 in I as (I & _)|apply On3 in I as (I & _)]; rewrite I, Z0 in *; lra. }
  set (F := fun u v => (opp u v p0 / DD, - cross_dirs p0 p1 u v / DD)).
  assert (FA : forall u v s, affine (F u v) s = opp u v (on_way p0 p1 s) / DD).
  { intros u v s. unfold affine, F. cbn [fst snd]. rewrite opp_on_way. unfold Rdiv. ring. }
  assert (FS : forall u v, snd (F u v) <> 0 <-> cross_dirs p0 p1 u v <> 0).
  { intros u v. unfold F. cbn [snd]. rewrite Z. lra. }
  destruct (clip [F a b; F b c; F c a] 0 1) as [No|(lo & hi & H1 & H2 & H3 & H4 & H5 & H6)]; [lra| |].
  { left. assert (No' : forall s, 0 <= s <= 1 -> ~ in_triangle (a, b, c) (on_way p0 p1 s)).
    { intros s Hs K. apply (No s Hs). apply InT in K as (K1 & K2 & K3). intros f [<-|[<-|[<-|[]]]]; rewrite FA; auto. }
    split; [|auto]. destruct P as [|s P']; [reflexivity|]. exfalso. destruct (Any s) as (Hs & K); [left; auto|]. apply (No' s Hs), InS, K. }
  right. exists lo, hi.
  assert (H4' : forall s, 0 <= s <= 1 -> (in_triangle (a, b, c) (on_way p0 p1 s) <-> lo <= s <= hi)).
  { intros s Hs. rewrite <- (H4 s Hs), InT. split.
    - intros (K1 & K2 & K3) f [<-|[<-|[<-|[]]]]; rewrite FA; auto.
    - intros K. rewrite <- !FA. repeat split; apply K; cbn; auto. }
  clear H4. split; [auto|]. split; [auto|]. split; [auto|]. split; [auto|].
  (* an edge that is not parallel meets the part at one of its ends *)
  assert (Gen : forall u v s, cross_dirs p0 p1 u v <> 0 -> (forall p, in_triangle (a, b, c) p -> 0 <= opp u v p / DD) -> 0 <= s <= 1 ->
     opp u v (on_way p0 p1 s) = 0 -> lo <= s <= hi -> s = lo \/ s = hi).
  { intros u v s Cr Pos Hs Ez Hlh. destruct (Req_dec s lo) as [->|N1]; [auto|]. destruct (Req_dec s hi) as [->|N2]; [auto|]. exfalso.
    assert (L0 : in_triangle (a, b, c) (on_way p0 p1 lo)) by (apply H4'; lra). assert (L1 : in_triangle (a, b, c) (on_way p0 p1 hi)) by (apply H4'; lra).
    apply Pos in L0, L1. apply Z in Ez. rewrite opp_on_way in L0, L1, Ez. unfold Rdiv in L0, L1, Ez.
    set (k := cross_dirs p0 p1 u v * / DD). assert (Kz : k <> 0) by (unfold k; intros K; apply Cr, Z; exact K).
    assert (M0 : 0 <= (s - lo) * k) by (unfold k; lra). assert (M1 : 0 <= (s - hi) * k) by (unfold k; lra).
    destruct (Rdichotomy k 0 Kz) as [K|K].
    - assert (0 < (s - lo) * - k) by (apply Rmult_lt_0_compat; lra). lra.
    - assert (0 < (hi - s) * k) by (apply Rmult_lt_0_compat; lra). lra. }
  (* a collinear edge records both ends *)
  assert (Col : forall u v ps, cross_dirs p0 p1 u v = 0 ->
     (forall p, on_segment p u v -> in_triangle (a, b, c) p) -> (forall p, on_segment p u v <-> opp u v p = 0 /\ in_triangle (a, b, c) p) ->
     (forall s, In s ps -> 0 <= s <= 1 /\ on_segment (on_way p0 p1 s) u v) ->
     ((forall s, 0 <= s <= 1 -> on_segment (on_way p0 p1 s) u v -> False) \/
       exists x y, ps = [x; y] /\ forall s, 0 <= s <= 1 -> on_segment (on_way p0 p1 s) u v -> between s x y) ->
     forall s, 0 <= s <= 1 -> on_segment (on_way p0 p1 s) u v -> In lo ps /\ In hi ps /\ forall s', In s' ps -> s' = lo \/ s' = hi).
  { intros u v ps Cr Sub Iff Ap Cp s Hs On. destruct Cp as [Cp|(x & y & -> & Cp)]; [exfalso; eapply Cp; eauto|].
    assert (Fl : forall s', opp u v (on_way p0 p1 s') = 0).
    { intros s'. apply Iff in On as (On & _). rewrite opp_on_way, Cr in *. lra. }
    assert (Ol : forall s', lo <= s' <= hi -> on_segment (on_way p0 p1 s') u v) by (intros s' Hs'; apply Iff; split; [apply Fl|apply H4'; lra]).
    assert (Bl : between lo x y) by (apply Cp; [lra|apply Ol; lra]). assert (Bh : between hi x y) by (apply Cp; [lra|apply Ol; lra]).
    assert (Xx : lo <= x <= hi) by (destruct (Ap x) as (Hx & Ox); [cbn; auto|]; apply H4'; [auto|apply Sub; auto]).
    assert (Xy : lo <= y <= hi) by (destruct (Ap y) as (Hy & Oy); [cbn; auto|]; apply H4'; [auto|apply Sub; auto]).
    unfold between in Bl, Bh. cbn [In].
    assert (K : (x = lo /\ y = hi) \/ (x = hi /\ y = lo)) by lra.
    destruct K as [(-> & ->)|(-> & ->)]; (split; [auto|]); (split; [auto|]); intros s' [<-|[<-|[]]]; auto. }
  assert (P1 : forall p, in_triangle (a, b, c) p -> 0 <= opp a b p / DD) by (intros p K; apply InT in K; tauto).
  assert (P2 : forall p, in_triangle (a, b, c) p -> 0 <= opp b c p / DD) by (intros p K; apply InT in K; tauto).
  assert (P3 : forall p, in_triangle (a, b, c) p -> 0 <= opp c a p / DD) by (intros p K; apply InT in K; tauto).
  assert (I1 : forall p, on_segment p a b <-> opp a b p = 0 /\ in_triangle (a, b, c) p).
  { intros p. rewrite On1, InT. split; [intros (K & K1 & K2); rewrite K, Z0; split; [auto|lra]|tauto]. }
  assert (I2 : forall p, on_segment p b c <-> opp b c p = 0 /\ in_triangle (a, b, c) p).
  { intros p. rewrite On2, InT. split; [intros (K & K1 & K2); rewrite K, Z0; split; [auto|lra]|tauto]. }
  assert (I3 : forall p, on_segment p c a <-> opp c a p = 0 /\ in_triangle (a, b, c) p).
  { intros p. rewrite On3, InT. split; [intros (K & K1 & K2); rewrite K, Z0; split; [auto|lra]|tauto]. }
  split.
  { intros s I. apply PI in I.
    assert (Do : forall u v ps, In s ps -> (forall p, on_segment p u v <-> opp u v p = 0 /\ in_triangle (a, b, c) p) ->
       (forall s, In s ps -> 0 <= s <= 1 /\ on_segment (on_way p0 p1 s) u v) ->
       (cross_dirs p0 p1 u v = 0 -> (forall s, 0 <= s <= 1 -> on_segment (on_way p0 p1 s) u v -> False) \/
         exists x y, ps = [x; y] /\ forall s, 0 <= s <= 1 -> on_segment (on_way p0 p1 s) u v -> between s x y) ->
       (forall p, in_triangle (a, b, c) p -> 0 <= opp u v p / DD) -> s = lo \/ s = hi).
    { intros u v ps I' Iff Ap Cp Pos. destruct (Ap s I') as (Hs & On). destruct (Req_dec (cross_dirs p0 p1 u v) 0) as [Cr|Cr].
      - destruct (Col u v ps Cr) with (s := s) as (_ & _ & K); auto. intros p K. apply Iff in K. tauto.
      - apply Iff in On as (On & On'). apply (Gen u v); auto. apply H4'; auto. }
    destruct I as [I|[I|I]]; [apply (Do a b ps1)|apply (Do b c ps2)|apply (Do c a ps3)]; auto. }
  assert (Ends : forall s, s = lo \/ s = hi -> opp a b (on_way p0 p1 s) = 0 \/ opp b c (on_way p0 p1 s) = 0 \/ opp c a (on_way p0 p1 s) = 0 -> In s P).
  { intros s Es K. assert (Hs : 0 <= s <= 1) by (destruct Es; lra). assert (Ms : in_triangle (a, b, c) (on_way p0 p1 s)) by (apply H4'; [auto|destruct Es; lra]).
    assert (Do : forall u v ps, opp u v (on_way p0 p1 s) = 0 -> (forall p, on_segment p u v <-> opp u v p = 0 /\ in_triangle (a, b, c) p) ->
       (forall s, In s ps -> 0 <= s <= 1 /\ on_segment (on_way p0 p1 s) u v) ->
       (cross_dirs p0 p1 u v <> 0 -> forall s, 0 <= s <= 1 -> on_segment (on_way p0 p1 s) u v -> In s ps) ->
       (cross_dirs p0 p1 u v = 0 -> (forall s, 0 <= s <= 1 -> on_segment (on_way p0 p1 s) u v -> False) \/
         exists x y, ps = [x; y] /\ forall s, 0 <= s <= 1 -> on_segment (on_way p0 p1 s) u v -> between s x y) -> In s ps).
    { intros u v ps Ez Iff Ap Bp Cp. assert (On : on_segment (on_way p0 p1 s) u v) by (apply Iff; auto).
      destruct (Req_dec (cross_dirs p0 p1 u v) 0) as [Cr|Cr]; [|apply Bp; auto].
      destruct (Col u v ps Cr) with (s := s) as (K1 & K2 & _); auto; [intros p K'; apply Iff in K'; tauto|]. destruct Es as [-> | ->]; auto. }
    apply PI. destruct K as [K|[K|K]]; [left; apply (Do a b ps1)|right; left; apply (Do b c ps2)|right; right; apply (Do c a ps3)]; auto. }
  assert (Dec : forall s, in_triangle (a, b, c) (on_way p0 p1 s) ->
     (opp a b (on_way p0 p1 s) = 0 \/ opp b c (on_way p0 p1 s) = 0 \/ opp c a (on_way p0 p1 s) = 0) \/ convex_combination true (on_way p0 p1 s) (a, b, c)).
  { intros s K. apply InT in K as (K1 & K2 & K3). rewrite St. set (q := on_way p0 p1 s) in *.
    destruct (Req_dec (opp a b q / DD) 0) as [L|L]; [left; left; apply Z; exact L|].
    destruct (Req_dec (opp b c q / DD) 0) as [L'|L']; [left; right; left; apply Z; exact L'|].
    destruct (Req_dec (opp c a q / DD) 0) as [L''|L'']; [left; right; right; apply Z; exact L''|]. right. clear - K1 K2 K3 L L' L''. lra. }
  assert (Root : forall f s, In f [F a b; F b c; F c a] -> affine f s = 0 -> opp a b (on_way p0 p1 s) = 0 \/ opp b c (on_way p0 p1 s) = 0 \/ opp c a (on_way p0 p1 s) = 0).
  { intros f s [<-|[<-|[<-|[]]]] K; rewrite FA in K; apply (proj1 (Z _)) in K; auto. }
  split.
  - destruct H5 as [->|(f & If & _ & Ef)].
    + destruct (Dec 0) as [K|K]; [apply H4'; lra|left; apply Ends; auto|right; split; [auto|]]. rewrite on_way_0 in K. exact K.
    + left. apply Ends; [auto|]. eapply Root; eauto.
  - destruct H6 as [->|(f & If & _ & Ef)].
    + destruct (Dec 1) as [K|K]; [apply H4'; lra|left; apply Ends; auto|right; split; [auto|]]. rewrite on_way_1 in K. exact K.
    + left. apply Ends; [auto|]. eapply Root; eauto.
Qed.

(** What the body of the loop returns for a triangle. *)
Lemma make_crossing_way p0 p1 i x y : p0 <> p1 -> 0 <= x -> 0 <= y -> x <> y ->
  make_crossing p0 i (on_way p0 p1 x) (on_way p0 p1 y) =
  {| segment := (on_way p0 p1 (Rmin x y), on_way p0 p1 (Rmax x y));
     normal := ((py p1 - py p0) / distance p0 p1, - (px p1 - px p0) / distance p0 p1);
     length_of := (Rmax x y - Rmin x y) * distance p0 p1; triangle_id := i |}.
Proof.
  intros Ne Hx Hy Nxy. unfold make_crossing. pose proof (distance_pos p0 p1 Ne) as LP.
  assert (D0 : forall z, 0 <= z -> distance p0 (on_way p0 p1 z) = z * distance p0 p1).
  { intros z Hz. rewrite <- (on_way_0 p0 p1) at 1. rewrite distance_on_way, Rabs_right by lra. ring. }
  rewrite !D0 by auto. set (L := distance p0 p1) in *.
  assert (G : forall u v, u < v -> 
    {| segment := (on_way p0 p1 u, on_way p0 p1 v);
       normal := (py (px (on_way p0 p1 v) - px (on_way p0 p1 u), py (on_way p0 p1 v) - py (on_way p0 p1 u)) /
                  dist (px (px (on_way p0 p1 v) - px (on_way p0 p1 u), py (on_way p0 p1 v) - py (on_way p0 p1 u)))
                       (py (px (on_way p0 p1 v) - px (on_way p0 p1 u), py (on_way p0 p1 v) - py (on_way p0 p1 u))),
                  - px (px (on_way p0 p1 v) - px (on_way p0 p1 u), py (on_way p0 p1 v) - py (on_way p0 p1 u)) /
                  dist (px (px (on_way p0 p1 v) - px (on_way p0 p1 u), py (on_way p0 p1 v) - py (on_way p0 p1 u)))
                       (py (px (on_way p0 p1 v) - px (on_way p0 p1 u), py (on_way p0 p1 v) - py (on_way p0 p1 u))));
       length_of := dist (px (px (on_way p0 p1 v) - px (on_way p0 p1 u), py (on_way p0 p1 v) - py (on_way p0 p1 u)))
                         (py (px (on_way p0 p1 v) - px (on_way p0 p1 u), py (on_way p0 p1 v) - py (on_way p0 p1 u))); triangle_id := i |} =
    {| segment := (on_way p0 p1 u, on_way p0 p1 v); normal := ((py p1 - py p0) / L, - (px p1 - px p0) / L);
       length_of := (v - u) * L; triangle_id := i |}).
  { intros u v Huv. cbn [px py fst snd].
    assert (Ed : dist (px (on_way p0 p1 v) - px (on_way p0 p1 u)) (py (on_way p0 p1 v) - py (on_way p0 p1 u)) = (v - u) * L).
    { pose proof (distance_on_way p0 p1 u v) as K. rewrite Rabs_right in K by lra. exact K. }
    rewrite Ed. f_equal. unfold on_way. cbn [px py fst snd]. f_equal; field; lra. }
  destruct (Rltb (y * L) (x * L)) eqn:C.
  - apply Rltb_true in C. apply Rmult_lt_reg_r in C; [|auto]. rewrite Rmin_right, Rmax_left by lra. apply G. auto.
  - apply Rltb_false in C. assert (x < y). { apply Rmult_le_reg_r in C; [lra|auto]. } rewrite Rmin_left, Rmax_right by lra. apply G. auto.
Qed.

Definition crossing_of (p0 p1 : point) (i : nat) (lo hi : R) : crossing :=
  {| segment := (on_way p0 p1 lo, on_way p0 p1 hi);
     normal := ((py p1 - py p0) / distance p0 p1, - (px p1 - px p0) / distance p0 p1);
     length_of := (hi - lo) * distance p0 p1; triangle_id := i |}.

Lemma triangle_spec p0 p1 i t : p0 <> p1 -> tri_cross t <> 0 -> (forall e, In e (tri_edges t) -> clear_edge p0 p1 e) ->
  ~ (convex_combination true p0 t /\ convex_combination true p1 t) ->
  (triangle_crossing p0 p1 i t = Some None /\
   exists x, forall s, 0 <= s <= 1 -> in_triangle t (on_way p0 p1 s) -> s = x) \/
  exists lo hi, triangle_crossing p0 p1 i t = Some (Some (crossing_of p0 p1 i lo hi)) /\
  0 <= lo /\ lo < hi /\ hi <= 1 /\ forall s, 0 <= s <= 1 -> (in_triangle t (on_way p0 p1 s) <-> lo <= s <= hi).
Proof.
  intros Ne D Cl Nb. destruct (recorded p0 p1 t Ne D Cl) as (P & E & Nd & Ns & H).
  destruct t as [[a b] c]. unfold triangle_crossing. rewrite E. clear E.
  pose proof (C19_triangle a b c p0 D) as T0. pose proof (C19_triangle a b c p1 D) as T1.
  destruct H as [(-> & No)|(lo & hi & H1 & H2 & H3 & H4 & H5 & H6 & H7)].
  { left. split; [reflexivity|]. exists 0. intros s Hs K. destruct (No s Hs K). }
  assert (Sub : forall q, convex_combination true q (a, b, c) -> in_triangle (a, b, c) q).
  { intros q (l & m & n & (Q1 & Q2 & Q3) & R0). exists l, m, n. split; [lra|exact R0]. }
  assert (M0 : convex_combination true p0 (a, b, c) -> lo = 0 /\ ~ In 0 P).
  { intros K. split; [|intros I; apply (Ns 0 I); rewrite on_way_0; exact K].
    assert (lo <= 0 <= hi); [|lra]. apply H4; [lra|]. rewrite on_way_0. apply Sub, K. }
  assert (M1 : convex_combination true p1 (a, b, c) -> hi = 1 /\ ~ In 1 P).
  { intros K. split; [|intros I; apply (Ns 1 I); rewrite on_way_1; exact K].
    assert (lo <= 1 <= hi); [|lra]. apply H4; [lra|]. rewrite on_way_1. apply Sub, K. }
  assert (Two : forall x y, x <> y -> (x = lo /\ y = hi) \/ (x = hi /\ y = lo) ->
     Some (Some (make_crossing p0 i (on_way p0 p1 x) (on_way p0 p1 y))) = Some (Some (crossing_of p0 p1 i lo hi)) /\ lo < hi).
  { intros x y Nxy K. assert (Hlt : lo < hi) by (clear - K Nxy H2; lra). split; [|exact Hlt].
    rewrite make_crossing_way; [|auto|clear - K H1 H2; lra|clear - K H1 H2; lra|auto]. unfold crossing_of.
    destruct K as [(-> & ->)|(-> & ->)]; [rewrite Rmin_left, Rmax_right by lra|rewrite Rmin_right, Rmax_left by lra]; reflexivity. }
  assert (One : forall q : R, ~ (lo < hi) -> forall s, 0 <= s <= 1 -> in_triangle (a, b, c) (on_way p0 p1 s) -> s = lo).
  { intros _ K s Hs I. apply H4 in I; [|auto]. clear - I K H2. lra. }
  destruct P as [|x [|y [|z P]]].
  - exfalso. destruct H6 as [[]|(_ & K0)], H7 as [[]|(_ & K1)]. apply Nb. auto.
  - cbn [map]. destruct (point_inside [a; b; c] false p1) eqn:I1.
    + assert (K : convex_combination true p1 (a, b, c)) by (apply T1; reflexivity). destruct (M1 K) as (Eh & N1).
      assert (Nx : x <> 1) by (intros ->; apply N1; left; auto).
      assert (Lx : x = lo) by (destruct (H5 x) as [?|?]; [left; auto|auto|exfalso; apply Nx; congruence]).
      pose proof (record_param_map p0 p1 [x] 1 Ne) as Rp. rewrite on_way_1 in Rp. cbn [map] in Rp. rewrite Rp. clear Rp.
      unfold record_param. cbn [existsb]. assert (Reqb 1 x = false) as -> by (apply Reqb_false; auto). cbn [orb app map].
      right. exists lo, hi. destruct (Two x 1 Nx) as (Et & Hl); [left; auto|]. rewrite Et. auto.
    + destruct (point_inside [a; b; c] false p0) eqn:I0.
      * assert (K : convex_combination true p0 (a, b, c)) by (apply T0; reflexivity). destruct (M0 K) as (El & N0).
        assert (Nx : x <> 0) by (intros ->; apply N0; left; auto).
        assert (Lx : x = hi) by (destruct (H5 x) as [?|?]; [left; auto|exfalso; apply Nx; congruence|auto]).
        pose proof (record_param_map p0 p1 [x] 0 Ne) as Rp. rewrite on_way_0 in Rp. cbn [map] in Rp. rewrite Rp. clear Rp.
        unfold record_param. cbn [existsb]. assert (Reqb 0 x = false) as -> by (apply Reqb_false; auto). cbn [orb app map].
        right. exists lo, hi. destruct (Two x 0 Nx) as (Et & Hl); [right; auto|]. rewrite Et. auto.
      * left. split; [reflexivity|]. exists lo. apply (One 0). intros Hl.
        assert (L1 : x = lo) by (destruct H6 as [[?|[]]|(_ & K)]; [auto|apply T0 in K; congruence]).
        assert (L2 : x = hi) by (destruct H7 as [[?|[]]|(_ & K)]; [auto|apply T1 in K; congruence]). lra.
  - cbn [map]. assert (Nxy : x <> y) by (inversion Nd as [|? ? K1 K2]; subst; intros ->; apply K1; left; auto).
    assert (Ex : x = lo \/ x = hi) by (apply H5; left; auto). assert (Ey : y = lo \/ y = hi) by (apply H5; right; left; auto).
    right. exists lo, hi. destruct (Two x y Nxy) as (Et & Hl); [clear - Nxy Ex Ey; destruct Ex, Ey; subst; auto; contradiction|]. rewrite Et. auto.
  - exfalso. assert (Ex : x = lo \/ x = hi) by (apply H5; cbn; auto). assert (Ey : y = lo \/ y = hi) by (apply H5; cbn; auto).
    assert (Ez : z = lo \/ z = hi) by (apply H5; cbn; auto).
    inversion Nd as [|? ? K1 K2]; subst. inversion K2 as [|? ? K3 K4]; subst. cbn [In] in K1, K3.
    assert (x <> y) by (intros ->; apply K1; auto). assert (x <> z) by (intros ->; apply K1; auto). assert (y <> z) by (intros ->; apply K3; auto).
    clear - Ex Ey Ez H H0 H8. destruct Ex, Ey, Ez; subst; auto.
Qed.
