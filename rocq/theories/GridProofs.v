(** Proofs about the export to grids. *)
From Coq Require Import Reals List ZArith Arith Bool Lra Lia Psatz.
From Verif Require Import RealLib ArrayLib PolygonModel PolygonProofs GridModel.
Import ListNotations.
Local Open Scope R_scope.

(** ** Truncation and ranges *)

Lemma int_part_bounds x : IZR (Int_part x) <= x < IZR (Int_part x) + 1.
Proof. pose proof (base_Int_part x). lra. Qed.

Lemma trunc_nonneg x : 0 <= x -> IZR (trunc x) <= x < IZR (trunc x) + 1.
Proof. intros H. unfold trunc. rewrite (proj2 (Rltb_false x 0)) by lra. apply int_part_bounds. Qed.

Lemma trunc_neg x : x < 0 -> (trunc x <= 0)%Z.
Proof.
  intros H. unfold trunc. rewrite (proj2 (Rltb_true x 0)) by lra.
  assert (0 <= Int_part (- x))%Z; [|lia].
  pose proof (int_part_bounds (- x)). assert (-1 < Int_part (- x))%Z; [|lia].
  apply lt_IZR. replace (IZR (-1)) with (-1) by (cbn; lra). lra.
Qed.

Lemma trunc_nonneg_pos x : 0 <= x -> (0 <= trunc x)%Z.
Proof.
  intros H. pose proof (trunc_nonneg x H). assert (-1 < trunc x)%Z; [|lia].
  apply lt_IZR. replace (IZR (-1)) with (-1) by (cbn; lra). lra.
Qed.

Lemma trunc_IZR n : trunc (IZR n) = n.
Proof.
  unfold trunc. destruct (Rltb_spec (IZR n) 0) as [H|H].
  - pose proof (int_part_bounds (- IZR n)) as B. rewrite <- opp_IZR in B. rewrite <- opp_IZR.
    assert (Int_part (IZR (- n)) = (- n)%Z); [|lia].
    apply Z.le_antisymm; [apply le_IZR; lra|]. apply Z.lt_succ_r. apply lt_IZR. rewrite succ_IZR. lra.
  - pose proof (int_part_bounds (IZR n)) as B.
    apply Z.le_antisymm; [apply le_IZR; lra|]. apply Z.lt_succ_r. apply lt_IZR. rewrite succ_IZR. lra.
Qed.

Lemma INR_Z k : INR k = IZR (Z.of_nat k).
Proof. apply INR_IZR_INZ. Qed.

(** Every grid index between the ends of the triangle is in the range. *)
Lemma range_complete lo hi cell n k : 0 < cell -> (k < n)%nat -> lo <= INR k * cell -> INR k * cell <= hi ->
  (fst (range_of lo hi cell n) <= k)%nat /\ (Z.of_nat k <= snd (range_of lo hi cell n))%Z.
Proof.
  intros Hc Hn Hlo Hhi. unfold range_of. cbn [fst snd]. pose proof (pos_INR k) as Hk.
  assert (Hkc : 0 <= INR k * cell) by (apply Rmult_le_pos; lra).
  split.
  - apply Nat2Z.inj_le. rewrite Z2Nat.id by lia. apply Z.max_lub; [lia|].
    destruct (Rlt_dec ((lo - 0) / cell) 0) as [L|L].
    + pose proof (trunc_neg _ L). lia.
    + apply le_IZR. rewrite <- INR_Z. pose proof (trunc_nonneg ((lo - 0) / cell) ltac:(lra)) as T.
      apply Rle_trans with ((lo - 0) / cell); [lra|].
      apply Rmult_le_reg_r with cell; [lra|]. unfold Rdiv. rewrite Rmult_assoc, Rinv_l, Rmult_1_r by lra. lra.
  - apply Z.min_glb; [|lia].
    rewrite Rminus_0_r, Rabs_pos_eq by lra.
    assert (Hq : INR k <= hi / cell).
    { apply Rmult_le_reg_r with cell; [lra|]. unfold Rdiv. rewrite Rmult_assoc, Rinv_l, Rmult_1_r by lra. lra. }
    pose proof (trunc_nonneg (hi / cell) ltac:(lra)) as T.
    apply Z.lt_succ_r. apply lt_IZR. rewrite succ_IZR, <- INR_Z. lra.
Qed.

Lemma range_below lo hi cell n k : (Z.of_nat k <= snd (range_of lo hi cell n))%Z -> (k < n)%nat.
Proof. unfold range_of. cbn [snd]. lia. Qed.

Lemma in_indices r k : In k (indices r) <-> (fst r <= k)%nat /\ (Z.of_nat k <= snd r)%Z.
Proof. unfold indices. rewrite in_seq. lia. Qed.

(** ** What is accepted *)

Lemma accepts_box a b c p : accepts (a, b, c) p = true ->
  min3 (px a) (px b) (px c) <= px p <= max3 (px a) (px b) (px c) /\
  min3 (py a) (py b) (py c) <= py p <= max3 (py a) (py b) (py c).
Proof.
  destruct a as (ax, ay), b as (bx, by_), c as (cx, cy), p as (x, y). unfold accepts, is_inside_triangle_with.
  cbn [px py fst snd].
  destruct (Rltb x ax && Rltb x bx && Rltb x cx) eqn:E1; [discriminate|].
  destruct (Rltb ax x && Rltb bx x && Rltb cx x) eqn:E2; [discriminate|].
  destruct (Rltb y ay && Rltb y by_ && Rltb y cy) eqn:E3; [discriminate|].
  destruct (Rltb ay y && Rltb by_ y && Rltb cy y) eqn:E4; [discriminate|]. intros _.
  rewrite !andb_false_iff, !Rltb_false in *. unfold min3, max3.
  split; split.
  - clear - E1. destruct E1 as [[E|E]|E]; [|eapply Rle_trans; [apply Rmin_r|]..]; [eapply Rle_trans; [apply Rmin_l|lra]|eapply Rle_trans; [apply Rmin_l|lra]|eapply Rle_trans; [apply Rmin_r|lra]].
  - clear - E2. destruct E2 as [[E|E]|E]; [|eapply Rle_trans; [|apply Rmax_r]..]; [eapply Rle_trans; [|apply Rmax_l]; lra|eapply Rle_trans; [|apply Rmax_l]; lra|eapply Rle_trans; [|apply Rmax_r]; lra].
  - clear - E3. destruct E3 as [[E|E]|E]; [|eapply Rle_trans; [apply Rmin_r|]..]; [eapply Rle_trans; [apply Rmin_l|lra]|eapply Rle_trans; [apply Rmin_l|lra]|eapply Rle_trans; [apply Rmin_r|lra]].
  - clear - E4. destruct E4 as [[E|E]|E]; [|eapply Rle_trans; [|apply Rmax_r]..]; [eapply Rle_trans; [|apply Rmax_l]; lra|eapply Rle_trans; [|apply Rmax_l]; lra|eapply Rle_trans; [|apply Rmax_r]; lra].
Qed.

Lemma grid_tol_pos : 0 < grid_tol.
Proof. unfold grid_tol. apply Rinv_0_lt_compat, pow_lt. lra. Qed.

Lemma on_line_exact x y x0 y0 x1 y1 rtol atol t : 0 <= rtol -> 0 <= atol -> 0 <= t <= 1 ->
  x = x0 + t * (x1 - x0) -> y = y0 + t * (y1 - y0) -> grid_point_on_line x y x0 y0 x1 y1 rtol atol = true.
Proof.
  intros Hr Ha Ht -> ->. unfold grid_point_on_line.
  set (b0 := x1 - x0). set (b1 := y1 - y0).
  replace (x0 + t * b0 - x0) with (t * b0) by ring. replace (y0 + t * b1 - y0) with (t * b1) by ring.
  replace (t * b1 * b0 + - (t * b0) * b1) with 0 by ring. rewrite Rabs_R0.
  replace (if Reqb (b0 * b0 + b1 * b1) 0 then Rleb 0 atol else Rleb (0 / (b0 * b0 + b1 * b1)) rtol) with true.
  2: { destruct (Reqb _ _); symmetry; apply Rleb_true; [lra|]. unfold Rdiv. rewrite Rmult_0_l. lra. }
  pose proof (Rle_0_sqr b0) as Q0. pose proof (Rle_0_sqr b1) as Q1. unfold Rsqr in Q0, Q1.
  rewrite (proj2 (Rleb_true _ _)).
  - cbn [andb]. apply Rleb_true. apply sqrt_le_1_alt.
    replace (t * b0 * (t * b0) + t * b1 * (t * b1)) with (t * t * (b0 * b0 + b1 * b1)) by ring.
    assert (t * t <= 1) by nra. nra.
  - replace (t * b0 * b0 + t * b1 * b1) with (t * (b0 * b0 + b1 * b1)) by ring. apply Rmult_le_pos; lra.
Qed.

Lemma closed_accepted t p : tri_cross t <> 0 -> convex_combination false p t -> accepts t p = true.
Proof.
  intros H C. apply inside_closed_with; auto. intros. pose proof grid_tol_pos. eapply on_line_exact; eauto; lra.
Qed.

(** An accepted point is in the triangle or at most 1e-12 side lengths away. *)
Definition gap (p q : point) : R := sqrt ((px p - px q) * (px p - px q) + (py p - py q) * (py p - py q)).
Definition near (p : point) (t : triangle) : Prop :=
  exists q, convex_combination false q t /\ (q = p \/ exists e, In e (tri_edges t) /\ gap p q <= grid_tol * gap (fst e) (snd e)).

Lemma weaken_convex p t : convex_combination true p t -> convex_combination false p t.
Proof. destruct t as ((a, b), c). intros (l & m & n & H). exists l, m, n. lra. Qed.

Lemma edge_convex t e s : In e (tri_edges t) -> 0 <= s <= 1 ->
  convex_combination false (px (fst e) + s * (px (snd e) - px (fst e)), py (fst e) + s * (py (snd e) - py (fst e))) t.
Proof.
  destruct t as ((a, b), c). intros [<-|[<-|[<-|[]]]] Hs; cbn [fst snd px py].
  - exists (1 - s), s, 0. cbn [px py fst snd]. repeat split; try lra; ring.
  - exists 0, (1 - s), s. cbn [px py fst snd]. repeat split; try lra; ring.
  - exists s, 0, (1 - s). cbn [px py fst snd]. repeat split; try lra; ring.
Qed.

Lemma on_line_near x y x0 y0 x1 y1 rtol atol : 0 <= rtol -> 0 < (x1 - x0) * (x1 - x0) + (y1 - y0) * (y1 - y0) ->
  grid_point_on_line x y x0 y0 x1 y1 rtol atol = true ->
  exists s, 0 <= s <= 1 /\ gap (x, y) (x0 + s * (x1 - x0), y0 + s * (y1 - y0)) <= rtol * gap (x0, y0) (x1, y1).
Proof.
  intros Hr. unfold grid_point_on_line.
  set (a0 := x - x0). set (a1 := y - y0). set (b0 := x1 - x0). set (b1 := y1 - y0). intros HB.
  set (B := b0 * b0 + b1 * b1) in *.
  rewrite (proj2 (Reqb_false B 0)) by lra.
  destruct (Rleb_spec (Rabs (a1 * b0 + - a0 * b1) / B) rtol) as [P|P]; [|discriminate].
  rewrite andb_true_iff, !Rleb_true. intros (D & L).
  set (d := a0 * b0 + a1 * b1) in *.
  assert (La : a0 * a0 + a1 * a1 <= B).
  { apply sqrt_le_0; [|unfold B in *; lra|exact L]. pose proof (Rle_0_sqr a0). pose proof (Rle_0_sqr a1). unfold Rsqr in *. lra. }
  assert (Hd : d <= B).
  { pose proof (Rle_0_sqr (a0 - b0)) as S0. pose proof (Rle_0_sqr (a1 - b1)) as S1. unfold Rsqr in S0, S1. unfold d, B in *. nra. }
  exists (d / B). split; [split|].
  - apply Rmult_le_pos; [lra|]. left. apply Rinv_0_lt_compat. lra.
  - apply Rmult_le_reg_r with B; [lra|]. unfold Rdiv. rewrite Rmult_assoc, Rinv_l, Rmult_1_r by lra. lra.
  - unfold gap. cbn [px py fst snd].
    replace (x - (x0 + d / B * b0)) with (a0 - d / B * b0) by (unfold a0; ring).
    replace (y - (y0 + d / B * b1)) with (a1 - d / B * b1) by (unfold a1; ring).
    replace ((x0 - x1) * (x0 - x1) + (y0 - y1) * (y0 - y1)) with B by (unfold B, b0, b1; ring).
    set (m := a1 * b0 + - a0 * b1) in *.
    replace ((a0 - d / B * b0) * (a0 - d / B * b0) + (a1 - d / B * b1) * (a1 - d / B * b1)) with (m / B * (m / B) * B).
    2: { unfold m, d. unfold B. field. fold B. lra. }
    pose proof (sqrt_pos B) as SB.
    rewrite sqrt_mult; [| |lra].
    + change (m / B * (m / B)) with (Rsqr (m / B)). rewrite sqrt_Rsqr_abs. apply Rmult_le_compat_r; [lra|]. unfold Rdiv in *. rewrite Rabs_mult, (Rabs_pos_eq (/ B)); [exact P|].
      left. apply Rinv_0_lt_compat. lra.
    + apply Rle_0_sqr.
Qed.

Lemma tri_cross_edges t e : tri_cross t <> 0 -> In e (tri_edges t) ->
  0 < (px (snd e) - px (fst e)) * (px (snd e) - px (fst e)) + (py (snd e) - py (fst e)) * (py (snd e) - py (fst e)).
Proof.
  destruct t as ((a, b), c). unfold tri_cross. intros HD He.
  pose proof (Rle_0_sqr (px (snd e) - px (fst e))) as S0. pose proof (Rle_0_sqr (py (snd e) - py (fst e))) as S1. unfold Rsqr in S0, S1.
  destruct (Req_dec (px (snd e) - px (fst e)) 0) as [Zx|Nx].
  - destruct (Req_dec (py (snd e) - py (fst e)) 0) as [Zy|Ny].
    + exfalso. apply HD. destruct He as [<-|[<-|[<-|[]]]]; cbn [fst snd] in *.
      * replace (px b) with (px a) by lra. replace (py b) with (py a) by lra. ring.
      * replace (px c) with (px b) by lra. replace (py c) with (py b) by lra. ring.
      * replace (px a) with (px c) by lra. replace (py a) with (py c) by lra. ring.
    + assert (K := Rsqr_pos_lt _ Ny). unfold Rsqr in K. lra.
  - assert (K := Rsqr_pos_lt _ Nx). unfold Rsqr in K. lra.
Qed.

Lemma accepted_near t p : tri_cross t <> 0 -> accepts t p = true -> near p t.
Proof.
  intros HD H. apply inside_closed_sound in H as [(_ & H)|(e & He & H)].
  - exists p. split; [now apply weaken_convex|now left].
  - apply on_line_near in H; [|pose proof grid_tol_pos; lra|now apply (tri_cross_edges t)].
    destruct H as (s & Hs & G). exists (px (fst e) + s * (px (snd e) - px (fst e)), py (fst e) + s * (py (snd e) - py (fst e))).
    split; [now apply edge_convex|]. right. exists e. split; [exact He|].
    destruct p as (x, y), e as ((x0, y0), (x1, y1)). exact G.
Qed.

(** ** The weights are barycentric coordinates *)

Lemma side_norm_spec p q : 0 < (px q - px p) * (px q - px p) + (py q - py p) * (py q - py p) ->
  exists s, s <> 0 /\ side_norm p q = (s * (py q - py p), - (s * (px q - px p))).
Proof.
  intros H. unfold side_norm. pose proof (sqrt_lt_R0 _ H) as Hs.
  set (l := sqrt _) in *. rewrite (proj2 (Reqb_false l 0)) by lra. cbn [negb].
  exists (/ l). split; [apply Rinv_neq_0_compat; lra|]. unfold Rdiv. apply f_equal2; ring.
Qed.

Definition barycentric (t : triangle) (p : point) (s1 s2 s3 : R) : Prop :=
  let '(a, b, c) := t in
  s1 + s2 + s3 = 1 /\ px p = s1 * px a + s2 * px b + s3 * px c /\ py p = s1 * py a + s2 * py b + s3 * py c.

Lemma value_barycentric t p : tri_cross t <> 0 ->
  exists s1 s2 s3, barycentric t p s1 s2 s3 /\ forall f1 f2 f3, value_at t f1 f2 f3 p = s1 * f1 + s2 * f2 + s3 * f3.
Proof.
  intros HD. destruct t as ((a, b), c).
  destruct (side_norm_spec b c) as (u1 & U1 & E1). { apply (tri_cross_edges (a, b, c) (b, c)); [exact HD|cbn; auto]. }
  destruct (side_norm_spec c a) as (u2 & U2 & E2). { apply (tri_cross_edges (a, b, c) (c, a)); [exact HD|cbn; auto]. }
  destruct (side_norm_spec a b) as (u3 & U3 & E3). { apply (tri_cross_edges (a, b, c) (a, b)); [exact HD|cbn; auto]. }
  unfold tri_cross in HD. unfold value_at. rewrite E1, E2, E3. unfold weight. cbn [fst snd].
  destruct a as (ax, ay), b as (bx, by_), c as (cx, cy), p as (x, y). cbn [px py fst snd] in *.
  set (D := (bx - ax) * (cy - ay) - (cx - ax) * (by_ - ay)) in *.
  replace ((ax - bx) * (u1 * (cy - by_)) + (ay - by_) * - (u1 * (cx - bx))) with (- u1 * D) by (unfold D; ring).
  replace ((bx - cx) * (u2 * (ay - cy)) + (by_ - cy) * - (u2 * (ax - cx))) with (- u2 * D) by (unfold D; ring).
  replace ((cx - ax) * (u3 * (by_ - ay)) + (cy - ay) * - (u3 * (bx - ax))) with (- u3 * D) by (unfold D; ring).
  assert (Hn : forall u, u <> 0 -> Reqb (- u * D) 0 = false).
  { intros u Hu. apply Reqb_false. apply Rmult_integral_contrapositive. split; [lra|exact HD]. }
  rewrite !Hn by assumption. cbn [negb].
  exists (((bx - x) * (cy - y) - (cx - x) * (by_ - y)) / D), (((cx - x) * (ay - y) - (ax - x) * (cy - y)) / D), (((ax - x) * (by_ - y) - (bx - x) * (ay - y)) / D).
  split.
  - unfold barycentric. cbn [px py fst snd]. unfold D in *. repeat split; field; exact HD.
  - intros f1 f2 f3. unfold D in *. field. repeat split; assumption.
Qed.

Lemma barycentric_unique t p s1 s2 s3 r1 r2 r3 : tri_cross t <> 0 -> barycentric t p s1 s2 s3 -> barycentric t p r1 r2 r3 ->
  s1 = r1 /\ s2 = r2 /\ s3 = r3.
Proof.
  destruct t as (((ax, ay), (bx, by_)), (cx, cy)), p as (x, y). unfold barycentric, tri_cross. cbn [px py fst snd].
  intros HD (A1 & A2 & A3) (B1 & B2 & B3).
  set (D := (bx - ax) * (cy - ay) - (cx - ax) * (by_ - ay)) in *.
  assert (E2 : (s2 - r2) * D = 0).
  { replace ((s2 - r2) * D) with (((s1 - r1) * ax + (s2 - r2) * bx + (s3 - r3) * cx - (s1 - r1 + (s2 - r2) + (s3 - r3)) * ax) * (cy - ay)
       - ((s1 - r1) * ay + (s2 - r2) * by_ + (s3 - r3) * cy - (s1 - r1 + (s2 - r2) + (s3 - r3)) * ay) * (cx - ax)) by (unfold D; ring).
    replace ((s1 - r1) * ax + (s2 - r2) * bx + (s3 - r3) * cx) with 0 by lra.
    replace ((s1 - r1) * ay + (s2 - r2) * by_ + (s3 - r3) * cy) with 0 by lra.
    replace (s1 - r1 + (s2 - r2) + (s3 - r3)) with 0 by lra. ring. }
  assert (E3 : (s3 - r3) * D = 0).
  { replace ((s3 - r3) * D) with (((s1 - r1) * ay + (s2 - r2) * by_ + (s3 - r3) * cy - (s1 - r1 + (s2 - r2) + (s3 - r3)) * ay) * (bx - ax)
       - ((s1 - r1) * ax + (s2 - r2) * bx + (s3 - r3) * cx - (s1 - r1 + (s2 - r2) + (s3 - r3)) * ax) * (by_ - ay)) by (unfold D; ring).
    replace ((s1 - r1) * ax + (s2 - r2) * bx + (s3 - r3) * cx) with 0 by lra.
    replace ((s1 - r1) * ay + (s2 - r2) * by_ + (s3 - r3) * cy) with 0 by lra.
    replace (s1 - r1 + (s2 - r2) + (s3 - r3)) with 0 by lra. ring. }
  apply Rmult_integral in E2 as [E2|E2]; [|contradiction]. apply Rmult_integral in E3 as [E3|E3]; [|contradiction]. lra.
Qed.

(** ** The loops *)

Section Loops.
Variable ncol : nat.
Variable c : nat -> nat -> bool.
Variable v : nat -> nat -> R.
Let row (js : list nat) (ks : list nat) (g : nat -> R) : nat -> R :=
  fold_left (fun g j => fold_left (fun g k => if c j k then upd g (j * ncol + k)%nat (v j k) else g) ks g) js g.

Lemma inner_other j ks : forall g i, (forall k, In k ks -> i <> (j * ncol + k)%nat) ->
  fold_left (fun g k => if c j k then upd g (j * ncol + k)%nat (v j k) else g) ks g i = g i.
Proof.
  induction ks as [|k ks IH]; intros g i H; [reflexivity|]. cbn [fold_left]. rewrite IH; [|intros; apply H; now right].
  destruct (c j k); [|reflexivity]. apply upd_other. apply H. now left.
Qed.

Lemma inner_in j ks : forall g k, In k ks ->
  fold_left (fun g k => if c j k then upd g (j * ncol + k)%nat (v j k) else g) ks g (j * ncol + k)%nat = if c j k then v j k else g (j * ncol + k)%nat.
Proof.
  induction ks as [|k0 ks IH]; intros g k H; [contradiction|]. cbn [fold_left].
  destruct (in_dec Nat.eq_dec k ks) as [I|N].
  - rewrite IH by exact I. destruct (c j k) eqn:E; [reflexivity|]. destruct (c j k0) eqn:E0; [|reflexivity].
    apply upd_other. intros K. apply Nat.add_cancel_l in K. subst k0. congruence.
  - destruct H as [->|H]; [|contradiction]. rewrite inner_other.
    2: { intros k' I K. apply Nat.add_cancel_l in K. congruence. }
    destruct (c j k); [apply upd_same|reflexivity].
Qed.

Lemma index_inj j j' k k' : (k < ncol)%nat -> (k' < ncol)%nat -> (j * ncol + k = j' * ncol + k')%nat -> j = j' /\ k = k'.
Proof.
  intros H H' E.
  assert (j = j'); [|nia].
  apply (f_equal (fun i => i / ncol)%nat) in E. rewrite !Nat.div_add_l, !Nat.div_small, !Nat.add_0_r in E by lia. exact E.
Qed.

Lemma rows_other js ks : (forall k, In k ks -> (k < ncol)%nat) ->
  forall g i, (forall j k, In j js -> In k ks -> i <> (j * ncol + k)%nat) -> row js ks g i = g i.
Proof.
  intros Hk. unfold row. induction js as [|j js IH]; intros g i H; [reflexivity|]. cbn [fold_left]. rewrite IH; [|intros; apply H; auto; now right].
  apply inner_other. intros k K. apply H; auto. now left.
Qed.

Lemma rows_in js ks : (forall k, In k ks -> (k < ncol)%nat) ->
  forall g j k, In j js -> In k ks -> row js ks g (j * ncol + k)%nat = if c j k then v j k else g (j * ncol + k)%nat.
Proof.
  intros Hk. unfold row. induction js as [|j0 js IH]; intros g j k Hj H; [contradiction|]. cbn [fold_left].
  destruct (in_dec Nat.eq_dec j js) as [I|N].
  - rewrite IH by assumption. destruct (c j k) eqn:E; [reflexivity|].
    destruct (Nat.eq_dec j0 j) as [->|Nj]; [rewrite inner_in by assumption; now rewrite E|].
    apply inner_other. intros k' K' F. apply index_inj in F as (F & _); auto.
  - destruct Hj as [->|Hj]; [|contradiction].
    fold (row js ks (fold_left (fun g k => if c j k then upd g (j * ncol + k)%nat (v j k) else g) ks g)). rewrite rows_other; auto.
    + now apply inner_in.
    + intros j' k' J' K' F. apply index_inj in F as (-> & _); auto.
Qed.
End Loops.

(** ** One triangle, all triangles *)

Definition tri_of (X : nat -> point) (tri : nat * nat * nat) : triangle := let '(i1, i2, i3) := tri in (X i1, X i2, X i3).
Definition interpolated (X : nat -> point) (val : nat -> R) (tri : nat * nat * nat) (p : point) : R :=
  let '(i1, i2, i3) := tri in value_at (X i1, X i2, X i3) (val i1) (val i2) (val i3) p.

Lemma triangle_step_in cell nrow ncol X val g tri j k : 0 < cell -> (j < nrow)%nat -> (k < ncol)%nat ->
  triangle_step cell nrow ncol X val g tri (j * ncol + k)%nat =
  if accepts (tri_of X tri) (INR k * cell, INR j * cell) then interpolated X val tri (INR k * cell, INR j * cell) else g (j * ncol + k)%nat.
Proof.
  intros Hc Hj Hk. destruct tri as ((i1, i2), i3). unfold triangle_step, tri_of, interpolated.
  set (t := (X i1, X i2, X i3)).
  set (xr := range_of (min3 (px (X i1)) (px (X i2)) (px (X i3))) (max3 (px (X i1)) (px (X i2)) (px (X i3))) cell ncol).
  set (yr := range_of (min3 (py (X i1)) (py (X i2)) (py (X i3))) (max3 (py (X i1)) (py (X i2)) (py (X i3))) cell nrow).
  destruct (accepts t (INR k * cell, INR j * cell)) eqn:EA.
  - destruct (accepts_box _ _ _ _ EA) as ((Bx1 & Bx2) & (By1 & By2)). cbn [px py fst snd] in Bx1, Bx2, By1, By2.
    destruct (range_complete _ _ cell ncol k Hc Hk Bx1 Bx2) as (Rx1 & Rx2). destruct (range_complete _ _ cell nrow j Hc Hj By1 By2) as (Ry1 & Ry2).
    fold xr in Rx1, Rx2. fold yr in Ry1, Ry2.
    rewrite (proj2 (Z.leb_le 0 (snd xr))) by lia. rewrite (proj2 (Z.leb_le 0 (snd yr))) by lia. cbn [andb].
    rewrite (rows_in ncol (fun j k => accepts t (INR k * cell, INR j * cell)) (fun j k => value_at t (val i1) (val i2) (val i3) (INR k * cell, INR j * cell))).
    + now rewrite EA.
    + intros k' K'. apply in_indices in K' as (_ & K'). now apply range_below in K'.
    + apply in_indices. auto.
    + apply in_indices. auto.
  - destruct (Z.leb 0 (snd xr) && Z.leb 0 (snd yr)); [|reflexivity].
    destruct (in_dec Nat.eq_dec j (indices yr)) as [Ij|Nj]; [destruct (in_dec Nat.eq_dec k (indices xr)) as [Ik|Nk]|].
    + rewrite (rows_in ncol (fun j k => accepts t (INR k * cell, INR j * cell)) (fun j k => value_at t (val i1) (val i2) (val i3) (INR k * cell, INR j * cell))); auto.
      * now rewrite EA.
      * intros k' K'. apply in_indices in K' as (_ & K'). now apply range_below in K'.
    + apply (rows_other ncol (fun j k => accepts t (INR k * cell, INR j * cell)) (fun j k => value_at t (val i1) (val i2) (val i3) (INR k * cell, INR j * cell))).
      * intros k' K'. apply in_indices in K' as (_ & K'). now apply range_below in K'.
      * intros j' k' _ K' F. apply index_inj in F as (_ & ->); auto. apply in_indices in K' as (_ & K'). now apply range_below in K'.
    + apply (rows_other ncol (fun j k => accepts t (INR k * cell, INR j * cell)) (fun j k => value_at t (val i1) (val i2) (val i3) (INR k * cell, INR j * cell))).
      * intros k' K'. apply in_indices in K' as (_ & K'). now apply range_below in K'.
      * intros j' k' J' K' F. apply index_inj in F as (-> & _); auto. apply in_indices in K' as (_ & K'). now apply range_below in K'.
Qed.

Lemma triangle_step_outside cell nrow ncol X val g tri i : (nrow * ncol <= i)%nat -> triangle_step cell nrow ncol X val g tri i = g i.
Proof.
  intros Hi. destruct tri as ((i1, i2), i3). unfold triangle_step.
  set (t := (X i1, X i2, X i3)).
  match goal with |- context [Z.leb 0 (snd ?a) && Z.leb 0 (snd ?b)] => set (xr := a); set (yr := b) end.
  destruct (Z.leb 0 (snd xr) && Z.leb 0 (snd yr)); [|reflexivity].
  apply (rows_other ncol (fun j k => accepts t (INR k * cell, INR j * cell)) (fun j k => value_at t (val i1) (val i2) (val i3) (INR k * cell, INR j * cell))).
  - intros k' K'. apply in_indices in K' as (_ & K'). now apply range_below in K'.
  - intros j' k' J' K'. apply in_indices in K' as (_ & K'). apply range_below in K'. apply in_indices in J' as (_ & J'). apply range_below in J'. nia.
Qed.

(** The grid holds the value from the last triangle that accepts the point. *)
Definition last_value (X : nat -> point) (val : nat -> R) (volumes : list (nat * nat * nat)) (nodata : R) (p : point) : R :=
  fold_left (fun acc tri => if accepts (tri_of X tri) p then interpolated X val tri p else acc) volumes nodata.

Lemma calc_in nrow ncol cell nodata X volumes val grid0 j k : 0 < cell -> (j < nrow)%nat -> (k < ncol)%nat ->
  calc_grid_values nrow ncol cell nodata X volumes val grid0 (j * ncol + k)%nat = last_value X val volumes nodata (INR k * cell, INR j * cell).
Proof.
  intros Hc Hj Hk. unfold calc_grid_values, last_value.
  set (g := fun i => if (i <? nrow * ncol)%nat then nodata else grid0 i).
  assert (E : g (j * ncol + k)%nat = nodata). { unfold g. rewrite (proj2 (Nat.ltb_lt _ _)); [reflexivity|nia]. }
  rewrite <- E. clearbody g. clear E. revert g. induction volumes as [|tri vs IH]; intros g; [reflexivity|]. cbn [fold_left].
  rewrite IH. now rewrite triangle_step_in by assumption.
Qed.

Lemma calc_outside nrow ncol cell nodata X volumes val grid0 i : (nrow * ncol <= i)%nat ->
  calc_grid_values nrow ncol cell nodata X volumes val grid0 i = grid0 i.
Proof.
  intros Hi. unfold calc_grid_values.
  set (g := fun i => if (i <? nrow * ncol)%nat then nodata else grid0 i).
  assert (E : g i = grid0 i). { unfold g. now rewrite (proj2 (Nat.ltb_ge _ _)) by lia. }
  rewrite <- E. clearbody g. clear E. revert g. induction volumes as [|tri vs IH]; intros g; [reflexivity|]. cbn [fold_left].
  rewrite IH. now apply triangle_step_outside.
Qed.

Lemma last_value_cases X val volumes nodata p :
  (last_value X val volumes nodata p = nodata /\ forall tri, In tri volumes -> accepts (tri_of X tri) p = false) \/
  exists tri, In tri volumes /\ accepts (tri_of X tri) p = true /\ last_value X val volumes nodata p = interpolated X val tri p.
Proof.
  unfold last_value. induction volumes as [|tri vs IH] using rev_ind; [left; split; [reflexivity|intros ? []]|].
  rewrite fold_left_app. cbn [fold_left]. destruct (accepts (tri_of X tri) p) eqn:E.
  - right. exists tri. split; [apply in_or_app; right; now left|auto].
  - destruct IH as [(IH & N)|(t & I & A & V)].
    + left. split; [exact IH|]. intros t T. apply in_app_or in T as [T|[<-|[]]]; auto.
    + right. exists t. split; [apply in_or_app; now left|auto].
Qed.

(** ** Shifting the origin *)

Definition shifted (d p : point) : point := (px p - px d, py p - py d).
Definition shifted_tri (d : point) (t : triangle) : triangle := let '(a, b, c) := t in (shifted d a, shifted d b, shifted d c).

Lemma shift_convex s d p t : convex_combination s (shifted d p) (shifted_tri d t) -> convex_combination s p t.
Proof.
  destruct t as ((a, b), c). intros (l & m & n & H & S & E1 & E2). exists l, m, n. split; [exact H|]. split; [exact S|].
  cbn [shifted px py fst snd] in E1, E2. replace n with (1 - l - m) in * by lra. lra.
Qed.
Lemma shift_convex_back s d p t : convex_combination s p t -> convex_combination s (shifted d p) (shifted_tri d t).
Proof.
  destruct t as ((a, b), c). intros (l & m & n & H & S & E1 & E2). exists l, m, n. split; [exact H|]. split; [exact S|].
  cbn [shifted px py fst snd]. replace n with (1 - l - m) in * by lra. lra.
Qed.
Lemma shift_cross d t : tri_cross (shifted_tri d t) = tri_cross t.
Proof. destruct t as ((a, b), c). unfold tri_cross, shifted_tri, shifted. cbn [px py fst snd]. ring. Qed.
Lemma shift_barycentric d t p s1 s2 s3 : barycentric (shifted_tri d t) (shifted d p) s1 s2 s3 -> barycentric t p s1 s2 s3.
Proof.
  destruct t as ((a, b), c). unfold barycentric. cbn [shifted_tri shifted px py fst snd]. intros (S & E1 & E2).
  replace s3 with (1 - s1 - s2) in * by lra. lra.
Qed.
Lemma shift_gap d p q : gap (shifted d p) (shifted d q) = gap p q.
Proof. unfold gap, shifted. cbn [px py fst snd]. f_equal. ring. Qed.
Lemma shift_near d p t : near (shifted d p) (shifted_tri d t) -> near p t.
Proof.
  intros (q & C & H). set (q' := (px q + px d, py q + py d)).
  assert (Eq : q = shifted d q'). { unfold q', shifted. destruct q as (a, b). cbn [px py fst snd]. f_equal; ring. }
  clearbody q'. exists q'. rewrite Eq in C, H. split; [now apply shift_convex in C|].
  destruct H as [H|(e & He & H)].
  - left. unfold shifted in H. injection H as H1 H2. destruct p as (p1, p2), q' as (q1, q2). cbn [px py fst snd] in *. f_equal; lra.
  - right. rewrite shift_gap in H. destruct t as ((a, b), c). destruct He as [<-|[<-|[<-|[]]]]; cbn [fst snd] in H; rewrite shift_gap in H.
    + exists (a, b). cbn; auto.
    + exists (b, c). cbn; auto.
    + exists (c, a). cbn; auto.
Qed.
