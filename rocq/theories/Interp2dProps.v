(** C25: what interpolate2d returns. *)
From Coq Require Import Reals List Arith Bool Lra Lia Psatz ZArith.
From Coq Require Import Floats.SpecFloat.
From Verif Require Import RealLib Interp2dModel.
Import ListNotations.
Local Open Scope R_scope.

(** Weakly and strictly increasing axes with at least two different values. *)
Definition increasing (x : list R) : Prop :=
  forall i j, (i <= j < length x)%nat -> at_ x i <= at_ x j.
Definition strictly_increasing (x : list R) : Prop :=
  forall i j, (i < j < length x)%nat -> at_ x i < at_ x j.
Definition good_axis (x : list R) : Prop :=
  (1 < length x)%nat /\ increasing x /\ at_ x 0 < last_ x.

Lemma strictly_increasing_good x :
  (1 < length x)%nat -> strictly_increasing x -> good_axis x.
Proof.
  intros L H. refine (conj L (conj _ _)).
  - intros i j Hij. destruct (Nat.eq_dec i j) as [->|]; [lra|].
    apply Rlt_le, H. lia.
  - apply H. lia.
Qed.

Lemma searchsorted_le x v : (searchsorted x v <= length x)%nat.
Proof. induction x; simpl; [lia|]. destruct Rltb; simpl; lia. Qed.
Lemma searchsorted_below x v : forall i, (i < searchsorted x v)%nat -> at_ x i < v.
Proof.
  induction x as [|y x IH]; simpl; [lia|]. intros i H.
  destruct (Rltb_spec y v); [|lia]. destruct i; [exact r|]. apply IH. lia.
Qed.
Lemma searchsorted_at x v : (searchsorted x v < length x)%nat -> v <= at_ x (searchsorted x v).
Proof.
  induction x as [|y x IH]; simpl; [lia|]. intros H.
  destruct (Rltb_spec y v); [apply IH; lia|change (v <= y); lra].
Qed.
Lemma searchsorted_lt x v : v <= last_ x -> (0 < length x)%nat ->
  (searchsorted x v < length x)%nat.
Proof.
  intros H L. pose proof (searchsorted_le x v).
  destruct (Nat.eq_dec (searchsorted x v) (length x)) as [E|]; [|lia].
  pose proof (searchsorted_below x v (length x - 1)). rewrite E in H1.
  specialize (H1 ltac:(lia)). unfold last_ in H. lra.
Qed.

(** The interpolation weight used on one axis and the cell it belongs to. *)
Lemma axis_weight x v : good_axis x -> at_ x 0 <= v <= last_ x ->
  let idx := searchsorted x v in
  let i0 := before (length x) idx in
  exists al, fdiv (Some (v - at_ x i0)) (Some (at_ x idx - at_ x i0)) = Some al /\
  (idx < length x)%nat /\
  exists i a, (S i < length x)%nat /\ 0 <= a <= 1 /\ at_ x i <= v <= at_ x (S i) /\
    v - at_ x i = a * (at_ x (S i) - at_ x i) /\
    ((i = i0 /\ S i = idx /\ al = a) \/ (i = idx /\ a = 0 /\ al = 1)).
Proof.
  intros (L & inc & ends) H idx i0.
  assert (Hi : (idx < length x)%nat) by (apply searchsorted_lt; [lra|lia]).
  pose proof (searchsorted_at x v Hi) as Hat. fold idx in Hat.
  pose proof (searchsorted_below x v) as Hb. fold idx in Hb.
  destruct idx as [|k] eqn:E; unfold i0, before.
  - assert (v = at_ x 0) by lra. subst v.
    exists 1. fold (last_ x). split; [|split; [exact Hi|]].
    + unfold fdiv. destruct (Reqb_spec (at_ x 0 - last_ x) 0); [lra|]. f_equal. field. lra.
    + exists 0%nat, 0. pose proof (inc 0%nat 1%nat ltac:(lia)).
      split; [lia|]. split; [lra|]. split; [lra|]. split; [lra|]. right. auto.
  - pose proof (Hb k ltac:(lia)) as Hk.
    assert (D : 0 < at_ x (S k) - at_ x k) by lra.
    exists ((v - at_ x k) / (at_ x (S k) - at_ x k)). split; [|split; [exact Hi|]].
    + unfold fdiv. destruct (Reqb_spec (at_ x (S k) - at_ x k) 0); [lra|reflexivity].
    + exists k, ((v - at_ x k) / (at_ x (S k) - at_ x k)).
      split; [exact Hi|]. split; [|split; [lra|split; [field; lra|left; auto]]].
      split; [apply Rmult_le_pos; [lra|apply Rlt_le, Rinv_0_lt_compat, D]|].
      apply Rmult_le_reg_r with (1 := D).
      unfold Rdiv. rewrite Rmult_assoc, Rinv_l by lra. lra.
Qed.

(** What "between the extremes of the four surrounding values" means. *)
Definition min4 a b c d := Rmin (Rmin a b) (Rmin c d).
Definition max4 a b c d := Rmax (Rmax a b) (Rmax c d).

Lemma convex4 a b p q r s : 0 <= a <= 1 -> 0 <= b <= 1 ->
  min4 p q r s <= (1-a)*(1-b)*p + (1-a)*b*q + a*(1-b)*r + a*b*s <= max4 p q r s.
Proof.
  intros Ha Hb.
  assert (forall m, m <= p -> m <= q -> m <= r -> m <= s ->
    m <= (1-a)*(1-b)*p + (1-a)*b*q + a*(1-b)*r + a*b*s) as Lo.
  { intros m H1 H2 H3 H4.
    assert (0 <= (1-a)*(1-b)) by (apply Rmult_le_pos; lra).
    assert (0 <= (1-a)*b) by (apply Rmult_le_pos; lra).
    assert (0 <= a*(1-b)) by (apply Rmult_le_pos; lra).
    assert (0 <= a*b) by (apply Rmult_le_pos; lra).
    pose proof (Rmult_le_compat_l _ _ _ H H1). pose proof (Rmult_le_compat_l _ _ _ H0 H2).
    pose proof (Rmult_le_compat_l _ _ _ H5 H3). pose proof (Rmult_le_compat_l _ _ _ H6 H4). lra. }
  assert (forall m, p <= m -> q <= m -> r <= m -> s <= m ->
    (1-a)*(1-b)*p + (1-a)*b*q + a*(1-b)*r + a*b*s <= m) as Hi.
  { intros m H1 H2 H3 H4.
    assert (0 <= (1-a)*(1-b)) by (apply Rmult_le_pos; lra).
    assert (0 <= (1-a)*b) by (apply Rmult_le_pos; lra).
    assert (0 <= a*(1-b)) by (apply Rmult_le_pos; lra).
    assert (0 <= a*b) by (apply Rmult_le_pos; lra).
    pose proof (Rmult_le_compat_l _ _ _ H H1). pose proof (Rmult_le_compat_l _ _ _ H0 H2).
    pose proof (Rmult_le_compat_l _ _ _ H5 H3). pose proof (Rmult_le_compat_l _ _ _ H6 H4). lra. }
  unfold min4, max4. split; [apply Lo|apply Hi];
  unfold Rmin, Rmax; repeat destruct Rle_dec; lra.
Qed.

(** Bilinear interpolation of real grid values is the tensor product of the
    one-dimensional interpolation in the cell containing the point. *)
Lemma value_linear x y (z : nat -> nat -> R) u v :
  good_axis x -> good_axis y -> at_ x 0 <= u <= last_ x -> at_ y 0 <= v <= last_ y ->
  exists i j a b, (S i < length x)%nat /\ (S j < length y)%nat /\
    0 <= a <= 1 /\ 0 <= b <= 1 /\
    at_ x i <= u <= at_ x (S i) /\ at_ y j <= v <= at_ y (S j) /\
    u - at_ x i = a * (at_ x (S i) - at_ x i) /\
    v - at_ y j = b * (at_ y (S j) - at_ y j) /\
    value Linear x y (fun i j => Some (z i j)) u v =
      Some ((1-a)*(1-b)*z i j + (1-a)*b*z i (S j) + a*(1-b)*z (S i) j + a*b*z (S i) (S j)).
Proof.
  intros Gx Gy Hu Hv.
  destruct (axis_weight x u Gx Hu) as (al & Eal & Lx & i & a & Hi & Ha & Cx & Wx & Kx).
  destruct (axis_weight y v Gy Hv) as (be & Ebe & Ly & j & b & Hj & Hb & Cy & Wy & Ky).
  exists i, j, a, b. do 8 (split; [assumption|]).
  unfold value. rewrite Eal, Ebe. unfold bilinear, fadd, fsub, fmul, lift2. f_equal.
  destruct Kx as [(Ex0 & Ex1 & ->)|(Ex1 & -> & ->)], Ky as [(Ey0 & Ey1 & ->)|(Ey1 & -> & ->)];
  rewrite <- ?Ex0, <- ?Ey0, <- ?Ex1, <- ?Ey1; ring.
Qed.

Theorem C25_bounds x y (z : nat -> nat -> R) u v :
  good_axis x -> good_axis y -> at_ x 0 <= u <= last_ x -> at_ y 0 <= v <= last_ y ->
  exists r i j, value Linear x y (fun i j => Some (z i j)) u v = Some r /\
    (S i < length x)%nat /\ (S j < length y)%nat /\
    at_ x i <= u <= at_ x (S i) /\ at_ y j <= v <= at_ y (S j) /\
    min4 (z i j) (z i (S j)) (z (S i) j) (z (S i) (S j)) <= r <=
    max4 (z i j) (z i (S j)) (z (S i) j) (z (S i) (S j)).
Proof.
  intros Gx Gy Hu Hv.
  destruct (value_linear x y z u v Gx Gy Hu Hv) as (i & j & a & b & Hi & Hj & Ha & Hb & Cx & Cy & _ & _ & E).
  eexists _, i, j. split; [exact E|]. do 4 (split; [assumption|]). apply convex4; assumption.
Qed.
Print Assumptions C25_bounds.

(** Bilinear data are reproduced exactly. *)
Theorem C25_bilinear_exact x y c0 c1 c2 c3 u v :
  good_axis x -> good_axis y -> at_ x 0 <= u <= last_ x -> at_ y 0 <= v <= last_ y ->
  value Linear x y (fun i j => Some (c0 + c1 * at_ x i + c2 * at_ y j + c3 * at_ x i * at_ y j)) u v
  = Some (c0 + c1 * u + c2 * v + c3 * u * v).
Proof.
  intros Gx Gy Hu Hv.
  destruct (value_linear x y (fun i j => c0 + c1 * at_ x i + c2 * at_ y j + c3 * at_ x i * at_ y j)
              u v Gx Gy Hu Hv) as (i & j & a & b & Hi & Hj & Ha & Hb & Cx & Cy & Wx & Wy & E).
  rewrite E. f_equal.
  replace u with (at_ x i + a * (at_ x (S i) - at_ x i)) by lra.
  replace v with (at_ y j + b * (at_ y (S j) - at_ y j)) by lra.
  ring.
Qed.
Print Assumptions C25_bilinear_exact.

Lemma searchsorted_node x : strictly_increasing x -> forall k, (k < length x)%nat ->
  searchsorted x (at_ x k) = k.
Proof.
  intros H k Hk.
  assert (L : at_ x k <= last_ x).
  { unfold last_. destruct (Nat.eq_dec k (length x - 1)) as [->|]; [lra|]. apply Rlt_le, H. lia. }
  pose proof (searchsorted_lt x (at_ x k) L ltac:(lia)) as A.
  pose proof (searchsorted_at _ _ A) as B.
  destruct (Nat.lt_trichotomy (searchsorted x (at_ x k)) k) as [C|[C|C]]; [|exact C|].
  - pose proof (H (searchsorted x (at_ x k)) k ltac:(lia)). lra.
  - pose proof (searchsorted_below x _ _ C). lra.
Qed.

(** Grid values, in both modes, at the grid nodes. *)
Theorem C25_nodes m x y (z : nat -> nat -> R) i j :
  (1 < length x)%nat -> (1 < length y)%nat -> strictly_increasing x -> strictly_increasing y ->
  (i < length x)%nat -> (j < length y)%nat ->
  value m x y (fun i j => Some (z i j)) (at_ x i) (at_ y j) = Some (z i j).
Proof.
  intros Lx Ly Ix Iy Hi Hj.
  assert (N : forall x i, (1 < length x)%nat -> strictly_increasing x -> (i < length x)%nat ->
    fdiv (Some (at_ x i - at_ x (before (length x) i))) (Some (at_ x i - at_ x (before (length x) i)))
    = Some 1).
  { clear. intros x i L I Hi. unfold fdiv.
    assert (at_ x i <> at_ x (before (length x) i)).
    { destruct i; simpl; [pose proof (I 0%nat (length x - 1)%nat ltac:(lia))|
        pose proof (I i (S i) ltac:(lia))]; lra. }
    match goal with |- context [Reqb ?p ?q] => destruct (Reqb_spec p q) end; [lra|]. f_equal. field. lra. }
  unfold value. rewrite !searchsorted_node, !N by assumption.
  destruct m; simpl; [unfold bilinear; cbn; f_equal; ring|].
  rewrite (proj2 (Rltb_false 1 (1/2))) by lra. reflexivity.
Qed.
Print Assumptions C25_nodes.

(** Piecewise constant interpolation returns the value at a corner of the
    containing cell that is nearest in both coordinates. *)
Theorem C25_constant x y (Z : nat -> nat -> flt) u v :
  good_axis x -> good_axis y -> at_ x 0 <= u <= last_ x -> at_ y 0 <= v <= last_ y ->
  exists i j i' j', (S i < length x)%nat /\ (S j < length y)%nat /\
    at_ x i <= u <= at_ x (S i) /\ at_ y j <= v <= at_ y (S j) /\
    (i' = i \/ i' = S i) /\ (j' = j \/ j' = S j) /\
    (forall k, k = i \/ k = S i -> Rabs (u - at_ x i') <= Rabs (u - at_ x k)) /\
    (forall k, k = j \/ k = S j -> Rabs (v - at_ y j') <= Rabs (v - at_ y k)) /\
    value Constant x y Z u v = Z i' j'.
Proof.
  intros Gx Gy Hu Hv.
  destruct (axis_weight x u Gx Hu) as (al & Eal & Lx & i & a & Hi & Ha & Cx & Wx & Kx).
  destruct (axis_weight y v Gy Hv) as (be & Ebe & Ly & j & b & Hj & Hb & Cy & Wy & Ky).
  assert (P : forall x u i a al, (S i < length x)%nat -> 0 <= a <= 1 -> at_ x i <= u <= at_ x (S i) ->
     u - at_ x i = a * (at_ x (S i) - at_ x i) ->
     ((i = before (length x) (searchsorted x u) /\ S i = searchsorted x u /\ al = a) \/
      (i = searchsorted x u /\ a = 0 /\ al = 1)) ->
     exists i', (i' = i \/ i' = S i) /\
       (forall k, k = i \/ k = S i -> Rabs (u - at_ x i') <= Rabs (u - at_ x k)) /\
       i' = if Rltb al (1/2) then before (length x) (searchsorted x u) else searchsorted x u).
  { clear. intros x u i a al Hi Ha C W K.
    destruct K as [(E0 & E1 & ->)|(E1 & -> & ->)].
    - rewrite <- E0, <- E1. destruct (Rltb_spec a (1/2)).
      + exists i. split; [auto|split; [|reflexivity]]. intros k [->| ->]; [lra|].
        rewrite Rabs_right by lra. rewrite Rabs_left1 by lra. nra.
      + exists (S i). split; [auto|split; [|reflexivity]]. intros k [->| ->]; [|lra].
        rewrite Rabs_left1 by lra. rewrite Rabs_right by lra. nra.
    - rewrite (proj2 (Rltb_false 1 (1/2))) by lra. exists i. split; [auto|split; [|exact E1]].
      intros k _. replace (u - at_ x i) with 0 by lra. rewrite Rabs_R0. apply Rabs_pos. }
  destruct (P x u i a al Hi Ha Cx Wx Kx) as (i' & A1 & A2 & A3).
  destruct (P y v j b be Hj Hb Cy Wy Ky) as (j' & B1 & B2 & B3).
  exists i, j, i', j'. do 8 (split; [assumption|]).
  unfold value. rewrite Eal, Ebe. unfold flt_ltb. subst i' j'.
  destruct (Rltb al (1/2)), (Rltb be (1/2)); reflexivity.
Qed.
Print Assumptions C25_constant.

(** The whole routine: accepted inputs, NaN exactly outside the grid, the
    value above inside, one result per point. *)
Lemma good_axis_ok x : good_axis x -> axis_ok x = true.
Proof.
  intros (L & inc & _). unfold axis_ok.
  assert (A : Nat.eqb (length x) 0 = false) by (apply Nat.eqb_neq; lia). rewrite A. simpl.
  assert (N : forall v, In v x -> exists k, (k < length x)%nat /\ at_ x k = v).
  { intros v Hv. destruct (In_nth x v 0 Hv) as (k & K1 & K2). exists k. auto. }
  apply andb_true_iff. split; apply forallb_forall; intros v Hv;
  destruct (N v Hv) as (k & K1 & <-); apply Rleb_true; apply inc; lia.
Qed.

Theorem C25_interpolate2d m x y z points :
  good_axis x -> good_axis y ->
  exists r, interpolate2d m false x y (length x, length y) z points = Some r /\
    length r = length points /\
    forall k p, nth_error points k = Some p ->
      match p with
      | (Some u, Some v) =>
          (at_ x 0 <= u <= last_ x /\ at_ y 0 <= v <= last_ y ->
             nth_error r k = Some (value m x y z u v)) /\
          (~ (at_ x 0 <= u <= last_ x /\ at_ y 0 <= v <= last_ y) -> nth_error r k = Some None)
      | _ => nth_error r k = Some None
      end.
Proof.
  intros Gx Gy. unfold interpolate2d.
  rewrite (good_axis_ok x Gx), (good_axis_ok y Gy). cbn [negb andb fst snd].
  rewrite !Nat.eqb_refl. cbn [negb andb].
  eexists. split; [reflexivity|]. split; [apply map_length|].
  intros k p Hk. rewrite (map_nth_error _ _ _ Hk).
  destruct p as [[u|] [v|]]; try reflexivity.
  unfold outside. split; intros H.
  - rewrite !(proj2 (Rltb_false _ _)) by lra. reflexivity.
  - destruct (Rltb_spec u (at_ x 0)); [reflexivity|].
    destruct (Rltb_spec v (at_ y 0)); [reflexivity|].
    destruct (Rltb_spec (last_ x) u); [reflexivity|].
    destruct (Rltb_spec (last_ y) v); [reflexivity|]. exfalso. apply H. lra.
Qed.
Print Assumptions C25_interpolate2d.

(** [bounds_error]: raises exactly when some known coordinate is outside the
    grid (or no point is given). *)
Theorem C25_bounds_error m x y z points :
  good_axis x -> good_axis y ->
  (interpolate2d m true x y (length x, length y) z points = None <->
   points = [] \/
   exists p, In p points /\
     ((exists u, fst p = Some u /\ ~ (at_ x 0 <= u <= last_ x)) \/
      (exists v, snd p = Some v /\ ~ (at_ y 0 <= v <= last_ y)))).
Proof.
  intros Gx Gy. unfold interpolate2d.
  rewrite (good_axis_ok x Gx), (good_axis_ok y Gy). cbn [negb andb fst snd].
  rewrite !Nat.eqb_refl. cbn [negb andb].
  assert (B : forall a c, match c with Some v => Rltb v (at_ a 0) || Rltb (last_ a) v | None => false end = true
     <-> exists v, c = Some v /\ ~ (at_ a 0 <= v <= last_ a)).
  { intros a [c|]; [|split; [discriminate|intros (? & ? & _); discriminate]].
    rewrite orb_true_iff, !Rltb_true. split.
    - intros H. exists c. split; [reflexivity|lra].
    - intros (v & [= <-] & H). destruct (Rlt_le_dec c (at_ a 0)); [auto|]. right. lra. }
  unfold out_of_bounds. split.
  - destruct (Nat.eqb (length points) 0) eqn:E0.
    { intros _. left. apply Nat.eqb_eq in E0. destruct points; [reflexivity|discriminate]. }
    cbn [orb]. destruct existsb eqn:E; [|discriminate]. intros _. right.
    apply existsb_exists in E. destruct E as (p & Hp & E). exists p. split; [exact Hp|].
    apply orb_true_iff in E. destruct E as [E|E]; apply B in E; auto.
  - intros [->|(p & Hp & H)]; [reflexivity|].
    assert (E : existsb (fun p => match fst p with Some v => Rltb v (at_ x 0) || Rltb (last_ x) v | None => false end
       || match snd p with Some v => Rltb v (at_ y 0) || Rltb (last_ y) v | None => false end) points = true).
    { apply existsb_exists. exists p. split; [exact Hp|]. apply orb_true_iff.
      destruct H as [H|H]; [left|right]; apply B, H. }
    rewrite E. rewrite orb_true_r. reflexivity.
Qed.
Print Assumptions C25_bounds_error.

(** The raster variant: rows from north to south, columns from west to east. *)
Theorem C25_raster m x y (z : nat -> nat -> R) i j :
  (1 < length x)%nat -> (1 < length y)%nat -> strictly_increasing x -> strictly_increasing y ->
  (i < length x)%nat -> (j < length y)%nat ->
  interpolate_raster m false x y (length y, length x) (fun r c => Some (z r c))
    [(Some (at_ x i), Some (at_ y j))] = Some [Some (z (length y - 1 - j)%nat i)].
Proof.
  intros Lx Ly Ix Iy Hi Hj.
  pose proof (strictly_increasing_good x Lx Ix) as Gx.
  pose proof (strictly_increasing_good y Ly Iy) as Gy.
  unfold interpolate_raster. cbn [fst snd].
  destruct (C25_interpolate2d m x y (fun i j => Some (z (length y - 1 - j)%nat i))
     [(Some (at_ x i), Some (at_ y j))] Gx Gy) as (r & -> & L & H).
  destruct r as [|r [|]]; try discriminate L. do 2 f_equal.
  destruct (H 0%nat _ eq_refl) as (A & _).
  assert (E : nth_error [r] 0 = Some (value m x y (fun i j => Some (z (length y - 1 - j)%nat i))
      (at_ x i) (at_ y j))).
  { apply A. destruct Gx as (_ & ? & _), Gy as (_ & ? & _).
    split; split; match goal with H : increasing ?a |- _ => apply H; lia end. }
  simpl in E. injection E as ->.
  apply (C25_nodes m x y (fun i j => z (length y - 1 - j)%nat i)); assumption.
Qed.
Print Assumptions C25_raster.

(** With an axis of one point even the grid node gives NaN. *)
Theorem C25_single_point_axis_refuted c z :
  interpolate2d Linear false [c] [0; 1] (1, 2)%nat (fun _ _ => Some z) [(Some c, Some 0)]
  = Some [None].
Proof.
  unfold interpolate2d, axis_ok, at_, last_. cbn.
  unfold at_; cbn. rdecide. cbn [negb andb].
  unfold outside, last_, at_; cbn. rdecide. cbn [orb].
  unfold value. cbn. rdecide. cbn. unfold at_; cbn. rdecide. reflexivity.
Qed.
Print Assumptions C25_single_point_axis_refuted.

(** A missing value on the eastern edge spoils points on the western edge,
    because position -1 is the last one. *)
Theorem C25_nan_wraps_refuted (z : R) :
  interpolate2d Linear false [0; 1; 2] [0; 1] (3, 2)%nat
    (fun i j => if Nat.eqb i 2 then None else Some z) [(Some 0, Some 1)] = Some [None].
Proof.
  unfold interpolate2d, axis_ok, at_, last_. cbn.
  unfold at_; cbn. rdecide. cbn [negb andb].
  unfold outside, last_, at_; cbn. rdecide. cbn [orb].
  unfold value. cbn. rdecide. cbn. unfold at_; cbn. rdecide. reflexivity.
Qed.
Print Assumptions C25_nan_wraps_refuted.

(** In binary64 arithmetic equation (5) leaves the range of the data: with
    corner values 1e20, 1, 1, 1 the value at the last corner, of weights
    alpha = beta = 1, is 0 (bit pattern compared). *)
Definition prec := 53%Z.
Definition emax := 1024%Z.
Definition badd := SFadd prec emax.
Definition bsub := SFsub prec emax.
Definition bmul := SFmul prec emax.
Definition of_Z (n : Z) : spec_float := binary_normalize prec emax n 0 false.
Definition bone := of_Z 1.
Definition bbig := of_Z 100000000000000000000.

Theorem C25_float_overshoot_refuted :
  SFltb (bilinear badd bsub bmul bone bone bbig bone bone bone) bone = true.
Proof. vm_compute. reflexivity. Qed.
Print Assumptions C25_float_overshoot_refuted.

Example C25_example :
  exists r, interpolate2d Linear false [0; 1; 3] [0; 2] (3, 2)%nat
     (fun i j => Some (INR i + 10 * INR j)) [(Some 2, Some 1); (Some 4, Some 1); (None, Some 0)] = Some r /\
  r = [Some (13/2); None; None].
Proof.
  eexists. split.
  - unfold interpolate2d, axis_ok, at_, last_. cbn.
    unfold at_; cbn. rdecide. cbn [negb andb].
    unfold outside, last_, at_; cbn. rdecide. cbn [orb].
    unfold value. cbn. rdecide. cbn. unfold at_; cbn. rdecide. reflexivity.
  - unfold bilinear; cbn. do 2 f_equal. field.
Qed.
