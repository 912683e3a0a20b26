(** Lemmas for [QuantityLimiterProps]. *)
From Coq Require Import Reals List ZArith Arith Bool Lia Lra Psatz.
From Verif Require Import RealLib ArrayLib CentroidModel GradientModel QuantityLimiterModel.
Import ListNotations.
Local Open Scope R_scope.

Lemma write3_same f k a b c : write3 f k a b c (3 * k)%nat = a /\
  write3 f k a b c (3 * k + 1)%nat = b /\ write3 f k a b c (3 * k + 2)%nat = c.
Proof.
  unfold write3. repeat split.
  - now rewrite !upd_other, upd_same by lia.
  - now rewrite upd_other, upd_same by lia.
  - now rewrite upd_same.
Qed.

Lemma write3_other f k a b c j : (j < 3 * k \/ 3 * k + 2 < j)%nat -> write3 f k a b c j = f j.
Proof. intros. unfold write3. now rewrite !upd_other by lia. Qed.

Lemma read_write_same st k c : read_cell (write_cell st k c) k = c.
Proof.
  unfold read_cell, write_cell. cbn.
  replace (k + (k + (k + 0)))%nat with (3 * k)%nat by lia.
  destruct (write3_same (vertex_values st) k (c_v0 c) (c_v1 c) (c_v2 c)) as (-> & -> & ->).
  destruct (write3_same (edge_values st) k (c_e0 c) (c_e1 c) (c_e2 c)) as (-> & -> & ->).
  rewrite !upd_same. now destruct c.
Qed.

Lemma read_write_other st k c j : j <> k -> read_cell (write_cell st k c) j = read_cell st j.
Proof.
  intros H. unfold read_cell, write_cell. cbn [vertex_values edge_values x_gradient y_gradient].
  rewrite !write3_other by lia. now rewrite !upd_other by assumption.
Qed.

Lemma cell_fold_spec body : forall ks st, NoDup ks -> forall k,
  read_cell (fold_left (fun st k => write_cell st k (body k (read_cell st k))) ks st) k =
  if in_dec Nat.eq_dec k ks then body k (read_cell st k) else read_cell st k.
Proof.
  induction ks as [| a ks IH]; intros st ND k; cbn [fold_left].
  - now destruct (in_dec _ _ _).
  - inversion ND; subst. rewrite IH by assumption.
    destruct (in_dec Nat.eq_dec k ks) as [i | n], (in_dec Nat.eq_dec k (a :: ks)) as [i' | n'].
    + rewrite read_write_other; [reflexivity | intros ->; contradiction].
    + exfalso. apply n'. now right.
    + destruct i' as [-> | i']; [now rewrite read_write_same | contradiction].
    + apply read_write_other. intros ->. apply n'. now left.
Qed.

Lemma cell_loop_read N body st k : (k < N)%nat ->
  read_cell (cell_loop N body st) k = body k (read_cell st k).
Proof.
  intros H. unfold cell_loop. rewrite cell_fold_spec by apply seq_NoDup.
  destruct (in_dec _ _ _) as [i | n]; [reflexivity |]. exfalso. apply n. apply in_seq. lia.
Qed.

Lemma cell_loop_other N body st k : (N <= k)%nat ->
  read_cell (cell_loop N body st) k = read_cell st k.
Proof.
  intros H. unfold cell_loop. rewrite cell_fold_spec by apply seq_NoDup.
  destruct (in_dec _ _ _) as [i | n]; [| reflexivity]. apply in_seq in i. lia.
Qed.

Section Phi.
Variables beta qmin qmax qc : R.
Hypothesis Hb : 0 <= beta.
Hypothesis Hmin : qmin <= qc.
Hypothesis Hmax : qc <= qmax.

Lemma ratio_nonneg dq : 0 <= ratio qmin qmax qc dq.
Proof.
  unfold ratio. cbn zeta. destruct (Rltb_spec dq 0).
  - replace ((qmin - qc) / dq) with ((qc - qmin) * / (- dq)).
    + apply Rmult_le_pos; [lra |]. apply Rlt_le, Rinv_0_lt_compat. lra.
    + field. lra.
  - destruct (Rltb_spec 0 dq); [| lra].
    apply Rmult_le_pos; [lra |]. now apply Rlt_le, Rinv_0_lt_compat.
Qed.

Lemma limit_phi_nonneg dq phi : 0 <= phi -> 0 <= limit_phi beta qmin qmax qc dq phi.
Proof.
  intros. unfold limit_phi. repeat apply Rmin_glb; try lra.
  apply Rmult_le_pos; [apply ratio_nonneg | assumption].
Qed.
Lemma limit_phi_le dq phi : limit_phi beta qmin qmax qc dq phi <= phi.
Proof. apply Rmin_r. Qed.

Lemma phi_bounds_delta dq phi : 0 <= phi -> phi <= limit_phi beta qmin qmax qc dq 1 ->
  beta * (qmin - qc) <= phi * dq <= beta * (qmax - qc).
Proof.
  intros Hp Hl. assert (Hr : phi <= ratio qmin qmax qc dq * beta).
  { eapply Rle_trans; [exact Hl |]. unfold limit_phi.
    eapply Rle_trans; [apply Rmin_l | apply Rmin_l]. }
  clear Hl. unfold ratio in Hr. cbn zeta in Hr.
  destruct (Rltb_spec dq 0) as [Hd | Hd].
  - assert (E : (qmin - qc) / dq * beta * dq = beta * (qmin - qc)) by (field; lra).
    split.
    + rewrite <- E. nra.
    + nra.
  - destruct (Rltb_spec 0 dq) as [Hd' | Hd'].
    + assert (E : (qmax - qc) / dq * beta * dq = beta * (qmax - qc)) by (field; lra).
      split.
      * nra.
      * rewrite <- E. nra.
    + assert (dq = 0) as -> by lra. split; nra.
Qed.

(** A delta inside the range needs no limiting when 1 <= beta. *)
Lemma limit_phi_inside dq phi : 1 <= beta -> qmin - qc <= dq <= qmax - qc -> phi <= 1 ->
  limit_phi beta qmin qmax qc dq phi = phi.
Proof.
  intros H1 Hd Hp. unfold limit_phi. apply Rmin_right. apply Rmin_glb; [| assumption].
  assert (1 <= ratio qmin qmax qc dq).
  { unfold ratio. cbn zeta. destruct (Rltb_spec dq 0).
    - replace ((qmin - qc) / dq) with ((qc - qmin) / (- dq)) by (field; lra).
      apply Rmult_le_reg_r with (- dq); [lra |]. unfold Rdiv. rewrite Rmult_assoc, Rinv_l by lra. lra.
    - destruct (Rltb_spec 0 dq); [| lra].
      apply Rmult_le_reg_r with dq; [lra |]. unfold Rdiv. rewrite Rmult_assoc, Rinv_l by lra. lra. }
  nra.
Qed.

Lemma limit_phi_mono dq phi psi : phi <= psi ->
  limit_phi beta qmin qmax qc dq phi <= limit_phi beta qmin qmax qc dq psi.
Proof. intros. unfold limit_phi. apply Rle_min_compat_l. assumption. Qed.

Lemma limit_phi3_spec d0 d1 d2 : let phi := limit_phi3 beta qmin qmax qc d0 d1 d2 in
  0 <= phi <= 1 /\ forall d, In d [d0; d1; d2] -> beta * (qmin - qc) <= phi * d <= beta * (qmax - qc).
Proof.
  cbn zeta. unfold limit_phi3.
  set (p0 := limit_phi beta qmin qmax qc d0 1).
  set (p1 := limit_phi beta qmin qmax qc d1 p0).
  set (p2 := limit_phi beta qmin qmax qc d2 p1).
  assert (0 <= p0) by (apply limit_phi_nonneg; lra).
  assert (p0 <= 1) by apply limit_phi_le.
  assert (0 <= p1) by (apply limit_phi_nonneg; lra).
  assert (p1 <= p0) by apply limit_phi_le.
  assert (0 <= p2) by (apply limit_phi_nonneg; lra).
  assert (p2 <= p1) by apply limit_phi_le.
  split; [lra |]. intros d [<- | [<- | [<- | []]]]; apply phi_bounds_delta; try assumption.
  - fold p0. lra.
  - apply Rle_trans with p1; [assumption |]. now apply limit_phi_mono.
  - apply limit_phi_mono. lra.
Qed.

Lemma limit_phi3_inside d0 d1 d2 : 1 <= beta ->
  (forall d, In d [d0; d1; d2] -> qmin - qc <= d <= qmax - qc) ->
  limit_phi3 beta qmin qmax qc d0 d1 d2 = 1.
Proof.
  intros H1 H. unfold limit_phi3.
  rewrite (limit_phi_inside d0), (limit_phi_inside d1), (limit_phi_inside d2); try assumption; try lra;
    apply H; cbn; auto.
Qed.
End Phi.

Lemma fold_neighbour_min q acc n : fold_neighbour q Rmin acc n <= acc /\
  ((0 <= n)%Z -> fold_neighbour q Rmin acc n <= q (Z.to_nat n)) /\
  forall m, m <= acc -> ((0 <= n)%Z -> m <= q (Z.to_nat n)) -> m <= fold_neighbour q Rmin acc n.
Proof.
  unfold fold_neighbour. destruct (Z.leb_spec 0 n); repeat split; intros;
    try lia; try lra; try apply Rmin_l; try apply Rmin_r; try (apply Rmin_glb; auto).
Qed.
Lemma fold_neighbour_max q acc n : acc <= fold_neighbour q Rmax acc n /\
  ((0 <= n)%Z -> q (Z.to_nat n) <= fold_neighbour q Rmax acc n) /\
  forall m, acc <= m -> ((0 <= n)%Z -> q (Z.to_nat n) <= m) -> fold_neighbour q Rmax acc n <= m.
Proof.
  unfold fold_neighbour. destruct (Z.leb_spec 0 n); repeat split; intros;
    try lia; try lra; try apply Rmax_l; try apply Rmax_r; try (apply Rmax_lub; auto).
Qed.

(** [m] is below the centroid value of triangle [k] and of its neighbours. *)
Definition below (q : nat -> R) (nb : nat -> Z) (k : nat) (m : R) : Prop :=
  m <= q k /\ forall i, (i < 3)%nat -> (0 <= nb (3 * k + i)%nat)%Z -> m <= q (Z.to_nat (nb (3 * k + i)%nat)).
Definition above (q : nat -> R) (nb : nat -> Z) (k : nat) (m : R) : Prop :=
  q k <= m /\ forall i, (i < 3)%nat -> (0 <= nb (3 * k + i)%nat)%Z -> q (Z.to_nat (nb (3 * k + i)%nat)) <= m.

Lemma nb_min_spec q nb k : nb_min q nb k <= q k /\ forall m, below q nb k m -> m <= nb_min q nb k.
Proof.
  unfold nb_min, nb_fold.
  destruct (fold_neighbour_min q (q k) (nb (3 * k)%nat)) as (A1 & _ & A3).
  destruct (fold_neighbour_min q (fold_neighbour q Rmin (q k) (nb (3 * k)%nat)) (nb (3 * k + 1)%nat)) as (B1 & _ & B3).
  destruct (fold_neighbour_min q (fold_neighbour q Rmin (fold_neighbour q Rmin (q k) (nb (3 * k)%nat)) (nb (3 * k + 1)%nat)) (nb (3 * k + 2)%nat)) as (C1 & _ & C3).
  split; [lra |]. intros m [Hc H]. apply C3; [apply B3; [apply A3; [assumption |] |] |].
  - intros. specialize (H 0%nat). rewrite Nat.add_0_r in H. apply H; [lia | assumption].
  - intros. apply H; [lia | assumption].
  - intros. apply H; [lia | assumption].
Qed.
Lemma nb_max_spec q nb k : q k <= nb_max q nb k /\ forall m, above q nb k m -> nb_max q nb k <= m.
Proof.
  unfold nb_max, nb_fold.
  destruct (fold_neighbour_max q (q k) (nb (3 * k)%nat)) as (A1 & _ & A3).
  destruct (fold_neighbour_max q (fold_neighbour q Rmax (q k) (nb (3 * k)%nat)) (nb (3 * k + 1)%nat)) as (B1 & _ & B3).
  destruct (fold_neighbour_max q (fold_neighbour q Rmax (fold_neighbour q Rmax (q k) (nb (3 * k)%nat)) (nb (3 * k + 1)%nat)) (nb (3 * k + 2)%nat)) as (C1 & _ & C3).
  split; [lra |]. intros m [Hc H]. apply C3; [apply B3; [apply A3; [assumption |] |] |].
  - intros. specialize (H 0%nat). rewrite Nat.add_0_r in H. apply H; [lia | assumption].
  - intros. apply H; [lia | assumption].
  - intros. apply H; [lia | assumption].
Qed.
Lemma nb_min_attained q nb k : below q nb k (nb_min q nb k).
Proof.
  unfold nb_min, nb_fold, below.
  destruct (fold_neighbour_min q (q k) (nb (3 * k)%nat)) as (A1 & A2 & _).
  destruct (fold_neighbour_min q (fold_neighbour q Rmin (q k) (nb (3 * k)%nat)) (nb (3 * k + 1)%nat)) as (B1 & B2 & _).
  destruct (fold_neighbour_min q (fold_neighbour q Rmin (fold_neighbour q Rmin (q k) (nb (3 * k)%nat)) (nb (3 * k + 1)%nat)) (nb (3 * k + 2)%nat)) as (C1 & C2 & _).
  split; [lra |]. intros i Hi Hn.
  destruct i as [| [| [| i]]]; [| | | lia].
  - rewrite Nat.add_0_r in *. specialize (A2 Hn). lra.
  - specialize (B2 Hn). lra.
  - specialize (C2 Hn). lra.
Qed.
Lemma nb_max_attained q nb k : above q nb k (nb_max q nb k).
Proof.
  unfold nb_max, nb_fold, above.
  destruct (fold_neighbour_max q (q k) (nb (3 * k)%nat)) as (A1 & A2 & _).
  destruct (fold_neighbour_max q (fold_neighbour q Rmax (q k) (nb (3 * k)%nat)) (nb (3 * k + 1)%nat)) as (B1 & B2 & _).
  destruct (fold_neighbour_max q (fold_neighbour q Rmax (fold_neighbour q Rmax (q k) (nb (3 * k)%nat)) (nb (3 * k + 1)%nat)) (nb (3 * k + 2)%nat)) as (C1 & C2 & _).
  split; [lra |]. intros i Hi Hn.
  destruct i as [| [| [| i]]]; [| | | lia].
  - rewrite Nat.add_0_r in *. specialize (A2 Hn). lra.
  - specialize (B2 Hn). lra.
  - specialize (C2 Hn). lra.
Qed.

(** A boundary edge counts as the triangle itself. *)
Lemma nb3_min q nb k : nb3_fold q nb Rmin k = nb_min q nb k.
Proof.
  unfold nb3_fold, nb_min, nb_fold, fold_neighbour, qn_or_centroid.
  destruct (Z.ltb_spec (nb (3 * k)%nat) 0), (Z.leb_spec 0 (nb (3 * k)%nat)); try lia;
  destruct (Z.ltb_spec (nb (3 * k + 1)%nat) 0), (Z.leb_spec 0 (nb (3 * k + 1)%nat)); try lia;
  destruct (Z.ltb_spec (nb (3 * k + 2)%nat) 0), (Z.leb_spec 0 (nb (3 * k + 2)%nat)); try lia;
  unfold Rmin; repeat destruct (Rle_dec _ _); try reflexivity; lra.
Qed.
Lemma nb3_max q nb k : nb3_fold q nb Rmax k = nb_max q nb k.
Proof.
  unfold nb3_fold, nb_max, nb_fold, fold_neighbour, qn_or_centroid.
  destruct (Z.ltb_spec (nb (3 * k)%nat) 0), (Z.leb_spec 0 (nb (3 * k)%nat)); try lia;
  destruct (Z.ltb_spec (nb (3 * k + 1)%nat) 0), (Z.leb_spec 0 (nb (3 * k + 1)%nat)); try lia;
  destruct (Z.ltb_spec (nb (3 * k + 2)%nat) 0), (Z.leb_spec 0 (nb (3 * k + 2)%nat)); try lia;
  unfold Rmax; repeat destruct (Rle_dec _ _); try reflexivity; lra.
Qed.

Lemma phi_below_spec bound qc dq phi : bound <= qc -> 0 <= phi -> 0 <= phi_below bound qc dq phi <= phi.
Proof.
  intros. unfold phi_below. split; [| apply Rmin_r]. repeat apply Rmin_glb; try lra.
  destruct (Rltb_spec dq 0); [| lra].
  replace ((bound - qc) / dq) with ((qc - bound) * / (- dq)) by (field; lra).
  apply Rmult_le_pos; [lra |]. apply Rlt_le, Rinv_0_lt_compat. lra.
Qed.
Lemma phi_below_bound bound qc dq phi psi : bound <= qc -> 0 <= psi -> psi <= phi_below bound qc dq phi ->
  bound <= qc + psi * dq.
Proof.
  intros Hb Hp Hl.
  assert (Hr : psi <= (if Rltb dq 0 then (bound - qc) / dq else 1)).
  { eapply Rle_trans; [exact Hl |]. unfold phi_below. cbn zeta.
    eapply Rle_trans; [apply Rmin_l | apply Rmin_l]. }
  destruct (Rltb_spec dq 0).
  - assert (E : (bound - qc) / dq * dq = bound - qc) by (field; lra). nra.
  - nra.
Qed.
