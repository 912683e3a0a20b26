(** C38: histograms. *)
From Coq Require Import Reals List Arith Bool Lia Lra ZArith Permutation Sorted.
From Verif Require Import RealLib ListLib HistogramModel.
Import ListNotations.
Local Open Scope R_scope.

Definition count (P : R -> bool) (a : list R) : nat := length (filter P a).
Definition total (l : list Z) : Z := fold_right Z.add 0%Z l.

Lemma insert_perm x l : Permutation (x :: l) (insert x l).
Proof.
  induction l as [|y l IH]; cbn [insert]; [reflexivity|]. destruct (Rleb x y); [reflexivity|]. rewrite perm_swap. constructor. exact IH.
Qed.
Lemma sort_perm l : Permutation l (sort l).
Proof. induction l as [|x l IH]; cbn [sort fold_right]; [constructor|]. rewrite <- insert_perm. constructor. exact IH. Qed.
Lemma insert_sorted x l : StronglySorted Rle l -> StronglySorted Rle (insert x l).
Proof.
  induction 1 as [|y l Hs IH Hf]; cbn [insert]; [repeat constructor|]. destruct (Rleb_spec x y) as [H|H].
  - constructor; [constructor; auto|]. constructor; [exact H|]. rewrite Forall_forall in *. intros z Hz. specialize (Hf z Hz). lra.
  - constructor; [exact IH|]. rewrite Forall_forall in *. intros z Hz. apply (Permutation_in _ (Permutation_sym (insert_perm x l))) in Hz. destruct Hz as [<-|Hz]; [lra|auto].
Qed.
Lemma sort_sorted l : StronglySorted Rle (sort l).
Proof. induction l; cbn [sort fold_right]; [constructor|apply insert_sorted; assumption]. Qed.

Lemma count_perm P a b : Permutation a b -> count P a = count P b.
Proof. intros H. unfold count. induction H; cbn [filter]; [reflexivity|destruct (P x); cbn; lia|destruct (P x), (P y); cbn; lia|lia]. Qed.

Lemma searchsorted_count a x : StronglySorted Rle a -> searchsorted a x = count (fun v => Rltb v x) a.
Proof.
  unfold count. induction 1 as [|y a Hs IH Hf]; [reflexivity|]. cbn [searchsorted filter]. destruct (Rltb_spec y x) as [H|H]; [cbn; lia|].
  rewrite Forall_forall in Hf. clear IH Hs. induction a as [|z a IH]; [reflexivity|]. cbn [filter]. destruct (Rltb_spec z x) as [H1|H1].
  - specialize (Hf z (or_introl eq_refl)). lra.
  - apply IH. intros; apply Hf; now right.
Qed.

Lemma below_count a x : searchsorted (sort a) x = count (fun v => Rltb v x) a.
Proof. rewrite searchsorted_count by apply sort_sorted. apply count_perm, Permutation_sym, sort_perm. Qed.

(** The values in a half open interval. *)
Lemma count_between a lo hi : lo <= hi ->
  (Z.of_nat (count (fun v => Rltb v hi) a) - Z.of_nat (count (fun v => Rltb v lo) a) = Z.of_nat (count (fun v => Rleb lo v && Rltb v hi) a))%Z.
Proof.
  intros Hlh. unfold count. induction a as [|v a IH]; [reflexivity|]. cbn [filter].
  destruct (Rltb_spec v hi), (Rltb_spec v lo), (Rleb_spec lo v); cbn [andb length]; try lra; lia.
Qed.
Lemma count_above a lo : (Z.of_nat (length a) - Z.of_nat (count (fun v => Rltb v lo) a) = Z.of_nat (count (fun v => Rleb lo v) a))%Z.
Proof.
  unfold count. induction a as [|v a IH]; [reflexivity|]. cbn [filter length].
  destruct (Rltb_spec v lo), (Rleb_spec lo v); cbn [length]; try lra; lia.
Qed.

Lemma histogram_cons2 a b0 b1 bins : histogram a (b0 :: b1 :: bins) =
  (Z.of_nat (searchsorted (sort a) b1) - Z.of_nat (searchsorted (sort a) b0))%Z :: histogram a (b1 :: bins).
Proof. reflexivity. Qed.
Lemma histogram_one a b0 : histogram a [b0] = [(Z.of_nat (length a) - Z.of_nat (searchsorted (sort a) b0))%Z].
Proof. reflexivity. Qed.

(** Entry [i] counts the values from bins[i] up to but excluding bins[i+1];
    the last entry counts the values from the last bin on. *)
Theorem C38_counts : forall a bins, Sorted Rle bins ->
  length (histogram a bins) = length bins /\
  forall i lo, nth_error bins i = Some lo ->
    nth_error (histogram a bins) i = Some (Z.of_nat
      match nth_error bins (S i) with
      | Some hi => count (fun v => Rleb lo v && Rltb v hi) a
      | None => count (fun v => Rleb lo v) a
      end).
Proof.
  intros a. induction bins as [|b0 bins IH]; intros Hs.
  - split; [reflexivity|]. intros [|] lo; discriminate.
  - destruct bins as [|b1 bins].
    + rewrite histogram_one. split; [reflexivity|]. intros [|[|i]] lo H; try discriminate. injection H as <-. cbn [nth_error]. rewrite below_count, count_above. reflexivity.
    + rewrite histogram_cons2. apply Sorted_inv in Hs as (Hs & Hh). apply HdRel_inv in Hh. destruct (IH Hs) as (I1 & I2). split; [cbn [length] in *; lia|].
      intros [|i] lo H.
      * injection H as <-. cbn [nth_error]. rewrite !below_count, count_between by exact Hh. reflexivity.
      * cbn [nth_error] in *. apply I2. exact H.
Qed.
Print Assumptions C38_counts.

(** The entries sum to the number of values from bins[0] on (for any bins). *)
Theorem C38_total : forall a b0 bins, total (histogram a (b0 :: bins)) = Z.of_nat (count (fun v => Rleb b0 v) a).
Proof.
  intros a b0 bins. rewrite <- count_above, <- below_count. revert b0. induction bins as [|b1 bins IH]; intros b0.
  - rewrite histogram_one. cbn. lia.
  - rewrite histogram_cons2. cbn [total fold_right]. fold (total (histogram a (b1 :: bins))). rewrite IH. lia.
Qed.
Print Assumptions C38_total.

Lemma list_min_le x l : list_min x l <= x /\ forall y, In y l -> list_min x l <= y.
Proof.
  induction l as [|z l (I1 & I2)]; cbn [list_min fold_right]; [split; [lra|intros y []]|]. fold (list_min x l).
  pose proof (Rmin_l z (list_min x l)). pose proof (Rmin_r z (list_min x l)). split; [lra|]. intros y [<-|Hy]; [lra|]. specialize (I2 y Hy). lra.
Qed.
Lemma list_max_ge x l : x <= list_max x l /\ forall y, In y l -> y <= list_max x l.
Proof.
  induction l as [|z l (I1 & I2)]; cbn [list_max fold_right]; [split; [lra|intros y []]|]. fold (list_max x l).
  pose proof (Rmax_l z (list_max x l)). pose proof (Rmax_r z (list_max x l)). split; [lra|]. intros y [<-|Hy]; [lra|]. specialize (I2 y Hy). lra.
Qed.

Lemma count_all P a : (forall v, In v a -> P v = true) -> count P a = length a.
Proof. intros H. unfold count. induction a as [|v a IH]; [reflexivity|]. cbn [filter]. rewrite H by now left. cbn. f_equal. apply IH. intros; apply H; now right. Qed.

Lemma arange_sorted c s : 0 <= s -> forall n k, Sorted Rle (map (fun i => c + INR i * s) (seq k n)).
Proof.
  intros Hs. induction n as [|n IH]; intros k; cbn [seq map]; [constructor|]. constructor; [apply IH|]. destruct n; cbn [seq map]; constructor.
  rewrite S_INR. nra.
Qed.

(** With the bins of create_bins every value is counted exactly once, and the
    relative frequencies exist and sum to one. *)
Theorem C38_create_bins : forall x data n, (0 < n)%nat ->
  let a := x :: data in let bins := create_bins x data n in
  Sorted Rle bins /\ total (histogram a bins) = Z.of_nat (length a) /\
  exists freq, relative_histogram a bins = Some freq /\ Rsum freq = 1.
Proof.
  intros x data n Hn. cbv zeta.
  destruct (list_min_le x data) as (Mn1 & Mn2). destruct (list_max_ge x data) as (Mx1 & Mx2).
  assert (HB : exists rest, create_bins x data n = list_min x data :: rest /\ Sorted Rle (create_bins x data n)).
  { unfold create_bins. destruct (Reqb_spec (list_max x data) (list_min x data)) as [E|E].
    - exists []. split; [reflexivity|]. repeat constructor.
    - destruct n as [|n]; [lia|]. eexists. split; [cbn [seq map INR]; rewrite Rmult_0_l, Rplus_0_r; reflexivity|].
      apply arange_sorted. apply Rmult_le_pos; [lra|]. apply Rlt_le, Rinv_0_lt_compat, lt_0_INR. lia. }
  destruct HB as (rest & E & HS). split; [exact HS|].
  assert (T : total (histogram (x :: data) (create_bins x data n)) = Z.of_nat (length (x :: data))).
  { rewrite E, C38_total, count_all; [reflexivity|]. intros v [<-|Hv]; apply Rleb_true; auto. }
  split; [exact T|]. unfold relative_histogram. fold (total (histogram (x :: data) (create_bins x data n))).
  rewrite T. destruct (Z.eqb_spec (Z.of_nat (length (x :: data))) 0) as [E0|E0]; [cbn in E0; lia|]. eexists. split; [reflexivity|].
  assert (G : forall l c, Rsum (map (fun h => IZR h / c) l) = IZR (total l) / c).
  { induction l as [|h l IH]; intros c; cbn [map Rsum total fold_right]; [unfold Rdiv; ring|]. fold (total l). rewrite IH, plus_IZR. unfold Rdiv. ring. }
  rewrite G, T. apply Rinv_r. apply not_0_IZR, E0.
Qed.
Print Assumptions C38_create_bins.

(** When all values are below the first bin the relative histogram is 0/0. *)
Theorem C38_relative_refuted : relative_histogram [0] [1] = None.
Proof.
  unfold relative_histogram. fold (total (histogram [0] [1])). rewrite C38_total. unfold count. cbn [filter]. destruct (Rleb_spec 1 0); [lra|]. reflexivity.
Qed.
Print Assumptions C38_relative_refuted.

Example C38_example : Sorted Rle [0; 1; 2] /\ total (histogram [1/2; 3] [0; 1; 2]) = 2%Z.
Proof.
  split; [repeat constructor; lra|]. rewrite C38_total, count_all; [reflexivity|]. intros v [<-|[<-|[]]]; apply Rleb_true; lra.
Qed.
