(** Lemmas for the inlet, structure and rate operators. *)
From Coq Require Import Reals List Arith Bool Lra Lia Permutation.
From Verif Require Import RealLib ListLib ArrayLib InletModel.
Import ListNotations.
Local Open Scope R_scope.

Lemma zip_with_map {A} f (g h : A -> R) l :
  zip_with f (map g l) (map h l) = map (fun i => f (g i) (h i)) l.
Proof. unfold zip_with. induction l; simpl; [reflexivity|]. rewrite IHl. reflexivity. Qed.

(** [put] of values determined by the triangle. *)
Lemma put_map a l g i : put a l (map g l) i = if in_dec Nat.eq_dec i l then g i else a i.
Proof.
  unfold put. revert a. induction l as [|j l IH]; intros a; [reflexivity|].
  cbn [map combine fold_left fst snd]. rewrite IH.
  destruct (in_dec Nat.eq_dec i l), (in_dec Nat.eq_dec i (j :: l)); simpl in *; try reflexivity; try tauto.
  - destruct i0 as [->|]; [apply upd_same|tauto].
  - apply upd_other. intros ->. tauto.
Qed.
Lemma put_map_in a l g i : In i l -> put a l (map g l) i = g i.
Proof. intros H. rewrite put_map. destruct in_dec; tauto. Qed.
Lemma put_map_out a l g i : ~ In i l -> put a l (map g l) i = a i.
Proof. intros H. rewrite put_map. destruct in_dec; tauto. Qed.

(** [put] of values given by position. *)
Lemma put_out a l v i : ~ In i l -> put a l v i = a i.
Proof.
  unfold put. revert a v. induction l as [|j l IH]; intros a v H; [reflexivity|].
  destruct v as [|x v]; [reflexivity|]. cbn [combine fold_left fst snd].
  rewrite IH by (simpl in H; tauto). apply upd_other. simpl in H. intros ->. tauto.
Qed.
Lemma put_nth : forall l a v k, NoDup l -> length v = length l -> (k < length l)%nat ->
  put a l v (nth k l 0%nat) = get v k.
Proof.
  induction l as [|j l IH]; intros a v k N L Hk; [simpl in Hk; lia|].
  destruct v as [|x v]; [discriminate|]. inversion N; subst.
  destruct k as [|k].
  - change (put (upd a j x) l v j = x). rewrite put_out by assumption. apply upd_same.
  - change (put (upd a j x) l v (nth k l 0%nat) = get v k).
    apply IH; simpl in *; auto; lia.
Qed.

(** A sum whose terms vanish outside [l] is the sum over [l]. *)
Lemma Rsum_support (f : nat -> R) : forall big l : list nat, NoDup big -> NoDup l -> incl l big ->
  (forall i, In i big -> ~ In i l -> f i = 0) -> Rsum (map f big) = Rsum (map f l).
Proof.
  intros big l Nb Nl I Z.
  set (rest := filter (fun i => if in_dec Nat.eq_dec i l then false else true) big).
  assert (P : Permutation big (l ++ rest)).
  { apply NoDup_Permutation; [exact Nb| |].
    - apply (ListLib.NoDup_app_intro l rest Nl).
      + apply NoDup_filter, Nb.
      + intros x H1 H2. unfold rest in H2. apply filter_In in H2. destruct in_dec; [|tauto].
        destruct H2; discriminate.
    - intros x. rewrite in_app_iff. unfold rest. rewrite filter_In. split.
      + intros H. destruct in_dec; tauto.
      + intros [H|[H _]]; [apply I, H|exact H]. }
  rewrite (Rsum_perm _ _ (Permutation_map f P)), map_app, Rsum_app.
  rewrite (Rsum_map_zero rest f); [lra|].
  intros i Hi. unfold rest in Hi. apply filter_In in Hi. destruct Hi as [H1 H2].
  apply Z; [exact H1|]. destruct in_dec; [discriminate|assumption].
Qed.

(** ** Cumulative sums *)
Lemma cumsum_length acc l : length (cumsum acc l) = length l.
Proof. revert acc. induction l; intros; simpl; auto. Qed.
Lemma cumsum_get l : forall acc k, (k < length l)%nat ->
  get (cumsum acc l) k = acc + Rsum (firstn (S k) l).
Proof.
  induction l as [|x l IH]; intros acc k H; [simpl in H; lia|].
  destruct k as [|k].
  - unfold get. simpl. lra.
  - change (get (cumsum (acc + x) l) k = acc + (x + Rsum (firstn (S k) l))).
    rewrite IH by (simpl in H; lia). lra.
Qed.
Lemma diff_length l : length (diff l) = (length l - 1)%nat.
Proof. induction l as [|a [|b l] IH]; simpl in *; auto. rewrite IH. lia. Qed.
Lemma diff_get l : forall k, (S k < length l)%nat -> get (diff l) k = get l (S k) - get l k.
Proof.
  induction l as [|a [|b l] IH]; intros k H; simpl in H; try lia.
  destruct k as [|k]; [reflexivity|]. apply (IH k). simpl. lia.
Qed.
Lemma zip_with_length f l1 l2 : length (zip_with f l1 l2) = Nat.min (length l1) (length l2).
Proof. unfold zip_with. rewrite map_length. apply combine_length. Qed.
Lemma zip_with_get f : forall l1 l2 k, (k < length l1)%nat -> (k < length l2)%nat ->
  get (zip_with f l1 l2) k = f (get l1 k) (get l2 k).
Proof.
  unfold zip_with. induction l1 as [|a l1 IH]; intros [|b l2] k H1 H2; simpl in *; try lia.
  destruct k; [reflexivity|]. apply (IH l2 k); lia.
Qed.
Lemma removelast_length {A} (l : list A) : length (removelast l) = (length l - 1)%nat.
Proof. induction l as [|a [|b l] IH]; simpl in *; auto. rewrite IH. lia. Qed.
Lemma removelast_get l : forall k, (S k < length l)%nat -> get (removelast l) k = get l k.
Proof.
  induction l as [|a [|b l] IH]; intros k H; simpl in H; try lia.
  destruct k as [|k]; [reflexivity|]. apply (IH k). simpl. lia.
Qed.
Lemma firstn_S l : forall k, (k < length l)%nat -> firstn (S k) l = firstn k l ++ [get l k].
Proof.
  induction l as [|a l IH]; intros k H; simpl in H; [lia|].
  destruct k as [|k]; [reflexivity|].
  change (a :: firstn (S k) l = a :: (firstn k l ++ [get l k])). f_equal. apply IH. lia.
Qed.
Lemma get_map_nat (f : nat -> R) l k : (k < length l)%nat -> get (map f l) k = f (nth k l 0%nat).
Proof.
  intros H. unfold get. rewrite nth_indep with (d' := f 0%nat) by (rewrite map_length; exact H).
  apply map_nth.
Qed.
Lemma get_In l k : (k < length l)%nat -> In (get l k) l.
Proof. apply nth_In. Qed.

(** ** The fill volumes *)
Section Fill.
  Variables (A S_ : list R).
  Hypothesis len : length A = length S_.
  Hypothesis pos : forall k, (k < length A)%nat -> 0 < get A k.
  Hypothesis sorted : forall i j, (i <= j < length S_)%nat -> get S_ i <= get S_ j.
  Let SA := cumsum 0 A.
  Let W := zip_with Rmult (removelast SA) (diff S_).
  Let SV := 0 :: cumsum 0 W.
  Let n := length A.

  Lemma W_length : length W = (n - 1)%nat.
  Proof.
    unfold W. rewrite zip_with_length, removelast_length, diff_length.
    unfold SA. rewrite cumsum_length, <- len. unfold n. lia.
  Qed.
  Lemma SV_length : (0 < n)%nat -> length SV = n.
  Proof. intros H. unfold SV. simpl. rewrite cumsum_length, W_length. lia. Qed.
  Lemma SA_get k : (k < n)%nat -> get SA k = Rsum (firstn (S k) A).
  Proof. intros H. unfold SA. rewrite cumsum_get by exact H. lra. Qed.
  Lemma SA_pos k : (k < n)%nat -> 0 < get SA k.
  Proof.
    intros H. rewrite SA_get by exact H. apply Rsum_pos.
    - destruct A; [unfold n in H; simpl in H; lia|discriminate].
    - intros x Hx. assert (X : In x A) by (rewrite <- (firstn_skipn (S k) A); apply in_or_app; auto).
      destruct (In_nth A x 0 X) as (j & J1 & J2). rewrite <- J2. apply pos, J1.
  Qed.
  Lemma SV_get k : (k < n)%nat -> get SV k = Rsum (firstn k W).
  Proof.
    intros H. destruct k as [|k]; [reflexivity|].
    change (get (cumsum 0 W) k = Rsum (firstn (S k) W)).
    rewrite cumsum_get; [lra|]. rewrite W_length. lia.
  Qed.
  Lemma SV_step k : (S k < n)%nat -> get SV (S k) = get SV k + get SA k * (get S_ (S k) - get S_ k).
  Proof.
    intros H. rewrite !SV_get by lia. rewrite firstn_S by (rewrite W_length; lia).
    rewrite Rsum_app. cbn [Rsum]. rewrite Rplus_0_r. f_equal.
    unfold W. rewrite zip_with_get.
    - rewrite removelast_get by (unfold SA; rewrite cumsum_length; exact H).
      rewrite diff_get by (rewrite <- len; exact H). reflexivity.
    - rewrite removelast_length. unfold SA. rewrite cumsum_length. fold n. lia.
    - rewrite diff_length, <- len. fold n. lia.
  Qed.
  (** The volume needed to raise the first cells to the stage of cell [k]. *)
  Lemma SV_volume k : (k < n)%nat ->
    get SV k = get S_ k * Rsum (firstn (S k) A) - Rsum (firstn (S k) (zip_with Rmult A S_)).
  Proof.
    induction k as [|k IH]; intros H.
    - unfold SV, get at 1. simpl. destruct A as [|a A']; [unfold n in H; simpl in H; lia|].
      destruct S_ as [|s S'] eqn:E; [discriminate|]. unfold get; simpl. lra.
    - rewrite SV_step by exact H. rewrite IH by lia. rewrite SA_get by lia.
      rewrite (firstn_S A (S k)) by exact H.
      rewrite (firstn_S (zip_with Rmult A S_) (S k)) by (rewrite zip_with_length, <- len; fold n; lia).
      rewrite !Rsum_app. cbn [Rsum].
      rewrite zip_with_get by (rewrite <- ?len; exact H). lra.
  Qed.
  Lemma SV_mono i j : (i <= j < n)%nat -> get SV i <= get SV j.
  Proof.
    induction j as [|j IH]; intros H; [replace i with 0%nat by lia; lra|].
    destruct (Nat.eq_dec i (S j)) as [->|]; [lra|].
    apply Rle_trans with (get SV j); [apply IH; lia|]. rewrite SV_step by lia.
    pose proof (SA_pos j ltac:(lia)).
    pose proof (sorted j (S j) ltac:(rewrite <- len; fold n; lia)).
    assert (0 <= get SA j * (get S_ (S j) - get S_ j)) by (apply Rmult_le_pos; lra). lra.
  Qed.
End Fill.

Lemma last_le_spec l v k : last_le l v = Some k ->
  (k < length l)%nat /\ get l k <= v /\ forall j, (k < j < length l)%nat -> v < get l j.
Proof.
  revert k. induction l as [|x l IH]; intros k H; [discriminate|]. simpl in H.
  destruct (last_le l v) as [k0|] eqn:E.
  - injection H as <-. destruct (IH k0 eq_refl) as (A & B & C). split; [simpl; lia|].
    split; [exact B|]. intros [|j] Hj; [lia|]. apply C. simpl in Hj. lia.
  - destruct (Rleb_spec x v) as [Hx|Hx]; [|discriminate]. injection H as <-.
    split; [simpl; lia|]. split; [exact Hx|]. clear IH Hx.
    intros [|j] Hj; [lia|]. destruct Hj as [_ Hj]. simpl in Hj.
    change (v < get l j). revert j Hj E. clear.
    induction l as [|y l IH]; intros j Hj E; [simpl in Hj; lia|].
    simpl in E. destruct (last_le l v); [discriminate|].
    destruct (Rleb_spec y v); [discriminate|]. destruct j; [unfold get; simpl; lra|].
    apply IH; [simpl in Hj; lia|reflexivity].
Qed.
Lemma last_le_exists l v : (exists x, In x l /\ x <= v) -> exists k, last_le l v = Some k.
Proof.
  intros (x & H & Hx). induction l as [|y l IH]; [contradiction|]. simpl.
  destruct (last_le l v) eqn:E; [eauto|].
  destruct H as [->|H]; [destruct (Rleb_spec x v); [eauto|lra]|].
  destruct (IH H) as (k & K). discriminate.
Qed.

(** Assigning one value at several positions. *)
Lemma fold_upd_all (v : R) l : forall (s : nat -> R) i,
  fold_left (fun s k => upd s k v) l s i = if in_dec Nat.eq_dec i l then v else s i.
Proof.
  induction l as [|j l IH]; intros s i; [reflexivity|]. cbn [fold_left]. rewrite IH.
  destruct (in_dec Nat.eq_dec i l), (in_dec Nat.eq_dec i (j :: l)); simpl in *; try reflexivity; try tauto.
  - destruct i0 as [->|]; [apply upd_same|tauto].
  - apply upd_other. intros ->. tauto.
Qed.
Lemma in_firstn_nth (l : list nat) k i : NoDup l -> (i < length l)%nat ->
  (In (nth i l 0%nat) (firstn k l) <-> (i < k)%nat).
Proof.
  intros N H. split.
  - intros X. destruct (In_nth _ _ 0%nat X) as (j & J1 & J2).
    rewrite firstn_length in J1.
    assert (J3 : nth j l 0%nat = nth i l 0%nat).
    { rewrite <- J2. rewrite <- (firstn_skipn k l) at 1. apply app_nth1.
      rewrite firstn_length. lia. }
    rewrite (NoDup_nth l 0%nat) in N. rewrite <- (N j i ltac:(lia) H J3). lia.
  - intros X. assert (E : nth i l 0%nat = nth i (firstn k l) 0%nat).
    { rewrite <- (firstn_skipn k l) at 1. apply app_nth1. rewrite firstn_length. lia. }
    rewrite E. apply nth_In. rewrite firstn_length. lia.
Qed.
