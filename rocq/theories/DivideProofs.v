(** Lemmas about the reordering by partition. *)
From Coq Require Import List Arith Lia Bool Permutation.
From Verif Require Import ArrayLib DivideModel.
Import ListNotations.

Definition block (key : nat -> nat) (l : list nat) (p : nat) : list nat := filter (fun i => key i =? p) l.
Definition blocks (key : nat -> nat) (l : list nat) (a m : nat) : list nat := flat_map (block key l) (seq a m).

Lemma blocks_ge key l a m y : In y (blocks key l a m) -> a <= key y.
Proof.
  unfold blocks, block. intros H. apply in_flat_map in H as (p & Hp & Hy). apply filter_In in Hy as [_ E].
  apply Nat.eqb_eq in E. apply in_seq in Hp. lia.
Qed.
Lemma insert_front key x l : (forall y, In y l -> key x <= key y) -> insert_by key x l = x :: l.
Proof.
  destruct l as [|y l]; intros H; [reflexivity|]. cbn [insert_by].
  destruct (Nat.leb_spec (key x) (key y)); [reflexivity|]. specialize (H y (or_introl eq_refl)). lia.
Qed.
Lemma insert_skip key x l1 l2 : (forall y, In y l1 -> key y < key x) ->
  insert_by key x (l1 ++ l2) = l1 ++ insert_by key x l2.
Proof.
  induction l1 as [|y l1 IH]; intros H; [reflexivity|]. cbn [app insert_by].
  destruct (Nat.leb_spec (key x) (key y)).
  - specialize (H y (or_introl eq_refl)). lia.
  - f_equal. apply IH. intros z Hz. apply H. right. exact Hz.
Qed.
Lemma insert_blocks key x l : forall m a, a <= key x < a + m ->
  insert_by key x (blocks key l a m) = blocks key (x :: l) a m.
Proof.
  induction m as [|m IH]; intros a H; [lia|].
  unfold blocks. cbn [seq flat_map]. fold (blocks key l (S a) m). fold (blocks key (x :: l) (S a) m).
  destruct (Nat.eq_dec (key x) a) as [E|N].
  - rewrite insert_front.
    + unfold block at 2. cbn [filter]. rewrite (proj2 (Nat.eqb_eq _ _) E). cbn [app]. f_equal. f_equal.
      unfold blocks.
      rewrite !flat_map_concat_map. f_equal. apply map_ext_in. intros p Hp. apply in_seq in Hp.
      unfold block. cbn [filter]. destruct (Nat.eqb_spec (key x) p); [lia|reflexivity].
    + intros y Hy. apply in_app_or in Hy as [Hy|Hy].
      * unfold block in Hy. apply filter_In in Hy as [_ Hy]. apply Nat.eqb_eq in Hy. lia.
      * apply blocks_ge in Hy. lia.
  - rewrite insert_skip.
    + rewrite IH by lia. f_equal. unfold block. cbn [filter]. destruct (Nat.eqb_spec (key x) a); [lia|reflexivity].
    + intros y Hy. unfold block in Hy. apply filter_In in Hy as [_ Hy]. apply Nat.eqb_eq in Hy. lia.
Qed.
Lemma sort_blocks key P : forall l, (forall i, In i l -> key i < P) ->
  fold_right (insert_by key) [] l = blocks key l 0 P.
Proof.
  induction l as [|x l IH]; intros H; cbn [fold_right].
  - unfold blocks, block. cbn [filter]. induction (seq 0 P); [reflexivity|assumption].
  - rewrite IH by (intros; apply H; right; assumption). apply insert_blocks.
    specialize (H x (or_introl eq_refl)). lia.
Qed.

Lemma insert_perm key x l : Permutation (x :: l) (insert_by key x l).
Proof.
  induction l as [|y l IH]; [apply Permutation_refl|]. cbn [insert_by]. destruct (key x <=? key y); [apply Permutation_refl|].
  eapply Permutation_trans; [apply perm_swap|]. apply perm_skip, IH.
Qed.
Lemma argsort_perm epart : Permutation (seq 0 (length epart)) (argsort epart).
Proof.
  unfold argsort. induction (seq 0 (length epart)) as [|x l IH]; cbn [fold_right]; [constructor|].
  eapply Permutation_trans; [apply perm_skip, IH|apply insert_perm].
Qed.

(** The triangles of part [p], in their original order. *)
Definition part (epart : list nat) (p : nat) : list nat :=
  filter (fun i => nth i epart 0 =? p) (seq 0 (length epart)).

Lemma argsort_parts epart P : (forall x, In x epart -> x < P) -> argsort epart = flat_map (part epart) (seq 0 P).
Proof.
  intros H. unfold argsort. rewrite (sort_blocks _ P); [reflexivity|].
  intros i Hi. apply in_seq in Hi. apply H, nth_In. lia.
Qed.

(** ** Counting *)
Lemma list_max_lt l x : In x l -> x < S (list_max l).
Proof.
  intros H. pose proof (proj1 (list_max_le l (list_max l)) (le_n _)) as F. rewrite Forall_forall in F.
  specialize (F x H). lia.
Qed.
Lemma filter_map {A B} (f : A -> B) (g : B -> bool) l : filter g (map f l) = map f (filter (fun x => g (f x)) l).
Proof. induction l as [|x l IH]; [reflexivity|]. cbn [map filter]. destruct (g (f x)); cbn [map]; rewrite IH; reflexivity. Qed.
Lemma map_nth_seq {A} (d : A) l : map (fun i => nth i l d) (seq 0 (length l)) = l.
Proof.
  apply nth_ext with (d := d) (d' := d); rewrite map_length, seq_length; [reflexivity|].
  intros i Hi. rewrite nth_indep with (d' := nth 0 l d) by (rewrite map_length, seq_length; exact Hi).
  rewrite (map_nth (fun i => nth i l d)). rewrite seq_nth by exact Hi. reflexivity.
Qed.
Lemma count_part epart p : length (filter (fun x => x =? p) epart) = length (part epart p).
Proof.
  rewrite <- (map_nth_seq 0 epart) at 1. rewrite filter_map, map_length. reflexivity.
Qed.
Lemma bincount_length epart : length (bincount epart) = S (list_max epart).
Proof. unfold bincount. rewrite map_length, seq_length. reflexivity. Qed.
Lemma bincount_nth epart p : p < length (bincount epart) -> nth p (bincount epart) 0 = length (part epart p).
Proof.
  intros H. rewrite bincount_length in H. unfold bincount.
  rewrite nth_indep with (d' := (fun p => length (filter (fun x => x =? p) epart)) 0) by (rewrite map_length, seq_length; exact H).
  rewrite (map_nth (fun p => length (filter (fun x => x =? p) epart))), seq_nth by exact H. apply count_part.
Qed.

(** The offset of part [p]: the number of triangles of the parts before it. *)
Definition offset (epart : list nat) (p : nat) : nat := length (flat_map (part epart) (seq 0 p)).

Lemma offset_S epart p : offset epart (S p) = offset epart p + length (part epart p).
Proof. unfold offset. rewrite seq_S, flat_map_app, app_length. cbn [flat_map Nat.add]. rewrite app_nil_r. reflexivity. Qed.

Lemma cumsum_nth l : forall acc i, i < length l -> nth i (cumsum acc l) 0 = acc + fold_right plus 0 (firstn (S i) l).
Proof.
  induction l as [|x l IH]; intros acc i H; [simpl in H; lia|].
  destruct i as [|i].
  - simpl. lia.
  - cbn [cumsum nth]. rewrite IH by (simpl in H; lia). cbn [firstn fold_right]. lia.
Qed.
Lemma cumsum_length l : forall acc, length (cumsum acc l) = length l.
Proof. induction l as [|x l IH]; intros acc; simpl; auto. Qed.
Lemma sum_firstn epart : forall i, i <= length (bincount epart) ->
  fold_right plus 0 (firstn i (bincount epart)) = offset epart i.
Proof.
  induction i as [|i IH]; intros H; [reflexivity|].
  rewrite offset_S, <- IH by lia. rewrite <- bincount_nth by lia.
  assert (G : forall l i, i < length l -> fold_right plus 0 (firstn (S i) l) = fold_right plus 0 (firstn i l) + nth i l 0).
  { induction l as [|x l IHl]; intros j Hj; [simpl in Hj; lia|]. destruct j as [|j]; [simpl; lia|].
    cbn [firstn fold_right nth]. rewrite <- Nat.add_assoc. rewrite <- IHl by (simpl in Hj; lia). reflexivity. }
  apply G. lia.
Qed.
Lemma psum_nth epart i : i <= length (bincount epart) -> nth i (0 :: cumsum 0 (bincount epart)) 0 = offset epart i.
Proof.
  intros H. destruct i as [|i]; [reflexivity|]. cbn [nth]. rewrite cumsum_nth by lia. cbn [Nat.add]. apply sum_firstn. lia.
Qed.

(** ** Positions *)
Lemma flat_map_nth epart : forall P p k, p < P -> k < length (part epart p) ->
  nth_error (flat_map (part epart) (seq 0 P)) (offset epart p + k) = nth_error (part epart p) k.
Proof.
  intros P p k Hp Hk.
  replace P with (p + (1 + (P - S p))) by lia. rewrite seq_app, flat_map_app. cbn [Nat.add seq flat_map].
  rewrite nth_error_app2 by (unfold offset; lia).
  replace (offset epart p + k - length (flat_map (part epart) (seq 0 p))) with k by (unfold offset; lia).
  apply nth_error_app1, Hk.
Qed.
Lemma flat_map_total epart P : (forall x, In x epart -> x < P) -> offset epart P = length epart.
Proof.
  intros H. unfold offset. rewrite <- argsort_parts by exact H.
  rewrite <- (Permutation_length (argsort_perm epart)). apply seq_length.
Qed.
Lemma offset_mono epart p q : p <= q -> offset epart p <= offset epart q.
Proof. induction 1; [lia|]. rewrite offset_S. lia. Qed.
(** Every position lies in exactly one block. *)
Lemma position_block epart : forall P j, j < offset epart P ->
  exists p k, p < P /\ k < length (part epart p) /\ j = offset epart p + k.
Proof.
  induction P as [|P IH]; intros j H; [unfold offset in H; simpl in H; lia|].
  rewrite offset_S in H. destruct (lt_dec j (offset epart P)) as [L|L].
  - destruct (IH j L) as (p & k & Hp & Hk & E). exists p, k. repeat split; auto.
  - exists P, (j - offset epart P). repeat split; lia.
Qed.
Lemma part_In epart p i : In i (part epart p) <-> i < length epart /\ nth i epart 0 = p.
Proof. unfold part. rewrite filter_In, in_seq, Nat.eqb_eq. intuition lia. Qed.

(** ** The inverse index *)
Lemma fold_upd_notin {A} (f : nat -> nat) (v : nat -> A) l : forall a x, (forall k, In k l -> f k <> x) ->
  fold_left (fun a k => upd a (f k) (v k)) l a x = a x.
Proof.
  induction l as [|y l IH]; intros a x H; [reflexivity|]. cbn [fold_left]. rewrite IH by (intros; apply H; right; assumption).
  apply upd_other. intros E. apply (H y (or_introl eq_refl)). auto.
Qed.
Lemma fold_upd_in {A} (f : nat -> nat) (v : nat -> A) l : forall a k, NoDup l -> In k l ->
  (forall k', In k' l -> f k' = f k -> k' = k) -> fold_left (fun a k => upd a (f k) (v k)) l a (f k) = v k.
Proof.
  induction l as [|y l IH]; intros a k ND Hk Inj; [destruct Hk|]. inversion ND; subst. cbn [fold_left].
  destruct Hk as [->|Hk].
  - rewrite fold_upd_notin; [apply upd_same|]. intros k' Hk' E. apply Inj in E; [|right; exact Hk']. subst. tauto.
  - apply IH; auto. intros; apply Inj; [right|]; assumption.
Qed.

Section Index.
Variables (epart : list nat) (P : nat).
Hypothesis Hlt : forall x, In x epart -> x < P.
Hypothesis Hlen : length (bincount epart) = P.

Lemma order_nth p k : p < P -> k < length (part epart p) ->
  nth (nth p (0 :: cumsum 0 (bincount epart)) 0 + k) (argsort epart) 0 = nth k (part epart p) 0.
Proof.
  intros Hp Hk. rewrite psum_nth by lia. rewrite (argsort_parts epart P Hlt).
  pose proof (flat_map_nth epart P p k Hp Hk) as E.
  rewrite (nth_error_nth' (part epart p) 0 Hk) in E. exact (nth_error_nth _ _ 0 E).
Qed.

Lemma part_nth_inj p k k' : k < length (part epart p) -> k' < length (part epart p) ->
  nth k (part epart p) 0 = nth k' (part epart p) 0 -> k = k'.
Proof.
  intros H H' E. assert (ND : NoDup (part epart p)) by (apply NoDup_filter, seq_NoDup).
  rewrite NoDup_nth in ND. apply ND; eassumption.
Qed.

Lemma set_index_get n p k : p < P -> k < length (part epart p) -> nth k (part epart p) 0 < n ->
  nth_error (set_index (argsort epart) (0 :: cumsum 0 (bincount epart)) (bincount epart) P n) (nth k (part epart p) 0)
  = Some (p, k).
Proof.
  intros Hp Hk Hn. unfold set_index.
  set (f := fun (a : nat -> nat * nat) (i : nat) => fold_left _ _ a).
  rewrite nth_error_nth' with (d := fold_left f (seq 0 P) (fun _ => (0, 0)) 0) by (rewrite map_length, seq_length; exact Hn).
  rewrite map_nth, seq_nth by exact Hn. cbn [Nat.add]. f_equal.
  assert (G : forall m a, p < m -> m <= P -> fold_left f (seq 0 m) a (nth k (part epart p) 0) = (p, k)).
  { induction m as [|m IH]; intros a Hm HmP; [lia|]. rewrite seq_S, fold_left_app. cbn [fold_left Nat.add].
    unfold f at 1. rewrite bincount_nth by lia.
    destruct (Nat.eq_dec p m) as [->|N].
    - rewrite <- (order_nth m k) by assumption.
      apply (fold_upd_in (fun k => nth (nth m (0 :: cumsum 0 (bincount epart)) 0 + k) (argsort epart) 0) (fun k => (m, k))).
      + apply seq_NoDup.
      + apply in_seq. lia.
      + intros k' Hk' E. apply in_seq in Hk'. rewrite !order_nth in E by lia. eapply part_nth_inj; [| |exact E]; lia.
    - rewrite (fold_upd_notin (fun k => nth (nth m (0 :: cumsum 0 (bincount epart)) 0 + k) (argsort epart) 0) (fun k => (m, k))).
      + apply IH; lia.
      + intros k' Hk' E. apply in_seq in Hk'. rewrite order_nth in E by lia.
        assert (A : In (nth k' (part epart m) 0) (part epart m)) by (apply nth_In; lia).
        assert (B : In (nth k (part epart p) 0) (part epart p)) by (apply nth_In; lia).
        rewrite E in A. apply part_In in A, B. lia. }
  apply G; lia.
Qed.
End Index.

Lemma sequence_nth {A} (l : list (option A)) : forall r, sequence l = Some r ->
  length r = length l /\ forall i, nth_error r i = match nth_error l i with Some x => x | None => None end.
Proof.
  induction l as [|[x|] l IH]; intros r H; cbn [sequence] in H.
  - injection H as <-. split; [reflexivity|]. intros [|i]; reflexivity.
  - destruct (sequence l) as [xs|]; [|discriminate]. injection H as <-. destruct (IH xs eq_refl) as [L E].
    split; [simpl; lia|]. intros [|i]; [reflexivity|]. apply E.
  - discriminate.
Qed.
Lemma sequence_some {A} (l : list (option A)) : (forall x, In x l -> x <> None) -> exists r, sequence l = Some r.
Proof.
  induction l as [|[x|] l IH]; intros H; cbn [sequence].
  - eauto.
  - destruct IH as (r & ->); [intros; apply H; right; assumption|]. eauto.
  - exfalso. apply (H None); [left|]; reflexivity.
Qed.
Lemma take_nth {A} (a : list A) ids r : take a ids = Some r ->
  length r = length ids /\ forall j, nth_error r j = match nth_error ids j with Some i => nth_error a i | None => None end.
Proof.
  intros H. unfold take in H. destruct (sequence_nth _ _ H) as [L E]. rewrite map_length in L. split; [exact L|].
  intros j. rewrite E, nth_error_map. destruct (nth_error ids j); reflexivity.
Qed.
Lemma sequence_map {A B} (f : A -> option B) (g : A -> B) l : (forall x, In x l -> f x = Some (g x)) ->
  sequence (map f l) = Some (map g l).
Proof.
  induction l as [|x l IH]; intros H; [reflexivity|]. cbn [map sequence]. rewrite (H x (or_introl eq_refl)).
  rewrite IH; [reflexivity|]. intros y Hy. apply H. right. exact Hy.
Qed.

(** Looking up a renamed key. *)
Lemma bget_notin {tag} (d : bdict tag) k : ~ In k (map fst d) -> bget d k = None.
Proof.
  induction d as [|[k' t] d IH]; intros H; [reflexivity|]. cbn [bget].
  destruct (Nat.eqb_spec (fst k) (fst k')), (Nat.eqb_spec (snd k) (snd k')); cbn [andb];
    try (apply IH; intros ?; apply H; right; assumption).
  exfalso. apply H. left. cbn [fst]. destruct k, k'; cbn in *; congruence.
Qed.
Lemma bget_rename {tag} (g : nat -> nat) (d : bdict tag) i e :
  (forall k t, In (k, t) d -> g (fst k) = g i -> fst k = i) ->
  bget (map (fun x => ((g (fst (fst x)), snd (fst x)), snd x)) d) (g i, e) = bget d (i, e).
Proof.
  induction d as [|[k t] d IH]; intros H; [reflexivity|]. cbn [map bget fst snd].
  rewrite IH by (intros k' t' Hi; apply (H k' t'); right; exact Hi).
  destruct (Nat.eqb_spec (g i) (g (fst k))) as [E|E], (Nat.eqb_spec i (fst k)) as [E'|E']; try reflexivity.
  - exfalso. apply E'. symmetry. apply (H k t); [left; reflexivity|]. auto.
  - exfalso. apply E. congruence.
Qed.
