(** Proofs about the merging of CSV files *)
From Coq Require Import String List Arith Bool Lia.
From Verif Require Import CsvMergeModel.
Import ListNotations.

Lemma index_some s l i : index s l = Some i <-> nth_error l i = Some s /\ forall j, j < i -> nth_error l j <> Some s.
Proof.
  revert i. induction l as [|x l IH]; intros i; cbn.
  - split; [discriminate|]. intros [H _]. destruct i; discriminate.
  - destruct (String.eqb_spec x s) as [->|N].
    + split.
      * intros H. injection H; intros <-. split; [reflexivity|]. intros j J. lia.
      * intros [_ H]. destruct i as [|i]; [reflexivity|]. exfalso. apply (H 0); [lia|reflexivity].
    + destruct i as [|i].
      * split; [destruct (index s l); discriminate|]. intros [H _]. cbn in H. congruence.
      * destruct (index s l) as [k|] eqn:E.
        -- split.
           ++ intros H. injection H; intros <-. destruct (proj1 (IH k) eq_refl) as [A B]. split; [exact A|]. intros [|j] J; cbn; [congruence|]. apply B. lia.
           ++ intros [A B]. f_equal. f_equal. assert (Q : Some k = Some i); [|congruence]. apply IH. split; [exact A|]. intros j J. apply (B (S j)). lia.
        -- split; [discriminate|]. intros [A B]. exfalso. assert (Q : None = Some i); [|discriminate]. apply IH. split; [exact A|]. intros j J. apply (B (S j)). lia.
Qed.
Lemma index_in s l : (exists i, index s l = Some i) <-> In s l.
Proof.
  induction l as [|x l IH]; cbn; [split; [intros [i H]; discriminate|tauto]|].
  destruct (String.eqb_spec x s) as [->|N]; [split; [tauto|intros _; eauto]|].
  destruct (index s l) as [k|]; [split; [intros _; right; apply IH; eauto|eauto]|].
  split; [intros [i H]; discriminate|]. intros [H|H]; [congruence|]. apply IH in H. destruct H; discriminate.
Qed.
Lemma same_spec l : forall m, same l m = true <-> l = m.
Proof.
  induction l as [|x l IH]; intros [|y m]; cbn; try (split; [discriminate|congruence]); [tauto|].
  rewrite andb_true_iff, IH. destruct (String.eqb_spec x y) as [->|].
  - split; [intros [_ ->]; reflexivity|]. intros H. injection H. auto.
  - split; [intros [H _]; discriminate|congruence].
Qed.
Lemma read_all_spec strip key data : forall files l, read_all strip files key data = Some l <->
  Forall2 (fun f g => snd f = fst g /\ read_csv_file strip (fst f) key data = Some (snd g)) files l.
Proof.
  induction files as [|[rows title] files IH]; intros l; cbn.
  - split; [intros H; injection H; intros <-; constructor|]. intros H. inversion H. reflexivity.
  - split.
    + destruct (read_csv_file strip rows key data) as [d|] eqn:E; [|discriminate]. destruct (read_all strip files key data) as [l'|]; [|discriminate].
      intros H. injection H; intros <-. constructor; [split; [reflexivity|exact E]|]. apply IH. reflexivity.
    + intros H. inversion H as [|? [t d] ? l' [A B] F]; subst. cbn in A, B. subst t. rewrite B. apply IH in F. rewrite F. reflexivity.
Qed.
Lemma merge_spec strip files key data out : merge_csv_key_values strip files key data = Some out <->
  exists title first rest, read_all strip files key data = Some ((title, first) :: rest) /\
    (forall f, In f rest -> map fst (snd f) = map fst first) /\
    out = (key :: title :: map fst rest) :: map (row first ((title, first) :: rest)) (seq 0 (length first)).
Proof.
  unfold merge_csv_key_values. split.
  - destruct (read_all strip files key data) as [[|[title first] rest]|]; try discriminate. cbv zeta.
    destruct (forallb (fun f => length (snd f) =? length first) ((title, first) :: rest)); [|discriminate].
    destruct (forallb (fun f => same (map fst (snd f)) (map fst first)) ((title, first) :: rest)) eqn:K; [|discriminate].
    rewrite forallb_forall in K. intros H. exists title, first, rest. split; [reflexivity|]. split.
    + intros f I. apply same_spec, K. right. exact I.
    + injection H; intros <-; reflexivity.
  - intros (title & first & rest & -> & K & ->). cbv zeta.
    assert (A : forallb (fun f => length (snd f) =? length first) ((title, first) :: rest) = true).
    { apply forallb_forall. intros f [<-|I]; [apply Nat.eqb_refl|]. apply Nat.eqb_eq. rewrite <- (map_length fst (snd f)), <- (map_length fst first). f_equal. apply K, I. }
    assert (B : forallb (fun f => same (map fst (snd f)) (map fst first)) ((title, first) :: rest) = true).
    { apply forallb_forall. intros f [<-|I]; apply same_spec; [reflexivity|apply K, I]. }
    rewrite A, B. reflexivity.
Qed.
Lemma nth_seq {A} (l : list A) d : map (fun i => nth i l d) (seq 0 (length l)) = l.
Proof.
  apply (nth_ext _ _ d d); [rewrite map_length, seq_length; reflexivity|]. intros n H. rewrite map_length, seq_length in H.
  rewrite (nth_indep _ d (nth 0 l d)) by (rewrite map_length, seq_length; exact H). rewrite (map_nth (fun i => nth i l d)), seq_nth by exact H. reflexivity.
Qed.
Lemma index_at s l j : nth_error l j = Some s -> NoDup l -> index s l = Some j.
Proof.
  intros H N. apply index_some. split; [exact H|]. intros i I E. rewrite NoDup_nth_error in N.
  assert (i = j); [|lia]. apply N; [apply nth_error_Some; congruence|congruence].
Qed.
