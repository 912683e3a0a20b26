(** Small library on lists shared by the models: constant-size blocks, nested
    loops, array writes. *)
From Coq Require Import List Arith Lia Bool FinFun.
Import ListNotations.

Lemma nth_error_flat_map_const {A B} (f : A -> list B) c : forall xs,
  (forall x, In x xs -> length (f x) = c) ->
  forall T b, nth_error (flat_map f xs) T = Some b <->
  exists p r x, T = p * c + r /\ r < c /\ nth_error xs p = Some x /\ nth_error (f x) r = Some b.
Proof.
  induction xs as [|x xs IH]; intros Hc T b; simpl.
  - split.
    + destruct T; discriminate.
    + intros (p & r & y & _ & _ & H & _). destruct p; discriminate.
  - assert (Hx : length (f x) = c) by (apply Hc; left; auto).
    specialize (IH (fun y Hy => Hc y (or_intror Hy))).
    destruct (Nat.lt_ge_cases T c) as [Hlt|Hge].
    + rewrite nth_error_app1 by lia. split.
      * intros H. exists 0, T, x. simpl. auto.
      * intros (p & r & y & E & Hr & Hp & Hb).
        destruct p as [|p]; [|exfalso; simpl in E; lia].
        simpl in Hp, E. injection Hp as ->. subst. exact Hb.
    + rewrite nth_error_app2 by lia. rewrite Hx, IH. split.
      * intros (p & r & y & E & Hr & Hp & Hb). exists (S p), r, y. simpl. repeat split; auto. lia.
      * intros (p & r & y & E & Hr & Hp & Hb). destruct p as [|p].
        -- simpl in E. lia.
        -- exists p, r, y. simpl in E, Hp. repeat split; auto. lia.
Qed.

Lemma flat_map_length_const {A B} (f : A -> list B) c xs :
  (forall x, In x xs -> length (f x) = c) -> length (flat_map f xs) = length xs * c.
Proof.
  induction xs as [|x xs IH]; simpl; intros H; auto.
  rewrite app_length, IH, H; auto.
Qed.

Lemma list_prod_as_flat_map {A B} (l : list A) (l' : list B) :
  list_prod l l' = flat_map (fun x => map (fun y => (x, y)) l') l.
Proof. induction l; simpl; auto. rewrite IHl. reflexivity. Qed.

Lemma nth_error_seq s n p x : nth_error (seq s n) p = Some x <-> p < n /\ x = s + p.
Proof.
  split.
  - intros H. assert (L : p < n).
    { rewrite <- (seq_length n s). apply nth_error_Some. congruence. }
    split; auto. apply nth_error_nth with (d := 0) in H. rewrite seq_nth in H by auto. auto.
  - intros (L & ->). rewrite nth_error_nth' with (d := 0) by (rewrite seq_length; auto).
    rewrite seq_nth by auto. reflexivity.
Qed.

(** The iteration number [p] of [for i in range(a): for j in range(b)]. *)
Lemma nth_error_loop a b p i j :
  nth_error (list_prod (seq 0 a) (seq 0 b)) p = Some (i, j) <-> i < a /\ j < b /\ p = i * b + j.
Proof.
  rewrite list_prod_as_flat_map.
  rewrite (nth_error_flat_map_const _ b) by (intros; rewrite map_length, seq_length; auto).
  split.
  - intros (q & r & x & E & Hr & Hq & Hx). apply nth_error_seq in Hq as (Hq & ->).
    rewrite nth_error_map in Hx. destruct (nth_error (seq 0 b) r) as [y|] eqn:Ey; [|discriminate].
    apply nth_error_seq in Ey as (_ & ->). simpl in Hx. injection Hx as <- <-. auto.
  - intros (Hi & Hj & ->). exists i, j, i. repeat split; auto.
    + apply nth_error_seq; auto.
    + rewrite nth_error_map. rewrite (proj2 (nth_error_seq 0 b j j)); auto.
Qed.

(** A loop that appends a constant number [c] of rows per iteration and,
    depending on the current number of rows, entries to a second list. *)
Section AppendLoop.
  Context {X A B : Type} (f : X -> list A) (g : nat -> X -> list B) (c : nat).
  Variable step : list A * list B -> X -> list A * list B.
  Hypothesis step_eq : forall st x, step st x = (fst st ++ f x, snd st ++ g (length (fst st)) x).

  Lemma append_loop : forall xs st,
    (forall x, In x xs -> length (f x) = c) ->
    fold_left step xs st =
    (fst st ++ flat_map f xs,
     snd st ++ flat_map (fun px => g (length (fst st) + fst px * c) (snd px))
                        (combine (seq 0 (length xs)) xs)).
  Proof.
    induction xs as [|x xs IH]; intros st Hc.
    - simpl. rewrite !app_nil_r. destruct st; auto.
    - cbn [fold_left]. rewrite step_eq, IH by (intros; apply Hc; right; auto).
      cbn [fst snd]. rewrite app_length, (Hc x) by (left; auto). simpl.
      rewrite <- !app_assoc. f_equal. f_equal. rewrite Nat.add_0_r. f_equal.
      rewrite <- (seq_shift (length xs) 0).
      assert (G : forall (xs : list X) s,
         flat_map (fun px => g (length (fst st) + c + fst px * c) (snd px)) (combine s xs) =
         flat_map (fun px => g (length (fst st) + fst px * c) (snd px)) (combine (map S s) xs)).
      { clear. induction xs as [|x xs IH]; destruct s as [|y s]; simpl; auto.
        rewrite IH. f_equal. f_equal. lia. }
      apply G.
  Qed.
End AppendLoop.

Lemma in_combine_seq {A} : forall (xs : list A) s p x,
  In (p, x) (combine (seq s (length xs)) xs) <-> s <= p /\ nth_error xs (p - s) = Some x.
Proof.
  induction xs as [|y xs IH]; intros s p x; simpl.
  - split; [tauto|]. intros (_ & H). destruct (p - s); discriminate.
  - rewrite IH. split.
    + intros [E|(H1 & H2)].
      * injection E as <- <-. rewrite Nat.sub_diag. auto.
      * split; [lia|]. replace (p - s) with (S (p - S s)) by lia. exact H2.
    + intros (H1 & H2). destruct (Nat.eq_dec p s) as [->|].
      * left. rewrite Nat.sub_diag in H2. simpl in H2. injection H2 as ->. reflexivity.
      * right. split; [lia|]. replace (p - s) with (S (p - S s)) in H2 by lia. exact H2.
Qed.

Lemma in_numbered_flat_map {A B} (g : nat -> A -> list B) (xs : list A) b :
  In b (flat_map (fun px => g (fst px) (snd px)) (combine (seq 0 (length xs)) xs)) <->
  exists p x, nth_error xs p = Some x /\ In b (g p x).
Proof.
  rewrite in_flat_map. split.
  - intros ([p x] & H & Hb). apply in_combine_seq in H as (_ & H). rewrite Nat.sub_0_r in H. eauto.
  - intros (p & x & H & Hb). exists (p, x). split; auto. apply in_combine_seq.
    rewrite Nat.sub_0_r. split; auto. lia.
Qed.

(** NoDup of a flat_map whose blocks are pairwise disjoint. *)
Lemma NoDup_flat_map {A B} (f : A -> list B) : forall xs,
  NoDup xs -> (forall x, In x xs -> NoDup (f x)) ->
  (forall x y b, In x xs -> In y xs -> In b (f x) -> In b (f y) -> x = y) ->
  NoDup (flat_map f xs).
Proof.
  induction xs as [|x xs IH]; intros ND Hf Hd; simpl; [constructor|].
  inversion ND as [|? ? N1 N2]; subst.
  assert (G : forall l1 l2 : list B, NoDup l1 -> NoDup l2 -> (forall b, In b l1 -> ~ In b l2) -> NoDup (l1 ++ l2)).
  { clear. induction l1 as [|a l1 IH]; simpl; auto. intros l2 H1 H2 Hd.
    inversion H1; subst. constructor.
    - rewrite in_app_iff. intros [?|?]; [tauto|]. apply (Hd a); auto.
    - apply IH; auto. }
  apply G.
  - apply Hf; left; auto.
  - apply IH; auto; intros; [apply Hf; right; auto|eapply Hd; eauto; right; auto].
  - intros b Hb Hin. apply in_flat_map in Hin as (y & Hy & Hby).
    assert (x = y) by (eapply Hd; eauto; [left; auto|right; auto]). subst. tauto.
Qed.

Lemma NoDup_app_intro {B} (l1 l2 : list B) :
  NoDup l1 -> NoDup l2 -> (forall b, In b l1 -> ~ In b l2) -> NoDup (l1 ++ l2).
Proof.
  induction l1 as [|a l1 IH]; simpl; auto. intros H1 H2 Hd.
  inversion H1; subst. constructor.
  - rewrite in_app_iff. intros [?|?]; [tauto|]. apply (Hd a); auto.
  - apply IH; auto.
Qed.

Lemma NoDup_list_prod {A B} (l : list A) (l' : list B) :
  NoDup l -> NoDup l' -> NoDup (list_prod l l').
Proof.
  intros H H'. rewrite list_prod_as_flat_map. apply NoDup_flat_map; auto.
  - intros x _. apply Injective_map_NoDup; auto. intros a b E. congruence.
  - intros x y b _ _ Hx Hy. apply in_map_iff in Hx as (a & <- & _), Hy as (c & E & _). congruence.
Qed.
