(** Lemmas on indexed reads and writes, for merging SWW files. *)
From Coq Require Import List Arith ZArith Lia Bool.
From Verif Require Import MergeModel.
Import ListNotations.

Lemma where_from_In {A} (f : A -> bool) l : forall i j, In j (where_from f l i) <->
  exists x, i <= j /\ nth_error l (j - i) = Some x /\ f x = true.
Proof.
  induction l as [|y l IH]; intros i j; cbn [where_from].
  - split; [intros []|]. intros (x & _ & H & _). destruct (j - i); discriminate.
  - assert (E : (exists x, S i <= j /\ nth_error l (j - S i) = Some x /\ f x = true) <->
      (exists x, i < j /\ nth_error (y :: l) (j - i) = Some x /\ f x = true)).
    { split; intros (x & H1 & H2 & H3); exists x; (split; [lia|split; [|exact H3]]);
        replace (j - i) with (S (j - S i)) in * by lia; exact H2. }
    destruct (f y) eqn:Fy; cbn [In]; rewrite ?IH, E; split.
    + intros [->|(x & H1 & H2)]; [|exists x; split; [lia|exact H2]].
      exists y. rewrite Nat.sub_diag. repeat split; auto.
    + intros (x & H1 & H2 & H3). destruct (Nat.eq_dec i j); [left; assumption|right]. exists x. split; [lia|split; assumption].
    + intros (x & H1 & H2). exists x. split; [lia|exact H2].
    + intros (x & H1 & H2 & H3). exists x. split; [|split; assumption].
      destruct (Nat.eq_dec i j) as [->|]; [|lia]. rewrite Nat.sub_diag in H2. injection H2 as <-. congruence.
Qed.
Lemma where_In {A} (f : A -> bool) l j : In j (where_ f l) <-> exists x, nth_error l j = Some x /\ f x = true.
Proof.
  unfold where_. rewrite where_from_In, Nat.sub_0_r. split; intros (x & H); exists x; [tauto|split; [lia|exact H]].
Qed.
Lemma where_from_NoDup {A} (f : A -> bool) l : forall i, NoDup (where_from f l i).
Proof.
  induction l as [|y l IH]; intros i; cbn [where_from]; [constructor|]. destruct (f y); [|apply IH].
  constructor; [|apply IH]. rewrite where_from_In. intros (x & H & _). lia.
Qed.
Lemma where_NoDup {A} (f : A -> bool) l : NoDup (where_ f l).
Proof. apply where_from_NoDup. Qed.
Lemma where_ext {A} (f g : A -> bool) l : (forall x, In x l -> f x = g x) -> where_ f l = where_ g l.
Proof.
  unfold where_. generalize 0. induction l as [|x l IH]; intros i H; [reflexivity|]. cbn [where_from].
  rewrite (H x (or_introl eq_refl)), (IH (S i)) by (intros; apply H; right; assumption). reflexivity.
Qed.

Lemma fancy_get_some {A} (a : list A) ids : (forall i, In i ids -> i < length a) ->
  exists v, fancy_get a ids = Some v /\ Forall2 (fun i x => nth_error a i = Some x) ids v.
Proof.
  unfold fancy_get. induction ids as [|i ids IH]; intros H; [exists []; split; [reflexivity|constructor]|].
  destruct (IH (fun j Hj => H j (or_intror Hj))) as (v & E & F). cbn [map sequence].
  destruct (nth_error a i) as [x|] eqn:X; [|apply nth_error_None in X; specialize (H i (or_introl eq_refl)); lia].
  rewrite E. exists (x :: v). split; [reflexivity|constructor; assumption].
Qed.
Lemma fancy_get_inv {A} (a : list A) ids v : fancy_get a ids = Some v -> Forall2 (fun i x => nth_error a i = Some x) ids v.
Proof.
  unfold fancy_get. revert v. induction ids as [|i ids IH]; intros v H; cbn [map sequence] in H.
  - injection H as <-. constructor.
  - destruct (nth_error a i) as [x|] eqn:X; [|discriminate].
    destruct (sequence (map (nth_error a) ids)) as [y|] eqn:Y; [|discriminate]. injection H as <-.
    constructor; [exact X|apply IH; reflexivity].
Qed.
Lemma fancy_get_range {A} (a : list A) ids v : fancy_get a ids = Some v -> forall i, In i ids -> i < length a.
Proof.
  intros H i Hi. apply fancy_get_inv in H. induction H as [|j x ids v Hj H IH]; [destruct Hi|].
  destruct Hi as [->|Hi]; [|apply IH, Hi]. apply nth_error_Some. congruence.
Qed.

Lemma set_nth_some {A} (a : list A) i v : i < length a -> exists a', set_nth a i v = Some a' /\ length a' = length a /\
  forall j, nth_error a' j = if j =? i then Some v else nth_error a j.
Proof.
  revert i. induction a as [|x a IH]; intros i H; [cbn in H; lia|]. destruct i as [|i]; cbn [set_nth].
  - exists (v :: a). split; [reflexivity|]. split; [reflexivity|]. intros [|j]; reflexivity.
  - destruct (IH i ltac:(cbn in H; lia)) as (a' & E & L & N). rewrite E. exists (x :: a'). split; [reflexivity|].
    split; [cbn; congruence|]. intros [|j]; [reflexivity|]. cbn. apply N.
Qed.

Lemma fancy_set_some {A} : forall idx (a : list A) vals, length idx = length vals -> (forall i, In i idx -> i < length a) ->
  exists a', fancy_set a idx vals = Some a' /\ length a' = length a /\
    forall j, (nth_error a' j = nth_error a j /\ ~ In j idx) \/
              (exists v, In (j, v) (combine idx vals) /\ nth_error a' j = Some v).
Proof.
  induction idx as [|i idx IH]; intros a vals L H; destruct vals as [|v vals]; try discriminate.
  - exists a. split; [reflexivity|]. split; [reflexivity|]. intros j. left. split; [reflexivity|intros []].
  - destruct (set_nth_some a i v (H i (or_introl eq_refl))) as (a1 & E1 & L1 & N1).
    destruct (IH a1 vals) as (a' & E & L' & N).
    + cbn in L. lia.
    + intros k Hk. rewrite L1. apply H. right. exact Hk.
    + cbn [fancy_set]. rewrite E1. exists a'. split; [exact E|]. split; [congruence|]. intros j.
      destruct (N j) as [[E2 Hj]|(w & Hw & E2)].
      * rewrite E2, N1. destruct (Nat.eqb_spec j i) as [->|Ne].
        -- right. exists v. split; [left; reflexivity|reflexivity].
        -- left. split; [reflexivity|]. intros [->|Hi]; [congruence|contradiction].
      * right. exists w. split; [right; exact Hw|exact E2].
Qed.

(** Reading at the first components and writing at the second components of a
    list of pairs. *)
Definition transfer {A B} (cast : A -> B) (P : list (nat * nat)) (row : list A) (out : list B) : option (list B) :=
  match fancy_get row (map fst P) with
  | Some vals => fancy_set out (map snd P) (map cast vals)
  | None => None
  end.

Definition writes {A B} (cast : A -> B) (P : list (nat * nat)) (row : list A) (j : nat) (v : B) : Prop :=
  exists l a, In (l, j) P /\ nth_error row l = Some a /\ v = cast a.

Lemma Forall2_combine_In {X Y Z} (R : X -> Y -> Prop) (l : list X) (m : list Y) (g : X -> Z) : Forall2 R l m ->
  forall z y, In (z, y) (combine (map g l) m) -> exists x, In x l /\ z = g x /\ R x y.
Proof.
  induction 1 as [|x y l m H HF IH]; intros z w Hi; [destruct Hi|]. cbn [map combine] in Hi. destruct Hi as [E|Hi].
  - injection E as <- <-. exists x. split; [left; reflexivity|]. split; [reflexivity|exact H].
  - destruct (IH z w Hi) as (x' & H1 & H2). exists x'. split; [right; exact H1|exact H2].
Qed.

Lemma transfer_spec {A B} (cast : A -> B) P (row : list A) (out : list B) :
  (forall l j, In (l, j) P -> l < length row /\ j < length out) ->
  exists out', transfer cast P row out = Some out' /\ length out' = length out /\
    forall j, (nth_error out' j = nth_error out j /\ (forall v, ~ writes cast P row j v)) \/
              (exists v, writes cast P row j v /\ nth_error out' j = Some v).
Proof.
  intros H. unfold transfer.
  destruct (fancy_get_some row (map fst P)) as (vals & E & F).
  { intros i Hi. apply in_map_iff in Hi as ([l j] & <- & Hi). apply (H l j Hi). }
  rewrite E.
  assert (LF : length (map fst P) = length vals) by (clear -F; induction F; cbn; congruence).
  destruct (fancy_set_some (map snd P) out (map cast vals)) as (out' & E' & L & N).
  { rewrite !map_length in *. exact LF. }
  { intros i Hi. apply in_map_iff in Hi as ([l j] & <- & Hi). apply (H l j Hi). }
  rewrite E'. exists out'. split; [reflexivity|]. split; [exact L|]. intros j.
  destruct (N j) as [[E1 Hj]|(v & Hv & E1)].
  - left. split; [exact E1|]. intros v (l & a & Hi & _). apply Hj. apply in_map_iff. exists (l, j). split; [reflexivity|exact Hi].
  - right. exists v. split; [|exact E1].
    assert (F2 : Forall2 (fun p x => nth_error row (fst p) = Some x) P vals).
    { clear -F. revert vals F. induction P as [|p P IH]; intros vals F; inversion F; subst; constructor; auto. }
    assert (F3 : Forall2 (fun p y => exists a, nth_error row (fst p) = Some a /\ y = cast a) P (map cast vals)).
    { clear -F2. induction F2; cbn [map]; constructor; eauto. }
    destruct (Forall2_combine_In _ _ _ snd F3 j v Hv) as ([l j'] & Hi & -> & a & Ha & ->).
    exists l, a. split; [exact Hi|]. split; [exact Ha|reflexivity].
Qed.

(** Folding over files. *)
Section Fold.
Context {F B : Type}.
Variable put : list B -> F -> option (list B).
Variable W : F -> nat -> B -> Prop.
Variable size : nat.

Definition put_ok (f : F) : Prop := forall out, length out = size ->
  exists out', put out f = Some out' /\ length out' = size /\
    forall j, (nth_error out' j = nth_error out j /\ (forall v, ~ W f j v)) \/ (exists v, W f j v /\ nth_error out' j = Some v).

Lemma fold_run files : (forall f, In f files -> put_ok f) -> forall out, length out = size ->
  exists out', ofold put files out = Some out' /\ length out' = size /\
    forall j, (nth_error out' j = nth_error out j /\ forall f v, In f files -> ~ W f j v) \/
              (exists pre f post v, files = pre ++ f :: post /\ W f j v /\ nth_error out' j = Some v /\
                                    forall f' v', In f' post -> ~ W f' j v').
Proof.
  induction files as [|f files IH]; intros H out L.
  - exists out. split; [reflexivity|]. split; [exact L|]. intros j. left. split; [reflexivity|]. intros f v [].
  - destruct (H f (or_introl eq_refl) out L) as (o1 & E1 & L1 & N1).
    destruct (IH (fun f' Hf => H f' (or_intror Hf)) o1 L1) as (o2 & E2 & L2 & N2).
    cbn [ofold]. rewrite E1. exists o2. split; [exact E2|]. split; [exact L2|]. intros j.
    destruct (N2 j) as [[E3 Hn]|(pre & f' & post & v & -> & Hw & E3 & Hp)].
    + destruct (N1 j) as [[E4 Hf]|(v & Hw & E4)].
      * left. split; [congruence|]. intros f' v [<-|Hi]; [apply Hf|apply Hn, Hi].
      * right. exists [], f, files, v. split; [reflexivity|]. split; [exact Hw|]. split; [congruence|exact Hn].
    + right. exists (f :: pre), f', post, v. split; [reflexivity|]. split; [exact Hw|]. split; [exact E3|exact Hp].
Qed.

(** The last file that writes an entry decides. *)
Lemma fold_last files out out' : (forall f, In f files -> put_ok f) -> length out = size ->
  (forall f j v v', In f files -> W f j v -> W f j v' -> v = v') ->
  ofold put files out = Some out' ->
  (forall pre f post j v, files = pre ++ f :: post -> W f j v -> (forall f' v', In f' post -> ~ W f' j v') ->
     nth_error out' j = Some v) /\
  (forall j, (forall f v, In f files -> ~ W f j v) -> nth_error out' j = nth_error out j).
Proof.
  intros H L Fn E. destruct (fold_run files H out L) as (o & E' & L' & N). rewrite E in E'. injection E' as <-. split.
  - intros pre f post j v Ef Hw Hp. destruct (N j) as [[_ Hn]|(pre' & f' & post' & v' & Ef' & Hw' & E3 & Hp')].
    + exfalso. apply (Hn f v); [rewrite Ef; apply in_app_iff; right; left; reflexivity|exact Hw].
    + assert (Same : pre = pre' /\ f = f').
      { rewrite Ef in Ef'. clear -Ef' Hw Hw' Hp Hp'. revert pre' Ef'. induction pre as [|x pre IH]; intros pre' E.
        - destruct pre' as [|y pre']; cbn in E; injection E as E1 E2; [split; [reflexivity|exact E1]|].
          exfalso. apply (Hp f' v'); [rewrite E2; apply in_app_iff; right; left; reflexivity|exact Hw'].
        - destruct pre' as [|y pre']; cbn in E; injection E as E1 E2.
          + exfalso. apply (Hp' f v); [rewrite <- E2; apply in_app_iff; right; left; reflexivity|exact Hw].
          + destruct (IH pre' E2) as [-> ->]. split; [congruence|reflexivity]. }
      destruct Same as [_ <-]. rewrite E3. f_equal. eapply (Fn f); [|exact Hw'|exact Hw].
      rewrite Ef. apply in_app_iff. right. left. reflexivity.
  - intros j Hn. destruct (N j) as [[E1 _]|(pre & f & post & v & -> & Hw & _)]; [exact E1|].
    exfalso. apply (Hn f v); [apply in_app_iff; right; left; reflexivity|exact Hw].
Qed.

(** If the writers of an entry agree, that is its value. *)
Lemma fold_agree files out out' : (forall f, In f files -> put_ok f) -> length out = size ->
  ofold put files out = Some out' ->
  forall j v, (exists f, In f files /\ W f j v) -> (forall f v', In f files -> W f j v' -> v' = v) ->
  nth_error out' j = Some v.
Proof.
  intros H L E j v (f & Hf & Hw) Ag. destruct (fold_run files H out L) as (o & E' & L' & N). rewrite E in E'. injection E' as <-.
  destruct (N j) as [[_ Hn]|(pre & f' & post & v' & -> & Hw' & E3 & _)].
  - exfalso. exact (Hn f v Hf Hw).
  - rewrite E3. f_equal. apply (Ag f'); [apply in_app_iff; right; left; reflexivity|exact Hw'].
Qed.
End Fold.

(** num.unique *)
Lemma ninsert_In x l y : In y (ninsert x l) <-> y = x \/ In y l.
Proof.
  induction l as [|z l IH]; cbn [ninsert]; [simpl; intuition|].
  destruct (Nat.ltb_spec x z); [simpl; intuition|]. destruct (Nat.eqb_spec x z); simpl; [intuition congruence|].
  rewrite IH. intuition.
Qed.
Lemma nunique_In l y : In y (nunique l) <-> In y l.
Proof. induction l as [|x l IH]; [reflexivity|]. cbn [nunique fold_right]. rewrite ninsert_In. fold (nunique l). rewrite IH. simpl. intuition. Qed.

Lemma map_fst_combine {X Y} (l : list X) (m : list Y) : length l = length m -> map fst (combine l m) = l.
Proof. revert m. induction l as [|x l IH]; intros [|y m] H; try discriminate; [reflexivity|]. cbn. f_equal. apply IH. cbn in H. lia. Qed.
Lemma map_snd_combine {X Y} (l : list X) (m : list Y) : length l = length m -> map snd (combine l m) = m.
Proof. revert m. induction l as [|x l IH]; intros [|y m] H; try discriminate; [reflexivity|]. cbn. f_equal. apply IH. cbn in H. lia. Qed.
Lemma Forall2_combine {X Y} (R : X -> Y -> Prop) l m : Forall2 R l m ->
  length l = length m /\ forall x y, In (x, y) (combine l m) -> In x l /\ R x y.
Proof.
  induction 1 as [|x y l m H HF [IL IH]]; [split; [reflexivity|intros x y []]|]. split; [cbn; congruence|].
  intros x' y' Hi. cbn [combine] in Hi. destruct Hi as [E|Hi].
  - injection E as <- <-. split; [left; reflexivity|exact H].
  - destruct (IH x' y' Hi). split; [right; assumption|assumption].
Qed.
Lemma Forall2_combine_back {X Y} (R : X -> Y -> Prop) l m : Forall2 R l m ->
  (forall x y y', R x y -> R x y' -> y = y') -> forall x y, In x l -> R x y -> In (x, y) (combine l m).
Proof.
  intros HF Fn. induction HF as [|x y l m H HF IH]; intros x' y' Hi Hr; [destruct Hi|]. cbn [combine].
  destruct Hi as [->|Hi]; [left; f_equal; eapply Fn; eassumption|right; apply IH; assumption].
Qed.
