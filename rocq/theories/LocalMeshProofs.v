(** Lemmas about [LocalMeshModel]. *)
From Coq Require Import List ZArith Arith Lia Bool Permutation Sorted.
From Verif Require Import NeighbourModel NeighbourProofs NeighbourProps DistributeModel DistributeProofs LocalMeshModel.
Import ListNotations.

(** * Arrays *)

Lemma pyidx_nat len k : k < len -> pyidx len (Z.of_nat k) = Some k.
Proof.
  intros H. unfold pyidx. destruct (Z.leb_spec 0 (Z.of_nat k)); [|lia].
  destruct (Z.ltb_spec (Z.of_nat k) (Z.of_nat len)); [|lia]. rewrite Nat2Z.id. reflexivity.
Qed.
Lemma zget_nat {A} (a : list A) k : k < length a -> zget a (Z.of_nat k) = nth_error a k.
Proof. intros H. unfold zget. rewrite pyidx_nat by exact H. reflexivity. Qed.

Lemma take_spec {A} (a : list A) (ids : list Z) (d : A) :
  (forall i, In i ids -> (0 <= i < Z.of_nat (length a))%Z) ->
  take a ids = Some (map (fun i => nth (Z.to_nat i) a d) ids).
Proof.
  intros H. unfold take. apply osequence_map. intros i Hi. specialize (H i Hi).
  replace i with (Z.of_nat (Z.to_nat i)) at 1 by lia. rewrite zget_nat by lia.
  apply nth_error_nth'. lia.
Qed.
Lemma take_nat {A} (a : list A) (ids : list nat) (d : A) :
  (forall i, In i ids -> i < length a) ->
  take a (map Z.of_nat ids) = Some (map (fun i => nth i a d) ids).
Proof.
  intros H. rewrite (take_spec a _ d).
  - rewrite map_map. f_equal. apply map_ext. intros i. rewrite Nat2Z.id. reflexivity.
  - intros i Hi. apply in_map_iff in Hi as (k & <- & Hk). specialize (H k Hk). lia.
Qed.
Lemma nth_firstn_lt {A} (d : A) : forall n (l : list A) i, i < n -> nth i (firstn n l) d = nth i l d.
Proof. induction n as [|n IH]; intros [|x l] [|i] H; cbn; try reflexivity; try lia. apply IH. lia. Qed.
Lemma nth_skipn_add {A} (d : A) : forall n (l : list A) i, nth i (skipn n l) d = nth (n + i) l d.
Proof. induction n as [|n IH]; intros [|x l] i; cbn; try reflexivity. - destruct i; reflexivity. - apply IH. Qed.
Lemma slice_arange {A} (a : list A) (lo hi : Z) (d : A) : (0 <= lo)%Z -> (hi <= Z.of_nat (length a))%Z ->
  slice a lo hi = map (fun i => nth (Z.to_nat i) a d) (arange lo hi).
Proof.
  intros H0 H1. unfold slice. apply (nth_ext _ _ d d).
  - rewrite firstn_length, skipn_length, map_length, arange_length. lia.
  - intros n Hn. rewrite firstn_length, skipn_length in Hn.
    rewrite nth_firstn_lt by lia.
    rewrite nth_skipn_add.
    rewrite (nth_indep (map _ _) d (nth (Z.to_nat 0) a d)) by (rewrite map_length, arange_length; lia).
    rewrite (map_nth (fun i => nth (Z.to_nat i) a d)).
    erewrite (nth_error_nth (arange lo hi)) by (apply arange_nth; lia).
    f_equal. lia.
Qed.

(** * Dictionaries *)

Lemma lookup_dset {V} (d : list ((nat * nat) * V)) k v q :
  lookup (dset key_eqb d k v) q = if key_eqb k q then Some v else lookup d q.
Proof.
  induction d as [|[k' v'] d IH]; cbn [dset lookup]; [reflexivity|].
  destruct (key_eqb_spec k' k) as [->|N]; cbn [lookup].
  - destruct (key_eqb k q); reflexivity.
  - rewrite IH. destruct (key_eqb_spec k' q) as [->|]; [|reflexivity].
    destruct (key_eqb_spec k q); [congruence|reflexivity].
Qed.
Lemma dset_keys {K V} (eqb : K -> K -> bool) (Heq : forall a b, eqb a b = true <-> a = b) (d : list (K * V)) k v :
  (In k (map fst d) /\ map fst (dset eqb d k v) = map fst d) \/
  (~ In k (map fst d) /\ dset eqb d k v = d ++ [(k, v)]).
Proof.
  induction d as [|[k' v'] d IH]; cbn [dset map fst]; [right; split; [simpl; tauto|reflexivity]|].
  destruct (eqb k' k) eqn:E.
  - left. apply Heq in E. split; [left; exact E|reflexivity].
  - assert (N : k' <> k) by (intros ->; assert (eqb k k = true) by (apply Heq; reflexivity); congruence).
    destruct IH as [[I M]|[I M]].
    + left. split; [right; exact I|]. cbn [map fst]. rewrite M. reflexivity.
    + right. split; [intros [X|X]; [congruence|exact (I X)]|]. rewrite M. reflexivity.
Qed.
Lemma key_eqb_iff a b : key_eqb a b = true <-> a = b.
Proof. destruct (key_eqb_spec a b); split; congruence. Qed.
Lemma zkey_eqb_iff a b : zkey_eqb a b = true <-> a = b.
Proof.
  destruct a as [a1 a2], b as [b1 b2]. unfold zkey_eqb. cbn [fst snd]. rewrite andb_true_iff, Z.eqb_eq, Nat.eqb_eq.
  split; [intros [-> ->]; reflexivity|intros E; injection E; auto].
Qed.
Lemma dset_In_keys {K V} (eqb : K -> K -> bool) (Heq : forall a b, eqb a b = true <-> a = b) (d : list (K * V)) k v q :
  In q (map fst (dset eqb d k v)) <-> q = k \/ In q (map fst d).
Proof.
  destruct (dset_keys eqb Heq d k v) as [[I M]|[I M]]; rewrite M.
  - split; [auto|]. intros [->|]; assumption.
  - rewrite map_app, in_app_iff. cbn. intuition.
Qed.
Lemma dset_NoDup {K V} (eqb : K -> K -> bool) (Heq : forall a b, eqb a b = true <-> a = b) (d : list (K * V)) k v :
  NoDup (map fst d) -> NoDup (map fst (dset eqb d k v)).
Proof.
  intros H. destruct (dset_keys eqb Heq d k v) as [[I M]|[I M]]; rewrite M; [exact H|].
  rewrite map_app. apply NoDup_snoc; assumption.
Qed.
(** Assigning distinct new keys appends. *)
Lemma dset_fold {K V} (eqb : K -> K -> bool) (Heq : forall a b, eqb a b = true <-> a = b) : forall (e d : list (K * V)),
  NoDup (map fst (d ++ e)) -> fold_left (fun d x => dset eqb d (fst x) (snd x)) e d = d ++ e.
Proof.
  induction e as [|[k v] e IH]; intros d H; cbn [fold_left fst snd]; [rewrite app_nil_r; reflexivity|].
  rewrite map_app in H. cbn [map fst] in H. pose proof (NoDup_remove _ _ _ H) as [H1 H2].
  destruct (dset_keys eqb Heq d k v) as [[I M]|[I M]]; [exfalso; apply H2, in_or_app; left; exact I|].
  rewrite M, IH; rewrite <- app_assoc; [reflexivity|]. rewrite map_app. exact H.
Qed.

(** * Positions *)

(** Functions built by overriding entries one after the other. *)
Lemma override_spec {K V} (eqb : K -> K -> bool) (Heq : forall a b, eqb a b = true <-> a = b) (E : list (K * V)) :
  forall (m : K -> V) x,
  (In x (map fst E) -> exists v, In (x, v) E /\
     fold_left (fun m e => fun y => if eqb y (fst e) then snd e else m y) E m x = v) /\
  (~ In x (map fst E) -> fold_left (fun m e => fun y => if eqb y (fst e) then snd e else m y) E m x = m x).
Proof.
  induction E as [|[k v] E IH]; intros m x; cbn [fold_left map fst snd].
  - split; [intros []|reflexivity].
  - set (m' := fun y => if eqb y k then v else m y). destruct (IH m' x) as [A B]. split.
    + intros H.
      assert (D : In x (map fst E) \/ ~ In x (map fst E)).
      { clear - Heq. induction E as [|e E IH]; [right; simpl; tauto|]. cbn [map].
        destruct (eqb (fst e) x) eqn:X; [left; left; apply Heq; exact X|].
        destruct IH as [I|I]; [left; right; exact I|]. right. intros [Y|Y]; [|exact (I Y)].
        apply Heq in Y. congruence. }
      destruct D as [I|I].
      * destruct (A I) as (u & U1 & U2). exists u. split; [right; exact U1|exact U2].
      * exists v. destruct H as [<-|H]; [|contradiction]. split; [left; reflexivity|].
        rewrite (B I). unfold m'. rewrite (proj2 (Heq k k) eq_refl). reflexivity.
    + intros H. rewrite B by (intros I; apply H; right; exact I). unfold m'.
      destruct (eqb x k) eqn:X; [|reflexivity]. exfalso. apply H. left. symmetry. apply Heq. exact X.
Qed.

(** [combine (seq 0 n) l] pairs every entry with its position. *)
Lemma combine_seq_In {A} (l : list A) : forall s i x,
  In (i, x) (combine (seq s (length l)) l) <-> s <= i /\ nth_error l (i - s) = Some x.
Proof.
  induction l as [|y l IH]; intros s i x; cbn [length seq combine].
  - split; [intros []|]. intros [_ H]. destruct (i - s); discriminate.
  - cbn [In]. rewrite IH. split.
    + intros [E|[H1 H2]].
      * injection E as <- <-. split; [lia|]. rewrite Nat.sub_diag. reflexivity.
      * split; [lia|]. replace (i - s) with (S (i - S s)) by lia. exact H2.
    + intros [H1 H2]. destruct (Nat.eq_dec i s) as [->|N].
      * left. rewrite Nat.sub_diag in H2. injection H2 as ->. reflexivity.
      * right. split; [lia|]. replace (i - s) with (S (i - S s)) in H2 by lia. exact H2.
Qed.
Lemma combine_seq_keys {A} (l : list A) s x : In x (map snd (combine (seq s (length l)) l)) <-> In x l.
Proof.
  split.
  - intros H. apply in_map_iff in H as ([i y] & <- & H). apply combine_seq_In in H as [_ H].
    eapply nth_error_In. exact H.
  - intros H. apply In_nth_error in H as [n H]. apply in_map_iff. exists (s + n, x). split; [reflexivity|].
    apply combine_seq_In. split; [lia|]. replace (s + n - s) with n by lia. exact H.
Qed.

Lemma override_map {K V W} (eqb : K -> K -> bool) (f : W -> K * V) (E : list W) : forall m x,
  fold_left (fun m e => fun y => if eqb y (fst (f e)) then snd (f e) else m y) E m x =
  fold_left (fun m e => fun y => if eqb y (fst e) then snd e else m y) (map f E) m x.
Proof. induction E as [|e E IH]; intros m x; cbn [fold_left map]; [reflexivity|]. apply IH. Qed.

(** node_map sends an id to its position, and everything else to -1. *)
Lemma node_map_in ids i x : NoDup ids -> nth_error ids i = Some x -> node_map ids x = Z.of_nat i.
Proof.
  intros ND H. unfold node_map.
  etransitivity; [apply (override_map Z.eqb (fun ig : nat * Z => (snd ig, Z.of_nat (fst ig))))|].
  destruct (override_spec Z.eqb Z.eqb_eq (map (fun ig : nat * Z => (snd ig, Z.of_nat (fst ig))) (combine (seq 0 (length ids)) ids))
              (fun _ => (-1)%Z) x) as [A _].
  destruct A as (v & Hv & ->).
  { rewrite map_map. cbn [fst]. apply combine_seq_keys. eapply nth_error_In. exact H. }
  apply in_map_iff in Hv as ([j y] & E & Hj). cbn [fst snd] in E. injection E as -> <-.
  apply combine_seq_In in Hj as [_ Hj]. rewrite Nat.sub_0_r in Hj. f_equal.
  apply (proj1 (NoDup_nth_error ids) ND).
  - apply nth_error_Some. congruence.
  - congruence.
Qed.
Lemma node_map_out ids x : ~ In x ids -> node_map ids x = (-1)%Z.
Proof.
  intros H. unfold node_map.
  etransitivity; [apply (override_map Z.eqb (fun ig : nat * Z => (snd ig, Z.of_nat (fst ig))))|].
  destruct (override_spec Z.eqb Z.eqb_eq (map (fun ig : nat * Z => (snd ig, Z.of_nat (fst ig))) (combine (seq 0 (length ids)) ids))
              (fun _ => (-1)%Z) x) as [_ B].
  apply B. rewrite map_map. cbn [fst]. rewrite combine_seq_keys. exact H.
Qed.
Lemma fold_max_le l : forall a x, In x (a :: l) -> (x <= fold_left Z.max l a)%Z.
Proof.
  induction l as [|y l IH]; intros a x H; cbn [fold_left].
  - destruct H as [->|[]]. lia.
  - assert (M : (Z.max a y <= fold_left Z.max l (Z.max a y))%Z) by (apply IH; left; reflexivity).
    destruct H as [->|[->|H]]; [lia|lia|]. apply IH. right. exact H.
Qed.
Lemma node_map_len_gt ids x : In x ids -> (x < node_map_len ids)%Z.
Proof. intros H. unfold node_map_len. pose proof (fold_max_le ids 0%Z x (or_intror H)). lia. Qed.

(** extract_l2g_map inverts a map to positions. *)
Lemma set_nth_length {A} (v : A) : forall i l, length (set_nth i v l) = length l.
Proof. induction i as [|i IH]; intros [|x l]; cbn; try reflexivity. rewrite IH. reflexivity. Qed.
Lemma set_nth_nth {A} (v : A) : forall i l j, nth_error (set_nth i v l) j =
  if Nat.eqb i j then (if Nat.ltb j (length l) then Some v else None) else nth_error l j.
Proof.
  induction i as [|i IH]; intros [|x l] [|j]; try reflexivity.
  - cbn. destruct (i =? j); reflexivity.
  - cbn [set_nth nth_error Nat.eqb length]. rewrite IH. reflexivity.
Qed.
Lemma extract_l2g_spec len m (U : list Z) : NoDup U ->
  (forall i x, nth_error U i = Some x -> (0 <= x < len)%Z /\ m x = Z.of_nat i) ->
  (forall x, ~ In x U -> m x = (-1)%Z) ->
  extract_l2g len m = Some U.
Proof.
  intros ND HU Hout. unfold extract_l2g.
  set (g := filter (fun x => (-1 <? m x)%Z) (arange 0 len)).
  assert (Pg : Permutation g U).
  { apply NoDup_Permutation.
    - apply NoDup_filter, sorted_NoDup, arange_sorted.
    - exact ND.
    - intros x. unfold g. rewrite filter_In, arange_In, Z.ltb_lt. split.
      + intros [_ H]. destruct (in_dec Z.eq_dec x U) as [I|I]; [exact I|]. rewrite (Hout x I) in H. lia.
      + intros H. apply In_nth_error in H as [i H]. destruct (HU i x H) as [A B]. rewrite B. lia. }
  assert (Step : forall gs l, length l = length U -> (forall x, In x gs -> In x U) ->
    exists l', ofold (fun l2g g => match pyidx (length l2g) (m g) with
                      | Some k => Some (set_nth k g l2g) | None => None end) gs l = Some l' /\
      length l' = length U /\
      (forall j x, nth_error U j = Some x -> In x gs \/ nth_error l j = Some x -> nth_error l' j = Some x)).
  { induction gs as [|x gs IH]; intros l Hl Hin; cbn [ofold].
    - exists l. split; [reflexivity|]. split; [exact Hl|]. intros j x _ [[]|H]; exact H.
    - destruct (In_nth_error U x (Hin x (or_introl eq_refl))) as [i Hi].
      assert (Li : i < length U) by (apply nth_error_Some; congruence).
      destruct (HU i x Hi) as [_ M]. rewrite M, Hl, pyidx_nat by exact Li.
      destruct (IH (set_nth i x l)) as (l' & E & L & V).
      { rewrite set_nth_length. exact Hl. }
      { intros y Hy. apply Hin. right. exact Hy. }
      exists l'. split; [exact E|]. split; [exact L|]. intros j y Hy Hor. apply V; [exact Hy|].
      destruct Hor as [[->|H]|H]; [| left; exact H |].
      + right. rewrite set_nth_nth. assert (j = i).
        { apply (proj1 (NoDup_nth_error U) ND); [apply nth_error_Some; congruence|congruence]. }
        subst j. rewrite Nat.eqb_refl. rewrite Hl. destruct (Nat.ltb_spec i (length U)); [reflexivity|lia].
      + right. rewrite set_nth_nth. destruct (Nat.eqb_spec i j) as [->|]; [|exact H].
        rewrite Hl. destruct (Nat.ltb_spec j (length U)); [congruence|lia]. }
  destruct (Step g (repeat 0%Z (length g))) as (l' & E & L & V).
  { rewrite repeat_length. apply Permutation_length, Pg. }
  { intros x Hx. eapply Permutation_in; [exact Pg|exact Hx]. }
  rewrite E. f_equal. apply nth_error_ext. intros i. destruct (nth_error U i) as [x|] eqn:Hx.
  - apply V; [exact Hx|]. left. eapply Permutation_in; [symmetry; exact Pg|]. eapply nth_error_In; exact Hx.
  - apply nth_error_None in Hx. apply nth_error_None. lia.
Qed.
