(** Proofs about the sparse matrices. *)
From Coq Require Import Reals List Arith Bool Permutation Sorting.Sorted Lia Lra.
From Verif Require Import RealLib ArrayLib InvertedProofs SparseModel.
Import ListNotations.

Lemma key_eqb_spec a b : reflect (a = b) (key_eqb a b).
Proof.
  destruct a as [a1 a2], b as [b1 b2]. unfold key_eqb; cbn.
  destruct (Nat.eqb_spec a1 b1), (Nat.eqb_spec a2 b2); cbn; constructor; congruence.
Qed.

Lemma lookup_assign d k x k' : lookup (assign d k x) k' = if key_eqb k k' then Some x else lookup d k'.
Proof.
  induction d as [|(k0, y) d IH]; cbn; [reflexivity|].
  destruct (key_eqb_spec k0 k) as [->|]; cbn.
  - destruct (key_eqb_spec k k'); reflexivity.
  - rewrite IH. destruct (key_eqb_spec k0 k'), (key_eqb_spec k k'); congruence.
Qed.

Definition wf_dict (d : dict) : Prop := NoDup (map fst d).

Lemma lookup_None d k : lookup d k = None <-> ~ In k (map fst d).
Proof.
  induction d as [|(k0, y) d IH]; cbn; [intuition|]. destruct (key_eqb_spec k0 k) as [->|N].
  - split; [discriminate|]. intros H. exfalso; apply H; auto.
  - rewrite IH. intuition congruence.
Qed.

Lemma lookup_In d k x : wf_dict d -> (lookup d k = Some x <-> In (k, x) d).
Proof.
  unfold wf_dict. induction d as [|(k0, y) d IH]; cbn; [intuition discriminate|]. intros H. inversion H as [|? ? Hn Hd]; subst.
  destruct (key_eqb_spec k0 k) as [->|N].
  - split; [intros E; injection E as ->; auto|]. intros [E|E]; [injection E as ->; auto|].
    exfalso. apply Hn. apply (in_map fst) in E. exact E.
  - rewrite IH by auto. split; auto. intros [E|E]; [congruence|auto].
Qed.

Lemma assign_keys d k x k' : In k' (map fst (assign d k x)) <-> k' = k \/ In k' (map fst d).
Proof.
  induction d as [|(k0, y) d IH]; cbn; [intuition|]. destruct (key_eqb_spec k0 k) as [->|N]; cbn; [intuition|].
  rewrite IH. intuition.
Qed.

Lemma assign_wf d k x : wf_dict d -> wf_dict (assign d k x).
Proof.
  unfold wf_dict. induction d as [|(k0, y) d IH]; cbn; intros H; [repeat constructor; auto|].
  inversion H as [|? ? Hn Hd]; subst. destruct (key_eqb_spec k0 k) as [->|N]; cbn; constructor; auto.
  rewrite assign_keys. intuition.
Qed.

Lemma remove_keys d k k' : wf_dict d -> (In k' (map fst (remove d k)) <-> k' <> k /\ In k' (map fst d)).
Proof.
  unfold wf_dict. induction d as [|(k0, y) d IH]; cbn; intros H; [intuition|].
  inversion H as [|? ? Hn Hd]; subst. destruct (key_eqb_spec k0 k) as [->|N]; cbn.
  - split.
    + intros Hk. split; auto. intros E. subst k'. auto.
    + intros (Hk & [E|E]); auto. congruence.
  - rewrite IH by auto. intuition congruence.
Qed.

Lemma remove_wf d k : wf_dict d -> wf_dict (remove d k).
Proof.
  unfold wf_dict. induction d as [|(k0, y) d IH]; cbn; intros H; auto.
  inversion H as [|? ? Hn Hd]; subst. destruct (key_eqb_spec k0 k) as [->|N]; cbn; auto. constructor; auto.
  rewrite remove_keys by auto. intuition.
Qed.

Lemma lookup_remove d k k' : wf_dict d -> lookup (remove d k) k' = if key_eqb k k' then None else lookup d k'.
Proof.
  unfold wf_dict. induction d as [|(k0, y) d IH]; cbn; intros H; [destruct (key_eqb k k'); auto|].
  inversion H as [|? ? Hn Hd]; subst. destruct (key_eqb_spec k0 k) as [->|N]; cbn.
  - destruct (key_eqb_spec k k') as [E|]; auto. subst k'. apply lookup_None. auto.
  - rewrite IH by auto. destruct (key_eqb_spec k0 k'), (key_eqb_spec k k'); congruence.
Qed.

(** * Sorting *)

Definition row (it : key * R) : nat := fst (fst it).

Lemma insert_perm x l : Permutation (x :: l) (insert_item x l).
Proof.
  induction l as [|y l IH]; cbn; auto. destruct (key_leb _ _); auto.
  etransitivity; [apply perm_swap|]. constructor. exact IH.
Qed.

Lemma sort_perm l : Permutation l (sort_items l).
Proof. induction l as [|x l IH]; cbn; auto. etransitivity; [|apply insert_perm]. constructor. exact IH. Qed.

Lemma key_leb_row a b : if key_leb (fst a) (fst b) then row a <= row b else row b <= row a.
Proof.
  unfold key_leb, row. destruct (Nat.ltb_spec (fst (fst a)) (fst (fst b))); cbn; [lia|].
  destruct (Nat.eqb_spec (fst (fst a)) (fst (fst b))); cbn; [destruct (_ <=? _); lia|lia].
Qed.

Notation row_sorted := (StronglySorted (fun a b => row a <= row b)).

Lemma insert_sorted x l : row_sorted l -> row_sorted (insert_item x l).
Proof.
  induction 1 as [|y l S IH F]; cbn; [repeat constructor|].
  pose proof (key_leb_row x y) as K. destruct (key_leb (fst x) (fst y)).
  - constructor; [constructor; auto|]. constructor; auto. rewrite Forall_forall in *. intros z Hz. specialize (F z Hz). lia.
  - constructor; auto. rewrite Forall_forall in *. intros z Hz.
    apply (Permutation_in _ (Permutation_sym (insert_perm x l))) in Hz as [<-|Hz]; auto.
Qed.

Lemma sort_sorted l : row_sorted (sort_items l).
Proof. induction l; cbn; [constructor|apply insert_sorted; auto]. Qed.

Lemma rows_split m l : row_sorted l ->
  l = filter (fun i => row i <? m) l ++ filter (fun i => row i =? m) l ++ filter (fun i => m <? row i) l.
Proof.
  induction 1 as [|i p S IH F]; [reflexivity|]. rewrite Forall_forall in F. cbn [filter].
  destruct (Nat.ltb_spec (row i) m), (Nat.eqb_spec (row i) m), (Nat.ltb_spec m (row i)); try lia.
  - cbn. f_equal. exact IH.
  - rewrite (filter_none (fun i => row i <? m)) in *.
    + cbn in *. f_equal. exact IH.
    + intros x Hx. apply Nat.ltb_ge. specialize (F x Hx). lia.
    + intros x Hx. apply Nat.ltb_ge. specialize (F x Hx). lia.
  - rewrite (filter_none (fun i => row i <? m)), (filter_none (fun i => row i =? m)) in *;
      try (intros x Hx; specialize (F x Hx); first [apply Nat.ltb_ge | apply Nat.eqb_neq]; lia).
    cbn in *. f_equal. exact IH.
Qed.

(** * Row pointers *)

Lemma fill_rows_spec : forall items k cur rp, row_sorted items ->
  (forall r it, cur = Some r -> In it items -> r <= row it) ->
  let '(cur', rp') := fill_rows items k cur rp in
  (forall i, cur <> Some i -> (exists it, In it items /\ row it = i) ->
     rp' i = k + length (filter (fun it => row it <? i) items)) /\
  (forall i, cur = Some i \/ (forall it, In it items -> row it <> i) -> rp' i = rp i) /\
  (items = [] -> cur' = cur) /\
  (items <> [] -> exists r, cur' = Some r /\ (exists it, In it items /\ row it = r) /\ forall it, In it items -> row it <= r).
Proof.
  induction items as [|((i, j), x) items IH]; intros k cur rp Ss Hc.
  - cbn. split; [intros i _ (it & [] & _)|]. repeat split; auto. congruence.
  - inversion Ss as [|? ? S' F]; subst. rewrite Forall_forall in F. cbn [fill_rows].
    change (row ((i, j), x)) with i in F.
    assert (HI : (cur = Some i) + (cur <> Some i)) by (destruct cur as [r|]; [destruct (Nat.eq_dec r i); [left|right]|right]; congruence).
    assert (Eb : (match cur with Some r => i =? r | None => false end) = if HI then true else false).
    { destruct HI as [->|n]; [apply Nat.eqb_refl|]. destruct cur as [r|]; auto. apply Nat.eqb_neq. congruence. }
    rewrite Eb. clear Eb.
    assert (G : forall cur1 rp1, cur1 = Some i -> (forall i', i' <> i -> rp1 i' = rp i') ->
       let '(cur', rp') := fill_rows items (S k) cur1 rp1 in
       (forall i', i' <> i -> (exists it, In it items /\ row it = i') ->
          rp' i' = S k + length (filter (fun it => row it <? i') items)) /\
       (forall i', i' <> i -> (forall it, In it items -> row it <> i') -> rp' i' = rp i') /\ rp' i = rp1 i /\
       exists r, cur' = Some r /\ (exists it, In it (((i, j), x) :: items) /\ row it = r) /\
         forall it, In it (((i, j), x) :: items) -> row it <= r).
    { intros cur1 rp1 Ecur Hrp. specialize (IH (S k) cur1 rp1 S').
      destruct (fill_rows items (S k) cur1 rp1) as [cur' rp'].
      destruct IH as (I1 & I2 & I3 & I4). { intros r it E Hin. rewrite Ecur in E. injection E as <-. apply F, Hin. }
      split; [intros i' Hi' Hex; apply I1; auto; congruence|].
      split; [intros i' Hi' Hno; rewrite I2 by auto; apply Hrp, Hi'|].
      split; [apply I2; auto|].
      destruct items as [|it0 items'].
      - exists i. rewrite I3 by auto. split; auto. split; [exists ((i, j), x); split; [left; auto|reflexivity]|].
        intros it [<-|[]]. reflexivity.
      - destruct I4 as (r & E & (it & Hin & Hr) & Hmax); [discriminate|]. exists r. split; auto. split.
        + exists it. split; [right; auto|auto].
        + intros it' [<-|Hin']; [|apply Hmax, Hin']. change (row ((i, j), x)) with i. rewrite <- Hr. apply F, Hin. }
    assert (Fe : forall i', i' <> i -> i < i' -> length (filter (fun it => row it <? i') (((i, j), x) :: items)) =
                 S (length (filter (fun it => row it <? i') items))).
    { intros i' _ Hlt. cbn [filter]. change (row ((i, j), x)) with i. destruct (Nat.ltb_spec i i'); [reflexivity|lia]. }
    destruct HI as [Ecur|Ncur].
    + specialize (G cur rp Ecur (fun _ _ => eq_refl)). destruct (fill_rows items (S k) cur rp) as [cur' rp'].
      destruct G as (G1 & G2 & G3 & G4). split; [|split; [|split]].
      * intros i' Hi' (it & Hin & Hr). assert (i' <> i) by congruence. destruct Hin as [<-|Hin]; [contradiction H; auto|].
        rewrite G1 by eauto. rewrite Fe; auto; [lia|]. specialize (F it Hin). lia.
      * intros i' [E|Hno].
        -- assert (i' = i) by congruence. subst. exact G3.
        -- apply G2; [intros ->; apply (Hno ((i, j), x)); [left|]; auto|]. intros it Hin. apply Hno. right; auto.
      * discriminate.
      * intros _. exact G4.
    + specialize (G (Some i) (upd rp i k) eq_refl (fun i' Hi' => upd_other rp i i' k Hi')).
      destruct (fill_rows items (S k) (Some i) (upd rp i k)) as [cur' rp'].
      destruct G as (G1 & G2 & G3 & G4). split; [|split; [|split]].
      * intros i' Hi' (it & Hin & Hr). destruct (Nat.eq_dec i' i) as [->|Hne].
        -- rewrite G3, upd_same. rewrite filter_none; [cbn; lia|]. intros it' Hin'. apply Nat.ltb_ge.
           destruct Hin' as [<-|Hin']; [reflexivity|apply F, Hin'].
        -- destruct Hin as [<-|Hin]; [cbn in Hr; congruence|].
           rewrite G1 by eauto. rewrite Fe; auto; [lia|]. specialize (F it Hin). lia.
      * intros i' [E|Hno].
        -- assert (Hne : i' <> i) by congruence. apply G2; auto. intros it Hin Hr.
           specialize (Hc i' ((i, j), x) E (or_introl eq_refl)). change (row ((i, j), x)) with i in Hc.
           specialize (F it Hin). lia.
        -- apply G2; [intros ->; apply (Hno ((i, j), x)); [left|]; auto|]. intros it Hin. apply Hno. right; auto.
      * discriminate.
      * intros _. exact G4.
Qed.

Lemma fill_tail : forall n s (rp : nat -> nat) v i, fold_left (fun rp row => upd rp row v) (seq s n) rp i =
  if (s <=? i) && (i <? s + n) then v else rp i.
Proof.
  induction n as [|n IH]; intros s rp v i; cbn [seq fold_left].
  - destruct (Nat.leb_spec s i), (Nat.ltb_spec i (s + 0)); cbn; auto; lia.
  - rewrite IH. destruct (Nat.eq_dec i s) as [->|Hne].
    + rewrite upd_same. destruct (Nat.leb_spec (S s) s), (Nat.leb_spec s s), (Nat.ltb_spec s (s + S n)); cbn; auto; lia.
    + rewrite upd_other by auto.
      destruct (Nat.leb_spec (S s) i), (Nat.leb_spec s i), (Nat.ltb_spec i (S s + n)), (Nat.ltb_spec i (s + S n)); cbn; auto; lia.
Qed.

Lemma slice_app {A} (dflt : A) a b c :
  map (fun k => nth k (a ++ b ++ c) dflt) (seq (length a) (length b)) = b.
Proof.
  induction a as [|x a IH].
  - cbn [app length]. transitivity (map (fun i => nth i b dflt) (seq 0 (length b))); [|apply map_nth_seq]. apply map_ext_in. intros k Hk. apply in_seq in Hk. apply app_nth1. lia.
  - cbn [app length]. rewrite <- seq_shift, map_map. exact IH.
Qed.

(** Row pointers after the conversion of items all in rows below [m], the
    pointers starting as [init]. *)
Section Pointers.
Variables (d : dict) (m : nat) (init : nat -> nat).
Hypothesis rows_ok : forall it, In it d -> row it < m.
Let items := sort_items d.
Let rp := let '(current, rp) := fill_rows items 0 None init in
          let first := match current with None => 0 | Some r => S r end in
          fold_left (fun rp row => upd rp row (length items)) (seq first (S m - first)) rp.

Definition nonempty (i : nat) : Prop := exists it, In it d /\ row it = i.
Definition below (i : nat) : nat := length (filter (fun it => row it <? i) items).

Lemma items_in it : In it items <-> In it d.
Proof. unfold items. split; apply Permutation_in; [apply Permutation_sym|]; apply sort_perm. Qed.

Lemma pointers i : i <= m ->
  (nonempty i -> rp i = below i) /\
  ((forall i', nonempty i' -> i' < i) -> rp i = below i) /\
  (~ nonempty i -> (exists i', nonempty i' /\ i < i') -> rp i = init i).
Proof.
  intros Hi. unfold rp. pose proof (fill_rows_spec items 0 None init (sort_sorted d)) as Sp.
  destruct (fill_rows items 0 None init) as [cur rp0]. destruct Sp as (S1 & S2 & S3 & S4); [discriminate|].
  cbv zeta. rewrite fill_tail.
  assert (All : (forall i', nonempty i' -> i' < i) -> below i = length items).
  { intros Ha. unfold below. f_equal. apply filter_all. intros it Hin. apply Nat.ltb_lt, Ha. exists it. rewrite <- items_in. auto. }
  destruct items as [|it0 its] eqn:Ei.
  - rewrite S3 by auto. split; [|split].
    + intros (it & Hin & _). apply items_in in Hin. rewrite Ei in Hin. destruct Hin.
    + intros _. destruct (Nat.leb_spec 0 i), (Nat.ltb_spec i (0 + (S m - 0))); try lia. cbn. unfold below. rewrite Ei. reflexivity.
    + intros _ (i' & (it & Hin & _) & _). apply items_in in Hin. rewrite Ei in Hin. destruct Hin.
  - destruct S4 as (r & -> & (itr & Hr & Er) & Hmax); [discriminate|]. rewrite <- Ei in *.
    assert (Hrm : r < m) by (rewrite <- Er; apply rows_ok, items_in, Hr).
    split; [|split].
    + intros (it & Hin & Hrow). apply items_in in Hin. specialize (Hmax it Hin).
      destruct (Nat.leb_spec (S r) i); [lia|]. cbn. rewrite S1; [reflexivity|discriminate|eauto].
    + intros Ha. specialize (Ha r). assert (r < i) by (apply Ha; exists itr; rewrite <- items_in; auto).
      destruct (Nat.leb_spec (S r) i), (Nat.ltb_spec i (S r + (S m - S r))); try lia. cbn. symmetry. apply All.
      intros i' (it & Hin & Hrow). apply items_in in Hin. specialize (Hmax it Hin). lia.
    + intros Hno (i' & (it & Hin & Hrow) & Hlt). apply items_in in Hin. specialize (Hmax it Hin).
      destruct (Nat.leb_spec (S r) i); [lia|]. cbn. apply S2. right. intros it' Hin' Hr'. apply Hno. exists it'. rewrite <- items_in. auto.
Qed.

Lemma below_0 i : (forall i', nonempty i' -> i <= i') -> below i = 0.
Proof.
  intros H. unfold below. rewrite filter_none; [reflexivity|]. intros it Hin. apply Nat.ltb_ge, H. exists it. rewrite <- items_in. auto.
Qed.

Lemma below_S i : below (S i) = below i + length (filter (fun it => row it =? i) items).
Proof.
  unfold below. clear rp. generalize items. intros l0. induction l0 as [|it l IH]; [reflexivity|]. cbn [filter].
  destruct (Nat.ltb_spec (row it) (S i)), (Nat.ltb_spec (row it) i), (Nat.eqb_spec (row it) i); try lia; cbn [length]; lia.
Qed.

Lemma row_slice (C : csr) i : entries C = map (fun it => (snd (fst it), snd it)) items ->
  row_ptr C i = below i -> row_ptr C (S i) = below (S i) ->
  row_entries C i = map (fun it => (snd (fst it), snd it)) (filter (fun it => row it =? i) items).
Proof.
  set (f := fun it : nat * nat * R => (snd (fst it), snd it)). intros E P1 P2.
  unfold row_entries. rewrite P1, P2, below_S, E.
  replace (below i + _ - below i) with (length (filter (fun it => row it =? i) items)) by lia.
  pose proof (rows_split i items (sort_sorted d)) as Sp.
  pose proof (f_equal (map f) Sp) as Em. rewrite !map_app in Em. rewrite Em.
  set (a := filter (fun it => row it <? i) items) in *. set (b := filter (fun it => row it =? i) items) in *.
  assert (L1 : below i = length (map f a)) by (rewrite map_length; reflexivity).
  assert (L2 : length b = length (map f b)) by (rewrite map_length; reflexivity).
  rewrite L1, L2.
  apply slice_app.
Qed.
End Pointers.

(** * Sums over a dictionary *)

Definition val (o : option R) : R := match o with Some x => x | None => 0%R end.

Lemma Rsum_delta n (i : nat) (f : nat -> R) : i < n ->
  Rsum (map (fun j => if i =? j then f j else 0%R) (seq 0 n)) = f i.
Proof.
  intros Hi. replace n with (i + S (n - S i)) by lia. rewrite seq_app, map_app, Rsum_app. cbn [seq map Rsum plus].
  rewrite Nat.eqb_refl. rewrite (Rsum_map_zero (seq 0 i)), (Rsum_map_zero (seq (S i) _)); [ring| |];
    intros j Hj; apply in_seq in Hj; destruct (Nat.eqb_spec i j); auto; lia.
Qed.

Lemma row_sum (v : nat -> R) i n : forall d, wf_dict d -> (forall it, In it d -> snd (fst it) < n) ->
  Rsum (map (fun it => snd it * v (snd (fst it)))%R (filter (fun it => row it =? i) d)) =
  Rsum (map (fun j => val (lookup d (i, j)) * v j)%R (seq 0 n)).
Proof.
  induction d as [|((i0, j0), x) d IH]; intros W H.
  - cbn. symmetry. apply Rsum_map_zero. intros. ring.
  - inversion W as [|? ? Hn Hd]; subst. fold (wf_dict d) in Hd.
    specialize (IH Hd (fun it Hit => H it (or_intror Hit))).
    assert (Hj : j0 < n) by apply (H ((i0, j0), x) (or_introl eq_refl)).
    assert (E : forall j, (val (lookup (((i0, j0), x) :: d) (i, j)) * v j)%R =
       (val (lookup d (i, j)) * v j + (if j0 =? j then if i0 =? i then x * v j else 0 else 0))%R).
    { intros j. cbn [lookup]. unfold key_eqb. cbn [fst snd]. destruct (Nat.eqb_spec i0 i) as [->|]; cbn [andb].
      - destruct (Nat.eqb_spec j0 j) as [->|]; [|ring]. rewrite (proj2 (lookup_None d (i, j)) Hn). cbn. ring.
      - destruct (j0 =? j); ring. }
    rewrite (map_ext _ _ E), Rsum_map_plus, <- IH, (Rsum_delta n j0 (fun j => if i0 =? i then x * v j else 0)%R Hj).
    cbn [filter]. unfold row at 1; cbn [fst]. destruct (i0 =? i); cbn [map Rsum fst snd]; ring.
Qed.

Lemma fold_mul (g : key -> nat) (h : key -> nat) (v : nat -> R) i : forall (d : dict) r,
  fold_left (fun r (it : key * R) => let '((a, b), x) := it in upd r (g (a, b)) (r (g (a, b)) + x * v (h (a, b)))%R) d r i =
  (r i + Rsum (map (fun it => snd it * v (h (fst it))) (filter (fun it => g (fst it) =? i) d)))%R.
Proof.
  induction d as [|((a, b), x) d IH]; intros r; [cbn; ring|]. cbn [fold_left filter fst]. rewrite IH.
  destruct (Nat.eqb_spec (g (a, b)) i) as [E|N]; cbn [map Rsum fst snd].
  - rewrite E, upd_same. ring.
  - rewrite upd_other by auto. ring.
Qed.

(** Transposition of a dictionary. *)
Definition transposed (d : dict) : dict := map (fun it => ((snd (fst it), fst (fst it)), snd it)) d.
Lemma lookup_transposed d i j : lookup (transposed d) (i, j) = lookup d (j, i).
Proof.
  induction d as [|((a, b), x) d IH]; [reflexivity|].
  cbn [transposed map lookup fst snd]. fold (transposed d). rewrite IH. unfold key_eqb. cbn [fst snd]. rewrite andb_comm. reflexivity.
Qed.
Lemma transposed_wf d : wf_dict d -> wf_dict (transposed d).
Proof.
  unfold wf_dict, transposed. rewrite map_map. cbn. intros H. rewrite <- (map_map fst (fun k : key => (snd k, fst k))).
  apply FinFun.Injective_map_NoDup; auto. intros (a, b) (c, e) E. cbn in E. congruence.
Qed.

(** * Entry-wise assignment *)

Definition wf (A : sparse) : Prop := wf_dict (Data A) /\ forall k x, In (k, x) (Data A) -> fst k < M A /\ snd k < N A.

Lemma in_range_spec A k : in_range A k = true <-> fst k < M A /\ snd k < N A.
Proof. unfold in_range. rewrite andb_true_iff, !Nat.ltb_lt. reflexivity. Qed.

Lemma wf_keys A k : wf A -> In k (map fst (Data A)) -> fst k < M A /\ snd k < N A.
Proof. intros (_ & H) Hk. apply in_map_iff in Hk as ((k', x) & <- & Hin). apply (H _ _ Hin). Qed.

Lemma setitem_spec A k x : wf A -> in_range A k = true ->
  exists A', setitem A k x = Some A' /\ wf A' /\ M A' = M A /\ N A' = N A /\
  (forall i j, dense A' i j = if key_eqb k (i, j) then x else dense A i j) /\
  lookup (Data A') k = (if Reqb x 0 then None else Some x) /\
  (forall k', k' <> k -> lookup (Data A') k' = lookup (Data A) k').
Proof.
  intros W Hr. unfold setitem. rewrite Hr. eexists. split; [reflexivity|].
  apply in_range_spec in Hr as Hr'. destruct W as (W1 & W2).
  destruct (Reqb_spec x 0) as [->|Hx]; cbn [negb].
  - split; [|split; [reflexivity|split; [reflexivity|split; [|split]]]].
    + split; [apply remove_wf; auto|]. cbn [Data M N]. intros k' y Hin. apply (wf_keys A); [split; auto|].
      apply (in_map fst) in Hin. apply remove_keys in Hin; auto. apply Hin.
    + intros i j. unfold dense. cbn [Data]. rewrite lookup_remove by auto. destruct (key_eqb k (i, j)); reflexivity.
    + cbn [Data]. rewrite lookup_remove by auto. destruct (key_eqb_spec k k); congruence.
    + intros k' Hk. cbn [Data]. rewrite lookup_remove by auto. destruct (key_eqb_spec k k'); congruence.
  - split; [|split; [reflexivity|split; [reflexivity|split; [|split]]]].
    + split; [apply assign_wf; auto|]. cbn [Data M N]. intros k' y Hin. apply (in_map fst) in Hin. cbn in Hin.
      apply assign_keys in Hin as [->|Hin]; auto. apply (wf_keys A); auto. split; auto.
    + intros i j. unfold dense. cbn [Data]. rewrite lookup_assign. destruct (key_eqb k (i, j)); reflexivity.
    + cbn [Data]. rewrite lookup_assign. destruct (key_eqb_spec k k); congruence.
    + intros k' Hk. cbn [Data]. rewrite lookup_assign. destruct (key_eqb_spec k k'); congruence.
Qed.

Lemma set_all_spec (f : R -> option R -> R) : forall items A, wf A -> wf_dict items ->
  (forall k x, In (k, x) items -> in_range A k = true) ->
  exists A', set_all A f items = Some A' /\ wf A' /\ M A' = M A /\ N A' = N A /\
  forall i j, dense A' i j = match lookup items (i, j) with Some x => f x (Some (dense A i j)) | None => dense A i j end.
Proof.
  induction items as [|(k, x) items IH]; intros A W Wi Hr.
  - exists A. cbn. auto.
  - inversion Wi as [|? ? Hn Hd]; subst. fold (wf_dict items) in Hd.
    assert (Hk : in_range A k = true) by (apply (Hr k x); left; auto).
    cbn [set_all]. unfold getitem. rewrite Hk.
    set (old := match lookup (Data A) k with Some x0 => x0 | None => 0%R end).
    destruct (setitem_spec A k (f x (Some old)) W Hk) as (A1 & -> & W1 & M1 & N1 & D1 & _ & _).
    destruct (IH A1 W1 Hd) as (A' & E & W' & M' & N' & D').
    { intros k' y Hin. specialize (Hr k' y (or_intror Hin)). unfold in_range in *. rewrite M1, N1. exact Hr. }
    exists A'. rewrite M', N', M1, N1. split; [exact E|]. split; auto. split; auto. split; auto.
    intros i j. rewrite D'. cbn [lookup]. destruct (key_eqb_spec k (i, j)) as [->|Hne].
    + rewrite (proj2 (lookup_None items (i, j)) Hn). rewrite D1. destruct (key_eqb_spec (i, j) (i, j)); [|congruence].
      reflexivity.
    + rewrite D1. destruct (key_eqb_spec k (i, j)); [congruence|]. reflexivity.
Qed.

Lemma copy_spec A : wf A -> exists A', copy A = Some A' /\ wf A' /\ M A' = M A /\ N A' = N A /\ forall i j, dense A' i j = dense A i j.
Proof.
  intros W. destruct (set_all_spec (fun x _ => x) (Data A) (empty (M A) (N A))) as (A' & E & W' & M' & N' & D').
  - split; [constructor|]. intros k x [].
  - apply W.
  - intros k x Hin. apply in_range_spec. cbn. apply W in Hin. exact Hin.
  - exists A'. repeat (split; [assumption|]). exact D'.
Qed.

(** * The hash table *)

Definition wf_dok (h : dok) : Prop :=
  wf_dict (edgetable h) /\ num_entries h = length (edgetable h) /\
  forall k, In k (map fst (edgetable h)) -> fst k <= dok_rows h.

Definition entry (h : dok) (k : key) : R := val (lookup (edgetable h) k).

Lemma lookup_Some_key d k x : lookup d k = Some x -> In k (map fst d).
Proof. induction d as [|(k0, y) d IH]; cbn; [discriminate|]. destruct (key_eqb_spec k0 k); auto. Qed.

Lemma assign_length d k x : length (assign d k x) = match lookup d k with Some _ => length d | None => S (length d) end.
Proof.
  induction d as [|(k0, y) d IH]; [reflexivity|]. cbn. destruct (key_eqb k0 k); cbn; auto.
  rewrite IH. destruct (lookup d k); reflexivity.
Qed.

Lemma remove_length d k : length (remove d k) = match lookup d k with Some _ => pred (length d) | None => length d end.
Proof.
  induction d as [|(k0, y) d IH]; [reflexivity|]. cbn. destruct (key_eqb k0 k); cbn; auto.
  rewrite IH. destruct (lookup d k) eqn:E; auto. destruct d; [discriminate|reflexivity].
Qed.

Lemma add_dok_entry_spec h k v : wf_dok h ->
  let h' := add_dok_entry h k v in
  wf_dok h' /\ (forall k', k' <> k -> entry h' k' = entry h k') /\
  ((tiny < Rabs (entry h k + v) /\ entry h' k = entry h k + v) \/ (Rabs (entry h k + v) <= tiny /\ entry h' k = 0))%R.
Proof.
  intros (W & L & Rw). unfold add_dok_entry, entry.
  set (e := (val (lookup (edgetable h) k) + v)%R).
  set (h1 := Dok (assign (edgetable h) k e) (match lookup (edgetable h) k with Some _ => num_entries h | None => S (num_entries h) end)
                 (match lookup (edgetable h) k with Some _ => dok_rows h | None => Nat.max (dok_rows h) (fst k) end)).
  assert (Wh : wf_dok h1).
  { unfold h1. split; [apply assign_wf; auto|]. cbn [edgetable num_entries dok_rows]. rewrite assign_length.
    destruct (lookup (edgetable h) k) eqn:El; (split; [auto|]); intros k' Hk; apply assign_keys in Hk as [->|Hk]; auto; try lia.
    - apply Rw. eapply lookup_Some_key; eauto.
    - specialize (Rw k' Hk). lia. }
  assert (E : (let '(h1, ent) :=
    match lookup (edgetable h) k with
    | Some e => (Dok (assign (edgetable h) k (e + v)%R) (num_entries h) (dok_rows h), (e + v)%R)
    | None => (Dok (assign (edgetable h) k v) (S (num_entries h)) (Nat.max (dok_rows h) (fst k)), v)
    end in
    if Rleb ent tiny && Rleb (- tiny) ent
    then Dok (remove (edgetable h1) k) (pred (num_entries h1)) (dok_rows h1) else h1) =
    if Rleb e tiny && Rleb (- tiny) e then Dok (remove (edgetable h1) k) (pred (num_entries h1)) (dok_rows h1) else h1).
  { unfold h1, e. destruct (lookup (edgetable h) k); cbn [val]; [reflexivity|]. rewrite Rplus_0_l. reflexivity. }
  cbv zeta. rewrite E. clear E.
  assert (Lk : forall k', lookup (edgetable h1) k' = if key_eqb k k' then Some e else lookup (edgetable h) k').
  { intros k'. unfold h1. cbn [edgetable]. apply lookup_assign. }
  destruct Wh as (Wh & Lh & Rh). clearbody h1.
  assert (Lkk : lookup (edgetable h1) k = Some e) by (rewrite Lk; destruct (key_eqb_spec k k); congruence).
  destruct (Rleb_spec e tiny) as [H1|H1], (Rleb_spec (- tiny) e) as [H2|H2]; cbn [andb].
  1: { split; [|split].
       - split; [apply remove_wf; auto|]. cbn [edgetable num_entries dok_rows]. split.
         + rewrite remove_length, Lkk, Lh. reflexivity.
         + intros k' Hk. apply Rh. apply remove_keys in Hk; auto. apply Hk.
       - intros k' Hne. cbn [edgetable]. rewrite lookup_remove, Lk by auto. destruct (key_eqb_spec k k'); [congruence|]. reflexivity.
       - right. split; [apply Rabs_le; lra|]. cbn [edgetable]. rewrite lookup_remove by auto. destruct (key_eqb_spec k k); [reflexivity|congruence]. }
  all: split; [split; auto|]; split;
    [intros k' Hne; rewrite Lk; destruct (key_eqb_spec k k'); [congruence|reflexivity]|];
    left; rewrite Lkk; split; [|reflexivity]; unfold Rabs; destruct (Rcase_abs e); try lra.
  all: unfold tiny in *; assert (0 < / 10 ^ 10)%R by (apply Rinv_0_lt_compat, pow_lt; lra); lra.
Qed.

Lemma scale_first_spec m1 m2 : forall d1 acc d2, NoDup (map fst acc ++ map fst d1) -> wf_dict d2 ->
  let '(r1, r2) := fold_left (fun st (it : key * R) =>
      let '(e1, e2) := st in let '(k, value) := it in
      match lookup e2 k with
      | Some x => (e1 ++ [(k, value * m1 + x * m2)%R], assign e2 k 0%R)
      | None => (e1 ++ [(k, value * m1)%R], e2)
      end) d1 (acc, d2) in
  map fst r1 = map fst acc ++ map fst d1 /\ wf_dict r2 /\ map fst r2 = map fst d2 /\
  (forall k, lookup r1 k = match lookup acc k with
     | Some x => Some x
     | None => match lookup d1 k with Some x => Some (x * m1 + val (lookup d2 k) * m2)%R | None => None end end) /\
  (forall k, lookup r2 k = match lookup d2 k with Some x => Some (match lookup d1 k with Some _ => 0%R | None => x end) | None => None end).
Proof.
  induction d1 as [|(k0, x0) d1 IH]; intros acc d2 Nd W2.
  - cbn. rewrite app_nil_r. split; auto. split; auto. split; auto. split; intros k.
    + destruct (lookup acc k); reflexivity.
    + destruct (lookup d2 k); reflexivity.
  - cbn [fold_left].
    assert (Lapp : forall y k, lookup (acc ++ [(k0, y)]) k = match lookup acc k with Some x => Some x | None => if key_eqb k0 k then Some y else None end).
    { intros y k. clear. induction acc as [|(k1, z) acc IHa]; cbn; [destruct (key_eqb k0 k); reflexivity|]. destruct (key_eqb k1 k); auto. }
    assert (Nk : forall y, map fst (acc ++ [(k0, y)]) ++ map fst d1 = map fst acc ++ map fst ((k0, x0) :: d1)).
    { intros y. rewrite map_app, <- app_assoc. reflexivity. }
    assert (Hk0 : lookup d1 k0 = None /\ lookup acc k0 = None).
    { cbn in Nd. apply NoDup_remove_2 in Nd. rewrite in_app_iff in Nd. split; apply lookup_None; tauto. }
    destruct Hk0 as (Hk1 & Hka).
    assert (Keys : forall k x, lookup d2 k = Some x -> map fst (assign d2 k 0%R) = map fst d2).
    { clear. intros k x. induction d2 as [|(k1, z) d2 IHd]; cbn; [discriminate|]. destruct (key_eqb_spec k1 k); cbn; auto.
      intros H. rewrite IHd by auto. reflexivity. }
    destruct (lookup d2 k0) as [x|] eqn:E2.
    + specialize (IH (acc ++ [(k0, (x0 * m1 + x * m2)%R)]) (assign d2 k0 0%R)). rewrite Nk in IH.
      specialize (IH Nd (assign_wf _ _ _ W2)). destruct (fold_left _ d1 _) as [r1 r2].
      destruct IH as (I1 & I2 & I3 & I4 & I5). split; auto. split; auto. split; [rewrite I3; eapply Keys; eauto|]. split.
      * intros k. rewrite I4, Lapp. cbn [lookup]. destruct (key_eqb_spec k0 k) as [<-|Hne].
        -- rewrite Hka, E2. reflexivity.
        -- destruct (lookup acc k); auto. rewrite lookup_assign. destruct (key_eqb_spec k0 k); [congruence|]. reflexivity.
      * intros k. rewrite I5, lookup_assign. cbn [lookup]. destruct (key_eqb_spec k0 k) as [<-|Hne].
        -- rewrite E2, Hk1. reflexivity.
        -- reflexivity.
    + specialize (IH (acc ++ [(k0, (x0 * m1)%R)]) d2). rewrite Nk in IH.
      specialize (IH Nd W2). destruct (fold_left _ d1 _) as [r1 r2].
      destruct IH as (I1 & I2 & I3 & I4 & I5). split; auto. split; auto. split; auto. split.
      * intros k. rewrite I4, Lapp. cbn [lookup]. destruct (key_eqb_spec k0 k) as [<-|Hne].
        -- rewrite Hka, E2. cbn [val]. f_equal. ring.
        -- destruct (lookup acc k); auto.
      * intros k. rewrite I5. cbn [lookup]. destruct (key_eqb_spec k0 k) as [<-|Hne]; [rewrite E2|]; reflexivity.
Qed.
