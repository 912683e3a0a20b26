(** Proofs about the node-to-triangle index. *)
From Coq Require Import Reals List Arith Bool Permutation Sorting.Sorted Lia Lra.
From Verif Require Import RealLib ArrayLib InvertedModel.
Import ListNotations.

Lemma filter_perm {A} (f : A -> bool) l l' : Permutation l l' -> Permutation (filter f l) (filter f l').
Proof.
  induction 1; cbn; auto.
  - destruct (f x); auto.
  - destruct (f x), (f y); auto. constructor.
  - etransitivity; eauto.
Qed.

Lemma filter_none {A} (f : A -> bool) l : (forall x, In x l -> f x = false) -> filter f l = [].
Proof. induction l as [|x l IH]; intros H; cbn; auto. rewrite (H x) by (left; auto). apply IH. intros; apply H; right; auto. Qed.

Lemma filter_all {A} (f : A -> bool) l : (forall x, In x l -> f x = true) -> filter f l = l.
Proof. induction l as [|x l IH]; intros H; cbn; auto. rewrite (H x) by (left; auto). f_equal. apply IH. intros; apply H; right; auto. Qed.

(** A list sorted by key splits at any key. *)
Lemma sorted_split (key : nat -> nat) m p : StronglySorted (fun i j => key i <= key j) p ->
  p = filter (fun i => key i <? m) p ++ filter (fun i => key i =? m) p ++ filter (fun i => m <? key i) p.
Proof.
  induction 1 as [|i p S IH F]; [reflexivity|]. rewrite Forall_forall in F. cbn [filter].
  destruct (Nat.ltb_spec (key i) m), (Nat.eqb_spec (key i) m), (Nat.ltb_spec m (key i)); try lia.
  - cbn. f_equal. exact IH.
  - rewrite (filter_none (fun i => key i <? m)) in *.
    + cbn in *. f_equal. exact IH.
    + intros x Hx. apply Nat.ltb_ge. specialize (F x Hx). lia.
    + intros x Hx. apply Nat.ltb_ge. specialize (F x Hx). lia.
  - rewrite (filter_none (fun i => key i <? m)), (filter_none (fun i => key i =? m)) in *;
      try (intros x Hx; specialize (F x Hx); first [apply Nat.ltb_ge | apply Nat.eqb_neq]; lia).
    cbn in *. f_equal. exact IH.
Qed.

Lemma nth_skipn {A} (d : A) l n i : nth (n + i) l d = nth i (skipn n l) d.
Proof. revert l; induction n; intros [|x l]; cbn; auto. destruct i; auto. Qed.

Lemma map_nth_seq {A} (d : A) l : map (fun i => nth i l d) (seq 0 (length l)) = l.
Proof.
  induction l as [|x l IH]; [reflexivity|]. cbn [length seq map nth]. f_equal. rewrite <- seq_shift, map_map. exact IH.
Qed.

Lemma cumsum_nth l : forall acc m, m <= length l -> nth m (acc :: cumsum acc l) 0 = acc + list_sum (firstn m l).
Proof.
  induction l as [|c l IH]; intros acc m Hm.
  - cbn in Hm. replace m with 0 by lia. cbn. lia.
  - destruct m as [|m]; [cbn; lia|]. change (nth (S m) (acc :: cumsum acc (c :: l)) 0) with (nth m ((acc + c) :: cumsum (acc + c) l) 0).
    rewrite IH by (cbn in Hm; lia). cbn [firstn list_sum fold_right]. unfold list_sum. lia.
Qed.

Lemma length_filter_map {A B} (g : A -> B) f l : length (filter f (map g l)) = length (filter (fun x => f (g x)) l).
Proof. induction l as [|x l IH]; cbn; auto. destruct (f (g x)); cbn; rewrite IH; auto. Qed.

(** Positions holding node [m]. *)
Definition uses (T : flat) (m : nat) : list nat := filter (fun i => node_at T i =? m) (seq 0 (length T)).

Lemma count_uses T m : count_occ Nat.eq_dec T m = length (uses T m).
Proof.
  unfold uses, node_at. induction T as [|x T IH]; [reflexivity|].
  cbn [length seq]. rewrite <- seq_shift. cbn [filter count_occ]. change (nth 0 (x :: T) 0) with x.
  assert (E : length (filter (fun i => nth i (x :: T) 0 =? m) (map S (seq 0 (length T)))) = length (filter (fun i => nth i T 0 =? m) (seq 0 (length T)))).
  { rewrite length_filter_map. reflexivity. }
  destruct (Nat.eq_dec x m) as [->|N].
  - rewrite Nat.eqb_refl. cbn [length]. rewrite E, IH. reflexivity.
  - destruct (Nat.eqb_spec x m); [lia|]. rewrite E, IH. reflexivity.
Qed.

Lemma bincount_nth T m : nth m (bincount T) 0 = count_occ Nat.eq_dec T m.
Proof.
  unfold bincount. destruct T as [|x T]; [destruct m; reflexivity|]. set (L := x :: T).
  destruct (Nat.lt_ge_cases m (S (list_max L))) as [H|H].
  - rewrite (nth_indep _ 0 (count_occ Nat.eq_dec L 0)) by (rewrite map_length, seq_length; lia).
    rewrite map_nth, seq_nth by lia. reflexivity.
  - rewrite nth_overflow by (rewrite map_length, seq_length; lia). symmetry. apply count_occ_not_In.
    intros Hi. assert (Hl : list_max L <= list_max L) by lia. apply list_max_le in Hl. rewrite Forall_forall in Hl.
    specialize (Hl m Hi). lia.
Qed.

Lemma nth_repeat0 n i : nth i (repeat 0 n) 0 = 0.
Proof. revert i; induction n; intros [|i]; cbn; auto. Qed.

Lemma pad_nth l n i : nth i (pad l n) 0 = nth i l 0.
Proof.
  unfold pad. destruct (Nat.lt_ge_cases i (length l)).
  - apply app_nth1; auto.
  - rewrite app_nth2 by lia. rewrite nth_repeat0. symmetry. apply nth_overflow. lia.
Qed.

Lemma counts_nth T n m : nth m (pad (bincount T) n) 0 = length (uses T m).
Proof. rewrite pad_nth, bincount_nth. apply count_uses. Qed.

Lemma lists_eq_nth (l l' : list nat) : length l = length l' -> (forall i, nth i l 0 = nth i l' 0) -> l = l'.
Proof.
  revert l'. induction l as [|x l IH]; intros [|y l'] H E; cbn in H; try lia; auto.
  f_equal; [exact (E 0)|]. apply IH; [lia|]. intros i. exact (E (S i)).
Qed.

Lemma counts_eq T n : length (pad (bincount T) n) = n -> pad (bincount T) n = map (fun m => length (uses T m)) (seq 0 n).
Proof.
  intros H. apply lists_eq_nth; [rewrite H, map_length, seq_length; auto|]. intros i. rewrite counts_nth.
  destruct (Nat.lt_ge_cases i n).
  - rewrite (nth_indep _ 0 ((fun m => length (uses T m)) 0)) by (rewrite map_length, seq_length; auto).
    rewrite (map_nth (fun m => length (uses T m))), seq_nth by auto. reflexivity.
  - rewrite (nth_overflow (map _ _)) by (rewrite map_length, seq_length; auto).
    rewrite <- (counts_nth T n). apply nth_overflow. lia.
Qed.

(** Number of positions whose node is below [m]. *)
Lemma sum_counts_below T : forall m, list_sum (map (fun m => length (uses T m)) (seq 0 m)) =
  length (filter (fun i => node_at T i <? m) (seq 0 (length T))).
Proof.
  induction m as [|m IH].
  - rewrite filter_none; [reflexivity|]. intros x _. apply Nat.ltb_ge. lia.
  - rewrite seq_S, map_app, list_sum_app, IH. cbn [map list_sum fold_right plus]. unfold uses.
    generalize (seq 0 (length T)). intros l. induction l as [|i l IHl]; [reflexivity|]. cbn [filter].
    destruct (Nat.ltb_spec (node_at T i) m), (Nat.eqb_spec (node_at T i) m), (Nat.ltb_spec (node_at T i) (S m));
      try lia; cbn [length]; lia.
Qed.

Lemma firstn_seq_min : forall m s n, m <= n -> firstn m (seq s n) = seq s m.
Proof. induction m; intros s [|n] H; cbn; auto; try lia. f_equal. apply IHm. lia. Qed.

Section Built.
Variables (n : nat) (T : flat) (p : list nat) (I : inverted).
Hypothesis AS : is_argsort T p.
Hypothesis B : build_inverted n T p = Some I.

Lemma built : number_of_triangles_per_node I = map (fun m => length (uses T m)) (seq 0 n) /\
  node_index I = 0 :: cumsum 0 (number_of_triangles_per_node I) /\ vertex_value_indices I = p /\
  list_sum (number_of_triangles_per_node I) = length T.
Proof.
  unfold build_inverted in B. destruct (Nat.eqb_spec (list_sum (pad (bincount T) n)) (length T)); [|discriminate].
  cbn [negb] in B. destruct (Nat.eqb_spec (length (pad (bincount T) n)) n) as [E|]; [|discriminate].
  cbn [negb] in B. injection B as <-. cbn. auto using counts_eq.
Qed.

Lemma segment m : m < n ->
  firstn (length (uses T m)) (skipn (nth m (node_index I) 0) p) = filter (fun i => node_at T i =? m) p /\
  nth m (node_index I) 0 = length (filter (fun i => node_at T i <? m) p).
Proof.
  intros Hm. destruct built as (C & N & _ & _). destruct AS as (P & S).
  assert (E : nth m (node_index I) 0 = length (filter (fun i => node_at T i <? m) p)).
  { rewrite N, cumsum_nth by (rewrite C, map_length, seq_length; lia).
    rewrite C, firstn_map, firstn_seq_min by lia. rewrite sum_counts_below.
    rewrite (Permutation_length (filter_perm _ _ _ P)). reflexivity. }
  split; [|exact E]. rewrite E. clear E.
  pose proof (sorted_split (node_at T) m p S) as Sp. rewrite Sp at 2.
  rewrite skipn_app, skipn_all, Nat.sub_diag. cbn [skipn app].
  unfold uses. rewrite <- (Permutation_length (filter_perm (fun i => node_at T i =? m) _ _ P)).
  rewrite firstn_app, firstn_all, Nat.sub_diag. cbn [firstn]. apply app_nil_r.
Qed.
End Built.

(** * The averaging loop *)

Lemma skipn_S_nth {A} : forall n (l : list A), skipn 1 (skipn n l) = skipn (S n) l.
Proof. induction n; intros [|x l]; cbn; auto. destruct n; auto. apply IHn. Qed.

Lemma skipn_add {A} : forall n m (l : list A), skipn m (skipn n l) = skipn (n + m) l.
Proof. induction n; intros m [|x l]; cbn; auto. destruct m; auto. Qed.

Lemma average_node counts v cur c A : nth_error counts cur = Some c -> forall idx k total, k < c ->
  average_loop counts v idx k cur total A =
  if c - k <=? length idx
  then average_loop counts v (skipn (c - k) idx) 0 (S cur) 0%R
         (upd A cur ((total + Rsum (map v (firstn (c - k) idx))) / INR c)%R)
  else Some A.
Proof.
  intros Hc idx. induction idx as [|i idx IH]; intros k total Hk.
  - cbn [length]. destruct (Nat.leb_spec (c - k) 0); [lia|]. reflexivity.
  - cbn [average_loop]. rewrite Hc. destruct c as [|c]; [lia|].
    destruct (Nat.eqb_spec (S c) (S k)) as [E|E].
    + assert (c = k) by lia. subst c. replace (S k - k) with 1 by lia. cbn [length Nat.leb skipn firstn map Rsum fold_right].
      destruct (1 <=? S (length idx)) eqn:E1; [|apply Nat.leb_gt in E1; lia].
      do 2 f_equal. rewrite Rplus_0_r. reflexivity.
    + rewrite IH by lia. replace (S c - k) with (S (S c - S k)) by lia.
      cbn [length skipn firstn map]. change (S (S c - S k) <=? S (length idx)) with (S c - S k <=? length idx).
      destruct (S c - S k <=? length idx); [|reflexivity]. do 2 f_equal.
      cbn [Rsum]. rewrite Rplus_assoc. reflexivity.
Qed.

Definition orphans (l : list nat) : nat := length (filter (fun c => c =? 0) l).

(** Where the loop starts reading for node [m]: its place in the index plus
    the number of orphaned nodes before it. *)
Definition start (counts : list nat) (m : nat) : nat := list_sum (firstn m counts) + orphans (firstn m counts).

Lemma firstn_S_nth (l : list nat) m c : nth_error l m = Some c -> firstn (S m) l = firstn m l ++ [c].
Proof. revert m; induction l as [|x l IH]; intros [|m] H; cbn in *; try discriminate; [congruence|]. f_equal. apply IH, H. Qed.

Lemma start_S counts m c : nth_error counts m = Some c -> start counts (S m) = start counts m + (if c =? 0 then 1 else c).
Proof.
  intros H. unfold start, orphans. rewrite (firstn_S_nth _ _ _ H), list_sum_app, filter_app, app_length. cbn.
  destruct (Nat.eqb_spec c 0); cbn; lia.
Qed.

Lemma average_from counts v idx : length idx <= list_sum counts -> forall d cur A, length counts - cur = d -> cur <= length counts ->
  exists A', average_loop counts v (skipn (start counts cur) idx) 0 cur 0%R A = Some A' /\
  (forall m c, cur <= m -> nth_error counts m = Some c -> 0 < c -> start counts m + c <= length idx ->
     A' m = (Rsum (map v (firstn c (skipn (start counts m) idx))) / INR c)%R) /\
  (forall m, m < cur \/ nth m counts 0 = 0 \/ length idx < start counts m + nth m counts 0 -> A' m = A m).
Proof.
  intros Hl d. induction d as [|d IH]; intros cur A Hd Hc.
  - assert (cur = length counts) by lia. subst cur. exists A.
    assert (E : skipn (start counts (length counts)) idx = []).
    { apply skipn_all2. unfold start. rewrite firstn_all. lia. }
    rewrite E. split; [reflexivity|]. split; [|auto]. intros m c Hm Hn. apply nth_error_None in Hm. congruence.
  - destruct (nth_error counts cur) as [c|] eqn:Ec; [|apply nth_error_None in Ec; lia].
    pose proof (nth_error_nth _ _ 0 Ec) as Nc.
    pose proof (start_S _ _ _ Ec) as HS.
    (* the rest of the array is empty *)
    assert (Mono : forall m, cur <= m -> m < length counts -> start counts cur <= start counts m).
    { intros m Hm. induction Hm as [|m Hm IHm]; intros Hlt; [lia|].
      destruct (nth_error counts m) as [c'|] eqn:E'; [|apply nth_error_None in E'; lia].
      rewrite (start_S _ _ _ E'). specialize (IHm ltac:(lia)). lia. }
    destruct (Nat.lt_ge_cases (start counts cur) (length idx)) as [Hs|Hs].
    2:{ exists A. rewrite skipn_all2 by lia. split; [reflexivity|]. split; [|auto].
        intros m c' Hm Hn Hp Hle. assert (m < length counts) by (apply nth_error_Some; congruence).
        specialize (Mono m Hm ltac:(auto)). lia. }
    destruct (Nat.eqb_spec c 0) as [->|Hc0].
    + destruct (IH (S cur) A ltac:(lia) ltac:(lia)) as (A' & E & G & K). exists A'.
      split.
      { destruct (skipn (start counts cur) idx) as [|i rest] eqn:Es.
        - apply (f_equal (@length nat)) in Es. rewrite skipn_length in Es. cbn in Es. lia.
        - cbn [average_loop]. rewrite Ec. rewrite <- E. f_equal. rewrite HS, <- skipn_add, Es. reflexivity. }
      split.
      * intros m c' Hm Hn Hp Hle. apply G; auto. assert (m <> cur) by (intros ->; rewrite Ec in Hn; injection Hn; lia). lia.
      * intros m Hm. apply K. lia.
    + rewrite (average_node counts v cur c A Ec) by lia. rewrite skipn_length.
      destruct (Nat.leb_spec (c - 0) (length idx - start counts cur)) as [Hle|Hgt].
      * rewrite skipn_add. replace (start counts cur + (c - 0)) with (start counts (S cur)) by lia.
        destruct (IH (S cur) (upd A cur ((0 + Rsum (map v (firstn (c - 0) (skipn (start counts cur) idx)))) / INR c)%R) ltac:(lia) ltac:(lia)) as (A' & E & G & K).
        exists A'. split; [exact E|]. split.
        -- intros m c' Hm Hn Hp Hle'. destruct (Nat.eq_dec m cur) as [->|Hne].
           ++ rewrite K by lia. rewrite upd_same. rewrite Ec in Hn. injection Hn as <-. rewrite Nat.sub_0_r, Rplus_0_l. reflexivity.
           ++ apply G; auto. lia.
        -- intros m Hm. destruct (Nat.eq_dec m cur) as [->|Hne]; [rewrite Nc in Hm; lia|].
           rewrite K by lia. apply upd_other; auto.
      * exists A. split; [reflexivity|]. split; [|auto]. intros m c' Hm Hn Hp Hle.
        destruct (Nat.eq_dec m cur) as [->|Hne]; [rewrite Ec in Hn; injection Hn as <-; lia|].
        assert (m < length counts) by (apply nth_error_Some; congruence).
        (* start m >= start (S cur) *)
        assert (M2 : start counts (S cur) <= start counts m).
        { assert (HSm : S cur <= m) by lia. clear - HSm H. revert H. induction HSm as [|m Hm IHm]; intros Hlt; [lia|].
          destruct (nth_error counts m) as [c2|] eqn:E'; [|apply nth_error_None in E'; lia].
          rewrite (start_S _ _ _ E'). specialize (IHm ltac:(lia)). lia. }
        lia.
Qed.
