(** Lemmas about [NeighbourModel]. *)
From Coq Require Import Bool List ZArith Arith Lia Permutation Sorted.
From Verif Require Import NeighbourModel.
Import ListNotations.

Lemma key_eqb_spec a b : reflect (a = b) (key_eqb a b).
Proof.
  destruct a as [a1 a2], b as [b1 b2]; unfold key_eqb; simpl.
  destruct (Nat.eqb_spec a1 b1), (Nat.eqb_spec a2 b2); simpl; constructor; congruence.
Qed.

Lemma lookup_In {V} (tbl : list ((nat * nat) * V)) key v :
  lookup tbl key = Some v -> In (key, v) tbl.
Proof.
  induction tbl as [|[k w] r IH]; simpl; [discriminate|].
  destruct (key_eqb_spec k key) as [->|]; intros H; auto. injection H as ->; auto.
Qed.

Lemma lookup_None {V} (tbl : list ((nat * nat) * V)) key :
  lookup tbl key = None <-> ~ In key (map fst tbl).
Proof.
  induction tbl as [|[k w] r IH]; simpl; [tauto|].
  destruct (key_eqb_spec k key) as [->|n]; [split; [discriminate|tauto]|].
  rewrite IH. tauto.
Qed.

Lemma In_lookup {V} (tbl : list ((nat * nat) * V)) key v :
  NoDup (map fst tbl) -> In (key, v) tbl -> lookup tbl key = Some v.
Proof.
  induction tbl as [|[k w] r IH]; simpl; [tauto|]. intros ND [H|H]; inversion ND as [|? ? N1 N2]; subst.
  - injection H as -> ->. destruct (key_eqb_spec key key); congruence.
  - destruct (key_eqb_spec k key) as [->|]; auto.
    exfalso. apply N1. change key with (fst (key, v)). now apply in_map.
Qed.

(** All directed edges of the triangles, numbered from [k]. *)
Fixpoint edge_list (k : nat) (ts : list tri) : table :=
  match ts with
  | [] => []
  | t :: r => (edge_key t 0, (k, 0)) :: (edge_key t 1, (k, 1)) :: (edge_key t 2, (k, 2))
              :: edge_list (S k) r
  end.

Lemma edge_list_In : forall ts k key v e,
  In (key, (v, e)) (edge_list k ts) <->
  exists t, k <= v /\ nth_error ts (v - k) = Some t /\ e < 3 /\ edge_key t e = key.
Proof.
  induction ts as [|t r IH]; intros k key v e; simpl.
  - split; [tauto|]. intros (t & _ & H & _). destruct (v - k); discriminate.
  - rewrite IH. split.
    + intros [H|[H|[H|(t' & H1 & H2 & H3 & H4)]]];
        try (injection H as <- <- <-; exists t; rewrite Nat.sub_diag; simpl; repeat split; auto; lia).
      exists t'. replace (v - k) with (S (v - S k)) by lia. simpl. repeat split; auto; lia.
    + intros (t' & H1 & H2 & H3 & H4).
      destruct (Nat.eq_dec v k) as [->|].
      * rewrite Nat.sub_diag in H2. simpl in H2. injection H2 as ->. subst key.
        destruct e as [|[|[|e]]]; simpl; auto; lia.
      * right; right; right. exists t'. replace (v - k) with (S (v - S k)) in H2 by lia.
        simpl in H2. repeat split; auto; lia.
Qed.

Lemma add_edge_Some tbl key v e r :
  add_edge tbl key v e = Some r <-> ~ In key (map fst tbl) /\ r = (key, (v, e)) :: tbl.
Proof.
  unfold add_edge. destruct (lookup tbl key) eqn:E.
  - split; [discriminate|]. intros (H & _). apply lookup_None in H. congruence.
  - apply lookup_None in E. split.
    + intros H; injection H as <-; auto.
    + intros (_ & ->); auto.
Qed.

Lemma add_triangle_Some tbl k t r :
  add_triangle tbl k t = Some r ->
  r = rev (edge_list k [t]) ++ tbl /\ (NoDup (map fst tbl) -> NoDup (map fst r)).
Proof.
  unfold add_triangle.
  destruct (add_edge tbl (edge_key t 0) k 0) as [t1|] eqn:E1; [|discriminate].
  destruct (add_edge t1 (edge_key t 1) k 1) as [t2|] eqn:E2; [|discriminate].
  intros E3. apply add_edge_Some in E1, E2, E3.
  destruct E1 as (A1 & ->), E2 as (A2 & ->), E3 as (A3 & ->). split; [reflexivity|].
  intros ND. cbn [map fst] in *. repeat constructor; auto.
Qed.

Lemma add_triangle_ok tbl k t :
  NoDup (map fst (rev (edge_list k [t]) ++ tbl)) -> add_triangle tbl k t <> None.
Proof.
  simpl. intros ND. inversion ND as [|? ? N1 ND1]; subst. inversion ND1 as [|? ? N2 ND2]; subst.
  inversion ND2 as [|? ? N3 ND3]; subst. cbn [map fst] in *.
  unfold add_triangle, add_edge.
  rewrite (proj2 (lookup_None tbl _) N3).
  rewrite (proj2 (lookup_None ((edge_key t 0, (k, 0)) :: tbl) _) N2).
  rewrite (proj2 (lookup_None ((edge_key t 1, (k, 1)) :: (edge_key t 0, (k, 0)) :: tbl) _) N1).
  discriminate.
Qed.

Lemma edge_list_cons k t ts :
  rev (edge_list k (t :: ts)) = rev (edge_list (S k) ts) ++ rev (edge_list k [t]).
Proof. simpl. rewrite <- !app_assoc. reflexivity. Qed.

Lemma build_table_Some : forall ts tbl k r,
  build_table tbl k ts = Some r ->
  r = rev (edge_list k ts) ++ tbl /\ (NoDup (map fst tbl) -> NoDup (map fst r)).
Proof.
  induction ts as [|t ts IH]; intros tbl k r H.
  - simpl in H. injection H as <-. simpl. auto.
  - cbn [build_table] in H. destruct (add_triangle tbl k t) as [tbl'|] eqn:E; [|discriminate].
    destruct (add_triangle_Some _ _ _ _ E) as (-> & ND).
    destruct (IH _ _ _ H) as (-> & ND'). split; [|auto].
    rewrite (edge_list_cons k t ts), <- app_assoc. reflexivity.
Qed.

Lemma NoDup_app_r {A} (l1 l2 : list A) : NoDup (l1 ++ l2) -> NoDup l2.
Proof. induction l1; simpl; auto. intros H; inversion H; auto. Qed.

Lemma build_table_ok : forall ts tbl k,
  NoDup (map fst (rev (edge_list k ts) ++ tbl)) -> build_table tbl k ts <> None.
Proof.
  induction ts as [|t ts IH]; intros tbl k ND; [discriminate|].
  rewrite (edge_list_cons k t ts), <- app_assoc in ND. cbn [build_table].
  destruct (add_triangle tbl k t) as [tbl'|] eqn:E.
  - apply add_triangle_Some in E as (-> & _). apply IH. exact ND.
  - exfalso. revert E. apply add_triangle_ok. rewrite map_app in ND.
    eapply NoDup_app_r. exact ND.
Qed.

(** ** Positions of equal elements *)
Lemma NoDup_edges_iff ts :
  NoDup (map fst (edge_list 0 ts)) <->
  (forall k i l j t1 t2, nth_error ts k = Some t1 -> nth_error ts l = Some t2 ->
     i < 3 -> j < 3 -> edge_key t1 i = edge_key t2 j -> k = l /\ i = j).
Proof.
  split.
  - intros ND k i l j t1 t2 H1 H2 Hi Hj E.
    assert (A : In (edge_key t1 i, (k, i)) (edge_list 0 ts)).
    { apply edge_list_In. exists t1. rewrite Nat.sub_0_r. repeat split; auto; lia. }
    assert (B : In (edge_key t2 j, (l, j)) (edge_list 0 ts)).
    { apply edge_list_In. exists t2. rewrite Nat.sub_0_r. repeat split; auto; lia. }
    rewrite <- E in B. apply In_lookup in A; auto. apply In_lookup in B; auto.
    rewrite A in B. injection B as -> ->. auto.
  - intros H.
    assert (G : forall us k0, (forall v t, nth_error us v = Some t -> nth_error ts (k0 + v) = Some t) ->
               NoDup (map fst (edge_list k0 us))).
    { induction us as [|u us IHu]; intros k0 HN; simpl; [constructor|].
      assert (U : nth_error ts k0 = Some u) by (specialize (HN 0 u eq_refl); rewrite Nat.add_0_r in HN; auto).
      assert (NI : forall e, e < 3 -> ~ In (edge_key u e) (map fst (edge_list (S k0) us))).
      { intros e He Hin. apply in_map_iff in Hin as ((key & (v & e')) & Ek & Hin). simpl in Ek.
        apply edge_list_In in Hin as (t & Hv & Hn & He' & Hk).
        assert (Hn' : nth_error ts v = Some t).
        { specialize (HN (S (v - S k0)) t Hn). replace (k0 + S (v - S k0)) with v in HN by lia. auto. }
        destruct (H v e' k0 e t u) as (A & _); auto; try congruence. lia. }
      assert (NE : forall e e', e < 3 -> e' < 3 -> e <> e' -> edge_key u e <> edge_key u e').
      { intros e e' He He' N E. destruct (H k0 e k0 e' u u); auto. }
      constructor; [|constructor; [|constructor]].
      - intros [E|[E|E]]; [revert E; apply NE; lia|revert E; apply NE; lia|revert E; apply NI; lia].
      - intros [E|E]; [revert E; apply NE; lia|revert E; apply NI; lia].
      - apply NI; lia.
      - apply IHu. intros v t Hv. replace (S k0 + v) with (k0 + S v) by lia. apply HN. exact Hv. }
    apply (G ts 0). auto.
Qed.

Lemma map_rev_NoDup {A B} (f : A -> B) l : NoDup (map f (rev l)) <-> NoDup (map f l).
Proof.
  rewrite map_rev. split; intros H; [rewrite <- rev_involutive|]; apply NoDup_rev; auto.
Qed.

Lemma build_table_iff ts :
  build_table [] 0 ts <> None <-> NoDup (map fst (edge_list 0 ts)).
Proof.
  split.
  - intros H. destruct (build_table [] 0 ts) as [r|] eqn:E; [|congruence].
    apply build_table_Some in E as (-> & ND). rewrite app_nil_r in ND.
    apply map_rev_NoDup. apply ND. constructor.
  - intros H. apply build_table_ok. rewrite app_nil_r. apply map_rev_NoDup. exact H.
Qed.

Lemma table_lookup ts tbl key v e :
  build_table [] 0 ts = Some tbl ->
  (lookup tbl key = Some (v, e) <->
   exists t, nth_error ts v = Some t /\ e < 3 /\ edge_key t e = key).
Proof.
  intros H. apply build_table_Some in H as (-> & ND). rewrite app_nil_r in *.
  specialize (ND (NoDup_nil _)).
  split.
  - intros H. apply lookup_In in H. apply in_rev in H. apply edge_list_In in H.
    destruct H as (t & _ & H). rewrite Nat.sub_0_r in H. eauto.
  - intros (t & H). apply In_lookup; auto. apply in_rev. rewrite rev_involutive.
    apply edge_list_In. exists t. rewrite Nat.sub_0_r. split; [lia|]. tauto.
Qed.

(** ** The arrays *)
Lemma nb_row ts rows tbl k i t :
  build_table [] 0 ts = Some tbl -> rows = map (triangle_row tbl) ts ->
  nth_error ts k = Some t -> i < 3 ->
  nb rows k i = match lookup tbl (swap (edge_key t i)) with Some (v, _) => Z.of_nat v | None => (-1)%Z end /\
  nbe rows k i = match lookup tbl (swap (edge_key t i)) with Some (_, e) => Z.of_nat e | None => (-1)%Z end.
Proof.
  intros _ -> Hk Hi. unfold nb, nbe. rewrite (map_nth_error (triangle_row tbl) k ts Hk).
  destruct i as [|[|[|i]]]; [| | |lia]; split; reflexivity.
Qed.

(** Boundary positions among the three edges. *)
Lemma nbd_count tbl t :
  number_of_boundaries (triangle_row tbl t) =
  Z.of_nat (length (filter (fun e => match lookup tbl (swap (edge_key t e)) with
                                     | None => true | Some _ => false end) [0; 1; 2])).
Proof.
  unfold triangle_row. cbn [number_of_boundaries map fold_left filter].
  destruct (lookup tbl (swap (edge_key t 0))), (lookup tbl (swap (edge_key t 1))),
    (lookup tbl (swap (edge_key t 2))); reflexivity.
Qed.

(** ** Boundary dictionary *)
Lemma all_edges_In n k i : In (k, i) (all_edges n) <-> k < n /\ i < 3.
Proof.
  unfold all_edges. rewrite in_flat_map. split.
  - intros (x & Hx & H). apply in_seq in Hx. simpl in H.
    destruct H as [H|[H|[H|[]]]]; injection H as <- <-; lia.
  - intros (Hk & Hi). exists k. split; [apply in_seq; lia|].
    destruct i as [|[|[|i]]]; simpl; auto; lia.
Qed.

Lemma NoDup_snoc {A} (l : list A) x : NoDup l -> ~ In x l -> NoDup (l ++ [x]).
Proof.
  intros H N. induction H as [|y l Hy H IH]; simpl.
  - constructor; [simpl; tauto|constructor].
  - constructor.
    + rewrite in_app_iff. simpl. intros [E|[E|[]]]; [tauto|]. subst. apply N. left; auto.
    + apply IH. intros E. apply N. right; auto.
Qed.

Lemma lookup_app {V} (l1 l2 : list ((nat * nat) * V)) key :
  lookup (l1 ++ l2) key = match lookup l1 key with Some v => Some v | None => lookup l2 key end.
Proof.
  induction l1 as [|[k v] r IH]; simpl; auto. destruct (key_eqb k key); auto.
Qed.

Lemma tag_edge_spec rows def b key :
  NoDup (map fst b) ->
  NoDup (map fst (tag_edge rows def b key)) /\
  (forall k, lookup (tag_edge rows def b key) k =
     match lookup b k with
     | Some v => Some v
     | None => if key_eqb key k && (nb rows (fst key) (snd key) <? 0)%Z then Some def else None
     end).
Proof.
  intros ND. unfold tag_edge.
  destruct (nb rows (fst key) (snd key) <? 0)%Z eqn:E.
  - destruct (lookup b key) eqn:L.
    + split; [exact ND|]. intros k. destruct (lookup b k) eqn:L2; auto.
      destruct (key_eqb_spec key k); simpl; auto. congruence.
    + split.
      * rewrite map_app. apply NoDup_snoc; auto. apply lookup_None. exact L.
      * intros k. rewrite lookup_app. simpl. destruct (lookup b k); auto.
        rewrite andb_true_r. reflexivity.
  - split; [exact ND|]. intros k. destruct (lookup b k); auto. rewrite andb_false_r. reflexivity.
Qed.

Lemma tag_all_spec rows def : forall keys b,
  NoDup (map fst b) ->
  let r := fold_left (tag_edge rows def) keys b in
  NoDup (map fst r) /\
  (forall k, lookup r k =
     match lookup b k with
     | Some v => Some v
     | None => if existsb (key_eqb k) keys && (nb rows (fst k) (snd k) <? 0)%Z then Some def else None
     end).
Proof.
  induction keys as [|key keys IH]; intros b ND; simpl.
  - split; auto. intros k. destruct (lookup b k); auto.
  - destruct (tag_edge_spec rows def b key ND) as (ND1 & L1).
    destruct (IH _ ND1) as (ND2 & L2). split; auto.
    intros k. rewrite L2, L1. destruct (lookup b k); auto.
    destruct (key_eqb_spec key k) as [->|N].
    + destruct (key_eqb_spec k k); [|congruence]. simpl.
      destruct (nb rows (fst k) (snd k) <? 0)%Z; simpl; auto. rewrite andb_false_r; auto.
    + destruct (key_eqb_spec k key); [congruence|]. simpl. reflexivity.
Qed.

Lemma lookup_Some_In {V} (b : list ((nat * nat) * V)) k v : lookup b k = Some v -> In k (map fst b).
Proof. intros H. apply lookup_In in H. change k with (fst (k, v)). now apply in_map. Qed.

Lemma existsb_key k keys : existsb (key_eqb k) keys = true <-> In k keys.
Proof.
  rewrite existsb_exists. split.
  - intros (x & H & E). destruct (key_eqb_spec k x); congruence.
  - intros H. exists k. split; auto. destruct (key_eqb_spec k k); congruence.
Qed.

Lemma boundary_dictionary_spec rows def b bd :
  NoDup (map fst b) -> boundary_dictionary rows def b = Some bd ->
  NoDup (map fst bd) /\
  (forall k i, k < length rows -> i < 3 -> lookup bd (k, i) =
     match lookup b (k, i) with
     | Some v => Some v
     | None => if (nb rows k i <? 0)%Z then Some def else None
     end) /\
  (forall k i, In (k, i) (map fst bd) -> k < length rows /\ i < 3).
Proof.
  intros ND. unfold boundary_dictionary. destruct (keys_ok _ b) eqn:K; [|discriminate].
  intros H. injection H as <-.
  destruct (tag_all_spec rows def (all_edges (length rows)) b ND) as (A & B).
  split; auto. split.
  - intros k i Hk Hi. rewrite B. destruct (lookup b (k, i)); auto.
    rewrite (proj2 (existsb_key (k, i) _)); auto. apply all_edges_In. auto.
  - intros k i Hin.
    destruct (lookup (fold_left (tag_edge rows def) (all_edges (length rows)) b) (k, i)) eqn:L.
    2:{ apply lookup_None in L. tauto. }
    rewrite B in L. destruct (lookup b (k, i)) eqn:L2.
    + apply lookup_In in L2. unfold keys_ok in K. rewrite forallb_forall in K.
      specialize (K _ L2). simpl in K. apply andb_prop in K as (K1 & K2).
      apply Nat.ltb_lt in K1, K2. auto.
    + destruct (existsb _ _) eqn:E; [|discriminate].
      apply existsb_key in E. apply all_edges_In in E. exact E.
Qed.

(** ** Sorting *)
Lemma insert_key_perm x l : Permutation (insert_key x l) (x :: l).
Proof.
  induction l as [|y r IH]; simpl; auto. destruct (key_leb x y); auto.
  rewrite IH. apply perm_swap.
Qed.

Lemma sorted_keys_perm b : Permutation (sorted_keys b) (map fst b).
Proof.
  unfold sorted_keys. induction (map fst b) as [|x l IH]; simpl; auto.
  rewrite insert_key_perm. auto.
Qed.

Definition key_le (a b : nat * nat) : Prop := fst a < fst b \/ (fst a = fst b /\ snd a <= snd b).

Lemma key_leb_spec a b : reflect (key_le a b) (key_leb a b).
Proof.
  apply iff_reflect. unfold key_leb, key_le.
  rewrite orb_true_iff, andb_true_iff, Nat.ltb_lt, Nat.eqb_eq, Nat.leb_le. tauto.
Qed.

Lemma insert_key_sorted x l : Sorted key_le l -> Sorted key_le (insert_key x l).
Proof.
  induction l as [|y r IH]; simpl; intros H; auto.
  destruct (key_leb_spec x y) as [L|L]; [constructor; auto|].
  inversion H as [|? ? Hr Hy]; subst. constructor; auto.
  assert (Lyx : key_le y x) by (unfold key_le in *; lia).
  destruct r as [|z r]; simpl; auto. destruct (key_leb x z); auto.
  inversion Hy; subst. constructor; auto.
Qed.

Lemma sorted_keys_sorted b : Sorted key_le (sorted_keys b).
Proof.
  unfold sorted_keys. induction (map fst b) as [|x l IH]; simpl; auto.
  apply insert_key_sorted; auto.
Qed.

(** ** Enumeration *)
Lemma set_nth_length {A} : forall (l : list A) i v, length (set_nth i v l) = length l.
Proof. induction l; destruct i; simpl; auto. Qed.

Lemma nth_error_set_nth {A} : forall (l : list A) i v j,
  nth_error (set_nth i v l) j =
  if Nat.eqb i j then (if Nat.ltb j (length l) then Some v else None) else nth_error l j.
Proof.
  induction l as [|x r IH]; intros i v j.
  - destruct i, j; simpl; auto; destruct (Nat.eqb i j); auto.
  - destruct i, j; simpl; auto. rewrite IH. destruct (Nat.eqb i j); auto.
Qed.

Lemma nth_set_nth {A} (l : list A) i v j d :
  nth j (set_nth i v l) d = if Nat.eqb i j && Nat.ltb j (length l) then v else nth j l d.
Proof.
  rewrite <- !nth_default_eq. unfold nth_default. rewrite nth_error_set_nth.
  destruct (Nat.eqb i j); simpl; auto.
  destruct (Nat.ltb_spec j (length l)); auto.
  destruct (nth_error l j) eqn:E; auto.
  apply nth_error_None in H. congruence.
Qed.

Definition rows3 (rows : list row) : Prop := Forall (fun r => length (neighbours r) = 3) rows.

Lemma set_nb_rows3 rows k i v : rows3 rows -> rows3 (set_nb rows k i v).
Proof.
  unfold rows3, set_nb. intros H. destruct (nth_error rows k) as [r|] eqn:E; auto.
  apply Forall_forall. intros x Hx. apply In_nth_error in Hx as (n & Hn).
  rewrite nth_error_set_nth in Hn. rewrite Forall_forall in H.
  destruct (Nat.eqb k n).
  - destruct (Nat.ltb n (length rows)); [|discriminate]. injection Hn as <-. simpl.
    rewrite set_nth_length. apply H. eapply nth_error_In; eauto.
  - apply H. eapply nth_error_In; eauto.
Qed.

Lemma set_nb_length rows k i v : length (set_nb rows k i v) = length rows.
Proof. unfold set_nb. destruct (nth_error rows k); auto. apply set_nth_length. Qed.

Lemma nb_set_nb rows k i v k' i' :
  rows3 rows -> k < length rows -> i < 3 ->
  nb (set_nb rows k i v) k' i' = if key_eqb (k, i) (k', i') then v else nb rows k' i'.
Proof.
  intros R Hk Hi. unfold nb, set_nb.
  destruct (nth_error rows k) as [r|] eqn:E; [|apply nth_error_None in E; lia].
  assert (Lr : length (neighbours r) = 3).
  { unfold rows3 in R. rewrite Forall_forall in R. apply R. eapply nth_error_In; eauto. }
  rewrite nth_error_set_nth. unfold key_eqb; simpl.
  destruct (Nat.eqb_spec k k') as [->|]; simpl; auto.
  destruct (Nat.ltb_spec k' (length rows)); [|lia]. rewrite E. simpl.
  rewrite nth_set_nth, Lr.
  destruct (Nat.eqb_spec i i') as [->|]; simpl; auto.
  destruct (Nat.ltb_spec i' 3); auto; lia.
Qed.

(** Position of a key in a list. *)
Lemma enumerate_spec : forall X rows enum index,
  rows3 rows -> NoDup X -> Forall (fun key => fst key < length rows /\ snd key < 3) X ->
  (forall key, In key X -> ~ In key (map fst enum)) ->
  let r := enumerate rows enum index X in
  length (fst r) = length rows /\
  snd r = enum ++ map (fun p => (fst p, (- (index - Z.of_nat (snd p)) - 1)%Z))
                      (combine X (seq 0 (length X))) /\
  (forall m key, nth_error X m = Some key ->
     nb (fst r) (fst key) (snd key) = (index - Z.of_nat m)%Z) /\
  (forall k i, ~ In (k, i) X -> nb (fst r) k i = nb rows k i).
Proof.
  induction X as [|[k i] X IH]; intros rows enum index R ND F HN.
  - simpl. rewrite app_nil_r. repeat split; auto. intros [|m] key H; discriminate.
  - inversion ND as [|? ? N1 N2]; subst. inversion F as [|? ? [F1 F2] F3]; subst. simpl in F1, F2.
    cbn [enumerate].
    destruct (IH (set_nb rows k i index) (enum ++ [((k, i), (- index - 1)%Z)]) (index - 1)%Z)
      as (A & B & C & D).
    + apply set_nb_rows3; auto.
    + auto.
    + rewrite set_nb_length. auto.
    + intros key Hin. rewrite map_app, in_app_iff. simpl. intros [E|[E|[]]].
      * revert E. apply HN. right; auto.
      * subst. auto.
    + split; [rewrite A; apply set_nb_length|]. split; [|split].
      * rewrite B, <- app_assoc. simpl. f_equal. f_equal; [f_equal; lia|].
        rewrite <- (seq_shift (length X) 0).
        assert (G : forall (X : list (nat * nat)) s, map (fun p => (fst p, (- (index - 1 - Z.of_nat (snd p)) - 1)%Z))
               (combine X s) = map (fun p => (fst p, (- (index - Z.of_nat (snd p)) - 1)%Z))
               (combine X (map S s))).
        { clear. induction X as [|x X IHX]; destruct s; simpl; auto. f_equal; [|apply IHX].
          f_equal. lia. }
        apply G.
      * intros [|m] key H.
        -- simpl in H. injection H as <-. rewrite D by auto. simpl.
           rewrite nb_set_nb by auto. destruct (key_eqb_spec (k, i) (k, i)); [lia|congruence].
        -- simpl in H. rewrite (C m key H). lia.
      * intros k' i' Hn. rewrite D by (intros E; apply Hn; right; auto).
        rewrite nb_set_nb by auto. destruct (key_eqb_spec (k, i) (k', i')) as [E|]; auto.
        exfalso. apply Hn. left; auto.
Qed.

(** cells/edges arrays are the components of the sorted key list. *)
Lemma lookup_combine_seq : forall X key m s,
  NoDup X -> nth_error X m = Some key ->
  forall f : nat -> Z,
  lookup (map (fun p => (fst p, f (snd p))) (combine X (seq s (length X)))) key = Some (f (s + m)).
Proof.
  induction X as [|x X IH]; intros key m s ND H f; [destruct m; discriminate|].
  inversion ND as [|? ? N1 N2]; subst. simpl. destruct m as [|m]; simpl in H.
  - injection H as ->. destruct (key_eqb_spec key key); [|congruence]. f_equal. f_equal. lia.
  - destruct (key_eqb_spec x key) as [->|].
    + exfalso. apply N1. eapply nth_error_In; eauto.
    + rewrite (IH key m (S s) N2 H f). f_equal. f_equal. lia.
Qed.

Lemma fill_cells_spec X enum :
  NoDup X ->
  (forall m key, nth_error X m = Some key -> lookup enum key = Some (Z.of_nat m)) ->
  fill_cells enum X = (map fst X, map snd X).
Proof.
  intros ND HL. unfold fill_cells.
  assert (G : forall Y a b Z0, X = Z0 ++ Y -> length a = length X -> length b = length X ->
     (forall m, m < length Z0 -> nth m a 0 = nth m (map fst X) 0 /\ nth m b 0 = nth m (map snd X) 0) ->
     fold_left (fun st key =>
       match lookup enum key with
       | Some j => (set_nth (Z.to_nat j) (fst key) (fst st), set_nth (Z.to_nat j) (snd key) (snd st))
       | None => st
       end) Y (a, b) = (map fst X, map snd X)).
  { induction Y as [|y Y IH]; intros a b Z0 E La Lb H.
    - simpl. rewrite app_nil_r in E. subst Z0.
      f_equal; (apply nth_ext with (d := 0) (d' := 0); [rewrite map_length; auto|]);
        intros n Hn; [rewrite La in Hn|rewrite Lb in Hn]; apply H; auto.
    - cbn [fold_left].
      assert (Hy : nth_error X (length Z0) = Some y).
      { rewrite E, nth_error_app2, Nat.sub_diag by lia. reflexivity. }
      rewrite (HL _ _ Hy). rewrite Nat2Z.id. simpl fst. simpl snd.
      apply (IH _ _ (Z0 ++ [y])).
      + rewrite E, <- app_assoc. reflexivity.
      + rewrite set_nth_length; auto.
      + rewrite set_nth_length; auto.
      + intros m Hm. rewrite app_length in Hm. cbn [length] in Hm.
        assert (LX : length X = length Z0 + S (length Y)) by (rewrite E, app_length; reflexivity).
        rewrite !nth_set_nth, La, Lb.
        destruct (Nat.eqb_spec (length Z0) m) as [<-|].
        * destruct (Nat.ltb_spec (length Z0) (length X)); [|lia]. simpl.
          rewrite !(nth_indep _ 0 (fst y)) by (rewrite map_length; lia).
          split.
          -- rewrite map_nth. erewrite nth_error_nth; eauto.
          -- rewrite (nth_indep _ (fst y) (snd y)) by (rewrite map_length; lia).
             rewrite map_nth. erewrite nth_error_nth; eauto.
        * simpl. apply H. lia. }
  apply (G X _ _ []); auto; try apply repeat_length. simpl; intros; lia.
Qed.

(** ** Tag lists *)
Fixpoint tag_list (d : list (nat * list nat)) (tag : nat) : option (list nat) :=
  match d with
  | [] => None
  | (t, l) :: r => if Nat.eqb t tag then Some l else tag_list r tag
  end.

Lemma tag_list_append d tag j tag' :
  tag_list (dict_append d tag j) tag' =
  match tag_list d tag' with
  | Some l => Some (if Nat.eqb tag tag' then l ++ [j] else l)
  | None => None
  end.
Proof.
  induction d as [|[t l] r IH]; simpl; auto.
  destruct (Nat.eqb_spec t tag) as [->|]; simpl.
  - destruct (Nat.eqb_spec tag tag'); auto. destruct (tag_list r tag'); auto.
  - destruct (Nat.eqb_spec t tag') as [->|]; auto.
    destruct (Nat.eqb_spec tag tag'); auto. congruence.
Qed.

Lemma tag_cells_fold b cells edges : forall js d tag l,
  tag_list d tag = Some l ->
  tag_list (fold_left (fun d j =>
     match lookup b (nth j cells 0, nth j edges 0) with
     | Some tag => dict_append d tag j
     | None => d
     end) js d) tag =
  Some (l ++ filter (fun j => match lookup b (nth j cells 0, nth j edges 0) with
                              | Some t => Nat.eqb t tag | None => false end) js).
Proof.
  induction js as [|j js IH]; intros d tag l H; simpl.
  - rewrite app_nil_r; auto.
  - destruct (lookup b (nth j cells 0, nth j edges 0)) as [t|].
    + rewrite (IH _ _ (if Nat.eqb t tag then l ++ [j] else l)).
      * destruct (Nat.eqb t tag); auto. rewrite <- app_assoc. reflexivity.
      * rewrite tag_list_append, H. reflexivity.
    + apply IH; auto.
Qed.

Lemma boundary_tags_In b t : In t (boundary_tags b) <-> In t (map snd b).
Proof.
  unfold boundary_tags.
  assert (G : forall l acc, In t (fold_left (fun acc t => if existsb (Nat.eqb t) acc then acc else acc ++ [t]) l acc)
              <-> In t acc \/ In t l).
  { induction l as [|x l IH]; intros acc; simpl; [tauto|]. rewrite IH.
    destruct (existsb (Nat.eqb x) acc) eqn:E.
    - split; [tauto|]. intros [?|[->|?]]; auto. left.
      apply existsb_exists in E as (y & Hy & E). apply Nat.eqb_eq in E. congruence.
    - rewrite in_app_iff. simpl. tauto. }
  rewrite G. simpl. tauto.
Qed.

Lemma tag_list_init l tag : In tag l -> tag_list (map (fun t => (t, [])) l) tag = Some [].
Proof.
  induction l as [|x l IH]; simpl; [tauto|]. intros [->|H].
  - rewrite Nat.eqb_refl. reflexivity.
  - destruct (Nat.eqb x tag); auto.
Qed.
