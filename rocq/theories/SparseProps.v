(** Properties C16, C49 and C50: sparse matrices. *)
From Coq Require Import Reals List Arith Bool Permutation Lia Lra Classical.
From Verif Require Import RealLib ArrayLib InvertedProofs SparseModel SparseProofs.
Import ListNotations.

(** A matrix as the class keeps it: one entry per key, keys in range. *)
Definition wf_sparse (A : sparse) : Prop :=
  NoDup (map fst (Data A)) /\ forall k x, In (k, x) (Data A) -> fst k < M A /\ snd k < N A.

(** Row [i] has a stored entry. *)
Definition row_used (A : sparse) (i : nat) : Prop := exists j x, In ((i, j), x) (Data A).

(** No row without entries lies between two rows with entries. *)
Definition no_gaps (A : sparse) : Prop := forall i0 i i1, i0 < i < i1 -> row_used A i0 -> row_used A i1 -> row_used A i.

Lemma used_nonempty A i : row_used A i <-> nonempty (Data A) i.
Proof.
  split.
  - intros (j & x & H). exists ((i, j), x). auto.
  - intros (((i', j), x) & H & E). unfold row in E; cbn in E. subst. exists j, x. auto.
Qed.

Lemma to_csr_parts A : wf_sparse A ->
  entries (to_csr A) = map (fun it => (snd (fst it), snd it)) (sort_items (Data A)) /\
  forall i, i <= M A ->
  (row_used A i -> row_ptr (to_csr A) i = below (Data A) i) /\
  ((forall i', row_used A i' -> i' < i) -> row_ptr (to_csr A) i = below (Data A) i) /\
  (~ row_used A i -> (exists i', row_used A i' /\ i < i') -> row_ptr (to_csr A) i = 0).
Proof.
  intros (W & Rg). assert (Rk : forall it, In it (Data A) -> row it < M A) by (intros (k, x) H; apply (Rg k x H)).
  pose proof (pointers (Data A) (M A) (fun _ => 0) Rk) as P. unfold to_csr.
  destruct (fill_rows (sort_items (Data A)) 0 None (fun _ => 0)) as [cur rp]. cbn [entries row_ptr].
  split; [reflexivity|]. intros i Hi. destruct (P i Hi) as (P1 & P2 & P3). rewrite <- used_nonempty in P1, P3.
  split; [exact P1|]. split; [|].
  - intros H. apply P2. intros i' Hi'. apply H, used_nonempty, Hi'.
  - intros H1 (i' & H2 & H3). apply P3; auto. exists i'. rewrite <- used_nonempty. auto.
Qed.

Lemma row_ptr_no_gaps A i : wf_sparse A -> no_gaps A -> i <= M A -> row_ptr (to_csr A) i = below (Data A) i.
Proof.
  intros W G Hi. destruct (to_csr_parts A W) as (_ & P). destruct (P i Hi) as (P1 & P2 & P3).
  destruct (classic (row_used A i)) as [U|U]; [auto|].
  destruct (classic (exists i', row_used A i' /\ i < i')) as [L|L].
  - rewrite P3 by auto. symmetry. apply below_0. intros i' Hi'. apply used_nonempty in Hi'.
    destruct (Nat.le_gt_cases i i'); auto. exfalso. destruct L as (i1 & H1 & H2). apply U. apply (G i' i i1); auto.
  - apply P2. intros i' Hi'. destruct (Nat.lt_trichotomy i' i) as [|[->|]]; auto; exfalso; [auto|apply L; eauto].
Qed.

Lemma row_entries_no_gaps A i : wf_sparse A -> no_gaps A -> i < M A ->
  row_entries (to_csr A) i = map (fun it => (snd (fst it), snd it)) (filter (fun it => row it =? i) (sort_items (Data A))).
Proof.
  intros W G Hi. apply (row_slice (Data A) (to_csr A) i).
  - apply to_csr_parts, W.
  - apply row_ptr_no_gaps; auto; lia.
  - apply row_ptr_no_gaps; auto; lia.
Qed.

(** The last write to column [j] among entries with distinct keys. *)
Lemma last_write i j : forall (l : dict) d0, wf_dict l ->
  fold_left (fun d (e : nat * R) => if fst e =? j then snd e else d)
    (map (fun it => (snd (fst it), snd it)) (filter (fun it => row it =? i) l)) d0 =
  match lookup l (i, j) with Some x => x | None => d0 end.
Proof.
  induction l as [|((a, b), x) l IH]; intros d0 W; [reflexivity|].
  inversion W as [|? ? Hn Hd]; subst. fold (wf_dict l) in Hd. cbn [filter lookup]. unfold row at 1, key_eqb. cbn [fst snd].
  destruct (Nat.eqb_spec a i) as [->|Ha]; cbn [andb map fold_left fst snd].
  - rewrite IH by auto. destruct (Nat.eqb_spec b j) as [->|Hb]; auto.
    rewrite (proj2 (lookup_None l (i, j)) Hn). reflexivity.
  - apply IH, Hd.
Qed.

Lemma lookup_perm l l' k : wf_dict l -> Permutation l l' -> lookup l' k = lookup l k.
Proof.
  intros W P. assert (W' : wf_dict l') by (unfold wf_dict in *; eapply Permutation_NoDup; [apply Permutation_map, P|auto]).
  destruct (lookup l k) as [x|] eqn:E.
  - apply lookup_In in E; auto. apply lookup_In; auto. eapply Permutation_in; eauto.
  - apply lookup_None in E. apply lookup_None. intros H. apply E. eapply Permutation_in; [apply Permutation_sym, Permutation_map, P|auto].
Qed.

Lemma fold_plus (x : nat -> R) : forall l y, fold_left (fun y (e : nat * R) => y + snd e * x (fst e))%R l y =
  (y + Rsum (map (fun e => snd e * x (fst e)) l))%R.
Proof. induction l as [|e l IH]; intros y; cbn; [ring|]. rewrite IH. ring. Qed.

(** * C16 *)

(** For a matrix without gaps the conversion keeps every entry and the
    product with any vector. *)
Theorem C16_csr :
  forall A, wf_sparse A -> no_gaps A ->
  csr_M (to_csr A) = M A /\ csr_N (to_csr A) = N A /\
  forall i, i < M A ->
  (forall j, csr_dense (to_csr A) i j = dense A i j) /\
  (forall v, csr_mv (to_csr A) v i = mul_vector A v i).
Proof.
  intros A W G. split; [|split].
  { unfold to_csr. destruct (fill_rows _ _ _ _). reflexivity. }
  { unfold to_csr. destruct (fill_rows _ _ _ _). reflexivity. }
  intros i Hi. pose proof W as (Wd & _). fold (wf_dict (Data A)) in Wd. pose proof (sort_perm (Data A)) as P.
  assert (Ws : wf_dict (sort_items (Data A))) by (unfold wf_dict in *; eapply Permutation_NoDup; [apply Permutation_map, P|auto]).
  split.
  - intros j. unfold csr_dense. rewrite row_entries_no_gaps by auto. rewrite last_write by auto.
    rewrite (lookup_perm _ _ _ Wd P). reflexivity.
  - intros v. unfold csr_mv. rewrite row_entries_no_gaps by auto. rewrite fold_plus, map_map, Rplus_0_l. cbn [fst snd].
    unfold mul_vector. rewrite (fold_mul fst snd v i (Data A)). rewrite Rplus_0_l.
    apply Rsum_perm, Permutation_map. apply filter_perm, Permutation_sym, P.
Qed.
Print Assumptions C16_csr.

(** With a gap the conversion loses data: the row before the gap comes out
    empty although it has entries. *)
Theorem C16_gap_loses_a_row :
  forall A, wf_sparse A -> (forall k x, In (k, x) (Data A) -> x <> 0%R) -> ~ no_gaps A ->
  exists i j, i < M A /\ j < N A /\ dense A i j <> 0%R /\ csr_dense (to_csr A) i j = 0%R.
Proof.
  intros A W Nz G.
  assert (Ex : exists i i1, S i < i1 /\ row_used A i /\ ~ row_used A (S i) /\ row_used A i1).
  { apply not_all_ex_not in G as (i0 & G). apply not_all_ex_not in G as (i & G). apply not_all_ex_not in G as (i1 & G).
    assert (Hi : i0 < i < i1 /\ row_used A i0 /\ row_used A i1 /\ ~ row_used A i) by tauto. clear G.
    destruct Hi as ((Ha & Hb) & H0 & H1 & H2).
    (* the last used row before i *)
    assert (L : forall n, i0 + n = i -> exists k, k < i /\ row_used A k /\ ~ row_used A (S k)).
    { clear H1 Hb i1. intros n. revert i0 Ha H0. induction n as [|n IH]; intros i0 Ha H0 En; [lia|].
      destruct (classic (row_used A (S i0))) as [U|U].
      - apply (IH (S i0)); auto; [|lia]. destruct (Nat.eq_dec (S i0) i) as [<-|]; [tauto|lia].
      - exists i0. auto. }
    destruct (L (i - i0) ltac:(lia)) as (k & K1 & K2 & K3). exists k, i1. repeat split; auto. lia. }
  destruct Ex as (i & i1 & H1 & H2 & H3 & H4). pose proof H2 as (j & x & Hin). pose proof W as (Wd & Rg).
  destruct (Rg _ _ Hin) as (Hi & Hj). cbn in Hi, Hj.
  exists i, j. split; auto. split; auto. split.
  - unfold dense. rewrite (proj2 (lookup_In (Data A) (i, j) x Wd) Hin). apply (Nz _ _ Hin).
  - unfold csr_dense, row_entries. destruct (to_csr_parts A W) as (_ & P). destruct (P (S i) ltac:(lia)) as (_ & _ & P3).
    rewrite P3 by (eauto with arith). cbn. reflexivity.
Qed.
Print Assumptions C16_gap_loses_a_row.

(** C16 as stated fails: diag(1, 0, 1). *)
Definition ex_gap : sparse := Sparse 3 3 [((0, 0), 1%R); ((2, 2), 1%R)].
Theorem C16_refuted :
  wf_sparse ex_gap /\ dense ex_gap 0 0 = 1%R /\ csr_dense (to_csr ex_gap) 0 0 = 0%R /\
  dense ex_gap 1 0 = 0%R /\ csr_dense (to_csr ex_gap) 1 0 = 1%R.
Proof.
  split; [split; [repeat constructor; cbn; intuition congruence|]|].
  - cbn. intros k x [E|[E|[]]]; injection E as <- <-; cbn; lia.
  - repeat split; reflexivity.
Qed.
Print Assumptions C16_refuted.

(** The C conversion of a hash table leaves the row pointers of empty rows
    uninitialised.  It is right whatever the memory held if every row up to
    the last one has an entry. *)
Theorem C16_convert_to_csr :
  forall garbage h, wf_dok h ->
  (forall i, i <= dok_rows h -> exists j x, In ((i, j), x) (edgetable h)) ->
  forall i, i <= dok_rows h ->
  (forall j, csr_dense (convert_to_csr garbage h) i j = entry h (i, j)) /\
  (forall v, csr_mv (convert_to_csr garbage h) v i =
     Rsum (map (fun it => snd it * v (snd (fst it)))%R (filter (fun it => fst (fst it) =? i) (edgetable h)))).
Proof.
  intros garbage h (Wd & Ln & Rw) Full i Hi.
  assert (Rk : forall it, In it (edgetable h) -> row it < S (dok_rows h)).
  { intros it Hin. apply (in_map fst) in Hin. apply Rw in Hin. unfold row. lia. }
  pose proof (pointers (edgetable h) (S (dok_rows h)) garbage Rk) as P.
  assert (NE : forall i, i <= dok_rows h -> nonempty (edgetable h) i).
  { intros k Hk. destruct (Full k Hk) as (j & x & Hin). exists ((k, j), x). auto. }
  assert (RE : row_entries (convert_to_csr garbage h) i =
    map (fun it => (snd (fst it), snd it)) (filter (fun it => row it =? i) (sort_items (edgetable h)))).
  { unfold convert_to_csr. rewrite Ln, (Permutation_length (sort_perm (edgetable h))).
    destruct (fill_rows (sort_items (edgetable h)) 0 None garbage) as [cur rp].
    apply (row_slice (edgetable h)); cbn [entries row_ptr]; [reflexivity| |].
    - refine (proj1 (P i _) _); [lia|]. apply NE, Hi.
    - destruct (Nat.eq_dec i (dok_rows h)) as [->|].
      + refine (proj1 (proj2 (P (S (dok_rows h)) _)) _); [lia|]. intros i' (it & Hin & <-). apply Rk, Hin.
      + refine (proj1 (P (S i) _) _); [lia|]. apply NE. lia. }
  pose proof (sort_perm (edgetable h)) as Pm.
  assert (Ws : wf_dict (sort_items (edgetable h))) by (unfold wf_dict in *; eapply Permutation_NoDup; [apply Permutation_map, Pm|auto]).
  split.
  - intros j. unfold csr_dense. rewrite RE, last_write by auto. rewrite (lookup_perm _ _ _ Wd Pm). reflexivity.
  - intros v. unfold csr_mv. rewrite RE, fold_plus, map_map, Rplus_0_l. cbn [fst snd].
    apply Rsum_perm, Permutation_map, filter_perm, Permutation_sym, Pm.
Qed.
Print Assumptions C16_convert_to_csr.

(** With an empty row the result depends on the memory malloc returned. *)
Theorem C16_convert_to_csr_refuted :
  exists h, wf_dok h /\ entry h (0, 0) = 1%R /\
  csr_dense (convert_to_csr (fun _ => 1) h) 0 0 = 1%R /\ csr_dense (convert_to_csr (fun _ => 0) h) 0 0 = 0%R.
Proof.
  exists (Dok [((0, 0), 1%R); ((2, 2), 1%R)] 2 2). split; [|repeat split; reflexivity].
  split; [repeat constructor; cbn; intuition congruence|]. split; [reflexivity|]. intros k [<-|[<-|[]]]; cbn; lia.
Qed.
Print Assumptions C16_convert_to_csr_refuted.

(** Non-vacuity: diag(1, 2) without gaps. *)
Example C16_example : let A := Sparse 3 3 [((2, 1), 5%R); ((1, 0), 3%R)] in wf_sparse A /\ no_gaps A.
Proof.
  cbv zeta. split; [split; [repeat constructor; cbn; intuition congruence|]|].
  - cbn. intros k x [E|[E|[]]]; injection E as <- <-; cbn; lia.
  - intros i0 i i1 H (j0 & x0 & H0) (j1 & x1 & H1). cbn in H0, H1. exfalso.
    destruct H0 as [H0|[H0|[]]], H1 as [H1|[H1|[]]]; congruence || (injection H0; injection H1; intros; lia).
Qed.

(** * C49: the dictionary class does dense matrix arithmetic *)

Theorem C49_setitem_getitem :
  forall A k x, wf_sparse A ->
  (~ (fst k < M A /\ snd k < N A) -> setitem A k x = None /\ getitem A k = None) /\
  (fst k < M A /\ snd k < N A ->
   getitem A k = Some (dense A (fst k) (snd k)) /\
   exists A', setitem A k x = Some A' /\ wf_sparse A' /\ M A' = M A /\ N A' = N A /\
   (forall k', In k' (map fst (Data A')) <-> (k' = k /\ x <> 0%R) \/ (k' <> k /\ In k' (map fst (Data A)))) /\
   forall i j, dense A' i j = if (i =? fst k) && (j =? snd k) then x else dense A i j).
Proof.
  intros A k x W. split.
  - intros H. unfold setitem, getitem. destruct (in_range A k) eqn:E; auto. apply in_range_spec in E. contradiction.
  - intros H. apply in_range_spec in H as E. destruct k as [a b]. split; [unfold getitem; rewrite E; reflexivity|].
    destruct (setitem_spec A (a, b) x W E) as (A' & E' & W' & M' & N' & D' & L1 & L2). exists A'.
    split; [exact E'|]. split; [exact W'|]. split; [exact M'|]. split; [exact N'|]. split; [intros k'; split|].
    + intros Hk. destruct (key_eqb_spec k' (a, b)) as [->|Hne].
      * left. split; auto. intros ->. destruct (Reqb_spec 0 0); [|congruence]. apply lookup_None in L1. auto.
      * right. split; auto. destruct (classic (In k' (map fst (Data A)))) as [|Hno]; auto. exfalso.
        apply lookup_None in Hno. rewrite <- (L2 k' Hne) in Hno. apply lookup_None in Hno. auto.
    + intros [(-> & Hx)|(Hne & Hk)].
      * destruct (Reqb_spec x 0); [contradiction|]. eapply lookup_Some_key; eauto.
      * destruct (lookup (Data A) k') eqn:El; [|apply lookup_None in El; contradiction].
        rewrite <- (L2 k' Hne) in El. eapply lookup_Some_key; eauto.
    + intros i j. rewrite D'. unfold key_eqb. cbn [fst snd]. rewrite (Nat.eqb_sym a), (Nat.eqb_sym b). reflexivity.
Qed.
Print Assumptions C49_setitem_getitem.

(** Products with a vector and its transpose. *)
Theorem C49_products :
  forall A v, wf_sparse A ->
  (forall i, mul_vector A v i = Rsum (map (fun j => dense A i j * v j)%R (seq 0 (N A)))) /\
  (forall j, trans_mult A v j = Rsum (map (fun i => dense A i j * v i)%R (seq 0 (M A)))).
Proof.
  intros A v (Wd & Rg). split.
  - intros i. unfold mul_vector. rewrite (fold_mul fst snd v i (Data A)), Rplus_0_l.
    apply (row_sum v i (N A) (Data A) Wd). intros (k, x) Hin. apply (Rg k x Hin).
  - intros j. unfold trans_mult. rewrite (fold_mul snd fst v j (Data A)), Rplus_0_l.
    pose proof (row_sum v j (M A) (transposed (Data A)) (transposed_wf _ Wd)) as E.
    assert (H : forall it, In it (transposed (Data A)) -> snd (fst it) < M A).
    { intros it Hin. apply in_map_iff in Hin as ((k, x) & <- & Hin). apply (Rg k x Hin). }
    specialize (E H). clear H.
    assert (E2 : Rsum (map (fun it => snd it * v (snd (fst it)))%R (filter (fun it => row it =? j) (transposed (Data A)))) =
                 Rsum (map (fun it => snd it * v (fst (fst it)))%R (filter (fun it => snd (fst it) =? j) (Data A)))).
    { generalize (Data A). intros l. induction l as [|((a, b), x) l IH]; [reflexivity|].
      cbn [transposed map filter fst snd]. unfold row at 1. cbn [fst snd]. fold (transposed l).
      destruct (b =? j); cbn [map Rsum fst snd]; rewrite IH; reflexivity. }
    refine (eq_trans (eq_sym E2) (eq_trans E _)). apply Rsum_map_ext_in. intros i _. rewrite lookup_transposed. reflexivity.
Qed.
Print Assumptions C49_products.

(** Sum and scalar multiple; addition of a larger matrix to a smaller one
    fails if it has an entry outside. *)
Theorem C49_add_scale :
  forall A B c, wf_sparse A -> wf_sparse B ->
  (exists A', rmul c A = Some A' /\ wf_sparse A' /\ M A' = M A /\ N A' = N A /\ forall i j, dense A' i j = (c * dense A i j)%R) /\
  ((forall k x, In (k, x) (Data A) -> fst k < M B /\ snd k < N B) ->
   exists C, add A B = Some C /\ wf_sparse C /\ M C = M B /\ N C = N B /\ forall i j, dense C i j = (dense A i j + dense B i j)%R).
Proof.
  intros A B c WA WB. split.
  - destruct (copy_spec A WA) as (A1 & E & W1 & M1 & N1 & D1). unfold rmul. rewrite E. eexists. split; [reflexivity|].
    cbn [M N]. split; [|split; [auto|split; [auto|]]].
    + split; cbn [Data M N].
      * rewrite map_map. apply W1.
      * intros k x Hin. apply in_map_iff in Hin as ((k', y) & Heq & Hin). injection Heq as <- <-. apply W1 in Hin. exact Hin.
    + intros i j. rewrite <- D1. unfold dense. cbn [Data]. induction (Data A1) as [|(k, x) l IH]; cbn [map lookup fst snd]; [ring|].
      destruct (key_eqb k (i, j)); [reflexivity|exact IH].
  - intros H. destruct (copy_spec B WB) as (B1 & E & W1 & M1 & N1 & D1). unfold add. rewrite E.
    destruct (set_all_spec (fun x old => match old with Some y => y + x | None => x end)%R (Data A) B1 W1) as (C & EC & WC & MC & NC & DC).
    + apply WA.
    + intros k x Hin. apply in_range_spec. rewrite M1, N1. apply (H k x Hin).
    + exists C. split; [exact EC|]. split; [exact WC|]. rewrite MC, NC, M1, N1. split; auto. split; auto. intros i j.
      rewrite DC, D1. unfold dense at 3. destruct (lookup (Data A) (i, j)); cbn; lra.
Qed.
Print Assumptions C49_add_scale.

(** From a dense array. *)
Theorem C49_from_dense :
  forall m n a, let A := from_dense m n a in
  wf_sparse A /\ M A = m /\ N A = n /\ (forall k x, In (k, x) (Data A) -> x <> 0%R) /\
  forall i j, i < m -> j < n -> dense A i j = a i j.
Proof.
  intros m n a. cbv zeta. unfold from_dense.
  assert (G : forall ks d, wf_dict d -> (forall k x, In (k, x) d -> (fst k < m /\ snd k < n) /\ x <> 0%R) ->
     (forall k, In k ks -> fst k < m /\ snd k < n) -> 
     let d' := fold_left (fun d k => if negb (Reqb (a (fst k) (snd k)) 0) then assign d k (a (fst k) (snd k)) else d) ks d in
     wf_dict d' /\ (forall k x, In (k, x) d' -> (fst k < m /\ snd k < n) /\ x <> 0%R) /\
     forall k, val (lookup d' k) = if existsb (key_eqb k) ks then (if Reqb (a (fst k) (snd k)) 0 then val (lookup d k) else a (fst k) (snd k)) else val (lookup d k)).
  { induction ks as [|k0 ks IH]; intros d Wd Hd Hk; [cbn; auto|]. cbn [fold_left].
    set (d1 := if negb (Reqb (a (fst k0) (snd k0)) 0) then assign d k0 (a (fst k0) (snd k0)) else d).
    assert (W1 : wf_dict d1) by (unfold d1; destruct (negb _); auto using assign_wf).
    assert (H1 : forall k x, In (k, x) d1 -> (fst k < m /\ snd k < n) /\ x <> 0%R).
    { intros k x Hin. apply lookup_In in Hin; auto. unfold d1 in Hin. destruct (Reqb_spec (a (fst k0) (snd k0)) 0) as [Hz|Hz]; cbn [negb] in Hin.
      - apply lookup_In in Hin; auto.
      - rewrite lookup_assign in Hin. destruct (key_eqb_spec k0 k) as [<-|]; [|apply lookup_In in Hin; auto].
        injection Hin as <-. split; auto. apply Hk. left; auto. }
    destruct (IH d1 W1 H1 (fun k H => Hk k (or_intror H))) as (I1 & I2 & I3). split; auto. split; auto.
    intros k. rewrite I3. cbn [existsb].
    assert (V : val (lookup d1 k) = if key_eqb k k0 then (if Reqb (a (fst k) (snd k)) 0 then val (lookup d k) else a (fst k) (snd k)) else val (lookup d k)).
    { unfold d1. destruct (key_eqb_spec k k0) as [->|Hne].
      - destruct (Reqb (a (fst k0) (snd k0)) 0); cbn [negb]; auto. rewrite lookup_assign. destruct (key_eqb_spec k0 k0); [reflexivity|congruence].
      - destruct (negb _); auto. rewrite lookup_assign. destruct (key_eqb_spec k0 k); [congruence|reflexivity]. }
    rewrite V. destruct (key_eqb k k0), (existsb (key_eqb k) ks); cbn [orb]; auto.
    destruct (Reqb (a (fst k) (snd k)) 0); auto. }
  destruct (G (list_prod (seq 0 m) (seq 0 n)) []) as (G1 & G2 & G3).
  - constructor.
  - intros k x [].
  - intros (i, j) Hin. apply in_prod_iff in Hin as (H1 & H2). apply in_seq in H1, H2. cbn. lia.
  - cbv zeta in *. split; [split; [exact G1|]|].
    + intros k x Hin. apply (G2 k x Hin).
    + split; auto. split; auto. split; [intros k x Hin; apply (G2 k x Hin)|].
      intros i j Hi Hj. unfold dense. cbn [Data]. specialize (G3 (i, j)). unfold val at 1 in G3. rewrite G3. cbn [fst snd lookup val].
      destruct (existsb (key_eqb (i, j)) (list_prod (seq 0 m) (seq 0 n))) eqn:Ex.
      * destruct (Reqb_spec (a i j) 0) as [->|]; reflexivity.
      * exfalso. assert (Hin : In (i, j) (list_prod (seq 0 m) (seq 0 n))) by (apply in_prod; apply in_seq; lia).
        rewrite <- Bool.not_true_iff_false in Ex. apply Ex, existsb_exists. exists (i, j). split; auto. destruct (key_eqb_spec (i, j) (i, j)); congruence.
Qed.
Print Assumptions C49_from_dense.

Example C49_example : exists C, add (from_dense 2 2 (fun i j => INR (i + j))) (Sparse 2 2 [((0, 1), (-1)%R)]) = Some C /\
  wf_sparse (from_dense 2 2 (fun i j => INR (i + j))) /\ dense C 0 1 = 0%R /\ dense C 1 1 = 2%R.
Proof.
  destruct (C49_from_dense 2 2 (fun i j => INR (i + j))) as (W & M1 & N1 & _ & D).
  assert (WB : wf_sparse (Sparse 2 2 [((0, 1), (-1)%R)])).
  { split; [repeat constructor; cbn; auto|]. intros k x [E|[]]. injection E as <- <-. cbn. lia. }
  destruct (C49_add_scale (from_dense 2 2 (fun i j => INR (i + j))) (Sparse 2 2 [((0, 1), (-1)%R)]) 1%R W WB) as (_ & H).
  destruct H as (C & E & _ & _ & _ & DC).
  { intros k x Hin. apply W in Hin. cbn [M N]. rewrite M1, N1 in Hin. exact Hin. }
  exists C. split; [exact E|]. split; [exact W|]. rewrite !DC, !D by lia. cbn. split; lra.
Qed.

(** * C50: accumulation in the hash table *)

(** Adding to one entry changes no other entry and is exact up to the
    deletion of entries of size at most 1e-10. *)
Theorem C50_add_entry :
  forall h k v, wf_dok h ->
  let h' := add_dok_entry h k v in
  wf_dok h' /\ (forall k', k' <> k -> entry h' k' = entry h k') /\
  ((/ 10 ^ 10 < Rabs (entry h k + v) /\ entry h' k = entry h k + v) \/
   (Rabs (entry h k + v) <= / 10 ^ 10 /\ entry h' k = 0))%R.
Proof. exact add_dok_entry_spec. Qed.
Print Assumptions C50_add_entry.

(** Any sequence of additions, in any order: each entry is off the exact sum
    by at most 1e-10 per addition made to it. *)
Theorem C50_accumulate :
  forall items h k, wf_dok h ->
  let h' := fold_left (fun h (it : key * R) => add_dok_entry h (fst it) (snd it)) items h in
  let mine := filter (fun it : key * R => key_eqb (fst it) k) items in
  wf_dok h' /\
  (Rabs (entry h' k - (entry h k + Rsum (map snd mine))) <= INR (length mine) * / 10 ^ 10)%R.
Proof.
  assert (Tp : (0 < / 10 ^ 10)%R) by (apply Rinv_0_lt_compat, pow_lt; lra).
  induction items as [|(k0, v) items IH]; intros h k W; cbv zeta.
  - cbn. split; auto. replace (entry h k - (entry h k + 0))%R with 0%R by ring. rewrite Rabs_R0. lra.
  - cbn [fold_left filter fst snd]. destruct (C50_add_entry h k0 v W) as (W1 & O & E). cbv zeta in *.
    destruct (IH (add_dok_entry h k0 v) k W1) as (I1 & I2). cbv zeta in I1, I2. split; [exact I1|].
    set (h' := fold_left _ items _) in *. set (mine := filter _ items) in *. set (eps := (/ 10 ^ 10)%R) in *.
    destruct (key_eqb_spec k0 k) as [->|Hne].
    + cbn [map Rsum length snd]. rewrite S_INR. clearbody eps.
      assert (D : (Rabs (entry (add_dok_entry h k v) k - (entry h k + v)) <= eps)%R).
      { destruct E as [(_ & ->)|(E & ->)].
        - replace (entry h k + v - (entry h k + v))%R with 0%R by ring. rewrite Rabs_R0. lra.
        - rewrite Rminus_0_l, Rabs_Ropp. exact E. }
      replace (entry h' k - (entry h k + (v + Rsum (map snd mine))))%R with
        ((entry h' k - (entry (add_dok_entry h k v) k + Rsum (map snd mine))) + (entry (add_dok_entry h k v) k - (entry h k + v)))%R by ring.
      eapply Rle_trans; [apply Rabs_triang|]. lra.
    + rewrite (O k) in I2 by congruence. exact I2.
Qed.
Print Assumptions C50_accumulate.

(** The linear combination: every entry of the first table ends within 1e-10
    of [mult1 * A + mult2 * B].  The second table keeps its keys but loses the
    values of the keys both have. *)
Theorem C50_add_sparse_dok :
  forall h1 m1 h2 m2, wf_dok h1 -> wf_dok h2 ->
  let '(r1, r2) := add_sparse_dok h1 m1 h2 m2 in
  wf_dok r1 /\
  (forall k, Rabs (entry r1 k - (m1 * entry h1 k + m2 * entry h2 k)) <= / 10 ^ 10)%R /\
  (forall k, entry r2 k = match lookup (edgetable h1) k with Some _ => 0%R | None => entry h2 k end).
Proof.
  assert (Tp : (0 < / 10 ^ 10)%R) by (apply Rinv_0_lt_compat, pow_lt; lra).
  intros h1 m1 h2 m2 W1 W2. unfold add_sparse_dok, scale_first.
  pose proof (scale_first_spec m1 m2 (edgetable h1) [] (edgetable h2)) as Sp. cbn [map app] in Sp.
  specialize (Sp (proj1 W1) (proj1 W2)).
  match goal with |- context [fold_left ?f (edgetable h1) ([], edgetable h2)] => set (st := fold_left f (edgetable h1) ([], edgetable h2)) in * end.
  destruct st as [d1 d2]. destruct Sp as (S1 & S2 & S3 & S4 & S5). cbn [lookup] in S4.
  assert (Wd : wf_dok (Dok d1 (num_entries h1) (dok_rows h1))).
  { destruct W1 as (A & B & C). split; cbn [edgetable num_entries dok_rows].
    - unfold wf_dict. rewrite S1. exact A.
    - split; [rewrite B, <- (map_length fst d1), S1, map_length; reflexivity|]. rewrite S1. exact C. }
  assert (G : forall l h, wf_dict l -> wf_dok h ->
    let h' := fold_left (fun h (it : key * R) => add_dok_entry h (fst it) (snd it * m2)%R) l h in
    wf_dok h' /\ forall k, match lookup l k with
       | None => entry h' k = entry h k
       | Some x => (Rabs (entry h' k - (entry h k + x * m2)) <= / 10 ^ 10)%R end).
  { set (eps := (/ 10 ^ 10)%R) in *.
    induction l as [|(k0, x) l IH]; intros h Wl Wh; [cbn; auto|]. inversion Wl as [|? ? Hn Hl]; subst. fold (wf_dict l) in Hl.
    cbn [fold_left fst snd]. destruct (C50_add_entry h k0 (x * m2) Wh) as (W' & O & E). cbv zeta in *.
    destruct (IH (add_dok_entry h k0 (x * m2)) Hl W') as (I1 & I2). split; [exact I1|]. intros k. specialize (I2 k). cbn [lookup].
    destruct (key_eqb_spec k0 k) as [<-|Hne].
    - rewrite (proj2 (lookup_None l k0) Hn) in I2. rewrite I2. destruct E as [(_ & ->)|(E & ->)].
      + replace (entry h k0 + x * m2 - (entry h k0 + x * m2))%R with 0%R by ring. rewrite Rabs_R0. lra.
      + rewrite Rminus_0_l, Rabs_Ropp. exact E.
    - rewrite (O k) in I2 by congruence. exact I2. }
  destruct (G d2 _ S2 Wd) as (G1 & G2). clear G. cbv zeta in G1, G2. split; [exact G1|]. split.
  - intros k. specialize (G2 k). set (h' := fold_left _ d2 _) in *. unfold entry at 2 3. rewrite S5 in G2.
    unfold entry at 2 in G2. cbn [edgetable] in G2. rewrite S4 in G2.
    destruct (lookup (edgetable h2) k) as [y|] eqn:E2, (lookup (edgetable h1) k) as [x|] eqn:E1; cbn [val] in *.
    + replace (m1 * x + m2 * y)%R with (x * m1 + y * m2 + 0 * m2)%R by ring. exact G2.
    + replace (m1 * 0 + m2 * y)%R with (0 + y * m2)%R by ring. exact G2.
    + unfold entry in G2 |- *. cbn [edgetable] in G2. rewrite G2, S4, E1, E2. cbn [val].
      match goal with |- (Rabs ?t <= _)%R => replace t with 0%R by ring end. rewrite Rabs_R0. lra.
    + unfold entry in G2 |- *. cbn [edgetable] in G2. rewrite G2, S4, E1. cbn [val].
      match goal with |- (Rabs ?t <= _)%R => replace t with 0%R by ring end. rewrite Rabs_R0. lra.
  - intros k. unfold entry. cbn [edgetable]. rewrite S5. destruct (lookup (edgetable h2) k), (lookup (edgetable h1) k); reflexivity.
Qed.
Print Assumptions C50_add_sparse_dok.

Example C50_example : wf_dok make_dok /\ entry (add_dok_entry make_dok (1, 2) 3%R) (1, 2) = 3%R.
Proof.
  assert (W : wf_dok make_dok) by (split; [constructor|split; [reflexivity|intros k []]]). split; [exact W|].
  destruct (C50_add_entry make_dok (1, 2) 3%R W) as (_ & _ & [(_ & E)|(E & _)]).
  - rewrite E. cbn. ring.
  - exfalso. unfold entry in E. cbn [make_dok edgetable lookup val] in E. rewrite Rplus_0_l, Rabs_right in E by lra.
    assert (H : (/ 10 ^ 10 < 1)%R); [|lra]. rewrite <- Rinv_1. apply Rinv_lt_contravar; [|apply Rlt_pow_R1; [lra|lia]].
    rewrite Rmult_1_l. apply pow_lt. lra.
Qed.
