(** Lemmas about the operators that change the bed. *)
From Coq Require Import Reals List Arith Bool Permutation Lia Lra.
From Verif Require Import RealLib ArrayLib InvertedModel InvertedProofs ElevationModel.
Import ListNotations.
Local Open Scope R_scope.

(** * Scattering *)

Lemma put_notin {A} : forall ids (vals : list A) a i, ~ In i ids -> put a ids vals i = a i.
Proof.
  induction ids as [|j ids IH]; intros [|v vals] a i H; cbn; auto.
  rewrite IH by (intros H'; apply H; right; auto). apply upd_other. intros ->. apply H. left; auto.
Qed.

Lemma put_map {A} (f : nat -> A) : forall ids a i, put a ids (map f ids) i = if in_dec Nat.eq_dec i ids then f i else a i.
Proof.
  induction ids as [|j ids IH]; intros a i; cbn [put map]; [reflexivity|].
  rewrite IH. destruct (in_dec Nat.eq_dec i ids) as [H|H]; destruct (in_dec Nat.eq_dec i (j :: ids)) as [H'|H']; auto.
  - exfalso. apply H'. right; auto.
  - destruct H' as [<-|]; [|contradiction]. apply upd_same.
  - apply upd_other. intros ->. apply H'. left; auto.
Qed.

Lemma put_in {A} (f : nat -> A) ids a i : In i ids -> put a ids (map f ids) i = f i.
Proof. intros H. rewrite put_map. destruct (in_dec Nat.eq_dec i ids); [auto|contradiction]. Qed.

Lemma put_nth {A} (d : A) : forall ids vals a q, NoDup ids -> length vals = length ids -> (q < length ids)%nat ->
  put a ids vals (nth q ids 0%nat) = nth q vals d.
Proof.
  induction ids as [|j ids IH]; intros [|v vals] a q N L Hq; cbn in *; try lia.
  inversion N; subst. destruct q as [|q].
  - rewrite put_notin by auto. apply upd_same.
  - apply IH; auto; lia.
Qed.

Lemma combine_map2 {A B C} (f : A -> B) (g : A -> C) l : combine (map f l) (map g l) = map (fun x => (f x, g x)) l.
Proof. induction l; cbn; congruence. Qed.

Lemma heights_map f g ids : minus2 (gather f ids) (gather g ids) = map (fun i => f i - g i) ids.
Proof. unfold minus2, gather. rewrite combine_map2, map_map. reflexivity. Qed.

Lemma sums_map f g ids : plus2 (gather f ids) (map g ids) = map (fun i => f i + g i) ids.
Proof. unfold plus2, gather. rewrite combine_map2, map_map. reflexivity. Qed.

Definition depth (s : bed) (t : nat) : R := stage_c s t - elev_c s t.

Lemma set_centroids_depth s ids vals t : depth (set_centroids s ids vals) t = depth s t.
Proof.
  unfold depth, set_centroids. cbn [stage_c elev_c]. rewrite heights_map, sums_map, put_map.
  destruct (in_dec Nat.eq_dec t ids) as [H|H]; [lra|]. rewrite put_notin by auto. reflexivity.
Qed.

Lemma set_centroids_frame s ids vals t : ~ In t ids ->
  elev_c (set_centroids s ids vals) t = elev_c s t /\ stage_c (set_centroids s ids vals) t = stage_c s t.
Proof. intros H. unfold set_centroids. cbn. split; apply put_notin; auto. Qed.

(** * The positions of a node *)

Lemma map_nth_slice (l : list nat) : forall len s, (s + len <= length l)%nat ->
  map (fun i => nth i l 0%nat) (seq s len) = firstn len (skipn s l).
Proof.
  induction l as [|x l IH]; intros len s H; cbn in H.
  - assert (len = 0)%nat as -> by lia. reflexivity.
  - destruct s as [|s].
    + destruct len as [|len]; [reflexivity|]. cbn [seq map skipn firstn nth]. f_equal.
      rewrite <- seq_shift, map_map. exact (IH len 0%nat ltac:(lia)).
    + cbn [skipn]. rewrite <- IH by lia. rewrite <- seq_shift, map_map. reflexivity.
Qed.

Section Mesh.
Variables (n M : nat) (T : flat) (p : list nat) (I : inverted).
Hypothesis AS : is_argsort T p.
Hypothesis B : build_inverted n T p = Some I.
Hypothesis L : length T = (3 * M)%nat.

Lemma nodes_bounded m : In m T -> (m < n)%nat.
Proof.
  intros H. unfold build_inverted in B. destruct (list_sum (pad (bincount T) n) =? length T); [|discriminate].
  cbn [negb] in B. destruct (Nat.eqb_spec (length (pad (bincount T) n)) n) as [E|]; [|discriminate].
  clear B. unfold pad in E. rewrite app_length, repeat_length in E.
  assert (Hb : (m < length (bincount T))%nat); [|lia].
  unfold bincount. rewrite map_length, seq_length. destruct T as [|x T']; [destruct H|].
  assert (Hm : (list_max (x :: T') <= list_max (x :: T'))%nat) by lia.
  apply list_max_le in Hm. rewrite Forall_forall in Hm. specialize (Hm m H). lia.
Qed.

Lemma node_bounded i : (i < 3 * M)%nat -> (node_at T i < n)%nat.
Proof. intros H. apply nodes_bounded, nth_In. lia. Qed.

Lemma count_node m : (m < n)%nat -> nth m (number_of_triangles_per_node I) 0%nat = length (uses T m).
Proof.
  intros Hm. destruct (built n T p I B) as (C & _). rewrite C.
  rewrite (nth_indep _ 0%nat (length (uses T 0))) by (rewrite map_length, seq_length; lia).
  rewrite map_nth with (f := fun m => length (uses T m)). rewrite seq_nth by lia. reflexivity.
Qed.

Lemma positions_filter m : (m < n)%nat -> positions I m = filter (fun i => node_at T i =? m)%nat p.
Proof.
  intros Hm. destruct (built n T p I B) as (C & N & P & _). pose proof AS as (Pm & _).
  destruct (segment n T p I AS B m Hm) as (Sg & _).
  assert (D : (nth (S m) (node_index I) 0 - nth m (node_index I) 0)%nat = length (uses T m)).
  { rewrite N, !cumsum_nth by (rewrite C, map_length, seq_length; lia).
    rewrite <- (count_node m Hm).
    assert (Hn : nth_error (number_of_triangles_per_node I) m = Some (nth m (number_of_triangles_per_node I) 0%nat)).
    { apply nth_error_nth'. rewrite C, map_length, seq_length. lia. }
    rewrite (firstn_S_nth _ _ _ Hn), list_sum_app. cbn. lia. }
  unfold positions. rewrite D, P. rewrite map_nth_slice; [exact Sg|].
  assert (E : length (firstn (length (uses T m)) (skipn (nth m (node_index I) 0%nat) p)) = length (uses T m)).
  { rewrite Sg. apply Permutation_length, filter_perm, Pm. }
  rewrite firstn_length, skipn_length in E.
  destruct (Nat.eq_dec (length (uses T m)) 0) as [Z|Z]; [|lia].
  rewrite Z, N, cumsum_nth by (rewrite C, map_length, seq_length; lia).
  destruct (built n T p I B) as (_ & _ & _ & Sm).
  assert (Hs : (list_sum (firstn m (number_of_triangles_per_node I)) <= list_sum (number_of_triangles_per_node I))%nat).
  { rewrite <- (firstn_skipn m (number_of_triangles_per_node I)) at 2. rewrite list_sum_app. lia. }
  rewrite (Permutation_length Pm), seq_length. lia.
Qed.

Lemma positions_perm m : (m < n)%nat -> Permutation (positions I m) (uses T m).
Proof. intros Hm. rewrite positions_filter by auto. destruct AS as (Pm & _). apply filter_perm, Pm. Qed.

Lemma positions_in m v : (m < n)%nat -> In v (positions I m) <-> (v < 3 * M)%nat /\ node_at T v = m.
Proof.
  intros Hm. split; intros H.
  - apply (Permutation_in _ (positions_perm m Hm)) in H. unfold uses in H. rewrite filter_In, in_seq, Nat.eqb_eq in H. split; [lia|tauto].
  - apply (Permutation_in _ (Permutation_sym (positions_perm m Hm))). unfold uses. rewrite filter_In, in_seq, Nat.eqb_eq. split; [lia|tauto].
Qed.

(** * Averaging at the nodes *)

Lemma fold_upd2 res : forall vs ev t k, (k < 3)%nat ->
  fold_left (fun ev v => upd2 ev (v / 3)%nat (v mod 3) res) vs ev t k =
  if in_dec Nat.eq_dec (3 * t + k)%nat vs then res else ev t k.
Proof.
  induction vs as [|v vs IH]; intros ev t k Hk; cbn [fold_left]; [reflexivity|].
  rewrite IH by auto.
  destruct (in_dec Nat.eq_dec (3 * t + k)%nat vs) as [H|H];
  destruct (in_dec Nat.eq_dec (3 * t + k)%nat (v :: vs)) as [H'|H']; auto.
  - exfalso. apply H'. right; auto.
  - destruct H' as [E|]; [|contradiction]. unfold upd2.
    assert (E1 : (v / 3)%nat = t) by (rewrite E; symmetry; apply Nat.div_unique with k; lia).
    assert (E2 : (v mod 3)%nat = k) by (rewrite E; symmetry; apply Nat.mod_unique with t; lia).
    rewrite E1, E2, !upd_same. reflexivity.
  - unfold upd2. destruct (Nat.eq_dec t (v / 3)) as [->|Ht].
    + rewrite upd_same. apply upd_other. intros ->. apply H'. left. apply Nat.div_mod_eq.
    + rewrite upd_other by auto. reflexivity.
Qed.

Definition node_mean (ev : nat -> nat -> R) (m : nat) : R :=
  Rsum (map (fun v => ev (v / 3)%nat (v mod 3)) (uses T m)) / INR (length (uses T m)).

Lemma average_node_spec ev m t k : (m < n)%nat -> (t < M)%nat -> (k < 3)%nat ->
  average_node I ev m t k = if (node_at T (3 * t + k) =? m)%nat then node_mean ev m else ev t k.
Proof.
  intros Hm Ht Hk. unfold average_node. rewrite fold_upd2 by auto. rewrite count_node by auto.
  rewrite (Rsum_perm _ _ (Permutation_map _ (positions_perm m Hm))). fold (node_mean ev m).
  destruct (in_dec Nat.eq_dec (3 * t + k)%nat (positions I m)) as [H|H];
  destruct (Nat.eqb_spec (node_at T (3 * t + k)) m) as [E|E]; auto.
  - apply positions_in in H; auto. tauto.
  - exfalso. apply H, positions_in; auto. split; auto. lia.
Qed.

Lemma uses_in m v : In v (uses T m) <-> (v < 3 * M)%nat /\ node_at T v = m.
Proof. unfold uses. rewrite filter_In, in_seq, Nat.eqb_eq. rewrite L. intuition lia. Qed.

Lemma node_mean_ext ev ev' m :
  (forall v, (v < 3 * M)%nat -> node_at T v = m -> ev (v / 3)%nat (v mod 3) = ev' (v / 3)%nat (v mod 3)) ->
  node_mean ev m = node_mean ev' m.
Proof.
  intros H. unfold node_mean. f_equal. f_equal. apply map_ext_in. intros v Hv. apply uses_in in Hv. apply H; tauto.
Qed.

Lemma position v : (v < 3 * M)%nat -> (v / 3 < M)%nat /\ (v mod 3 < 3)%nat /\ (3 * (v / 3) + v mod 3)%nat = v.
Proof.
  intros H. split; [apply Nat.div_lt_upper_bound; lia|]. split; [apply Nat.mod_upper_bound; lia|].
  symmetry. apply Nat.div_mod_eq.
Qed.

Lemma average_nodes_spec : forall nodes ev, NoDup nodes -> (forall m, In m nodes -> (m < n)%nat) ->
  forall t k, (t < M)%nat -> (k < 3)%nat ->
  fold_left (average_node I) nodes ev t k =
  if in_dec Nat.eq_dec (node_at T (3 * t + k)) nodes then node_mean ev (node_at T (3 * t + k)) else ev t k.
Proof.
  induction nodes as [|m nodes IH]; intros ev N H t k Ht Hk; cbn [fold_left]; [reflexivity|].
  inversion N as [|? ? Nm N']; subst.
  rewrite IH; auto; [|intros; apply H; right; auto].
  assert (Hm : (m < n)%nat) by (apply H; left; auto).
  destruct (in_dec Nat.eq_dec (node_at T (3 * t + k)) nodes) as [Hi|Hi];
  destruct (in_dec Nat.eq_dec (node_at T (3 * t + k)) (m :: nodes)) as [Hj|Hj].
  - apply node_mean_ext. intros v Hv Ev. destruct (position v Hv) as (P1 & P2 & P3).
    rewrite average_node_spec by auto. rewrite P3, Ev.
    destruct (Nat.eqb_spec (node_at T (3 * t + k)) m) as [E|]; [|reflexivity]. exfalso. apply Nm. rewrite <- E. auto.
  - exfalso. apply Hj. right; auto.
  - destruct Hj as [E|]; [|contradiction]. rewrite average_node_spec by auto. rewrite <- E, Nat.eqb_refl. reflexivity.
  - rewrite average_node_spec by auto. destruct (Nat.eqb_spec (node_at T (3 * t + k)) m) as [E|]; [|reflexivity].
    exfalso. apply Hj. left; auto.
Qed.

(** * The clean-up of a region *)

Definition touches (nodes : list nat) (t : nat) : Prop := exists k, (k < 3)%nat /\ In (node_at T (3 * t + k)) nodes.

Lemma node_vols_in nodes t : (forall m, In m nodes -> (m < n)%nat) ->
  In t (node_vols I nodes) <-> (t < M)%nat /\ touches nodes t.
Proof.
  intros H. unfold node_vols, touches. rewrite in_flat_map. split.
  - intros (m & Hm & Hv). apply in_map_iff in Hv. destruct Hv as (v & <- & Hv).
    apply positions_in in Hv; auto. destruct Hv as (Hv & Ev). destruct (position v Hv) as (P1 & P2 & P3).
    split; auto. exists (v mod 3). rewrite P3, Ev. auto.
  - intros (Ht & k & Hk & Hm). exists (node_at T (3 * t + k)). split; auto. apply in_map_iff.
    exists (3 * t + k)%nat. split; [symmetry; apply Nat.div_unique with k; lia|]. apply positions_in; auto. split; auto. lia.
Qed.

Lemma region_nodes_in ids m : In m (region_nodes T ids) <-> exists t k, In t ids /\ (k < 3)%nat /\ m = node_at T (3 * t + k).
Proof.
  clear AS B L. unfold region_nodes. rewrite in_flat_map. split.
  - intros (t & Ht & Hm). cbn [map In] in Hm.
    destruct Hm as [E|[E|[E|[]]]]; [exists t, 0%nat|exists t, 1%nat|exists t, 2%nat]; split; auto; split; auto.
  - intros (t & k & Ht & Hk & ->). exists t. split; auto.
    apply (in_map (fun k => node_at T (3 * t + k)) [0; 1; 2]%nat).
    destruct k as [|[|[|k]]]; cbn; auto; lia.
Qed.

Definition region (ids nodes vols : list nat) : Prop :=
  (forall t, In t ids -> (t < M)%nat) /\ is_set_of nodes (region_nodes T ids) /\ is_set_of vols (node_vols I nodes).

Lemma region_bounded ids nodes vols : region ids nodes vols -> forall m, In m nodes -> (m < n)%nat.
Proof.
  intros (H & (_ & Hn) & _) m Hm. apply Hn, region_nodes_in in Hm. destruct Hm as (t & k & Ht & Hk & ->).
  apply node_bounded. apply H in Ht. lia.
Qed.

Lemma clean_region_depth nodes vols s t : depth (clean_region I nodes vols s) t = depth s t.
Proof.
  unfold depth, clean_region. cbn [stage_c elev_c]. rewrite heights_map, sums_map, !put_map.
  destruct (in_dec Nat.eq_dec t vols); lra.
Qed.

Lemma clean_region_spec ids nodes vols s : region ids nodes vols ->
  let s' := clean_region I nodes vols s in
  (forall t k, (t < M)%nat -> (k < 3)%nat -> elev_v s' t k =
     if in_dec Nat.eq_dec (node_at T (3 * t + k)) nodes then node_mean (elev_v s) (node_at T (3 * t + k)) else elev_v s t k) /\
  (forall t, (t < M)%nat -> touches nodes t -> elev_c s' t = mean3 (elev_v s' t) /\ forall k, elev_e s' t k = edge_row (elev_v s' t) k) /\
  (forall t, (t < M)%nat -> ~ touches nodes t -> elev_c s' t = elev_c s t /\ (forall k, elev_e s' t k = elev_e s t k) /\ stage_c s' t = stage_c s t).
Proof.
  intros R. pose proof (region_bounded _ _ _ R) as Bd. destruct R as (_ & (N & _) & (_ & Hv)). intros s'. unfold s', clean_region.
  cbn [elev_v elev_c elev_e stage_c]. split; [|split].
  - intros t k Ht Hk. apply average_nodes_spec; auto.
  - intros t Ht Tt. assert (Iv : In t vols) by (apply Hv, node_vols_in; auto).
    rewrite !put_in by auto. auto.
  - intros t Ht Tt. assert (Iv : ~ In t vols) by (intros X; apply Hv, node_vols_in in X; tauto).
    rewrite !put_notin by auto. auto.
Qed.

Definition continuous (ev : nat -> nat -> R) : Prop :=
  forall t k t' k', (t < M)%nat -> (k < 3)%nat -> (t' < M)%nat -> (k' < 3)%nat ->
  node_at T (3 * t + k) = node_at T (3 * t' + k') -> ev t k = ev t' k'.

(** Centroid and edge values are the means of the vertex values. *)
Definition consistent (s : bed) : Prop :=
  forall t, (t < M)%nat -> elev_c s t = mean3 (elev_v s t) /\ forall k, elev_e s t k = edge_row (elev_v s t) k.

Lemma mean3_ext f g : (forall k, (k < 3)%nat -> f k = g k) -> mean3 f = mean3 g.
Proof. intros H. unfold mean3. rewrite !H by lia. reflexivity. Qed.
Lemma edge_row_ext f g k : (forall k, (k < 3)%nat -> f k = g k) -> edge_row f k = edge_row g k.
Proof. intros H. unfold edge_row. rewrite !H by lia. reflexivity. Qed.

(** A change of the vertex values in the region only, then the clean-up. *)
Lemma changed_region ids nodes vols s rows : region ids nodes vols ->
  let s' := clean_region I nodes vols (set_vertices s ids rows) in
  (continuous (elev_v s) -> continuous (elev_v s')) /\
  (consistent s -> consistent s') /\
  (forall t, depth s' t = depth s t) /\
  (forall t, (t < M)%nat -> ~ touches nodes t -> (forall k, (k < 3)%nat -> elev_v s' t k = elev_v s t k) /\
     (forall k, elev_e s' t k = elev_e s t k) /\ elev_c s' t = elev_c s t /\ stage_c s' t = stage_c s t).
Proof.
  intros R s'. pose proof R as (Hi & (N & Hn) & _).
  destruct (clean_region_spec ids nodes vols (set_vertices s ids rows) R) as (V & C & F). fold s' in V, C, F.
  assert (Out : forall t k, (k < 3)%nat -> ~ In (node_at T (3 * t + k)) nodes -> elev_v (set_vertices s ids rows) t k = elev_v s t k).
  { intros t k Hk Hm. unfold set_vertices. cbn [elev_v]. rewrite put_notin; [reflexivity|].
    intros Ht. apply Hm, Hn, region_nodes_in. exists t, k. auto. }
  assert (Und : forall t, (t < M)%nat -> ~ touches nodes t -> forall k, (k < 3)%nat -> elev_v s' t k = elev_v s t k).
  { intros t Ht Tt k Hk. rewrite V by auto. destruct (in_dec Nat.eq_dec (node_at T (3 * t + k)) nodes) as [H|H].
    - exfalso. apply Tt. exists k. auto.
    - apply Out; auto. }
  split; [|split; [|split]].
  - intros Cn t k t' k' Ht Hk Ht' Hk' E. rewrite !V by auto. rewrite <- E.
    destruct (in_dec Nat.eq_dec (node_at T (3 * t + k)) nodes) as [H|H]; [reflexivity|].
    rewrite !Out; auto. rewrite <- E. auto.
  - intros Cs t Ht.
    assert (D : touches nodes t \/ ~ touches nodes t).
    { unfold touches. destruct (in_dec Nat.eq_dec (node_at T (3 * t + 0)) nodes); [left; exists 0%nat; auto|].
      destruct (in_dec Nat.eq_dec (node_at T (3 * t + 1)) nodes); [left; exists 1%nat; auto|].
      destruct (in_dec Nat.eq_dec (node_at T (3 * t + 2)) nodes); [left; exists 2%nat; auto|].
      right. intros (k & Hk & X). destruct k as [|[|[|k]]]; auto. lia. }
    destruct D as [D|D]; [auto|]. destruct (F t Ht D) as (F1 & F2 & _). destruct (Cs t Ht) as (C1 & C2).
    rewrite F1. cbn [set_vertices elev_c]. rewrite C1. split.
    + apply mean3_ext. intros. symmetry. auto.
    + intros k. rewrite F2. cbn [set_vertices elev_e]. rewrite C2. apply edge_row_ext. intros. symmetry. auto.
  - intros t. unfold s'. rewrite clean_region_depth. reflexivity.
  - intros t Ht Tt. destruct (F t Ht Tt) as (F1 & F2 & F3). split; [auto|]. split; [exact F2|]. split; [exact F1|exact F3].
Qed.

(** Bounds of the mean at a node. *)
Lemma Rsum_le_const (l : list nat) (f : nat -> R) c : (forall x, In x l -> f x <= c) -> Rsum (map f l) <= INR (length l) * c.
Proof.
  induction l as [|x l IH]; intros H; [cbn; lra|]. cbn [map length]. rewrite S_INR. cbn [Rsum].
  specialize (IH ltac:(intros; apply H; right; auto)). specialize (H x ltac:(left; auto)). lra.
Qed.

Lemma node_mean_le ev t k c : (t < M)%nat -> (k < 3)%nat ->
  (forall t' k', (t' < M)%nat -> (k' < 3)%nat -> node_at T (3 * t' + k') = node_at T (3 * t + k) -> ev t' k' <= c) ->
  node_mean ev (node_at T (3 * t + k)) <= c.
Proof.
  intros Ht Hk H. unfold node_mean. set (m := node_at T (3 * t + k)) in *.
  assert (Pos : (0 < length (uses T m))%nat).
  { assert (X : In (3 * t + k)%nat (uses T m)) by (apply uses_in; split; auto; lia). destruct (uses T m); [destruct X|cbn; lia]. }
  assert (P' : 0 < INR (length (uses T m))) by (apply lt_0_INR; auto).
  apply Rle_trans with (INR (length (uses T m)) * c / INR (length (uses T m))); [|right; field; lra].
  apply Rmult_le_compat_r; [left; apply Rinv_0_lt_compat; auto|].
  apply Rsum_le_const. intros v Hv. apply uses_in in Hv. destruct Hv as (Hv & Ev). destruct (position v Hv) as (P1 & P2 & P3).
  apply H; auto. rewrite P3. auto.
Qed.

Lemma Rsum_opp (l : list nat) f : Rsum (map (fun v => - f v) l) = - Rsum (map f l).
Proof. induction l as [|x l IH]; cbn [map Rsum]; lra. Qed.

Lemma node_mean_ge ev t k c : (t < M)%nat -> (k < 3)%nat ->
  (forall t' k', (t' < M)%nat -> (k' < 3)%nat -> node_at T (3 * t' + k') = node_at T (3 * t + k) -> c <= ev t' k') ->
  c <= node_mean ev (node_at T (3 * t + k)).
Proof.
  intros Ht Hk H.
  assert (E : node_mean ev (node_at T (3 * t + k)) = - node_mean (fun t k => - ev t k) (node_at T (3 * t + k))).
  { unfold node_mean. rewrite (Rsum_opp _ (fun v => ev (v / 3)%nat (v mod 3))). unfold Rdiv. ring. }
  rewrite E. apply Ropp_le_cancel. rewrite Ropp_involutive.
  apply node_mean_le; auto. intros. apply Ropp_le_contravar. auto.
Qed.

Lemma node_mean_eq ev t k c : (t < M)%nat -> (k < 3)%nat ->
  (forall t' k', (t' < M)%nat -> (k' < 3)%nat -> node_at T (3 * t' + k') = node_at T (3 * t + k) -> ev t' k' = c) ->
  node_mean ev (node_at T (3 * t + k)) = c.
Proof. intros Ht Hk H. apply Rle_antisym; [apply node_mean_le|apply node_mean_ge]; auto; intros; right; [|symmetry]; auto. Qed.
End Mesh.
