(** Properties C15 (node averages) and C45 (node-to-triangle index). *)
From Coq Require Import Reals List Arith Bool Permutation Sorting.Sorted Lia Lra.
From Verif Require Import RealLib ArrayLib InvertedModel InvertedProofs.
Import ListNotations.

(** * C45 *)

(** The structure is built exactly when all vertices are node numbers, and the
    per-node counts are the numbers of uses and add up to the number of
    vertices. *)
Theorem C45_counts :
  forall n T p, is_argsort T p ->
  ((exists I, build_inverted n T p = Some I) <-> (forall x, In x T -> x < n)) /\
  (forall I, build_inverted n T p = Some I ->
     length (number_of_triangles_per_node I) = n /\ length (node_index I) = S n /\
     (forall m, m < n -> nth m (number_of_triangles_per_node I) 0 = count_occ Nat.eq_dec T m) /\
     list_sum (number_of_triangles_per_node I) = length T).
Proof.
  intros n T p AS. split.
  - split.
    + intros (I & B) x Hx. unfold build_inverted in B.
      destruct (negb _) eqn:E1 in B; [discriminate|]. destruct (negb _) eqn:E2 in B; [discriminate|].
      apply negb_false_iff, Nat.eqb_eq in E2. destruct (Nat.lt_ge_cases x n) as [|Hge]; auto. exfalso.
      pose proof (pad_nth (bincount T) n x) as E. rewrite (nth_overflow (pad _ _)) in E by lia.
      rewrite bincount_nth in E. symmetry in E. rewrite <- count_occ_not_In in E. auto.
    + intros Hx.
      assert (L : length (bincount T) <= n).
      { unfold bincount. destruct T as [|x T]; [cbn; lia|]. rewrite map_length, seq_length.
        assert (Hm : list_max (x :: T) <= n - 1).
        { apply list_max_le. apply Forall_forall. intros y Hy. specialize (Hx y Hy). lia. }
        specialize (Hx x (or_introl eq_refl)). lia. }
      assert (Lp : length (pad (bincount T) n) = n) by (unfold pad; rewrite app_length, repeat_length; lia).
      unfold build_inverted. rewrite Lp, Nat.eqb_refl. rewrite (counts_eq T n Lp), sum_counts_below.
      rewrite filter_all, seq_length, Nat.eqb_refl; [cbn; eauto|].
      intros i Hi. apply Nat.ltb_lt. apply Hx. unfold node_at. apply nth_In. apply in_seq in Hi. lia.
  - intros I B. destruct (built n T p I B) as (C & N & _ & Sm). rewrite C, map_length, seq_length.
    split; [reflexivity|]. split.
    { rewrite N. cbn [length]. f_equal. rewrite C.
      assert (G : forall l acc, length (cumsum acc l) = length l) by (intros l; induction l; intros; cbn; auto).
      rewrite G, map_length. apply seq_length. }
    rewrite <- C. split; [|exact Sm]. intros m Hm. rewrite C.
    rewrite (nth_indep _ 0 ((fun m => length (uses T m)) 0)) by (rewrite map_length, seq_length; auto).
    rewrite (map_nth (fun m => length (uses T m))), seq_nth by auto. symmetry. apply count_uses.
Qed.
Print Assumptions C45_counts.

(** The list returned for a node names each (triangle, local vertex) whose
    vertex is that node, once, and nothing else; whatever order argsort gives
    equal entries. *)
Theorem C45_inverse_index :
  forall n M T p I node, length T = 3 * M -> is_argsort T p -> build_inverted n T p = Some I ->
  (n <= node -> triangles_and_vertices I node = None) /\
  (node < n -> exists L, triangles_and_vertices I node = Some L /\ NoDup L /\
     forall t v, In (t, v) L <-> t < M /\ v < 3 /\ nth (3 * t + v) T 0 = node).
Proof.
  intros n M T p I node HT AS B. destruct (built n T p I B) as (C & N & P & _).
  assert (Ln : length (number_of_triangles_per_node I) = n) by (rewrite C, map_length, seq_length; auto).
  unfold triangles_and_vertices. rewrite Ln. split.
  { intros H. apply Nat.ltb_ge in H. rewrite H. reflexivity. }
  intros Hn. destruct (Nat.ltb_spec node n); [|lia]. cbv zeta. eexists. split; [reflexivity|].
  destruct (segment n T p I AS B node Hn) as (Sg & Ni).
  assert (Cn : nth node (number_of_triangles_per_node I) 0 = length (uses T node)).
  { rewrite C. rewrite (nth_indep _ 0 ((fun m => length (uses T m)) 0)) by (rewrite map_length, seq_length; auto).
    rewrite (map_nth (fun m => length (uses T m))), seq_nth by auto. reflexivity. }
  rewrite Cn, P.
  set (first := nth node (node_index I) 0) in *.
  pose proof AS as (Pm & _).
  assert (Lf : length (filter (fun i => node_at T i =? node) p) = length (uses T node)).
  { unfold uses. apply Permutation_length, filter_perm, Pm. }
  assert (E : map (fun i => (nth (first + i) p 0 / 3, nth (first + i) p 0 mod 3)) (seq 0 (length (uses T node)))
              = map (fun index => (index / 3, index mod 3)) (filter (fun i => node_at T i =? node) p)).
  { rewrite <- Sg. set (k := length (uses T node)) in *.
    assert (Lk : length (firstn k (skipn first p)) = k) by (rewrite Sg; exact Lf).
    rewrite <- (map_nth_seq 0 (firstn k (skipn first p))). rewrite map_map, Lk.
    apply map_ext_in. intros i Hi. apply in_seq in Hi. cbv zeta. rewrite nth_skipn.
    assert (Q : nth i (firstn k (skipn first p)) 0 = nth i (skipn first p) 0).
    { rewrite <- (firstn_skipn k (skipn first p)) at 2. rewrite app_nth1 by lia. reflexivity. }
    rewrite Q. reflexivity. }
  rewrite E. split.
  - apply FinFun.Injective_map_NoDup.
    + intros a b Hab. pose proof (f_equal fst Hab) as H1. pose proof (f_equal snd Hab) as H2. cbn [fst snd] in H1, H2.
      rewrite (Nat.div_mod a 3), (Nat.div_mod b 3), H1, H2 by lia. reflexivity.
    + apply NoDup_filter. apply (Permutation_NoDup (Permutation_sym Pm)), seq_NoDup.
  - intros t v. rewrite in_map_iff. split.
    + intros (i & Hi & Hin). apply pair_equal_spec in Hi as (<- & <-). apply filter_In in Hin as (Hin & Ht). apply Nat.eqb_eq in Ht.
      apply (Permutation_in _ Pm) in Hin. apply in_seq in Hin.
      split; [apply Nat.div_lt_upper_bound; lia|]. split; [apply Nat.mod_upper_bound; lia|].
      rewrite <- Nat.div_mod by lia. exact Ht.
    + intros (Ht & Hv & Hi). exists (3 * t + v). split.
      * f_equal; [symmetry; apply (Nat.div_unique (3*t+v) 3 t v); lia|symmetry; apply (Nat.mod_unique (3*t+v) 3 t v); lia].
      * apply filter_In. split; [|apply Nat.eqb_eq; exact Hi].
        apply (Permutation_in _ (Permutation_sym Pm)), in_seq. lia.
Qed.
Print Assumptions C45_inverse_index.

(** The example of the docstring (lines 760-787). *)
Example C45_example :
  exists p I, is_argsort [1;0;2;1;2;4;4;2;5;3;1;4] p /\ build_inverted 6 [1;0;2;1;2;4;4;2;5;3;1;4] p = Some I /\
  number_of_triangles_per_node I = [1;3;3;1;3;1] /\ triangles_and_vertices I 1 = Some [(0,0);(1,0);(3,1)].
Proof.
  exists [1;0;3;10;2;4;7;9;5;6;11;8]. eexists. split; [|split; [reflexivity|split; reflexivity]]. split.
  - apply NoDup_Permutation.
    + repeat constructor; cbn; intuition lia.
    + apply seq_NoDup.
    + intros x. cbn. intuition lia.
  - repeat constructor; cbn; lia.
Qed.

(** * C15 *)

(** Sum and number of the values at the vertices that are node [m]. *)
Definition node_total (T : flat) (values : nat -> R) (m : nat) : R :=
  Rsum (map values (filter (fun i => nth i T 0 =? m) (seq 0 (length T)))).

(** The averaging loop never reads out of bounds, and it gives the mean of the
    values at the vertices of a node to every used node with no orphaned node
    (one used by no triangle) before it; entries of orphaned nodes are left
    alone. *)
Theorem C15_average_vertex_values :
  forall n T p I values A, is_argsort T p -> build_inverted n T p = Some I ->
  exists A', average_vertex_values I values A = Some A' /\
  (forall m, m < n -> In m T -> (forall m', m' < m -> In m' T) ->
     A' m = (node_total T values m / INR (count_occ Nat.eq_dec T m))%R) /\
  (forall m, ~ In m T -> A' m = A m).
Proof.
  intros n T p I values A AS B. destruct (built n T p I B) as (C & N & P & Sm).
  destruct (C45_counts n T p AS) as (_ & Cn). destruct (Cn I B) as (Ln & _ & Cm & _).
  pose proof AS as (Pm & _).
  unfold average_vertex_values. rewrite P.
  destruct (average_from (number_of_triangles_per_node I) values p) with (d := n) (cur := 0) (A := A) as (A' & E & G & K).
  { rewrite Sm, (Permutation_length Pm), seq_length. lia. }
  { lia. } { lia. }
  exists A'. split; [exact E|]. split.
  - intros m Hm Hin Hb. set (counts := number_of_triangles_per_node I) in *.
    assert (Hc : nth_error counts m = Some (count_occ Nat.eq_dec T m)).
    { rewrite <- Cm by auto. apply nth_error_nth'. lia. }
    assert (Hp : 0 < count_occ Nat.eq_dec T m) by (apply count_occ_In; auto).
    assert (O : orphans (firstn m counts) = 0).
    { unfold orphans. rewrite filter_none; [reflexivity|]. intros c Hc'. apply Nat.eqb_neq.
      destruct (In_nth _ _ 0 Hc') as (i & Hi & <-). rewrite firstn_length in Hi.
      rewrite <- (firstn_skipn m counts) in Cm. specialize (Cm i ltac:(lia)).
      rewrite app_nth1 in Cm by (rewrite firstn_length; lia). rewrite Cm.
      apply Nat.neq_sym, Nat.lt_neq, count_occ_In, Hb. lia. }
    assert (St : start counts m = nth m (node_index I) 0).
    { unfold start. rewrite O, N, cumsum_nth by lia. cbn. lia. }
    destruct (segment n T p I AS B m Hm) as (Sg & Ni).
    assert (Le : start counts m + count_occ Nat.eq_dec T m <= length p).
    { assert (Ln2 : length (firstn (length (uses T m)) (skipn (nth m (node_index I) 0) p)) = length (uses T m)).
      { rewrite Sg. unfold uses. apply Permutation_length, filter_perm, Pm. }
      rewrite firstn_length, skipn_length in Ln2. rewrite St, count_uses. rewrite count_uses in Hp. lia. }
    rewrite (G m _ ltac:(lia) Hc Hp Le). f_equal. rewrite St, count_uses, Sg. unfold node_total.
    apply Rsum_perm, Permutation_map, filter_perm, Pm.
  - intros m Hm. apply K. right. left. destruct (Nat.lt_ge_cases m n).
    + rewrite Cm by auto. apply count_occ_not_In; auto.
    + apply nth_overflow. lia.
Qed.
Print Assumptions C15_average_vertex_values.

(** The same for the average over the triangles meeting at a node. *)
Theorem C15_average_centroid_values :
  forall n T p I values A, is_argsort T p -> build_inverted n T p = Some I ->
  exists A', average_centroid_values I values A = Some A' /\
  (forall m, m < n -> In m T -> (forall m', m' < m -> In m' T) ->
     A' m = (node_total T (fun i => values (i / 3)%nat) m / INR (count_occ Nat.eq_dec T m))%R) /\
  (forall m, ~ In m T -> A' m = A m).
Proof. intros n T p I values A. exact (C15_average_vertex_values n T p I (fun i => values (i / 3)) A). Qed.

(** With orphaned nodes before it, a node gets the values that lie as many
    places further on in the index, or none if the index ends before: every
    orphaned node makes the loop drop one entry. *)
Theorem C15_shifted_by_orphans :
  forall n T p I values A m, is_argsort T p -> build_inverted n T p = Some I -> m < n -> In m T ->
  let j := length (filter (fun m' => count_occ Nat.eq_dec T m' =? 0) (seq 0 m)) in
  let first := nth m (node_index I) 0 in
  let c := count_occ Nat.eq_dec T m in
  exists A', average_vertex_values I values A = Some A' /\
  A' m = if first + j + c <=? length T
         then (Rsum (map values (firstn c (skipn (first + j) p))) / INR c)%R else A m.
Proof.
  intros n T p I values A m AS B Hm Hin j first c. destruct (built n T p I B) as (C & N & P & Sm).
  destruct (C45_counts n T p AS) as (_ & Cn). destruct (Cn I B) as (Ln & _ & Cm & _).
  pose proof AS as (Pm & _). pose proof (Permutation_length Pm) as Lp. rewrite seq_length in Lp.
  unfold average_vertex_values. rewrite P.
  destruct (average_from (number_of_triangles_per_node I) values p) with (d := n) (cur := 0) (A := A) as (A' & E & G & K);
    [lia|lia|lia|].
  exists A'. split; [exact E|].
  set (counts := number_of_triangles_per_node I) in *.
  assert (Hc : nth_error counts m = Some c).
  { unfold c. rewrite <- Cm by auto. apply nth_error_nth'. lia. }
  assert (Hp : 0 < c) by (apply count_occ_In; auto).
  assert (O : orphans (firstn m counts) = j).
  { unfold orphans, j. rewrite C, firstn_map, firstn_seq_min by lia. rewrite length_filter_map. f_equal. apply filter_ext.
    intros a. rewrite count_uses. reflexivity. }
  assert (St : start counts m = first + j).
  { unfold start. rewrite O. unfold first. rewrite N, cumsum_nth by lia. cbn. lia. }
  destruct (Nat.leb_spec (first + j + c) (length T)).
  - rewrite (G m c); auto; try lia. rewrite St. reflexivity.
  - apply K. right. right. rewrite (nth_error_nth _ _ 0 Hc). lia.
Qed.
Print Assumptions C15_shifted_by_orphans.

(** Hence C15 fails for meshes with orphaned nodes in the middle: one triangle
    on nodes 0, 2 and 3 whose vertices all have the value 5; node 3 keeps its
    initial 0. *)
Theorem C15_orphan_refuted :
  exists n T p I A', is_argsort T p /\ build_inverted n T p = Some I /\
  average_vertex_values I (fun _ => 5%R) (fun _ => 0%R) = Some A' /\ In 3 T /\ A' 3 = 0%R /\
  (node_total T (fun _ => 5) 3%nat / INR (count_occ Nat.eq_dec T 3%nat) = 5)%R.
Proof.
  exists 4, [0;2;3], [0;1;2]. eexists. eexists. split; [split; [reflexivity|repeat constructor; cbn; lia]|].
  split; [reflexivity|]. split; [reflexivity|]. split; [cbn; auto|]. split; [reflexivity|].
  unfold node_total. cbn. lra.
Qed.
Print Assumptions C15_orphan_refuted.

(** Non-vacuity: two triangles sharing the nodes 1 and 2. *)
Example C15_example :
  exists I A', is_argsort [0;1;2;3;2;1] [0;1;5;4;2;3] /\ build_inverted 4 [0;1;2;3;2;1] [0;1;5;4;2;3] = Some I /\
  average_vertex_values I (fun i => INR i) (fun _ => 0%R) = Some A' /\ A' 1 = 3%R /\ A' 2 = 3%R.
Proof.
  eexists. eexists. split.
  { split; [|repeat constructor; cbn; lia]. apply NoDup_Permutation; [repeat constructor; cbn; intuition lia|apply seq_NoDup|].
    intros x. cbn. intuition lia. }
  split; [reflexivity|]. split; [reflexivity|]. unfold upd; cbn. split; lra.
Qed.
