(** Properties C06 and C44: neighbour structure and boundary enumeration. *)
From Coq Require Import Bool List ZArith Arith Lia Permutation Sorted.
From Verif Require Import NeighbourModel NeighbourProofs.
Import ListNotations.

(** * Specification *)

(** Triangle number [k] has, as its edge number [i], the directed edge from
    node [a] to node [b].  Edge [i] is opposite vertex [i]; edges are
    traversed in the order of the triangle's vertices. *)
Definition has_edge (ts : list tri) (k i a b : nat) : Prop :=
  exists n0 n1 n2, nth_error ts k = Some (n0, n1, n2) /\
    ((i = 0 /\ a = n1 /\ b = n2) \/ (i = 1 /\ a = n2 /\ b = n0) \/ (i = 2 /\ a = n0 /\ b = n1)).

(** No directed edge occurs twice. *)
Definition edges_unique (ts : list tri) : Prop :=
  forall k i l j a b, has_edge ts k i a b -> has_edge ts l j a b -> k = l /\ i = j.

(** The neighbour arrays give (l, j) for edge (k, i). *)
Definition neighbour_is (rows : list row) (k i l j : nat) : Prop :=
  nb rows k i = Z.of_nat l /\ nbe rows k i = Z.of_nat j.

Lemma has_edge_key ts k i a b :
  has_edge ts k i a b <-> exists t, nth_error ts k = Some t /\ i < 3 /\ edge_key t i = (a, b).
Proof.
  split.
  - intros (n0 & n1 & n2 & H & [(-> & -> & ->)|[(-> & -> & ->)|(-> & -> & ->)]]);
      exists (n0, n1, n2); simpl; (split; [assumption|split; [lia|reflexivity]]).
  - intros ([[n0 n1] n2] & H & Hi & E). exists n0, n1, n2. split; auto.
    destruct i as [|[|[|i]]]; simpl in E; injection E as <- <-; auto. lia.
Qed.

Lemma edges_unique_key ts : edges_unique ts <-> NoDup (map fst (edge_list 0 ts)).
Proof.
  rewrite NoDup_edges_iff. unfold edges_unique. split.
  - intros H k i l j t1 t2 H1 H2 Hi Hj E. destruct (edge_key t1 i) as [a b] eqn:E1.
    apply (H k i l j a b); apply has_edge_key; eauto.
  - intros H k i l j a b H1 H2. apply has_edge_key in H1 as (t1 & A1 & A2 & A3), H2 as (t2 & B1 & B2 & B3).
    apply (H k i l j t1 t2); auto. congruence.
Qed.

(** * C06 *)

(** The construction is rejected exactly when a directed edge occurs twice. *)
Theorem C06_rejected_iff_duplicate_edge :
  forall ts, build_neighbour_structure ts <> None <-> edges_unique ts.
Proof.
  intros ts. rewrite edges_unique_key, <- build_table_iff. unfold build_neighbour_structure.
  destruct (build_table [] 0 ts); split; congruence.
Qed.
Print Assumptions C06_rejected_iff_duplicate_edge.

(** Edge (k,i) from a to b has neighbour (l,j) exactly when edge (l,j) runs
    from b to a. *)
Theorem C06_neighbour_is_opposite_edge :
  forall ts rows k i a b, build_neighbour_structure ts = Some rows ->
  has_edge ts k i a b ->
  forall l j, neighbour_is rows k i l j <-> has_edge ts l j b a.
Proof.
  intros ts rows k i a b H He l j. unfold build_neighbour_structure in H.
  destruct (build_table [] 0 ts) as [tbl|] eqn:E; [|discriminate]. injection H as <-.
  apply has_edge_key in He as (t & Ht & Hi & Hk).
  destruct (nb_row ts _ tbl k i t E eq_refl Ht Hi) as (A & B).
  unfold neighbour_is. rewrite A, B, Hk. unfold swap; simpl.
  rewrite has_edge_key, <- (table_lookup ts tbl (b, a) l j E).
  destruct (lookup tbl (b, a)) as [[v e]|].
  - split; [intros (H1 & H2); apply Nat2Z.inj in H1, H2; congruence|intros H; injection H as -> ->; auto].
  - split; [intros (H1 & _); lia|discriminate].
Qed.
Print Assumptions C06_neighbour_is_opposite_edge.

(** Symmetry of the neighbour relation. *)
Theorem C06_neighbours_symmetric :
  forall ts rows k i l j a b, build_neighbour_structure ts = Some rows ->
  has_edge ts k i a b -> neighbour_is rows k i l j ->
  has_edge ts l j b a /\ neighbour_is rows l j k i.
Proof.
  intros ts rows k i l j a b H He Hn.
  assert (Hl : has_edge ts l j b a) by (eapply C06_neighbour_is_opposite_edge; eauto).
  split; auto. eapply C06_neighbour_is_opposite_edge; eauto.
Qed.
Print Assumptions C06_neighbours_symmetric.

(** An edge is marked as boundary (-1) exactly when no triangle has the
    opposite edge; otherwise the entry is a triangle number. *)
Theorem C06_boundary_iff_no_opposite_edge :
  forall ts rows k i a b, build_neighbour_structure ts = Some rows ->
  has_edge ts k i a b ->
  ((nb rows k i < 0)%Z <-> forall l j, ~ has_edge ts l j b a) /\
  ((0 <= nb rows k i)%Z -> exists l j, neighbour_is rows k i l j).
Proof.
  intros ts rows k i a b H He.
  pose proof (C06_neighbour_is_opposite_edge ts rows k i a b H He) as C. revert C.
  unfold build_neighbour_structure in H.
  destruct (build_table [] 0 ts) as [tbl|] eqn:E; [|discriminate]. injection H as <-.
  apply has_edge_key in He as (t & Ht & Hi & Hk).
  destruct (nb_row ts _ tbl k i t E eq_refl Ht Hi) as (A & B).
  rewrite Hk in A, B. unfold swap in A, B; simpl in A, B. intros C.
  destruct (lookup tbl (b, a)) as [[v e]|] eqn:L.
  - split; [|intros _; exists v, e; split; auto].
    split; [lia|]. intros N. exfalso. apply (N v e). apply C. split; auto.
  - split; [|lia]. split; [|lia]. intros _ l j Hn. apply C in Hn. destruct Hn as (H1 & _). lia.
Qed.
Print Assumptions C06_boundary_iff_no_opposite_edge.

(** [number_of_boundaries[k]] is the number of edges of triangle [k] without
    neighbour. *)
Theorem C06_number_of_boundaries_counts :
  forall ts rows k r, build_neighbour_structure ts = Some rows ->
  nth_error rows k = Some r ->
  number_of_boundaries r =
  Z.of_nat (length (filter (fun i => (nb rows k i <? 0)%Z) [0; 1; 2])).
Proof.
  intros ts rows k r H Hk. unfold build_neighbour_structure in H.
  destruct (build_table [] 0 ts) as [tbl|] eqn:E; [|discriminate]. injection H as <-.
  destruct (nth_error ts k) as [t|] eqn:Ht.
  2:{ apply nth_error_None in Ht. assert (nth_error (map (triangle_row tbl) ts) k = None)
      by (apply nth_error_None; rewrite map_length; auto). congruence. }
  rewrite (map_nth_error _ _ _ Ht) in Hk. injection Hk as <-.
  rewrite nbd_count. f_equal. f_equal. apply filter_ext_in. intros e He.
  assert (He3 : e < 3) by (simpl in He; lia).
  destruct (nb_row ts _ tbl k e t E eq_refl Ht He3) as (A & _). rewrite A.
  destruct (lookup tbl (swap (edge_key t e))) as [[v w]|]; auto.
  symmetry. apply Z.ltb_ge. lia.
Qed.
Print Assumptions C06_number_of_boundaries_counts.

Lemma rows_shape ts rows :
  build_neighbour_structure ts = Some rows -> rows3 rows /\ length rows = length ts.
Proof.
  unfold build_neighbour_structure. destruct (build_table [] 0 ts); [|discriminate].
  intros H; injection H as <-. split; [|apply map_length].
  apply Forall_forall. intros r Hr. apply in_map_iff in Hr as (t' & <- & _). reflexivity.
Qed.

(** The surrogate neighbour of an edge is a triangle of the mesh: the
    neighbour if there is one, the triangle itself otherwise. *)
Theorem C06_surrogate_neighbours :
  forall ts rows k i a b, build_neighbour_structure ts = Some rows ->
  has_edge ts k i a b ->
  ((forall l j, ~ has_edge ts l j b a) -> surrogate rows k i = Z.of_nat k) /\
  (forall l j, has_edge ts l j b a -> surrogate rows k i = Z.of_nat l).
Proof.
  intros ts rows k i a b H He. unfold surrogate.
  destruct (C06_boundary_iff_no_opposite_edge ts rows k i a b H He) as (A & _). split.
  - intros N. apply A in N. apply Z.ltb_lt in N. rewrite N. reflexivity.
  - intros l j Hl. apply (C06_neighbour_is_opposite_edge ts rows k i a b H He) in Hl.
    destruct Hl as (-> & _). destruct (Z.ltb_spec (Z.of_nat l) 0); lia.
Qed.
Print Assumptions C06_surrogate_neighbours.

(** Non-vacuity: two triangles sharing an edge. *)
Example C06_example :
  exists rows, build_neighbour_structure [(0, 1, 2); (2, 1, 3)] = Some rows /\
    has_edge [(0, 1, 2); (2, 1, 3)] 0 0 1 2 /\ neighbour_is rows 0 0 1 2 /\ nb rows 0 1 = (-1)%Z.
Proof.
  eexists. split; [reflexivity|]. split; [exists 0, 1, 2; auto 10|].
  unfold neighbour_is. vm_compute. auto.
Qed.
Example C06_example_rejected :
  build_neighbour_structure [(0, 1, 2); (3, 1, 2)] = None.
Proof. reflexivity. Qed.

(** * C44 *)

(** The tag dictionary passed by the user only mentions edges of the mesh
    that have no neighbour. *)
Definition tags_boundary_edges (rows : list row) (b : bdict) : Prop :=
  forall key tag, In (key, tag) b -> (nb rows (fst key) (snd key) < 0)%Z.

(** After construction: the boundary dictionary has exactly one entry for
    each edge without neighbour (the user's tag if given, the default tag
    otherwise) and no other; the boundary segments are numbered in sorted
    order; neighbours[k,i] = -(m+1) exactly for boundary segment number m;
    boundary_cells/boundary_edges give segment m back; all other entries are
    unchanged, hence non-negative. *)
Theorem C44_boundary_enumeration :
  forall ts default b rows bd bs,
  NoDup (map fst b) ->
  build_neighbour_structure ts = Some rows ->
  tags_boundary_edges rows b ->
  mesh_boundary ts default b = Some (rows, bd, bs) ->
  NoDup (map fst bd) /\
  (forall k i, k < length ts -> i < 3 ->
     lookup bd (k, i) = if (nb rows k i <? 0)%Z
                        then Some (match lookup b (k, i) with Some t => t | None => default end)
                        else None) /\
  (forall k i, In (k, i) (map fst bd) -> k < length ts /\ i < 3) /\
  exists X, Permutation X (map fst bd) /\ Sorted key_le X /\
    b_cells bs = map fst X /\ b_edges bs = map snd X /\
    (forall m k i, nth_error X m = Some (k, i) ->
       nb (b_rows bs) k i = (- Z.of_nat (S m))%Z /\ lookup (b_enum bs) (k, i) = Some (Z.of_nat m)) /\
    (forall k i, ~ In (k, i) X -> nb (b_rows bs) k i = nb rows k i) /\
    (forall k i, k < length ts -> i < 3 -> (nb (b_rows bs) k i < 0)%Z ->
       exists m, nth_error X m = Some (k, i)).
Proof.
  intros ts def b rows bd bs ND HB HT H. unfold mesh_boundary in H. rewrite HB in H.
  destruct (boundary_dictionary rows def b) as [bd'|] eqn:EB; [|discriminate].
  injection H as <- <-.
  destruct (rows_shape ts rows HB) as (R3 & LR). rewrite <- LR.
  destruct (boundary_dictionary_spec rows def b bd' ND EB) as (ND' & L & K).
  split; auto.
  assert (L' : forall k i, k < length rows -> i < 3 ->
     lookup bd' (k, i) = if (nb rows k i <? 0)%Z
                        then Some (match lookup b (k, i) with Some t => t | None => def end)
                        else None).
  { intros k i Hk Hi. rewrite L by auto. destruct (lookup b (k, i)) as [t|] eqn:E; auto.
    apply lookup_In in E. apply HT in E. simpl in E. apply Z.ltb_lt in E. rewrite E. reflexivity. }
  split; auto. split; auto.
  exists (sorted_keys bd').
  assert (NDX : NoDup (sorted_keys bd')).
  { eapply Permutation_NoDup; [symmetry; apply sorted_keys_perm|auto]. }
  assert (FX : Forall (fun key => fst key < length rows /\ snd key < 3) (sorted_keys bd')).
  { apply Forall_forall. intros [k i] Hin. apply K. eapply Permutation_in; [apply sorted_keys_perm|auto]. }
  unfold build_boundary_neighbours.
  pose proof (enumerate_spec (sorted_keys bd') rows [] (-1)%Z R3 NDX FX ltac:(simpl; tauto)) as ES.
  cbv zeta in ES. destruct (enumerate rows [] (-1)%Z (sorted_keys bd')) as [rows' enum] eqn:EE.
  cbn [fst snd app] in ES. destruct ES as (E1 & E2 & E3 & E4).
  assert (EN : forall m key, nth_error (sorted_keys bd') m = Some key -> lookup enum key = Some (Z.of_nat m)).
  { intros m key Hm. rewrite E2.
    rewrite (lookup_combine_seq _ key m 0 NDX Hm (fun m => (- (-1 - Z.of_nat m) - 1)%Z)). f_equal. cbn [Nat.add]. lia. }
  rewrite (fill_cells_spec _ _ NDX EN). cbn [b_rows b_enum b_cells b_edges].
  split; [apply sorted_keys_perm|]. split; [apply sorted_keys_sorted|].
  split; [reflexivity|]. split; [reflexivity|]. split; [|split].
  - intros m k i Hm. split; [|apply EN; auto]. specialize (E3 m (k, i) Hm). cbn [fst snd] in E3. rewrite E3. lia.
  - exact E4.
  - intros k i Hk Hi Hneg.
    destruct (in_dec (fun a b => reflect_dec _ _ (key_eqb_spec a b)) (k, i) (sorted_keys bd')) as [Hin|Hn].
    + apply In_nth_error. exact Hin.
    + exfalso. rewrite E4 in Hneg by auto. apply Hn.
      eapply Permutation_in; [symmetry; apply sorted_keys_perm|].
      specialize (L' k i Hk Hi). apply Z.ltb_lt in Hneg. rewrite Hneg in L'.
      eapply lookup_Some_In. exact L'.
Qed.
Print Assumptions C44_boundary_enumeration.

(** For every tag that occurs, tag_boundary_cells[tag] lists, in increasing
    order, exactly the boundary segments whose edge carries that tag. *)
Theorem C44_tag_lists :
  forall ts default b rows bd bs tag,
  NoDup (map fst b) ->
  build_neighbour_structure ts = Some rows ->
  tags_boundary_edges rows b ->
  mesh_boundary ts default b = Some (rows, bd, bs) ->
  In tag (map snd bd) ->
  tag_list (b_tags bs) tag =
  Some (filter (fun m => match lookup bd (nth m (b_cells bs) 0, nth m (b_edges bs) 0) with
                         | Some t => Nat.eqb t tag | None => false end)
               (seq 0 (length bd))).
Proof.
  intros ts def b rows bd bs tag ND HB HT H Hin. unfold mesh_boundary in H. rewrite HB in H.
  destruct (boundary_dictionary rows def b) as [bd'|] eqn:EB; [|discriminate].
  injection H as <- <-. unfold build_boundary_neighbours.
  destruct (enumerate rows [] (-1)%Z (sorted_keys bd')) as [rows' enum].
  destruct (fill_cells enum (sorted_keys bd')) as [cells edges]. cbn [b_tags b_cells b_edges].
  unfold tag_cells. rewrite (tag_cells_fold bd' cells edges _ _ tag []); [reflexivity|].
  apply tag_list_init. apply boundary_tags_In. exact Hin.
Qed.
Print Assumptions C44_tag_lists.

(** Non-vacuity: one tagged edge, the rest get the default tag (7). *)
Example C44_example :
  exists rows bd bs, mesh_boundary [(0, 1, 2); (2, 1, 3)] 7 [((1, 1), 5)] = Some (rows, bd, bs) /\
    tags_boundary_edges rows [((1, 1), 5)] /\
    nb (b_rows bs) 0 1 = (-1)%Z /\ nb (b_rows bs) 0 0 = 1%Z /\ nb (b_rows bs) 1 1 = (-4)%Z /\
    b_cells bs = [0; 0; 1; 1] /\ b_edges bs = [1; 2; 0; 1] /\
    b_tags bs = [(5, [3]); (7, [0; 1; 2])].
Proof.
  eexists. eexists. eexists. split; [reflexivity|].
  split; [intros key tag [E|[]]; injection E as <- <-; reflexivity|].
  vm_compute. auto 10.
Qed.

(** Finding: a user tag on an interior edge is accepted and turns that edge
    into a boundary on one side only: the neighbour relation is no longer
    symmetric (edge (0,0) became a boundary, its partner (1,2) still points
    to triangle 0). *)
Theorem C44_interior_tag_breaks_symmetry_refuted :
  exists ts b rows bd bs,
    build_neighbour_structure ts = Some rows /\
    mesh_boundary ts 7 b = Some (rows, bd, bs) /\
    neighbour_is rows 0 0 1 2 /\ neighbour_is rows 1 2 0 0 /\
    (nb (b_rows bs) 0 0 < 0)%Z /\ nb (b_rows bs) 1 2 = 0%Z.
Proof.
  exists [(0, 1, 2); (2, 1, 3)], [((0, 0), 5)]. eexists. eexists. eexists.
  split; [reflexivity|]. split; [reflexivity|]. unfold neighbour_is. vm_compute. auto 10.
Qed.
Print Assumptions C44_interior_tag_breaks_symmetry_refuted.
