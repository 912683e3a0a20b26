(** Lemmas about [DistributedRunModel]: a domain built from a mesh satisfies what
    C78 asks of an undivided domain and of its parts. *)
From Coq Require Import Reals List ZArith Arith Lia Lra Bool Permutation Sorted.
From Verif Require Import NeighbourModel NeighbourProofs NeighbourProps SetBoundaryProps DistributeModel DistributeProofs DistributeProofs2
  DistributeProps LocalMeshModel LocalMeshProofs LocalMeshProofs2 LocalMeshProofs3 LocalMeshProofs4 LocalMeshProps
  RealLib ArrayLib GeometryModel BoundaryModel FluxModel FluxProofs FluxProps FluxMeshProps ReconModel RKModel StepModel ParallelStepModel
  ParallelStepProofs ParallelStepProps DistributedRunModel.
Import ListNotations.
Local Open Scope R_scope.

(** * Geometry of the two sides of an edge *)

(** Where edge [i] of a triangle begins and ends. *)
Definition tail_of (i : nat) : nat := match i with 0 => 1 | 1 => 2 | _ => 0 end%nat.
Definition head_of (i : nat) : nat := match i with 0 => 2 | 1 => 0 | _ => 1 end%nat.

Lemma vertex_node nodes t v : vertex nodes t v = nth (node t v) nodes (0, 0).
Proof. destruct t as [[a b] c], v as [|[|v]]; reflexivity. Qed.

Lemma geo_edge nodes t i : (i < 3)%nat ->
  let a := vertex nodes t (tail_of i) in let b := vertex nodes t (head_of i) in
  let l := sqrt ((fst b - fst a) ^ 2 + (snd b - snd a) ^ 2) in
  geo edgelength nodes t i = l /\ geo normal nodes t i = ((snd b - snd a) / l, - ((fst b - fst a) / l)).
Proof. intros Hi. destruct i as [|[|[|i]]]; [| | |lia]; cbv zeta; split; reflexivity. Qed.

Lemma geo_opposite nodes t t' i i' : (i < 3)%nat -> (i' < 3)%nat ->
  node t' (tail_of i') = node t (head_of i) -> node t' (head_of i') = node t (tail_of i) ->
  geo edgelength nodes t' i' = geo edgelength nodes t i /\
  fst (geo normal nodes t' i') = - fst (geo normal nodes t i) /\ snd (geo normal nodes t' i') = - snd (geo normal nodes t i).
Proof.
  intros Hi Hi' E1 E2. destruct (geo_edge nodes t i Hi) as [-> ->]. destruct (geo_edge nodes t' i' Hi') as [-> ->].
  rewrite !vertex_node, E1, E2. cbn [fst snd].
  set (a := nth (node t (tail_of i)) nodes (0, 0)). set (b := nth (node t (head_of i)) nodes (0, 0)).
  replace ((fst a - fst b) ^ 2 + (snd a - snd b) ^ 2) with ((fst b - fst a) ^ 2 + (snd b - snd a) ^ 2) by ring.
  unfold Rdiv. split; [reflexivity|]. split; ring.
Qed.

Lemma area_distinct nodes t u v : (u < 3)%nat -> (v < 3)%nat -> u <> v -> 0 < geo area nodes t -> node t u <> node t v.
Proof.
  intros Hu Hv Huv HA E. assert (V : vertex nodes t u = vertex nodes t v) by (rewrite !vertex_node, E; reflexivity).
  enough (geo area nodes t = 0) by lra. unfold geo, area.
  destruct u as [|[|[|u]]]; [| | |lia]; (destruct v as [|[|[|v]]]; [| | |lia]); try (exfalso; apply Huv; reflexivity);
    (rewrite V || rewrite <- V); field.
Qed.

(** * A complete dictionary of tags *)
Lemma complete_dictionary rows default bd :
  (forall k i, In (k, i) (map fst bd) <-> (k < length rows)%nat /\ (i < 3)%nat /\ (nb rows k i < 0)%Z) ->
  boundary_dictionary rows default bd = Some bd.
Proof.
  intros H. unfold boundary_dictionary.
  replace (keys_ok (length rows) bd) with true.
  - f_equal. assert (G : forall l, fold_left (tag_edge rows default) l bd = bd \/ exists e, In e l /\ (length rows <= fst e \/ 3 <= snd e)%nat).
    { induction l as [|[k i] l IH]; [left; reflexivity|]. cbn [fold_left].
      destruct (Nat.lt_ge_cases k (length rows)) as [Hk|Hk]; [|right; exists (k, i); cbn; auto].
      destruct (Nat.lt_ge_cases i 3) as [Hi|Hi]; [|right; exists (k, i); cbn; auto].
      assert (E : tag_edge rows default bd (k, i) = bd).
      { unfold tag_edge. cbn [fst snd]. destruct (Z.ltb_spec (nb rows k i) 0) as [L|L]; [|reflexivity].
        destruct (lookup bd (k, i)) eqn:X; [reflexivity|]. apply lookup_None in X. exfalso. apply X. apply H. auto. }
      rewrite E. destruct IH as [IH|(e & He & X)]; [left; exact IH|right; exists e; cbn; auto]. }
    destruct (G (all_edges (length rows))) as [E|((k, i) & He & X)]; [exact E|]. exfalso.
    unfold all_edges in He. apply in_flat_map in He as (x & Hx & He). apply in_seq in Hx.
    cbn in He. destruct He as [E|[E|[E|[]]]]; injection E as <- <-; cbn in X; lia.
  - symmetry. unfold keys_ok. apply forallb_forall. intros [[k i] t] Hin. cbn [fst snd].
    assert (K : In (k, i) (map fst bd)) by (change (k, i) with (fst ((k, i), t)); apply in_map; exact Hin).
    apply H in K. apply andb_true_iff. rewrite !Nat.ltb_lt. lia.
Qed.

Lemma nbe_set rows k i v k' i' : nbe (set_nb rows k i v) k' i' = nbe rows k' i'.
Proof.
  unfold set_nb. destruct (nth_error rows k) as [r|] eqn:E; [|reflexivity]. unfold nbe.
  rewrite NeighbourProofs.nth_error_set_nth. destruct (Nat.eqb_spec k k') as [<-|N]; [|reflexivity].
  rewrite E. replace (Nat.ltb k (length rows)) with true; [reflexivity|].
  symmetry. apply Nat.ltb_lt. apply nth_error_Some. congruence.
Qed.
Lemma nbe_enumerate : forall X rows enum index k i, nbe (fst (enumerate rows enum index X)) k i = nbe rows k i.
Proof.
  induction X as [|[k0 i0] X IH]; intros rows enum index k i; [reflexivity|]. cbn [enumerate]. rewrite IH. apply nbe_set.
Qed.
Lemma nbe_bs rows bd k i : nbe (b_rows (build_boundary_neighbours rows bd)) k i = nbe rows k i.
Proof.
  unfold build_boundary_neighbours. pose proof (nbe_enumerate (sorted_keys bd) rows [] (-1)%Z k i) as E.
  destruct (enumerate rows [] (-1)%Z (sorted_keys bd)) as [r e]. destruct (fill_cells e (sorted_keys bd)). exact E.
Qed.
Lemma b_tags_bs rows bd : b_tags (build_boundary_neighbours rows bd) =
  tag_cells bd (b_cells (build_boundary_neighbours rows bd)) (b_edges (build_boundary_neighbours rows bd)).
Proof.
  unfold build_boundary_neighbours. destruct (enumerate rows [] (-1)%Z (sorted_keys bd)) as [r e].
  destruct (fill_cells e (sorted_keys bd)). reflexivity.
Qed.

(** * Settings *)
(** No riverwalls, default switches, settings of DE0, DE1 and DE2. *)
Record template_ok (T : config) : Prop := {
  tp_walls : forall e, edge_flux_type (cf_dom T) e <> 1%Z;
  tp_update : (forall e, update_next_flux (cf_dom T) e = 1%Z) /\ (forall k, r_update (cf_rec T) k = 1%Z);
  tp_velocity : r_velocity (cf_rec T) = 1%Z;
  tp_increase : allow_timestep_increase (cf_dom T) = 1%Z;
  tp_settings : settings T }.

Lemma edge_div k i : (i < 3)%nat -> ((3 * k + i) / 3 = k)%nat.
Proof. intros Hi. rewrite (Nat.mul_comm 3 k), Nat.div_add_l, Nat.div_small by lia. lia. Qed.
Lemma edge_mod k i : (i < 3)%nat -> ((3 * k + i) mod 3 = i)%nat.
Proof. intros Hi. rewrite (Nat.mul_comm 3 k), Nat.add_comm, Nat.mod_add by lia. apply Nat.mod_small. exact Hi. Qed.

Section Mesh.
Variables (T : config) (nodes : list (R * R)) (ts : list tri) (rows : list row) (bd : bdict).
Variables (flags : nat -> Z) (qs : quantities) (bmap : nat -> boundary_object).
Hypothesis HT : template_ok T.
Hypothesis HB : build_neighbour_structure ts = Some rows.
Hypothesis NDbd : NoDup (map fst bd).
Hypothesis Hbd : forall k i, In (k, i) (map fst bd) <-> (k < length ts)%nat /\ (i < 3)%nat /\ (nb rows k i < 0)%Z.
Hypothesis HA : forall k, (k < length ts)%nat -> 0 < geo area nodes (nth k ts d3).
Let bs := build_boundary_neighbours rows bd.
Let C := mesh_config T nodes ts rows bs flags qs bmap.
Let n := length ts.

Lemma bs_mesh : mesh_boundary ts 0 bd = Some (rows, bd, bs).
Proof.
  unfold mesh_boundary. rewrite HB, complete_dictionary; [reflexivity|].
  rewrite (proj2 (rows_shape ts rows HB)). exact Hbd.
Qed.
Lemma bd_tags : tags_boundary_edges rows bd.
Proof. intros [k i] t H. apply (in_map fst) in H. apply Hbd in H. apply H. Qed.

Lemma bs_rows k i : (k < n)%nat -> (i < 3)%nat ->
  ((0 <= nb rows k i)%Z -> nb (b_rows bs) k i = nb rows k i) /\ ((nb rows k i < 0)%Z -> (nb (b_rows bs) k i < 0)%Z).
Proof. apply (mesh_facts ts 0 bd rows bd bs NDbd HB bd_tags bs_mesh). Qed.

Lemma int_iff k i : (k < n)%nat -> (i < 3)%nat -> (interior (cf_dom C) (3 * k + i) = true <-> (0 <= nb rows k i)%Z).
Proof.
  intros Hk Hi. unfold interior, C, mesh_config. cbn [cf_dom FluxModel.neighbours]. rewrite edge_div, edge_mod by exact Hi.
  destruct (bs_rows k i Hk Hi) as [A B]. rewrite Z.leb_le. split; intros H.
  - destruct (Z.lt_ge_cases (nb rows k i) 0) as [L|L]; [specialize (B L); lia|exact L].
  - rewrite (A H). exact H.
Qed.
Lemma nb_C k i : (k < n)%nat -> (i < 3)%nat -> (0 <= nb rows k i)%Z ->
  FluxModel.neighbours (cf_dom C) (3 * k + i)%nat = nb rows k i /\
  FluxModel.neighbour_edges (cf_dom C) (3 * k + i)%nat = Z.to_nat (nbe rows k i).
Proof.
  intros Hk Hi H. unfold C, mesh_config. cbn [cf_dom FluxModel.neighbours FluxModel.neighbour_edges]. rewrite edge_div, edge_mod by exact Hi.
  destruct (bs_rows k i Hk Hi) as [A _]. split; [apply A; exact H|]. unfold bs. rewrite nbe_bs. reflexivity.
Qed.

Lemma edge_nodes k i : (k < n)%nat -> (i < 3)%nat -> has_edge ts k i (node (nth k ts d3) (tail_of i)) (node (nth k ts d3) (head_of i)).
Proof. intros Hk Hi. apply has_edge_node. exists (nth k ts d3). split; [apply nth_error_nth'; exact Hk|]. split; [exact Hi|split; reflexivity]. Qed.

Lemma mesh_distinct : distinct_vertices ts.
Proof.
  intros k i a b H. pose proof (has_edge_range _ _ _ _ _ H) as [Hk Hi]. apply has_edge_node in H as (t & Ht & _ & -> & ->).
  apply nth_error_nth with (d := d3) in Ht. subst t.
  apply (area_distinct nodes); [destruct i as [|[|i]]; lia|destruct i as [|[|i]]; lia|destruct i as [|[|i]]; lia|apply HA; exact Hk].
Qed.

Lemma mesh_interior k i : (k < n)%nat -> (i < 3)%nat -> (0 <= nb rows k i)%Z ->
  exists l j, neighbour_is rows k i l j /\ (l < n)%nat /\ (j < 3)%nat /\ l <> k /\
    node (nth l ts d3) (tail_of j) = node (nth k ts d3) (head_of i) /\ node (nth l ts d3) (head_of j) = node (nth k ts d3) (tail_of i).
Proof.
  intros Hk Hi H. pose proof (edge_nodes k i Hk Hi) as He.
  destruct (proj2 (C06_boundary_iff_no_opposite_edge ts rows k i _ _ HB He) H) as (l & j & Hn).
  destruct (C06_neighbours_symmetric ts rows k i l j _ _ HB He Hn) as (Hl & _).
  pose proof (has_edge_range _ _ _ _ _ Hl) as [Ln Jn].
  exists l, j. split; [exact Hn|]. split; [exact Ln|]. split; [exact Jn|].
  apply has_edge_node in Hl as (t & Ht & _ & E1 & E2). apply nth_error_nth with (d := d3) in Ht. subst t.
  split; [|split; [symmetry; exact E1|symmetry; exact E2]].
  intros ->. pose proof (HA k Hk) as Ap.
  assert (D01 := area_distinct nodes (nth k ts d3) 0 1 ltac:(lia) ltac:(lia) ltac:(lia) Ap).
  assert (D02 := area_distinct nodes (nth k ts d3) 0 2 ltac:(lia) ltac:(lia) ltac:(lia) Ap).
  assert (D12 := area_distinct nodes (nth k ts d3) 1 2 ltac:(lia) ltac:(lia) ltac:(lia) Ap).
  destruct i as [|[|[|i]]]; [| | |lia]; (destruct j as [|[|[|j]]]; [| | |lia]); cbn in E1, E2; congruence.
Qed.

Lemma config_ok : mesh_ok C.
Proof.
  assert (Sees : sees_mesh (cf_dom C) ts rows).
  { split; [reflexivity|]. intros k i Hk Hi. split; [intros H; apply (nb_C k i Hk Hi H)|]. split.
    - intros H. unfold C, mesh_config. cbn [cf_dom FluxModel.neighbours]. rewrite edge_div, edge_mod by exact Hi.
      apply (bs_rows k i Hk Hi). exact H.
    - intros H. destruct (nb_C k i Hk Hi H) as [_ ->]. destruct (mesh_interior k i Hk Hi H) as (l & j & (_ & ->) & _). lia. }
  assert (W : wf_mesh (cf_dom C)) by (apply (C08_built_mesh_is_wf _ ts rows HB mesh_distinct Sees)).
  destruct HT. split.
  - exact W.
  - intros e He Hi. change (number_of_elements (cf_dom C)) with n in He.
    assert (Hm : (e mod 3 < 3)%nat) by (apply Nat.mod_upper_bound; lia).
    assert (Hk : (e / 3 < n)%nat) by (apply Nat.div_lt_upper_bound; lia).
    assert (Ee : e = (3 * (e / 3) + e mod 3)%nat) by (apply Nat.div_mod; lia).
    rewrite Ee in Hi. apply (int_iff _ _ Hk Hm) in Hi. destruct (nb_C _ _ Hk Hm Hi) as [N1 N2].
    destruct (mesh_interior _ _ Hk Hm Hi) as (l & j & (E1 & E2) & Hl & Hj & _ & G1 & G2).
    assert (Ep : partner (cf_dom C) e = (3 * l + j)%nat) by (unfold partner; rewrite Ee, N1, N2, E1, E2, !Nat2Z.id; lia).
    rewrite Ep. destruct (geo_opposite nodes _ _ _ _ Hm Hj G1 G2) as (A & B & D).
    unfold C, mesh_config. cbn [cf_dom normal_x normal_y edgelengths]. rewrite edge_div, edge_mod by exact Hj. auto.
  - intros k i Hk Hi Hint. change (k < n)%nat in Hk. apply (int_iff k i Hk Hi) in Hint. destruct (nb_C k i Hk Hi Hint) as [-> _].
    destruct (mesh_interior k i Hk Hi Hint) as (l & j & (-> & _) & _ & _ & NE & _). rewrite Nat2Z.id. exact NE.
  - reflexivity.
  - intros k i Hk Hi. change (k < n)%nat in Hk. pose proof (int_iff k i Hk Hi) as II.
    unfold C at 1, mesh_config. cbn [cf_rec r_surrogate]. rewrite edge_div, edge_mod by exact Hi. unfold surrogate.
    destruct (interior (cf_dom C) (3 * k + i)).
    + assert (H : (0 <= nb rows k i)%Z) by (apply II; reflexivity). destruct (Z.ltb_spec (nb rows k i) 0) as [L|L]; [lia|].
      destruct (nb_C k i Hk Hi H) as [-> _]. reflexivity.
    + destruct (Z.ltb_spec (nb rows k i) 0) as [L|L]; [apply Nat2Z.id|]. apply II in L. discriminate.
  - intros k Hk. change (k < n)%nat in Hk. unfold C at 1, mesh_config. cbn [cf_rec r_number_of_boundaries].
    destruct (nth_error rows k) as [r|] eqn:Er.
    2:{ apply nth_error_None in Er. rewrite (proj2 (rows_shape ts rows HB)) in Er. unfold n in Hk. lia. }
    rewrite (C06_number_of_boundaries_counts ts rows k r HB Er). f_equal. f_equal. apply filter_ext_in. intros i Hi.
    assert (Hi3 : (i < 3)%nat) by (cbn in Hi; lia). pose proof (int_iff k i Hk Hi3) as II.
    destruct (interior (cf_dom C) (3 * k + i)); cbn [negb].
    + apply Z.ltb_ge. apply II. reflexivity.
    + apply Z.ltb_lt. destruct (Z.lt_ge_cases (nb rows k i) 0) as [L|L]; [exact L|]. apply II in L. discriminate.
  - exact tp_walls0.
  - exact tp_update0.
  - exact tp_velocity0.
  - exact tp_increase0.
Qed.

(** The boundary edge of a triangle and its boundary object. *)
Lemma config_boundary k i : (k < n)%nat -> (i < 3)%nat -> (nb rows k i < 0)%Z ->
  exists tag, lookup bd (k, i) = Some tag /\
  let b := Z.to_nat (- FluxModel.neighbours (cf_dom C) (3 * k + i) - 1) in
  cf_cells C b = k /\ cf_edges C b = i /\
  (exists ids, In (bmap tag, ids) (cf_segments C) /\ In b ids) /\
  (forall o ids, In (o, ids) (cf_segments C) -> In b ids -> o = bmap tag).
Proof.
  intros Hk Hi Hn. destruct (C44_boundary_enumeration ts 0 bd rows bd bs NDbd HB bd_tags bs_mesh)
    as (_ & LK & _ & X & PX & _ & XC & XE & M1 & _ & _).
  assert (I : In (k, i) (map fst bd)) by (apply Hbd; auto).
  destruct (lookup bd (k, i)) as [tag|] eqn:ET; [|apply lookup_None in ET; contradiction].
  exists tag. split; [reflexivity|]. apply (Permutation_in _ (Permutation_sym PX)) in I as I'. apply In_nth_error in I' as [m Hm].
  destruct (M1 m k i Hm) as [Em _].
  assert (Eb : Z.to_nat (- FluxModel.neighbours (cf_dom C) (3 * k + i) - 1) = m).
  { unfold C, mesh_config. cbn [cf_dom FluxModel.neighbours]. rewrite edge_div, edge_mod by exact Hi. rewrite Em. lia. }
  cbv zeta. rewrite Eb.
  assert (Ec : nth m (b_cells bs) 0%nat = k) by (rewrite XC; apply nth_error_nth; rewrite nth_error_map, Hm; reflexivity).
  assert (Ee : nth m (b_edges bs) 0%nat = i) by (rewrite XE; apply nth_error_nth; rewrite nth_error_map, Hm; reflexivity).
  split; [exact Ec|]. split; [exact Ee|].
  assert (Lm : (m < length bd)%nat).
  { rewrite <- (map_length fst), <- (Permutation_length PX). apply nth_error_Some. congruence. }
  assert (NDt : NoDup (map fst (b_tags bs))) by (unfold bs; rewrite b_tags_bs, tag_cells_keys; apply boundary_tags_NoDup).
  assert (Tl : forall t ids, In (t, ids) (b_tags bs) -> ids = filter (fun m => match lookup bd (nth m (b_cells bs) 0%nat, nth m (b_edges bs) 0%nat) with
                         | Some t' => Nat.eqb t' t | None => false end) (seq 0 (length bd))).
  { intros t ids H. assert (Ht : In t (map snd bd)).
    { apply boundary_tags_In. rewrite <- (tag_cells_keys bd (b_cells bs) (b_edges bs)). unfold bs. rewrite <- b_tags_bs.
      apply (in_map fst) in H. exact H. }
    apply tag_list_In in H; [|exact NDt].
    rewrite (C44_tag_lists ts 0 bd rows bd bs t NDbd HB bd_tags bs_mesh Ht) in H. injection H as <-. reflexivity. }
  split.
  - assert (Ht : In tag (map snd bd)).
    { clear - ET. induction bd as [|[key v] r IH]; cbn in ET |- *; [discriminate|].
      destruct (key_eqb key (k, i)); [injection ET as ->; auto|auto]. }
    assert (K : In tag (map fst (b_tags bs))) by (unfold bs; rewrite b_tags_bs, tag_cells_keys; apply boundary_tags_In; exact Ht).
    apply in_map_iff in K as ((t' & ids) & E & Hin). cbn [fst] in E. subst t'. exists ids. split.
    + unfold C, mesh_config. cbn [cf_segments]. apply in_map_iff. exists (tag, ids). split; [reflexivity|exact Hin].
    + rewrite (Tl tag ids Hin). apply filter_In. split; [apply in_seq; lia|]. rewrite Ec, Ee, ET. apply Nat.eqb_refl.
  - intros o ids Hin Hb. unfold C, mesh_config in Hin. cbn [cf_segments] in Hin. apply in_map_iff in Hin as ((t' & ids') & E & Hin).
    cbn [fst snd] in E. injection E as <- <-. rewrite (Tl t' ids' Hin) in Hb. apply filter_In in Hb as [_ Hb].
    rewrite Ec, Ee, ET in Hb. apply Nat.eqb_eq in Hb. subst t'. reflexivity.
Qed.
End Mesh.
