(** C90: setting a quantity sets what was asked for, and nothing else. *)
From Coq Require Import Reals List Arith Bool Lra Lia Permutation Sorting.Sorted.
From Verif Require Import RealLib ArrayLib PolygonModel GradientModel InvertedModel InvertedProofs InvertedProps SetValuesModel SetValuesProofs.
Import ListNotations.
Local Open Scope R_scope.

(** The triangles, or the nodes, that [indices] selects *)
Definition selection (n : nat) (ids : option (list nat)) : list nat := match ids with None => seq 0 n | Some l => l end.

(** Edge and centroid values that go with the vertex values: those of the
    linear function on each triangle. *)
Definition interpolated (q : quantity) (M : nat) : Prop := forall k, (k < M)%nat ->
  qc q k = (qv q (3 * k)%nat + qv q (3 * k + 1)%nat + qv q (3 * k + 2)%nat) / 3 /\
  qe q (3 * k)%nat = (qv q (3 * k + 1)%nat + qv q (3 * k + 2)%nat) / 2 /\
  qe q (3 * k + 1)%nat = (qv q (3 * k + 2)%nat + qv q (3 * k)%nat) / 2 /\
  qe q (3 * k + 2)%nat = (qv q (3 * k)%nat + qv q (3 * k + 1)%nat) / 2.
(** One value per triangle *)
Definition flat_on (q : quantity) (M : nat) : Prop := forall k i, (k < M)%nat -> (i < 3)%nat ->
  qv q (3 * k + i)%nat = qc q k /\ qe q (3 * k + i)%nat = qc q k.

Lemma interpolate_interpolated q M : interpolated (interpolate q) M.
Proof.
  intros k Hk. unfold interpolate. cbn [qv qe qc].
  pose proof (div3 k 0 ltac:(lia)) as D. pose proof (mod3 k 0 ltac:(lia)) as E. rewrite Nat.add_0_r in D, E.
  rewrite D, E, !div3, !mod3 by lia. unfold interpolate_edge, interpolate_centroid. repeat split; lra.
Qed.
Lemma first_order_flat q M : flat_on (first_order q) M.
Proof. intros k i Hk Hi. unfold first_order. cbn [qv qe qc]. rewrite div3 by lia. auto. Qed.

(** ** Values at centroids *)
Definition wanted_centroid (m : mesh) (src : source) (ids : option (list nat)) (k : nat) (v : R) : Prop :=
  match src with
  | Constant x | Scalar_function x => v = x
  | Array A => exists j, nth_error (selection (m_triangles m) ids) j = Some k /\ nth_error A j = Some v
  | Function f => v = f (m_centroid m k)
  | Raster f | Tif f => v = f (absolute m (m_centroid m k))
  | Rows _ | Fitted _ | Other _ _ => False
  end.
Definition not_other (src : source) : Prop := match src with Other _ _ => False | _ => True end.

Lemma seq_select n ids k : ids = None -> (k < n)%nat -> In k (selection n ids).
Proof. intros -> H. apply in_seq. lia. Qed.

Theorem C90_centroids : forall m src array ids q q', not_other src ->
  set_values m src Centroids array ids q = Some q' ->
  flat_on q' (m_triangles m) /\
  forall k, (k < m_triangles m)%nat ->
    (In k (selection (m_triangles m) ids) -> wanted_centroid m src ids k (qc q' k)) /\
    (~ In k (selection (m_triangles m) ids) -> qc q' k = qc q k).
Proof.
  intros m src array ids q q' NO H. unfold set_values in H. apply finished_inv in H as (r & H & ->). split; [apply first_order_flat|].
  change (qc (finish Centroids r)) with (qc r). intros k Hk.
  assert (AS : forall l A, length l = length A -> forall c, assign (m_triangles m) (qc q) (combine l A) = Some c ->
    (In k l -> exists j, nth_error l j = Some k /\ nth_error A j = Some (c k)) /\ (~ In k l -> c k = qc q k)).
  { intros l A L c E. destruct (assign_spec _ _ _ _ E) as (P & N). rewrite map_fst_combine in P, N by exact L. split; [|apply N].
    intros I. apply in_combine_nth, P, I. }
  assert (AM : forall l g c, assign (m_triangles m) (qc q) (map (fun i => (i, g i)) l) = Some c ->
    (In k l -> c k = g k) /\ (~ In k l -> c k = qc q k)).
  { intros l g c E. rewrite <- combine_map_r in E. destruct (AS l (map g l) ltac:(now rewrite map_length) c E) as (P & N). split; [|exact N].
    intros I. destruct (P I) as (j & J1 & J2). rewrite (map_nth_error _ _ _ J1) in J2. congruence. }
  destruct src as [x|A|A|f|x|M' o|A|f|f]; [| | | | |contradiction| | |]; cbn [set_constant set_array1 set_rows set_function set_scalar_function set_fitted set_raster set_tif] in H; try discriminate.
  - destruct ids as [l|].
    + apply with_c_inv in H as (c & E & ->). cbn [qc]. apply (AM l (fun _ => x) c E).
    + injection H as <-. cbn. split; [reflexivity|]. intros O. contradiction O. now apply (seq_select _ None).
  - destruct ids as [l|].
    + destruct (Nat.eqb_spec (length A) (length l)) as [L|]; [|discriminate]. apply with_c_inv in H as (c & E & ->). cbn [qc]. now apply (AS l A).
    + destruct (Nat.eqb_spec (length A) (m_triangles m)) as [L|]; [|discriminate]. apply with_c_inv in H as (c & E & ->). cbn [qc].
      rewrite L in E. apply (AS (seq 0 (m_triangles m)) A); [now rewrite seq_length|exact E].
  - destruct (forallb _ _); [|discriminate]. apply finished_inv in H as (r' & H & ->). cbn [finish first_order qc].
    rewrite map_length, Nat.eqb_refl in H. apply with_c_inv in H as (c & E & ->). cbn [qc]. rewrite combine_map_r in E.
    apply (AM (selection (m_triangles m) ids) (fun k => f (m_centroid m k)) c). exact E.
  - destruct (forallb _ _); [|discriminate]. apply finished_inv in H as (r' & H & ->). cbn [finish first_order qc].
    apply with_c_inv in H as (c & E & ->). cbn [qc]. apply (AM (selection (m_triangles m) ids) (fun _ => x) c). exact E.
  - destruct ids as [l|].
    + destruct array; [|discriminate]. apply with_c_inv in H as (c & E & ->). cbn [qc]. apply (AM l (fun k => f (absolute m (m_centroid m k))) c E).
    + injection H as <-. cbn. split; [reflexivity|]. intros O. contradiction O. now apply (seq_select _ None).
  - destruct ids as [l|].
    + apply with_c_inv in H as (c & E & ->). cbn [qc]. apply (AM l (fun k => f (absolute m (m_centroid m k))) c E).
    + injection H as <-. cbn. split; [reflexivity|]. intros O. contradiction O. now apply (seq_select _ None).
Qed.
Print Assumptions C90_centroids.

(** ** Values at the vertices of triangles *)
Definition by_triangle (src : source) (ids : option (list nat)) : Prop :=
  match src with
  | Constant _ | Rows _ | Function _ | Scalar_function _ => True
  | Other _ _ | Raster _ | Tif _ => ids = None
  | _ => False
  end.
Definition wanted_vertex (m : mesh) (src : source) (ids : option (list nat)) (k i : nat) (v : R) : Prop :=
  match src with
  | Constant x | Scalar_function x => v = x
  | Rows A => exists f, v = f i /\ ((A = [f] /\ ids = None) \/
                exists j, nth_error (selection (m_triangles m) ids) j = Some k /\ nth_error A j = Some f)
  | Function f => v = f (m_vertex m (3 * k + i)%nat)
  | Other _ o => v = qv o (3 * k + i)%nat
  | Raster f | Tif f => v = f (absolute m (m_vertex m (3 * k + i)%nat))
  | _ => False
  end.

Lemma rows_none A n : length (match A with [f] => repeat f n | _ => A end) = n ->
  (forall f : nat -> R, A <> [f]) /\ length A = n \/ exists f, A = [f].
Proof. destruct A as [|f [|g A]]; intros H; [left|right; eauto|left]; (split; [intros h; discriminate|exact H]). Qed.

Lemma set_rows_spec m A ids q r : set_rows m A Vertices ids q = Some r ->
  qe r = qe q /\ qc r = qc q /\
  forall k i, (k < m_triangles m)%nat -> (i < 3)%nat ->
    (In k (selection (m_triangles m) ids) -> wanted_vertex m (Rows A) ids k i (qv r (3 * k + i)%nat)) /\
    (~ In k (selection (m_triangles m) ids) -> qv r (3 * k + i)%nat = qv q (3 * k + i)%nat).
Proof.
  unfold set_rows. destruct ids as [l|].
  - destruct (Nat.eqb_spec (length A) (length l)) as [L|]; [|discriminate]. intros H. apply with_v_inv in H as (c & E & ->).
    cbn [qv qe qc]. split; [reflexivity|]. split; [reflexivity|]. intros k i Hk Hi. destruct (assign_rows _ _ _ _ E k i Hi) as (P & N).
    rewrite map_fst_combine in P, N by congruence. split; [|exact N]. intros I. destruct (P I) as (f & J & V). cbn [wanted_vertex]. exists f. split; [exact V|]. right.
    apply in_combine_nth in J. exact J.
  - set (B := match A with [f] => repeat f (m_triangles m) | _ => A end). destruct (Nat.eqb_spec (length B) (m_triangles m)) as [L|]; [|discriminate].
    intros H. apply with_v_inv in H as (c & E & ->). rewrite L in E.
    cbn [qv qe qc]. split; [reflexivity|]. split; [reflexivity|]. intros k i Hk Hi. destruct (assign_rows _ _ _ _ E k i Hi) as (P & N).
    rewrite map_fst_combine in P, N by (now rewrite seq_length). split; [|exact N]. intros I. destruct (P I) as (f & J & V). cbn [wanted_vertex]. exists f. split; [exact V|].
    apply in_combine_nth in J as (j & J1 & J2). destruct (rows_none _ _ L) as [(Q & _)|(g & ->)].
    + right. exists j. split; [exact J1|]. revert J2. unfold B. destruct A as [|h [|h' A]]; auto. contradiction (Q h eq_refl).
    + left. split; [|reflexivity]. unfold B in J2. apply nth_error_In, repeat_spec in J2. now subst.
Qed.

Theorem C90_vertices : forall m src array ids q q', by_triangle src ids ->
  set_values m src Vertices array ids q = Some q' ->
  interpolated q' (m_triangles m) /\
  forall k i, (k < m_triangles m)%nat -> (i < 3)%nat ->
    (In k (selection (m_triangles m) ids) -> wanted_vertex m src ids k i (qv q' (3 * k + i)%nat)) /\
    (~ In k (selection (m_triangles m) ids) -> qv q' (3 * k + i)%nat = qv q (3 * k + i)%nat).
Proof.
  intros m src array ids q q' BT H. unfold set_values in H. apply finished_inv in H as (r & H & ->). split; [apply interpolate_interpolated|].
  change (qv (finish Vertices r)) with (qv r). intros k i Hk Hi.
  assert (ALL : forall P, (In k (selection (m_triangles m) None) -> P) -> P) by (intros P G; apply G; now apply seq_select).
  assert (GM : forall l g c, assign (3 * m_triangles m) (qv q) (flat_map (fun k => row k (g k)) l) = Some c ->
    (In k l -> c (3 * k + i)%nat = g k i) /\ (~ In k l -> c (3 * k + i)%nat = qv q (3 * k + i)%nat)).
  { intros l g c E. rewrite flat_rows_map in E. destruct (assign_rows _ _ _ _ E k i Hi) as (P & N). rewrite map_map, map_id in P, N. split; [|exact N].
    intros I. destruct (P I) as (f & J & V). rewrite V. apply in_map_iff in J as (k' & J & _). injection J as -> <-. reflexivity. }
  destruct src as [x|A|A|f|x|M' o|A|f|f]; cbn [by_triangle] in BT; try contradiction;
    cbn [set_constant set_function set_scalar_function set_raster set_tif] in H.
  - destruct ids as [l|].
    + apply with_v_inv in H as (c & E & ->). cbn [qv]. apply (GM l (fun _ _ => x) c E).
    + injection H as <-. cbn [qv wanted_vertex]. split; [reflexivity|]. intros O. contradiction O. now apply seq_select.
  - apply set_rows_spec in H as (_ & _ & H). auto.
  - destruct ids as [l|].
    + apply with_v_inv in H as (c & E & ->). cbn [qv]. apply (GM l (fun k i => f (m_vertex m (3 * k + i)%nat)) c E).
    + injection H as <-. cbn [qv wanted_vertex]. split; [reflexivity|]. intros O. contradiction O. now apply seq_select.
  - destruct ids as [l|].
    + apply with_v_inv in H as (c & E & ->). cbn [qv]. apply (GM l (fun _ _ => x) c E).
    + injection H as <-. cbn [qv wanted_vertex]. split; [reflexivity|]. intros O. contradiction O. now apply seq_select.
  - subst ids. unfold set_quantity in H. destruct (Nat.eqb_spec M' (m_triangles m)) as [->|]; [|discriminate].
    apply finished_inv in H as (r' & H & ->). change (qv (finish Vertices r')) with (qv r'). apply set_rows_spec in H as (_ & _ & H).
    destruct (H k i Hk Hi) as (P & N). split; [|exact N]. intros I. destruct (P I) as (f & V & [(E & _)|(j & J1 & J2)]); cbn [wanted_vertex].
    + rewrite V. destruct (m_triangles m) as [|[|M]]; [discriminate| |discriminate]. injection E as <-. do 2 f_equal. replace k with 0%nat by lia. reflexivity.
    + rewrite V. cbn [selection] in J1. rewrite (map_nth_error _ _ _ J1) in J2. injection J2 as <-. reflexivity.
  - subst ids. injection H as <-. cbn [qv wanted_vertex interpolate]. split; [reflexivity|]. intros O. contradiction O. now apply seq_select.
  - subst ids. injection H as <-. cbn [qv wanted_vertex interpolate]. split; [reflexivity|]. intros O. contradiction O. now apply seq_select.
Qed.
Print Assumptions C90_vertices.

(** ** Values at the nodes of the mesh *)
Definition by_node (src : source) (loc : location) (ids : option (list nat)) : Prop :=
  match src, loc with
  | Array _, Vertices | Array _, Unique_vertices | Fitted _, Vertices => True
  | Constant _, Unique_vertices => ids <> None
  | _, _ => False
  end.
Definition wanted_node (m : mesh) (src : source) (ids : option (list nat)) (n : nat) (v : R) : Prop :=
  match src with
  | Constant x => v = x
  | Array A | Fitted A => exists j, nth_error (selection (m_nodes m) ids) j = Some n /\ nth_error A j = Some v
  | _ => False
  end.

Lemma set_vertex_values_spec m A ids q r : mesh_ok m -> set_vertex_values m A ids q = Some r ->
  forall j, (j < 3 * m_triangles m)%nat ->
    (In (node_at (m_flat m) j) (selection (m_nodes m) ids) -> wanted_node m (Array A) ids (node_at (m_flat m) j) (qv r j)) /\
    (~ In (node_at (m_flat m) j) (selection (m_nodes m) ids) -> qv r j = qv q j).
Proof.
  intros Hm. unfold set_vertex_values. intros H j Hj.
  assert (G : forall l, length A = length l -> forall c, at_nodes m (qv q) (combine l A) = Some c ->
    (In (node_at (m_flat m) j) l -> exists i, nth_error l i = Some (node_at (m_flat m) j) /\ nth_error A i = Some (c j)) /\
    (~ In (node_at (m_flat m) j) l -> c j = qv q j)).
  { intros l L c E. destruct (at_nodes_spec m _ Hm _ _ E j) as (P & N). rewrite map_fst_combine in P, N by congruence. split; [|exact N].
    intros I. apply in_combine_nth. auto. }
  destruct ids as [l|].
  - destruct (Nat.eqb_spec (length A) (length l)) as [L|]; [|discriminate]. apply with_v_inv in H as (c & E & ->). cbn [qv]. now apply (G l).
  - destruct (Nat.eqb_spec (length A) (m_nodes m)) as [L|]; [|discriminate]. apply with_v_inv in H as (c & E & ->). cbn [qv].
    rewrite L in E. apply (G (seq 0 (m_nodes m))); [now rewrite seq_length|exact E].
Qed.

Theorem C90_nodes : forall m src loc array ids q q', mesh_ok m -> by_node src loc ids ->
  set_values m src loc array ids q = Some q' ->
  interpolated q' (m_triangles m) /\
  forall j, (j < 3 * m_triangles m)%nat ->
    (In (node_at (m_flat m) j) (selection (m_nodes m) ids) -> wanted_node m src ids (node_at (m_flat m) j) (qv q' j)) /\
    (~ In (node_at (m_flat m) j) (selection (m_nodes m) ids) -> qv q' j = qv q j).
Proof.
  intros m src loc array ids q q' Hm BN H.
  assert (LOC : loc = Vertices \/ loc = Unique_vertices) by (destruct src, loc; cbn in BN; tauto).
  assert (H' : exists r, match src with Constant x => set_constant m x loc ids q | Array A => set_array1 m A loc ids q | Fitted A => set_fitted m A loc ids q | _ => None end = Some r /\ q' = interpolate r).
  { destruct src, loc; cbn in BN; try contradiction; unfold set_values in H; apply finished_inv in H as (r & H & ->); exists r; split; auto. }
  clear H. destruct H' as (r & H & ->). split; [apply interpolate_interpolated|]. change (qv (interpolate r)) with (qv r). intros j Hj.
  destruct src as [x|A|A|f|x|M' o|A|f|f]; try discriminate.
  - destruct loc; cbn in BN; try contradiction. destruct ids as [l|]; [|contradiction]. cbn [set_constant] in H. apply with_v_inv in H as (c & E & ->). cbn [qv].
    destruct (at_nodes_spec m _ Hm _ _ E j) as (P & N). rewrite map_map, map_id in P, N. split; [|exact N]. intros I. specialize (P I Hj).
    apply in_map_iff in P as (n & Q & _). injection Q as _ Q. cbn. congruence.
  - assert (K : set_vertex_values m A ids q = Some r) by (destruct LOC as [-> | ->]; exact H). now apply set_vertex_values_spec.
  - assert (K : set_vertex_values m A ids q = Some r) by (destruct LOC as [-> | ->]; [exact H|discriminate]). now apply (set_vertex_values_spec m A ids q r).
Qed.
Print Assumptions C90_nodes.

(** ** When the assignment is possible at all *)
Definition all_below (n : nat) (ids : option (list nat)) : Prop := match ids with None => True | Some l => forall i, In i l -> (i < n)%nat end.
Definition possible (m : mesh) (src : source) (loc : location) (array : bool) (ids : option (list nat)) : Prop :=
  let M := m_triangles m in
  match loc with
  | Edges => False
  | Centroids =>
      match src with
      | Constant _ | Function _ | Scalar_function _ | Tif _ => all_below M ids
      | Array A => length A = length (selection M ids) /\ all_below M ids
      | Raster _ => all_below M ids /\ (ids <> None -> array = true)
      | Rows _ | Fitted _ => False
      | Other M' _ => M' = M /\ all_below M ids /\ (ids <> None -> length (selection M ids) = M)
      end
  | _ =>
      match src, loc with
      | Array A, _ | Fitted A, Vertices => length A = length (selection (m_nodes m) ids) /\ all_below (m_nodes m) ids
      | Constant _, Unique_vertices => all_below (m_nodes m) ids
      | Constant _, _ | Function _, Vertices | Scalar_function _, Vertices => all_below M ids
      | Rows A, Vertices => (length A = length (selection M ids) \/ length A = 1%nat /\ ids = None) /\ all_below M ids
      | Other M' _, _ => M' = M /\ all_below M ids /\ (ids <> None -> length (selection M ids) = M)
      | Raster _, _ => all_below (3 * M) ids
      | Tif _, _ => all_below (3 * M) ids /\ forall l, ids = Some l -> l = [] \/ length l = 3%nat /\ all_below M ids
      | _, _ => False
      end
  end.

Lemma forallb_below n l : forallb (fun i => (i <? n)%nat) l = true <-> (forall i, In i l -> (i < n)%nat).
Proof. rewrite forallb_forall. split; intros H i I; apply Nat.ltb_lt, H, I. Qed.
Lemma if_some {A} (b : bool) (x : option A) : (if b then x else None) <> None <-> b = true /\ x <> None.
Proof. destruct b; split; try tauto; intros (H & _); discriminate. Qed.
Lemma assign_map_some {A} n a (g : A -> nat * R) l : assign n a (map g l) <> None <-> (forall x, In x l -> (fst (g x) < n)%nat).
Proof.
  rewrite <- assign_some. split; intros H.
  - intros x I. destruct (g x) as (i, v) eqn:E. apply (H i v). rewrite <- E. now apply in_map.
  - intros i v I. apply in_map_iff in I as (x & E & I). specialize (H x I). rewrite E in H. exact H.
Qed.
Lemma assign_combine_some n a l A : length A = length l -> (assign n a (combine l A) <> None <-> (forall i, In i l -> (i < n)%nat)).
Proof.
  intros L. rewrite <- assign_some. split; intros H.
  - intros i I. rewrite <- (map_fst_combine l A) in I by congruence. apply in_map_iff in I as ((j, v) & E & I). cbn in E. subst j. eauto.
  - intros i v I. apply in_combine_l in I. auto.
Qed.
Lemma nodes_combine_some m a l A : mesh_ok m -> length A = length l -> (at_nodes m a (combine l A) <> None <-> (forall i, In i l -> (i < m_nodes m)%nat)).
Proof.
  intros Hm L. rewrite <- at_nodes_some by exact Hm. split; intros H.
  - intros i I. rewrite <- (map_fst_combine l A) in I by congruence. apply in_map_iff in I as ((j, v) & E & I). cbn in E. subst j. eauto.
  - intros i v I. apply in_combine_l in I. auto.
Qed.
Lemma seq_below n i : In i (seq 0 n) -> (i < n)%nat.
Proof. rewrite in_seq. lia. Qed.
Lemma rows_some M a (g : nat -> nat -> R) l : assign (3 * M) a (flat_map (fun k => row k (g k)) l) <> None <-> (forall k, In k l -> (k < M)%nat).
Proof. rewrite flat_rows_map, assign_rows_some, map_map, map_id. reflexivity. Qed.

Lemma set_rows_some m A ids q : set_rows m A Vertices ids q <> None <->
  (length A = length (selection (m_triangles m) ids) \/ length A = 1%nat /\ ids = None) /\ all_below (m_triangles m) ids.
Proof.
  unfold set_rows. destruct ids as [l|]; cbn [selection all_below].
  - rewrite if_some, Nat.eqb_eq, with_v_some, assign_rows_some. split.
    + intros (L & H). rewrite map_fst_combine in H by congruence. auto.
    + intros ([L|(_ & L)] & H); [|discriminate]. split; [exact L|]. now rewrite map_fst_combine by congruence.
  - rewrite seq_length. set (B := match A with [f] => repeat f (m_triangles m) | _ => A end).
    rewrite if_some, Nat.eqb_eq, with_v_some, assign_rows_some. split.
    + intros (L & _). split; [|exact I]. destruct (rows_none _ _ L) as [(_ & Q)|(f & ->)]; [now left|now right].
    + intros (H & _). assert (LB : length B = m_triangles m).
      { unfold B. destruct A as [|f [|g A]]; [|now rewrite repeat_length|]; destruct H as [H|(H & _)]; auto; discriminate. }
      split; [exact LB|]. rewrite LB, map_fst_combine by (now rewrite seq_length). intros k K. now apply seq_below.
Qed.

Lemma set_vertex_values_some m A ids q : mesh_ok m -> (set_vertex_values m A ids q <> None <->
  length A = length (selection (m_nodes m) ids) /\ all_below (m_nodes m) ids).
Proof.
  intros Hm. unfold set_vertex_values. destruct ids as [l|]; cbn [selection all_below]; rewrite if_some, Nat.eqb_eq, with_v_some.
  - split; intros (L & H); (split; [exact L|]); now apply (nodes_combine_some m (qv q) l A).
  - rewrite seq_length. split; intros (L & H); (split; [exact L|]); [exact I|]. rewrite L. apply nodes_combine_some; auto; [now rewrite seq_length|apply seq_below].
Qed.

Lemma set_quantity_some m M' o ids q : set_quantity m M' o ids q <> None <->
  M' = m_triangles m /\ all_below (m_triangles m) ids /\ (ids <> None -> length (selection (m_triangles m) ids) = m_triangles m).
Proof.
  unfold set_quantity. rewrite if_some, Nat.eqb_eq, finished_some, set_rows_some, map_length, seq_length. split.
  - intros (-> & H & B). split; [reflexivity|]. split; [exact B|]. intros N. destruct H as [H|(_ & H)]; [now symmetry|contradiction].
  - intros (-> & B & H). split; [reflexivity|]. split; [|exact B]. left. destruct ids as [l|]; [symmetry; apply H; discriminate|]. cbn [selection]. now rewrite seq_length.
Qed.

Theorem C90_possible : forall m src loc array ids q, mesh_ok m ->
  (set_values m src loc array ids q <> None <-> possible m src loc array ids).
Proof.
  intros m src loc array ids q Hm.
  assert (SOME : forall q : quantity, Some q <> None <-> True) by (intros; split; [auto|discriminate]).
  assert (CC : forall x, set_constant m x Centroids ids q <> None <-> all_below (m_triangles m) ids).
  { intros x. destruct ids as [l|]; cbn [set_constant all_below]; [|apply SOME]. now rewrite with_c_some, assign_map_some. }
  assert (CV : forall x, set_constant m x Vertices ids q <> None <-> all_below (m_triangles m) ids).
  { intros x. destruct ids as [l|]; cbn [set_constant all_below]; [|apply SOME]. now rewrite with_v_some, (rows_some _ _ (fun _ _ => x)). }
  assert (SEL : forallb (fun i => (i <? m_triangles m)%nat) (selection (m_triangles m) ids) = true <-> all_below (m_triangles m) ids).
  { rewrite forallb_below. destruct ids; cbn; [reflexivity|]. split; [auto|intros _ i; apply seq_below]. }
  assert (SELN : all_below (m_triangles m) ids <-> (forall i, In i (selection (m_triangles m) ids) -> (i < m_triangles m)%nat)) by (rewrite <- SEL; apply forallb_below).
  destruct loc; [| | |split; [intros H; contradiction H; reflexivity|intros []]]; unfold set_values; rewrite finished_some;
    destruct src as [x|A|A|f|x|M' o|A|f|f]; cbn [possible set_array1 set_fitted set_function set_scalar_function];
    try (now apply set_quantity_some); try (now apply set_vertex_values_some); try (split; [intros H; now contradiction H|intros []]).
  - apply CV.
  - apply set_rows_some.
  - destruct ids as [l|]; cbn [all_below]; [|apply SOME]. now rewrite with_v_some, (rows_some _ _ (fun k i => f (m_vertex m (3 * k + i)%nat))).
  - apply CV.
  - cbn [set_raster]. destruct ids as [l|]; cbn [all_below]; [|apply SOME]. now rewrite finished_some, with_v_some, assign_map_some.
  - cbn [set_tif]. destruct ids as [l|]; [|split; [intros _; split; [exact I|intros l; discriminate]|discriminate]].
    rewrite if_some, forallb_below. cbn [all_below]. split.
    + intros (B & H). split; [exact B|]. intros l' E. injection E as <-. destruct l as [|a [|b [|c [|d l]]]]; cbn [map] in H; try (now contradiction H); [now left|].
      right. split; [reflexivity|]. rewrite finished_some, set_rows_some in H. apply H.
    + intros (B & H). split; [exact B|]. destruct (H l eq_refl) as [->|(L & H')]; [discriminate|].
      destruct l as [|a [|b [|c [|d l]]]]; try discriminate. cbn [map]. rewrite finished_some, set_rows_some. split; [left; reflexivity|exact H'].
  - apply CC.
  - destruct ids as [l|]; cbn [selection all_below]; rewrite if_some, Nat.eqb_eq, with_c_some.
    + split; intros (L & H); (split; [exact L|]); now apply (assign_combine_some (m_triangles m) (qc q) l A).
    + rewrite seq_length. split; intros (L & H); (split; [exact L|]); [exact I|]. rewrite L. apply assign_combine_some; [now rewrite seq_length|apply seq_below].
  - rewrite if_some. fold (selection (m_triangles m) ids). rewrite SEL, finished_some, map_length, Nat.eqb_refl, with_c_some, assign_combine_some by (now rewrite map_length). tauto.
  - rewrite if_some. fold (selection (m_triangles m) ids). rewrite SEL, finished_some. cbn [set_constant]. rewrite with_c_some, assign_map_some. cbn [fst]. tauto.
  - cbn [set_raster]. destruct ids as [l|]; cbn [all_below]; [|split; [intros _; split; [exact I|congruence]|discriminate]].
    rewrite if_some, with_c_some, assign_map_some. cbn [fst]. split; [intros (E & H); auto|intros (H & E); split; [apply E; discriminate|exact H]].
  - cbn [set_tif set_raster]. destruct ids as [l|]; cbn [all_below]; [|apply SOME]. now rewrite with_c_some, assign_map_some.
  - destruct ids as [l|]; cbn [set_constant all_below]; [|apply SOME]. rewrite with_v_some, <- at_nodes_some by exact Hm. split.
    + intros H i J. apply (H i x). now apply (in_map (fun n => (n, x))).
    + intros H n y J. apply in_map_iff in J as (i & E & J). injection E as <- _. auto.
  - cbn [set_raster]. destruct ids as [l|]; cbn [all_below]; [|apply SOME]. now rewrite finished_some, with_v_some, assign_map_some.
  - cbn [set_tif]. destruct ids as [l|]; [|split; [intros _; split; [exact I|intros l; discriminate]|discriminate]].
    rewrite if_some, forallb_below. cbn [all_below]. split.
    + intros (B & H). split; [exact B|]. intros l' E. injection E as <-. destruct l as [|a [|b [|c [|d l]]]]; cbn [map] in H; try (now contradiction H); [now left|].
      right. split; [reflexivity|]. rewrite finished_some, set_rows_some in H. apply H.
    + intros (B & H). split; [exact B|]. destruct (H l eq_refl) as [->|(L & H')]; [discriminate|].
      destruct l as [|a [|b [|c [|d l]]]]; try discriminate. cbn [map]. rewrite finished_some, set_rows_some. split; [left; reflexivity|exact H'].
Qed.
Print Assumptions C90_possible.

(** ** Reading back what was set *)
Lemma same_entries {A} : forall (a b : list A), (forall i, nth_error a i = nth_error b i) -> a = b.
Proof.
  induction a as [|x a IH]; intros [|y b] H; [reflexivity| | |]; pose proof (H 0%nat) as H0; try discriminate.
  cbn in H0. injection H0 as ->. f_equal. apply IH. intros i. exact (H (S i)).
Qed.

Lemma map_is {A B} (g : A -> B) l r : length l = length r -> NoDup l ->
  (forall x, In x l -> exists j, nth_error l j = Some x /\ nth_error r j = Some (g x)) -> map g l = r.
Proof.
  intros L ND H. apply same_entries. intros i. destruct (nth_error l i) as [x|] eqn:E.
  - rewrite (map_nth_error _ _ _ E). destruct (H x (nth_error_In _ _ E)) as (j & J1 & J2).
    assert (i = j); [|congruence]. apply (proj1 (NoDup_nth_error l) ND); [|congruence]. apply nth_error_Some. congruence.
  - rewrite (proj2 (nth_error_None (map g l) i)), (proj2 (nth_error_None r i)); [reflexivity| |]; apply nth_error_None in E; [lia|now rewrite map_length].
Qed.

Lemma selection_below m ids k : all_below (m_triangles m) ids -> In k (selection (m_triangles m) ids) -> (k < m_triangles m)%nat.
Proof. destruct ids; cbn; intros H I; [now apply H|now apply seq_below]. Qed.

Theorem C90_read_centroids : forall m A array ids q q', mesh_ok m -> NoDup (selection (m_triangles m) ids) ->
  set_values m (Array A) Centroids array ids q = Some q' -> get_centroids m ids q' = Some A.
Proof.
  intros m A array ids q q' Hm ND H. assert (P : possible m (Array A) Centroids array ids) by (apply (C90_possible _ _ _ _ _ q Hm); congruence).
  cbn in P. destruct P as (L & B). apply C90_centroids in H as (_ & H); [|exact I]. unfold get_centroids, take. fold (selection (m_triangles m) ids).
  rewrite (proj2 (forallb_below _ _)) by (intros i; now apply selection_below). f_equal. apply map_is; [now symmetry|exact ND|].
  intros k K. apply H; [now apply (selection_below m ids)|exact K].
Qed.
Print Assumptions C90_read_centroids.

Theorem C90_read_vertices : forall m A array l q q', mesh_ok m -> NoDup l ->
  set_values m (Rows A) Vertices array (Some l) q = Some q' ->
  get_vertices m (Some l) q' = Some (map (fun f => map f [0; 1; 2]%nat) A).
Proof.
  intros m A array l q q' Hm ND H. assert (P : possible m (Rows A) Vertices array (Some l)) by (apply (C90_possible _ _ _ _ _ q Hm); congruence).
  cbn in P. destruct P as ([L|(_ & L)] & B); [|discriminate]. apply C90_vertices in H as (_ & H); [|exact I]. unfold get_vertices, take.
  rewrite (proj2 (forallb_below _ _)) by exact B. f_equal. apply map_is; [now rewrite map_length|exact ND|].
  intros k K. destruct (In_nth_error _ _ K) as (j & J). exists j. split; [exact J|].
  assert (JA : exists f, nth_error A j = Some f). { destruct (nth_error A j) eqn:E; [eauto|]. apply nth_error_None in E. assert (nth_error l j <> None) by congruence. apply nth_error_Some in H0. lia. }
  destruct JA as (f & F). rewrite (map_nth_error _ _ _ F). f_equal. apply map_ext_in. intros i Hi.
  assert (i < 3)%nat by (cbn in Hi; lia). destruct (H k i (B k K) H0) as (W & _). destruct (W K) as (f' & V & [(_ & E)|(j' & J1 & J2)]); [discriminate|].
  assert (j = j') as <-. { apply (proj1 (NoDup_nth_error l) ND); [|cbn in J1; congruence]. apply nth_error_Some. congruence. }
  rewrite F in J2. injection J2 as <-. now symmetry.
Qed.
Print Assumptions C90_read_vertices.

Lemma constant_sum {A} (g : A -> R) v L : (forall x, In x L -> g x = v) -> forall s, fold_left (fun s x => s + g x) L s = s + INR (length L) * v.
Proof.
  induction L as [|a L IH]; intros H s; [cbn; ring|]. cbn [fold_left]. rewrite IH by (intros; apply H; now right). rewrite (H a) by (now left).
  change (length (a :: L)) with (S (length L)). rewrite S_INR. ring.
Qed.

Lemma each_map {A B} (f : A -> option B) l r : length l = length r ->
  (forall j x, nth_error l j = Some x -> exists y, nth_error r j = Some y /\ f x = Some y) -> each f l = Some r.
Proof.
  revert r. induction l as [|x l IH]; intros [|y r] L H; try discriminate; [reflexivity|]. cbn [each].
  destruct (H 0%nat x eq_refl) as (y' & E & ->). injection E as <-. rewrite (IH r); [reflexivity|cbn in L; lia|]. intros j z J. apply (H (S j) z J).
Qed.

(** At the nodes, unless the domain uses discontinuous elevation. *)
Theorem C90_read_nodes : forall m A loc array ids q q', mesh_ok m -> NoDup (selection (m_nodes m) ids) ->
  (loc = Vertices \/ loc = Unique_vertices) -> (forall n, In n (selection (m_nodes m) ids) -> In n (m_flat m)) ->
  set_values m (Array A) loc array ids q = Some q' -> get_nodes m false ids q' = Some A.
Proof.
  intros m A loc array ids q q' Hm ND LOC USED H.
  assert (P : possible m (Array A) loc array ids) by (apply (C90_possible _ _ _ _ _ q Hm); congruence).
  assert (P' : length A = length (selection (m_nodes m) ids) /\ all_below (m_nodes m) ids) by (destruct LOC as [-> | ->]; exact P). clear P. destruct P' as (L & B).
  apply C90_nodes in H as (_ & H); [|exact Hm|destruct LOC as [-> | ->]; exact I].
  unfold get_nodes. fold (selection (m_nodes m) ids). apply each_map; [now symmetry|]. intros j n J. pose proof (nth_error_In _ _ J) as K.
  assert (JA : exists v, nth_error A j = Some v). { destruct (nth_error A j) eqn:E; [eauto|]. apply nth_error_None in E. assert (N : nth_error (selection (m_nodes m) ids) j <> None) by congruence. apply nth_error_Some in N. lia. }
  destruct JA as (v & V). exists v. split; [exact V|].
  assert (Hn : (n < m_nodes m)%nat) by (destruct ids; cbn in K, B; [now apply B|now apply seq_below]).
  assert (G : forall t i, (t < m_triangles m)%nat -> (i < 3)%nat -> nth (3 * t + i) (m_flat m) 0%nat = n -> qv q' (3 * t + i)%nat = v).
  { intros t i Ht Hi E. destruct (H (3 * t + i)%nat ltac:(lia)) as (W & _). unfold node_at in W. rewrite E in W. destruct (W K) as (j' & J1 & J2).
    assert (j = j') as <-; [|congruence]. apply (proj1 (NoDup_nth_error _) ND); [|congruence]. apply nth_error_Some. congruence. }
  destruct Hm as (HL & p & AS & Bd). destruct (C45_inverse_index _ _ _ _ _ n HL AS Bd) as (_ & C). destruct (C Hn) as (Lt & E & NDt & Mem).
  unfold node_value. rewrite E. assert (NE : Lt <> []).
  { intros ->. destruct (In_nth _ _ 0%nat (USED n K)) as (x & Hx & X). apply (in_nil (a := ((x / 3)%nat, (x mod 3)%nat))). apply Mem.
    pose proof (Nat.div_mod x 3 ltac:(lia)) as D. pose proof (Nat.mod_upper_bound x 3 ltac:(lia)). rewrite <- D. split; [lia|]. split; [lia|exact X]. }
  destruct Lt as [|tv Lt]; [contradiction|]. f_equal.
  rewrite (constant_sum _ v). { field. apply not_0_INR. discriminate. }
  intros (t, i) I. cbn [fst snd]. apply Mem in I as (Ht & Hi & X). now apply G.
Qed.
Print Assumptions C90_read_nodes.

(** ** Linear functions are exact everywhere *)
Theorem C90_linear : forall m array q q' f f0 fx fy,
  (forall p, f p = f0 + fx * px p + fy * py p) ->
  (forall k, m_centroid m k = ((px (m_vertex m (3 * k)%nat) + px (m_vertex m (3 * k + 1)%nat) + px (m_vertex m (3 * k + 2)%nat)) / 3,
                               (py (m_vertex m (3 * k)%nat) + py (m_vertex m (3 * k + 1)%nat) + py (m_vertex m (3 * k + 2)%nat)) / 3)) ->
  set_values m (Function f) Vertices array None q = Some q' ->
  forall k, (k < m_triangles m)%nat ->
    qc q' k = f (m_centroid m k) /\
    qe q' (3 * k)%nat = f ((px (m_vertex m (3 * k + 1)%nat) + px (m_vertex m (3 * k + 2)%nat)) / 2, (py (m_vertex m (3 * k + 1)%nat) + py (m_vertex m (3 * k + 2)%nat)) / 2) /\
    qe q' (3 * k + 1)%nat = f ((px (m_vertex m (3 * k + 2)%nat) + px (m_vertex m (3 * k)%nat)) / 2, (py (m_vertex m (3 * k + 2)%nat) + py (m_vertex m (3 * k)%nat)) / 2) /\
    qe q' (3 * k + 2)%nat = f ((px (m_vertex m (3 * k)%nat) + px (m_vertex m (3 * k + 1)%nat)) / 2, (py (m_vertex m (3 * k)%nat) + py (m_vertex m (3 * k + 1)%nat)) / 2).
Proof.
  intros m array q q' f f0 fx fy F C H k Hk. apply C90_vertices in H as (I & V); [|exact Logic.I].
  destruct (I k Hk) as (Ic & I0 & I1 & I2).
  assert (W : forall i, (i < 3)%nat -> qv q' (3 * k + i)%nat = f (m_vertex m (3 * k + i)%nat)).
  { intros i Hi. apply (V k i Hk Hi). now apply seq_select. }
  pose proof (W 0%nat ltac:(lia)) as W0. rewrite Nat.add_0_r in W0. rewrite W0, !W in * by lia. rewrite C.
  rewrite Ic, I0, I1, I2, !F. cbn [px py fst snd]. repeat split; field.
Qed.
Print Assumptions C90_linear.

(** ** The largest value *)
Lemma argmax_from_spec l : forall best i0, (fst best < i0)%nat ->
  let r := argmax_from best i0 l in
  snd best <= snd r /\ (forall j x, nth_error l j = Some x -> x <= snd r) /\
  (r = best \/ exists j, fst r = (i0 + j)%nat /\ nth_error l j = Some (snd r) /\ snd best < snd r /\ forall j' x, (j' < j)%nat -> nth_error l j' = Some x -> x < snd r).
Proof.
  induction l as [|y l IH]; intros best i0 Hb; cbn [argmax_from]; cbv zeta.
  - split; [lra|]. split; [intros [|] x; discriminate|now left].
  - destruct (Rltb_spec (snd best) y) as [Q|Q].
    + destruct (IH (i0, y) (S i0) ltac:(cbn; lia)) as (A & B & C). cbn [snd fst] in *. split; [lra|]. split; [intros [|j] x J; cbn in J; [injection J as <-; exact A|eauto]|].
      right. destruct C as [->|(j & E & J & K & K')].
      * exists 0%nat. cbn. repeat split; auto; try lia. 
      * exists (S j). cbn [nth_error]. repeat split; auto; try lia; [lra|]. intros [|j'] x Hj X; cbn in X; [injection X as <-; exact K|]. apply (K' j' x); [lia|exact X].
    + destruct (IH best (S i0) ltac:(lia)) as (A & B & C). split; [exact A|]. split; [intros [|j] x J; cbn in J; [injection J as <-; lra|eauto]|].
      destruct C as [E|(j & E & J & K & K')]; [now left|]. right. exists (S j). cbn [nth_error]. repeat split; auto; try lia.
      intros [|j'] x Hj X; cbn in X; [injection X as <-; lra|]. apply (K' j' x); [lia|exact X].
Qed.

Theorem C90_maximum : forall m ids q,
  (maximum_index m ids q <> None <-> selection (m_triangles m) ids <> [] /\ all_below (m_triangles m) ids) /\
  forall i, maximum_index m ids q = Some i ->
    In i (selection (m_triangles m) ids) /\ maximum_value m ids q = Some (qc q i) /\
    (forall k, In k (selection (m_triangles m) ids) -> qc q k <= qc q i) /\
    (ids = None -> forall k, (k < i)%nat -> qc q k < qc q i).
Proof.
  intros m ids q. unfold maximum_value, maximum_index, get_centroids, take. fold (selection (m_triangles m) ids).
  assert (SB : forallb (fun i => (i <? m_triangles m)%nat) (selection (m_triangles m) ids) = true <-> all_below (m_triangles m) ids).
  { rewrite forallb_below. destruct ids; cbn; [reflexivity|]. split; [auto|intros _ i; apply seq_below]. }
  destruct (forallb _ _).
  - assert (B : all_below (m_triangles m) ids) by now apply SB. clear SB.
    destruct (selection (m_triangles m) ids) as [|k0 l] eqn:E; cbn [map argmax].
    { split; [split; [intros H; now contradiction H|intros (H & _); now contradiction H]|discriminate]. }
    pose proof (argmax_from_spec (map (qc q) l) (0%nat, qc q k0) 1 ltac:(cbn; lia)) as G. cbv zeta in G. set (r := argmax_from _ _ _) in *. cbn [snd fst] in G.
    clearbody r. destruct r as (n, v). cbn [fst snd] in *.
    assert (X : exists x, nth_error (k0 :: l) n = Some x /\ qc q x = v /\ (forall j' y, (j' < n)%nat -> nth_error (k0 :: l) j' = Some y -> qc q y < v)).
    { destruct G as (_ & _ & [E0 | (j & J & K & K0 & K')]); [injection E0 as -> ->; exists k0; cbn; repeat split; lia|].
      subst n. assert (N : nth_error l j <> None). { intros N. rewrite nth_error_map, N in K. discriminate. }
      destruct (nth_error l j) as [x|] eqn:Ex; [|contradiction]. exists x. rewrite nth_error_map, Ex in K. injection K as K.
      split; [exact Ex|]. split; [exact K|]. intros [|j'] y Hj Y; cbn in Y; [injection Y as <-; exact K0|]. apply (K' j'); [lia|]. rewrite nth_error_map, Y. reflexivity. }
    destruct X as (x & X1 & X2 & X3).
    assert (RES : match ids with Some l0 => Some (nth n l0 0%nat) | None => Some n end = Some x).
    { destruct ids as [l0|]; cbn in E.
      - f_equal. subst l0. now apply nth_error_nth.
      - f_equal. rewrite <- E in X1. assert (n < m_triangles m)%nat. { rewrite <- (seq_length (m_triangles m) 0). apply nth_error_Some. congruence. }
        rewrite (nth_error_nth' _ 0%nat), seq_nth in X1 by (rewrite ?seq_length; exact H). injection X1 as X1. now cbn in X1. }
    split; [split; [intros _; split; [discriminate|exact B]|intros _]|].
    + destruct ids; discriminate.
    + intros i H. assert (i = x) as ->. { destruct ids; congruence. }
      split; [exact (nth_error_In _ _ X1)|]. split; [destruct ids; injection RES as ->; reflexivity|]. split.
      * destruct G as (G1 & G2 & _). rewrite X2. intros k [<-|K]; [exact G1|]. apply In_nth_error in K as (j & J). apply (G2 j). now apply map_nth_error.
      * intros -> k Hk. injection RES as Rn. rewrite X2. apply (X3 k); [lia|]. rewrite <- E. cbn [selection].
        assert (x < m_triangles m)%nat. { apply (selection_below m None); [exact Logic.I|]. rewrite E. exact (nth_error_In _ _ X1). }
        rewrite (nth_error_nth' _ 0%nat) by (rewrite seq_length; lia). rewrite seq_nth by lia. reflexivity.
  - split; [|discriminate]. split; [intros H; now contradiction H|]. intros (_ & B). apply SB in B. discriminate.
Qed.
Print Assumptions C90_maximum.

(** ** Integrals *)
Theorem C90_integral : forall m area full q,
  (forall x, (forall k, (k < m_triangles m)%nat -> qc q k = x) -> integral_all m area full false q = x * Rsum (map area (seq 0 (m_triangles m)))) /\
  ((forall k, (k < m_triangles m)%nat -> full k = true) -> integral_all m area full true q = integral_all m area full false q) /\
  (integral_region area (Some (seq 0 (m_triangles m))) q = Some (integral_all m area full false q)) /\
  (forall l, integral_region area (Some l) q = Some (Rsum (map (fun k => area k * qc q k) l))).
Proof.
  intros m area full q. split; [|split; [|split; reflexivity]].
  - intros x H. unfold integral_all. assert (G : forall l, (forall k, In k l -> qc q k = x) -> Rsum (map (fun k => area k * qc q k) l) = x * Rsum (map area l)).
    { induction l as [|k l IH]; intros K; cbn [map Rsum]; [ring|]. rewrite IH by (intros; apply K; now right). rewrite K by (now left). ring. }
    apply G. intros k K. apply H. now apply seq_below.
  - intros H. unfold integral_all. f_equal. f_equal.
    assert (G : forall l, (forall k, In k l -> (k < m_triangles m)%nat) -> filter full l = l).
    { induction l as [|k l IH]; intros K; [reflexivity|]. cbn [filter]. rewrite (H k) by (apply K; now left). f_equal. apply IH. intros; apply K. now right. }
    apply G. apply seq_below.
Qed.
Print Assumptions C90_integral.

(** ** Arithmetic *)
Theorem C90_arithmetic : forall M p q,
  interpolated (neg p) M /\ interpolated (add p q) M /\ interpolated (sub p q) M /\
  (forall j, qv (neg p) j = - qv p j /\ qv (add p q) j = qv p j + qv q j /\ qv (sub p q) j = qv p j - qv q j) /\
  (interpolated p M -> interpolated q M -> forall k, (k < M)%nat ->
     qc (add p q) k = qc p k + qc q k /\ qc (sub p q) k = qc p k - qc q k /\
     forall i, (i < 3)%nat -> qe (add p q) (3 * k + i)%nat = qe p (3 * k + i)%nat + qe q (3 * k + i)%nat /\ qe (sub p q) (3 * k + i)%nat = qe p (3 * k + i)%nat - qe q (3 * k + i)%nat) /\
  (forall j, qv (mul p q) j = qv p j * qv q j /\ qe (mul p q) j = qe p j * qe q j /\ qc (mul p q) j = qc p j * qc q j).
Proof.
  intros M p q. split; [apply interpolate_interpolated|]. split; [apply interpolate_interpolated|]. split; [apply interpolate_interpolated|].
  split; [intros j; cbn; repeat split; ring|]. split; [|intros j; cbn; auto].
  intros Hp Hq k Hk. destruct (Hp k Hk) as (P & P0 & P1 & P2). destruct (Hq k Hk) as (Q & Q0 & Q1 & Q2).
  destruct (interpolate_interpolated {| qv := fun j => qv p j + qv q j; qe := qe zero_quantity; qc := qc zero_quantity |} M k Hk) as (A & A0 & A1 & A2).
  destruct (interpolate_interpolated {| qv := fun j => qv p j + qv (neg q) j; qe := qe zero_quantity; qc := qc zero_quantity |} M k Hk) as (B & B0 & B1 & B2).
  fold (add p q) in A, A0, A1, A2. fold (add p (neg q)) in B, B0, B1, B2. unfold sub. cbn [qv add neg interpolate] in A, A0, A1, A2, B, B0, B1, B2.
  split; [rewrite A, P, Q; field|]. split; [rewrite B, P, Q; field|].
  intros [|[|[|i]]] Hi; [| | |lia]; rewrite ?Nat.add_0_r.
  - rewrite A0, B0, P0, Q0. split; field.
  - rewrite A1, B1, P1, Q1. split; field.
  - rewrite A2, B2, P2, Q2. split; field.
Qed.
Print Assumptions C90_arithmetic.

(** ** What fails *)

(** A constant for all nodes goes to the edges, and is then overwritten: the
    vertex values stay as they are. *)
Theorem C90_nodes_constant_refuted : forall m x array q,
  set_values m (Constant x) Unique_vertices array None q = Some (interpolate q) /\
  (forall n, qv (interpolate q) n = qv q n).
Proof. intros m x array q. split; reflexivity. Qed.
Print Assumptions C90_nodes_constant_refuted.

(** Setting some of the centroids flattens the triangles that are not
    selected; setting the vertices of some triangles overwrites the centroid
    values of the others by the mean of their vertex values. *)
Theorem C90_elsewhere_refuted : forall m x array l q q' k, (k < m_triangles m)%nat -> ~ In k l ->
  (set_values m (Constant x) Centroids array (Some l) q = Some q' \/ set_polygon m x l q = Some q' ->
     (forall i, (i < 3)%nat -> qv q' (3 * k + i)%nat = qc q k /\ qe q' (3 * k + i)%nat = qc q k)) /\
  (set_values m (Constant x) Vertices array (Some l) q = Some q' ->
     qc q' k = (qv q (3 * k)%nat + qv q (3 * k + 1)%nat + qv q (3 * k + 2)%nat) / 3).
Proof.
  intros m x array l q q' k Hk NI. split.
  - intros H. assert (G : set_values m (Constant x) Centroids array (Some l) q = Some q') by (destruct H as [H|H]; exact H). clear H.
    apply C90_centroids in G as (F & C); [|exact I]. intros i Hi. destruct (F k i Hk Hi) as (-> & ->). destruct (C k Hk) as (_ & N). rewrite (N NI). auto.
  - intros H. apply C90_vertices in H as (F & V); [|exact I]. destruct (F k Hk) as (C & _). rewrite C.
    assert (W : forall i, (i < 3)%nat -> qv q' (3 * k + i)%nat = qv q (3 * k + i)%nat) by (intros i Hi; now apply (V k i Hk Hi)).
    pose proof (W 0%nat ltac:(lia)) as W0. rewrite Nat.add_0_r in W0. now rewrite W0, !W by lia.
Qed.
Print Assumptions C90_elsewhere_refuted.

(** Restricted to some triangles, values from another quantity are refused
    unless there are as many indices as triangles, and fitted data unless there
    are as many as nodes; a list of indices is refused for rasters at the
    centroids. *)
Theorem C90_subset_refuted : forall m loc l q, mesh_ok m ->
  (forall other array, length l <> m_triangles m -> set_values m (Other (m_triangles m) other) loc array (Some l) q = None) /\
  (forall A array, length A = m_nodes m -> length l <> m_nodes m -> set_values m (Fitted A) loc array (Some l) q = None) /\
  (forall f, set_values m (Raster f) Centroids false (Some l) q = None) /\
  (forall f array, length l <> 0%nat -> length l <> 3%nat -> set_values m (Tif f) Vertices array (Some l) q = None).
Proof.
  intros m loc l q Hm. 
  assert (G : forall src loc array, ~ possible m src loc array (Some l) -> set_values m src loc array (Some l) q = None).
  { intros src lc array N. destruct (set_values m src lc array (Some l) q) eqn:E; [|reflexivity]. contradiction N. apply (C90_possible _ _ _ _ _ q Hm). congruence. }
  repeat split; intros; apply G; cbn.
  - destruct loc; cbn; intuition discriminate.
  - destruct loc; cbn; intuition congruence.
  - intros (_ & N). destruct (N _ eq_refl) as [E | (E & _)]; [now rewrite E in *|contradiction].
Qed.
Print Assumptions C90_subset_refuted.

(** With another quantity the location is not ignored as documented. *)
Theorem C90_quantity_location_refuted : forall m array other q,
  exists q', set_values m (Other (m_triangles m) other) Centroids array None q = Some q' /\
  forall k i, (k < m_triangles m)%nat -> (i < 3)%nat ->
    qv q' (3 * k + i)%nat = (qv other (3 * k)%nat + qv other (3 * k + 1)%nat + qv other (3 * k + 2)%nat) / 3.
Proof.
  intros m array other q.
  destruct (set_quantity m (m_triangles m) other None q) as [r|] eqn:E.
  2:{ exfalso. apply (proj2 (set_quantity_some m (m_triangles m) other None q)); [|exact E]. cbn. repeat split. intros N; now contradiction N. }
  exists (first_order r). cbn [set_values]. rewrite E. split; [reflexivity|]. intros k i Hk Hi.
  assert (V : set_values m (Other (m_triangles m) other) Vertices array None q = Some (interpolate r)) by (cbn [set_values]; now rewrite E).
  apply C90_vertices in V as (F & V); [|reflexivity].
  unfold set_quantity in E. rewrite Nat.eqb_refl in E. apply finished_inv in E as (r0 & E0 & ->).
  destruct (first_order_flat (finish Vertices r0) (m_triangles m) k i Hk Hi) as (-> & _). cbn [qc first_order].
  destruct (interpolate_interpolated r0 (m_triangles m) k Hk) as (C & _). cbn [finish]. rewrite C. cbn [qv interpolate] in *.
  assert (W : forall i, (i < 3)%nat -> qv r0 (3 * k + i)%nat = qv other (3 * k + i)%nat).
  { intros i' Hi'. destruct (V k i' Hk Hi') as (W & _). specialize (W (seq_select _ _ _ eq_refl Hk)). exact W. }
  pose proof (W 0%nat ltac:(lia)) as W0. rewrite Nat.add_0_r in W0. now rewrite W0, !W by lia.
Qed.
Print Assumptions C90_quantity_location_refuted.

(** A square of two triangles *)
Definition square : mesh :=
  {| m_triangles := 2; m_nodes := 4; m_flat := [0; 1; 2; 0; 2; 3]%nat;
     m_index := Inverted [0; 2; 3; 5; 6]%nat [2; 1; 2; 1]%nat [0; 3; 1; 2; 4; 5]%nat;
     m_centroid := fun k => match k with O => (2 / 3, 1 / 3) | _ => (1 / 3, 2 / 3) end;
     m_vertex := fun j => nth j [(0, 0); (1, 0); (1, 1); (0, 0); (1, 1); (0, 1)] (0, 0);
     m_corner := (0, 0) |}.

Lemma square_ok : mesh_ok square.
Proof.
  split; [reflexivity|]. exists [0; 3; 1; 2; 4; 5]%nat. split; [|reflexivity]. split.
  - apply NoDup_Permutation; [repeat constructor; cbn; intuition lia|apply seq_NoDup|]. intros x. cbn. intuition lia.
  - repeat constructor; cbn; lia.
Qed.

(** Given a value for each of the triangles listed, at 'vertices': they go to
    the nodes of those numbers. *)
Theorem C90_array_indices_refuted : exists q',
  set_values square (Array [5]) Vertices false (Some [1%nat]) zero_quantity = Some q' /\
  qv q' 1%nat = 5 /\ forall i, (i < 3)%nat -> qv q' (3 * 1 + i)%nat = 0.
Proof. eexists. split; [reflexivity|]. split; [reflexivity|]. intros [|[|[|]]] Hi; try lia; reflexivity. Qed.
Print Assumptions C90_array_indices_refuted.

(** A raster at the vertices of the triangle 1: vertex 1 of the triangle 0 is
    set instead.  From a tif file, for the triangles 0, 1 and 1: both triangles
    get the values of the vertices 0, 1, 1. *)
Theorem C90_raster_indices_refuted : exists q' q'',
  set_values square (Raster (fun p => 7 + px p)) Vertices true (Some [1%nat]) zero_quantity = Some q' /\
  qv q' 1%nat = 8 /\ (forall i, (i < 3)%nat -> qv q' (3 * 1 + i)%nat = 0) /\
  set_values square (Tif (fun p => 7 + px p)) Vertices true (Some [0%nat; 1%nat; 1%nat]) zero_quantity = Some q'' /\
  qv q'' 2%nat = 8 /\ qv q'' 3%nat = 7 /\ qv q'' 4%nat = 8 /\ qv q'' 5%nat = 8 /\ 7 + px (absolute square (m_vertex square 5)) = 7.
Proof.
  eexists. eexists. split; [reflexivity|]. split; [cbn; lra|]. split; [intros [|[|[|]]] Hi; try lia; reflexivity|].
  split; [reflexivity|]. cbn. unfold upd; cbn. unfold px, absolute; cbn. repeat split; lra.
Qed.
Print Assumptions C90_raster_indices_refuted.

(** The sum of two quantities does not have the sum of their centroid values;
    adding zero to a quantity of the domain changes its centroid values; the
    minimum of two quantities of the domain does not have the minimum of their
    centroid values. *)
Theorem C90_sum_refuted : exists p q r s t,
  interpolated q (m_triangles square) /\ qc (add p q) 0%nat <> qc p 0%nat + qc q 0%nat /\
  domain_add square zero_quantity p = Some r /\ qc r 0%nat <> qc p 0%nat /\
  interpolated s (m_triangles square) /\ domain_extremum square Rmin q s = Some t /\ qc t 0%nat <> Rmin (qc q 0%nat) (qc s 0%nat).
Proof.
  set (p := {| qv := fun _ => 0; qe := fun _ => 0; qc := fun _ => 1 |}).
  set (s := interpolate {| qv := fun j => match j with 0%nat => 3 | _ => 0 end; qe := fun _ => 0; qc := fun _ => 0 |}).
  set (q := interpolate {| qv := fun j => match j with 1%nat => 3 | _ => 0 end; qe := fun _ => 0; qc := fun _ => 0 |}).
  exists p, q. eexists. exists s. eexists. split; [apply interpolate_interpolated|].
  split; [cbn; unfold interpolate_centroid; lra|]. split; [reflexivity|].
  split; [cbn; unfold upd; cbn; unfold interpolate_centroid; lra|]. split; [apply interpolate_interpolated|].
  split; [reflexivity|]. cbn. unfold upd; cbn. unfold interpolate_centroid.
  unfold Rmin. repeat destruct Rle_dec; lra.
Qed.
Print Assumptions C90_sum_refuted.

(** Integrals over a region that is the whole domain raise an exception
    ([region.indices] is [None]) unless restricted to full triangles. *)
Theorem C90_integral_refuted : forall area q, integral_region area None q = None.
Proof. reflexivity. Qed.
Print Assumptions C90_integral_refuted.

(** With discontinuous elevation, the values at the nodes that are read are
    means of centroid values, not those that were set. *)
Theorem C90_discontinuous_refuted : exists q',
  set_values square (Array [3; 0; 0; 0]) Unique_vertices false None zero_quantity = Some q' /\
  get_nodes square false None q' = Some [3; 0; 0; 0] /\
  exists V, get_nodes square true None q' = Some V /\ nth 0 V 0 = 1.
Proof.
  eexists. split; [reflexivity|]. split.
  - apply (C90_read_nodes square [3; 0; 0; 0] Unique_vertices false None zero_quantity); [apply square_ok|apply seq_NoDup|now right| |reflexivity].
    intros n. cbn. intuition lia.
  - eexists. split; [reflexivity|]. cbn. unfold upd; cbn. unfold interpolate_centroid. lra.
Qed.
Print Assumptions C90_discontinuous_refuted.

(** ** Cases that meet the hypotheses *)
Example C90_centroids_case : exists q',
  set_values square (Array [4; 9]) Centroids false (Some [1; 0]%nat) zero_quantity = Some q' /\
  qc q' 0%nat = 9 /\ qc q' 1%nat = 4 /\ qv q' 3%nat = 4 /\ get_centroids square (Some [1; 0]%nat) q' = Some [4; 9].
Proof. eexists. split; [reflexivity|]. repeat split. Qed.

Example C90_vertices_case : exists q',
  set_values square (Rows [fun i => INR i]) Vertices false (Some [1]%nat) zero_quantity = Some q' /\
  qv q' 5%nat = 2 /\ qv q' 2%nat = 0 /\ qc q' 1%nat = 1 /\ get_vertices square (Some [1]%nat) q' = Some [[0; 1; 2]].
Proof.
  eexists. split; [reflexivity|]. cbn. unfold upd; cbn. unfold interpolate_centroid. repeat split; lra.
Qed.

Example C90_nodes_case : exists q',
  set_values square (Constant 6) Unique_vertices false (Some [2]%nat) zero_quantity = Some q' /\
  qv q' 2%nat = 6 /\ qv q' 4%nat = 6 /\ qv q' 0%nat = 0 /\ qc q' 0%nat = 2.
Proof. eexists. split; [reflexivity|]. cbn. unfold upd; cbn. unfold interpolate_centroid. repeat split; lra. Qed.

Example C90_linear_case : exists q',
  set_values square (Function (fun p => 1 + 2 * px p + 3 * py p)) Vertices false None zero_quantity = Some q' /\
  qc q' 0%nat = 1 + 2 * (2 / 3) + 3 * (1 / 3).
Proof. eexists. split; [reflexivity|]. cbn. unfold interpolate_centroid, px, py; cbn. lra. Qed.

Example C90_maximum_case :
  maximum_index square None {| qv := fun _ => 0; qe := fun _ => 0; qc := fun k => INR k |} = Some 1%nat /\
  maximum_index square (Some []) zero_quantity = None.
Proof.
  split; [|reflexivity]. unfold maximum_index, get_centroids, take. cbn. destruct (Rltb_spec 0 1); [reflexivity|lra].
Qed.

Example C90_possible_case : possible square (Constant 1) Vertices false (Some [0; 1]%nat) /\ ~ possible square (Constant 1) Vertices false (Some [2]%nat).
Proof. split; cbn; [intuition lia|]. intros H. specialize (H 2%nat). lia. Qed.
