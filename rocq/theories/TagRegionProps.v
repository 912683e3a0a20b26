(** C110: quantities set by regional tag *)
From Coq Require Import String Reals List Arith Bool Lra Lia Sorting.Sorted.
From Verif Require Import RealLib ArrayLib PolygonModel GradientModel InvertedModel SetValuesModel SetValuesProofs SetValuesProps TagRegionModel TagRegionProofs.
Import ListNotations.
Local Open Scope R_scope.

(** What the vertices of the triangles with the tag hold afterwards is [want];
    the vertices of the other triangles and the other quantities are as
    before. *)
Definition vertices_set (m : mesh) (ids : list nat) (name : string) (qs qs' : quantities) (want : nat -> nat -> R) : Prop :=
  (forall n, n <> name -> qs' n = qs n) /\
  exists q q', qs name = Some q /\ qs' name = Some q' /\ interpolated q' (m_triangles m) /\
    forall k i, (k < m_triangles m)%nat -> (i < 3)%nat ->
      (In k ids -> qv q' (3 * k + i)%nat = want k i) /\ (~ In k ids -> qv q' (3 * k + i)%nat = qv q (3 * k + i)%nat).
Definition centroids_set (m : mesh) (ids : list nat) (name : string) (qs qs' : quantities) (want : nat -> R) : Prop :=
  (forall n, n <> name -> qs' n = qs n) /\
  exists q q', qs name = Some q /\ qs' name = Some q' /\ flat_on q' (m_triangles m) /\
    forall k, (k < m_triangles m)%nat -> (In k ids -> qc q' k = want k) /\ (~ In k ids -> qc q' k = qc q k).

Lemma named_vertices m qs name x ids qs' want : by_triangle x (Some ids) -> set_named m qs name x Vertices ids = Some qs' ->
  (forall k i v, (i < 3)%nat -> wanted_vertex m x (Some ids) k i v -> v = want k i) -> vertices_set m ids name qs qs' want.
Proof.
  intros B H W. apply set_named_inv in H as (q & q' & Q & E & Q' & O). split; [exact O|]. exists q, q'. split; [exact Q|]. split; [exact Q'|].
  apply C90_vertices in E as [F V]; [|exact B]. split; [exact F|]. intros k i Hk Hi. destruct (V k i Hk Hi) as [P N]. split; [|exact N].
  intros I. apply W; [exact Hi|]. apply P. exact I.
Qed.
Lemma named_centroids m qs name x ids qs' want : not_other x -> set_named m qs name x Centroids ids = Some qs' ->
  (forall k v, wanted_centroid m x (Some ids) k v -> v = want k) -> centroids_set m ids name qs qs' want.
Proof.
  intros B H W. apply set_named_inv in H as (q & q' & Q & E & Q' & O). split; [exact O|]. exists q, q'. split; [exact Q|]. split; [exact Q'|].
  apply C90_centroids in E as [F V]; [|exact B]. split; [exact F|]. intros k Hk. destruct (V k Hk) as [P N]. split; [|exact N].
  intros I. apply W, P. exact I.
Qed.

(** A constant or a function is set on the triangles with the tag. *)
Theorem C110_set_partial m d l tag ids name qs qs' : NoDup (map fst l) -> In (tag, ids) l ->
  (forall x, set_tag_region m d [Set_tag_region tag name (Constant x) Vertices] l qs = Some qs' -> vertices_set m ids name qs qs' (fun _ _ => x)) /\
  (forall f, set_tag_region m d [Set_tag_region tag name (Function f) Vertices] l qs = Some qs' -> vertices_set m ids name qs qs' (fun k i => f (m_vertex m (3 * k + i)%nat))) /\
  (forall x, set_tag_region m d [Set_tag_region tag name (Constant x) Centroids] l qs = Some qs' -> centroids_set m ids name qs qs' (fun _ => x)) /\
  (forall f, set_tag_region m d [Set_tag_region tag name (Function f) Centroids] l qs = Some qs' -> centroids_set m ids name qs qs' (fun k => f (m_centroid m k))).
Proof.
  intros N I.
  assert (G : forall x loc, set_tag_region m d [Set_tag_region tag name x loc] l qs = Some qs' -> set_named m qs name x loc (build_indices m loc ids) = Some qs').
  { intros x loc H. cbn [set_tag_region] in H. rewrite each_present with (ids := ids) in H by assumption. unfold call in H. cbn [own_tag] in H. rewrite String.eqb_refl in H.
    destruct (set_named _ _ _ _ _ _); exact H. }
  split; [|split; [|split]]; intros x H; apply G in H; cbn [build_indices] in H.
  - refine (named_vertices m qs name _ ids qs' _ _ H _); [exact Logic.I|]. intros k i v _ E. exact E.
  - refine (named_vertices m qs name _ ids qs' _ _ H _); [exact Logic.I|]. intros k i v _ E. exact E.
  - refine (named_centroids m qs name _ ids qs' _ _ H _); [exact Logic.I|]. intros k v E. exact E.
  - refine (named_centroids m qs name _ ids qs' _ _ H _); [exact Logic.I|]. intros k v E. exact E.
Qed.
Print Assumptions C110_set_partial.

(** A value is added on the triangles with the tag, to the quantity itself or to
    another one. *)
Theorem C110_add_partial m d l tag ids answer initial x q0 qs qs' : NoDup (map fst l) -> In (tag, ids) l -> qs initial = Some q0 ->
  (set_tag_region m d [Add_value_to_region tag answer initial x Vertices false] l qs = Some qs' ->
     vertices_set m ids answer qs qs' (fun k i => qv q0 (3 * k + i)%nat + x)) /\
  (set_tag_region m d [Add_value_to_region tag answer initial x Centroids false] l qs = Some qs' ->
     centroids_set m ids answer qs qs' (fun k => qc q0 k + x)).
Proof.
  intros N I Q.
  assert (G : forall loc, set_tag_region m d [Add_value_to_region tag answer initial x loc false] l qs = Some qs' ->
    exists v, get_values m d loc (build_indices m loc ids) q0 = Some v /\ set_named m qs answer (plus_constant x v) loc (build_indices m loc ids) = Some qs').
  { intros loc H. cbn [set_tag_region] in H. rewrite each_present with (ids := ids) in H by assumption. unfold call in H. cbn [own_tag] in H. rewrite String.eqb_refl, Q in H.
    destruct (get_values _ _ _ _ _) as [v|]; [|discriminate]. exists v. split; [reflexivity|]. destruct (set_named _ _ _ _ _ _); exact H. }
  split; intros H; apply G in H as (v & E & H); cbn [build_indices get_values] in E, H.
  - destruct (get_vertices m (Some ids) q0) as [A|] eqn:GA; [|discriminate]. injection E; intros <-. apply get_vertices_some in GA. subst A.
    cbn [plus_constant] in H. rewrite map_map in H. refine (named_vertices m qs answer _ ids qs' _ _ H _); [exact Logic.I|]. intros k i w Hi (f & -> & [[_ C]|(j & J1 & J2)]); [discriminate|].
    cbn [selection] in J1. rewrite (map_nth_error _ _ _ J1) in J2. injection J2; intros <-. rewrite <- (nth_three q0 k i Hi). reflexivity.
  - destruct (get_centroids m (Some ids) q0) as [A|] eqn:GA; [|discriminate]. injection E; intros <-. apply get_centroids_some in GA. subst A.
    cbn [plus_constant] in H. rewrite map_map in H. refine (named_centroids m qs answer _ ids qs' _ _ H _); [exact Logic.I|]. intros k w (j & J1 & J2).
    cbn [selection] in J1. rewrite (map_nth_error _ _ _ J1) in J2. congruence.
Qed.
Print Assumptions C110_add_partial.

(** With [average] all get the mean over the triangles with the tag plus the
    value. *)
Theorem C110_average_partial m d l tag ids answer initial x q0 qs qs' : NoDup (map fst l) -> In (tag, ids) l -> qs initial = Some q0 ->
  (set_tag_region m d [Add_value_to_region tag answer initial x Vertices true] l qs = Some qs' ->
     vertices_set m ids answer qs qs' (fun _ _ =>
       Rsum (map (fun k => (qv q0 (3 * k)%nat + qv q0 (3 * k + 1)%nat + qv q0 (3 * k + 2)%nat) / 3) ids) / INR (length ids) + x)) /\
  (set_tag_region m d [Add_value_to_region tag answer initial x Centroids true] l qs = Some qs' ->
     centroids_set m ids answer qs qs' (fun _ => Rsum (map (qc q0) ids) / INR (length ids) + x)).
Proof.
  intros N I Q.
  assert (G : forall loc, set_tag_region m d [Add_value_to_region tag answer initial x loc true] l qs = Some qs' ->
    exists v, get_values m d loc (build_indices m loc ids) q0 = Some v /\ set_named m qs answer (Constant (average v + x)) loc (build_indices m loc ids) = Some qs').
  { intros loc H. cbn [set_tag_region] in H. rewrite each_present with (ids := ids) in H by assumption. unfold call in H. cbn [own_tag] in H. rewrite String.eqb_refl, Q in H.
    destruct (get_values _ _ _ _ _) as [v|]; [|discriminate]. exists v. split; [reflexivity|]. destruct (set_named _ _ _ _ _ _); exact H. }
  split; intros H; apply G in H as (v & E & H); cbn [build_indices get_values] in E, H.
  - destruct (get_vertices m (Some ids) q0) as [A|] eqn:GA; [|discriminate]. injection E; intros <-. apply get_vertices_some in GA. subst A.
    refine (named_vertices m qs answer _ ids qs' _ _ H _); [exact Logic.I|]. cbn [wanted_vertex]. intros k i w _ ->. f_equal. unfold average. cbn [flatten]. clear.
    assert (S3 : Rsum (concat (map (fun k => map (fun i => qv q0 (3 * k + i)%nat) [0; 1; 2]%nat) ids))
       = 3 * Rsum (map (fun k => (qv q0 (3 * k)%nat + qv q0 (3 * k + 1)%nat + qv q0 (3 * k + 2)%nat) / 3) ids)).
    { induction ids as [|k ids IH]; [cbn; lra|]. rewrite map_cons, concat_cons, Rsum_app, IH, map_cons. cbn [map Rsum]. rewrite Nat.add_0_r. lra. }
    assert (L3 : length (concat (map (fun k => map (fun i => qv q0 (3 * k + i)%nat) [0; 1; 2]%nat) ids)) = (3 * length ids)%nat).
    { clear. induction ids as [|k ids IH]; [reflexivity|]. rewrite map_cons, concat_cons, app_length, IH, map_length. cbn [length]. lia. }
    rewrite S3, L3, mult_INR. destruct ids as [|k0 ids]; [cbn; unfold Rdiv; ring|].
    assert (0 < INR (length (k0 :: ids))) by (apply lt_0_INR; cbn; lia). replace (INR 3) with 3 by (cbn; lra). field. lra.
  - destruct (get_centroids m (Some ids) q0) as [A|] eqn:GA; [|discriminate]. injection E; intros <-. apply get_centroids_some in GA. subst A.
    refine (named_centroids m qs answer _ ids qs' _ _ H _); [exact Logic.I|]. cbn [wanted_centroid]. intros k w ->. unfold average. cbn [flatten]. rewrite map_length. reflexivity.
Qed.
Print Assumptions C110_average_partial.

(** A quantity is added to another one on the triangles with the tag. *)
Theorem C110_quantities_partial m d l tag ids answer adding q1 q2 qs qs' : NoDup (map fst l) -> In (tag, ids) l -> qs answer = Some q1 -> qs adding = Some q2 ->
  (set_tag_region m d [Add_quantities tag answer adding Vertices] l qs = Some qs' ->
     vertices_set m ids answer qs qs' (fun k i => qv q1 (3 * k + i)%nat + qv q2 (3 * k + i)%nat)) /\
  (set_tag_region m d [Add_quantities tag answer adding Centroids] l qs = Some qs' ->
     centroids_set m ids answer qs qs' (fun k => qc q1 k + qc q2 k)).
Proof.
  intros N I Q1 Q2.
  assert (G : forall loc, set_tag_region m d [Add_quantities tag answer adding loc] l qs = Some qs' ->
    exists v w, get_values m d loc (build_indices m loc ids) q1 = Some v /\ get_values m d loc (build_indices m loc ids) q2 = Some w /\
      set_named m qs answer (plus_values v w) loc (build_indices m loc ids) = Some qs').
  { intros loc H. cbn [set_tag_region] in H. rewrite each_present with (ids := ids) in H by assumption. unfold call in H. cbn [own_tag] in H. rewrite String.eqb_refl, Q1, Q2 in H.
    destruct (get_values _ _ _ _ q1) as [v|]; [|discriminate]. destruct (get_values _ _ _ _ q2) as [w|]; [|discriminate].
    exists v, w. split; [reflexivity|]. split; [reflexivity|]. destruct (set_named _ _ _ _ _ _); exact H. }
  split; intros H; apply G in H as (v & w & E1 & E2 & H); cbn [build_indices get_values] in E1, E2, H.
  - destruct (get_vertices m (Some ids) q1) as [A|] eqn:GA; [|discriminate]. destruct (get_vertices m (Some ids) q2) as [B|] eqn:GB; [|discriminate].
    injection E1; intros <-. injection E2; intros <-. apply get_vertices_some in GA, GB. subst A B.
    cbn [plus_values] in H. rewrite combine_maps, map_map in H. refine (named_vertices m qs answer _ ids qs' _ _ H _); [exact Logic.I|].
    intros k i u Hi (f & -> & [[_ C]|(j & J1 & J2)]); [discriminate|].
    cbn [selection] in J1. rewrite (map_nth_error _ _ _ J1) in J2. injection J2; intros <-. rewrite <- (nth_three q1 k i Hi), <- (nth_three q2 k i Hi). reflexivity.
  - destruct (get_centroids m (Some ids) q1) as [A|] eqn:GA; [|discriminate]. destruct (get_centroids m (Some ids) q2) as [B|] eqn:GB; [|discriminate].
    injection E1; intros <-. injection E2; intros <-. apply get_centroids_some in GA, GB. subst A B.
    cbn [plus_values] in H. rewrite combine_maps, map_map in H. refine (named_centroids m qs answer _ ids qs' _ _ H _); [exact Logic.I|]. intros k u (j & J1 & J2).
    cbn [selection] in J1. rewrite (map_nth_error _ _ _ J1) in J2. cbn [fst snd] in J2. congruence.
Qed.
Print Assumptions C110_quantities_partial.

(** At the nodes: the nodes of the triangles with the tag, in every triangle
    they belong to. *)
Theorem C110_nodes_partial m d l tag ids name x qs qs' : mesh_ok m -> NoDup (map fst l) -> In (tag, ids) l ->
  set_tag_region m d [Set_tag_region tag name (Constant x) Unique_vertices] l qs = Some qs' ->
  (forall n, n <> name -> qs' n = qs n) /\
  exists q q', qs name = Some q /\ qs' name = Some q' /\
    forall j, (j < 3 * m_triangles m)%nat -> (node_at (m_flat m) j < m_nodes m)%nat ->
      ((exists k i, In k ids /\ (i < 3)%nat /\ node_at (m_flat m) (3 * k + i) = node_at (m_flat m) j) -> qv q' j = x) /\
      ((forall k i, In k ids -> (i < 3)%nat -> node_at (m_flat m) (3 * k + i) <> node_at (m_flat m) j) -> qv q' j = qv q j).
Proof.
  intros M N I H. cbn [set_tag_region] in H. rewrite each_present with (ids := ids) in H by assumption. unfold call in H. cbn [own_tag] in H. rewrite String.eqb_refl in H.
  destruct (set_named _ _ _ _ _ _) as [qs''|] eqn:E; [|discriminate]. injection H; intros <-.
  apply set_named_inv in E as (q & q' & Q & E & Q' & O). split; [exact O|]. exists q, q'. split; [exact Q|]. split; [exact Q'|].
  apply C90_nodes in E as [_ V]; [|exact M|discriminate]. intros j Hj Hn. destruct (V j Hj) as [P R]. cbn [selection build_indices] in P, R. split.
  - intros K. apply P, nodes_in. split; [exact Hn|exact K].
  - intros K. apply R. intros J. apply nodes_in in J as (_ & k & i & Ik & Hi & E). exact (K k i Ik Hi E).
Qed.
Print Assumptions C110_nodes_partial.

(** A tag that no triangle has: nothing happens, without an exception. *)
Theorem C110_unknown m d l f qs : ~ In (own_tag f) (map fst l) -> set_tag_region m d [f] l qs = Some qs.
Proof. intros N. cbn [set_tag_region]. rewrite each_absent by exact N. reflexivity. Qed.
Print Assumptions C110_unknown.

(** The functions are applied in their order. *)
Theorem C110_order m d l qs : forall fs gs, set_tag_region m d (fs ++ gs) l qs =
  match set_tag_region m d fs l qs with None => None | Some qs => set_tag_region m d gs l qs end.
Proof.
  intros fs. revert qs. induction fs as [|f fs IH]; intros qs gs; [reflexivity|]. cbn [app set_tag_region].
  destruct (each_tag m d f l qs); [apply IH|reflexivity].
Qed.
Print Assumptions C110_order.

(** A function can not be set at the nodes. *)
Theorem C110_function_refuted m d l tag ids name f qs : NoDup (map fst l) -> In (tag, ids) l ->
  set_tag_region m d [Set_tag_region tag name (Function f) Unique_vertices] l qs = None.
Proof.
  intros N I. cbn [set_tag_region]. rewrite each_present with (ids := ids) by assumption. unfold call. cbn [own_tag]. rewrite String.eqb_refl.
  unfold set_named. destruct (qs name); reflexivity.
Qed.
Print Assumptions C110_function_refuted.

(** The tagged dictionary that is accepted has only triangles that exist, and
    none of its tags is empty. *)
Theorem C110_tags m given l : build_tags m given = Some l -> forall tag ids, In (tag, ids) l -> ids <> [] /\ forall k, In k ids -> (k < m_triangles m)%nat.
Proof.
  unfold build_tags. destruct given as [g|]; [|intros H; injection H; intros <- tag ids []].
  destruct (forallb _ g) eqn:F; [|discriminate]. intros H. injection H; intros <-. intros tag ids I.
  rewrite forallb_forall in F. specialize (F _ I). cbn [snd] in F. destruct ids as [|k0 ids]; [discriminate|].
  split; [discriminate|]. intros k J. rewrite forallb_forall in F. apply Nat.ltb_lt, F, J.
Qed.
Print Assumptions C110_tags.

(** Cases on the square of two triangles *)
Definition two_tags : tags := [("low", [0%nat]); ("high", [1%nat])]%string.
Definition flat_value (x : R) : quantity := {| qv := fun _ => x; qe := fun _ => x; qc := fun _ => x |}.
Definition stepped : quantity := {| qv := fun j => if (j <? 3)%nat then 0 else 6; qe := fun j => if (j <? 3)%nat then 0 else 6; qc := fun k => if (k =? 0)%nat then 0 else 6 |}.
Definition fields : quantities := fun n => if String.eqb n "stage" then Some stepped else if String.eqb n "friction" then Some (flat_value 1) else None.
Example C110_tags_case : build_tags square (Some two_tags) = Some two_tags /\ build_tags square (Some [("none"%string, [])]) = None.
Proof. split; reflexivity. Qed.
Example C110_set_case : exists qs q, set_tag_region square false [Set_tag_region "high" "friction" (Constant 9) Vertices] two_tags fields = Some qs /\
  qs "friction"%string = Some q /\ qv q 2%nat = 1 /\ qv q 3%nat = 9 /\ qs "stage"%string = Some stepped.
Proof. eexists. eexists. split; [reflexivity|]. split; [reflexivity|]. repeat split. Qed.
Example C110_add_case : exists qs q, set_tag_region square false [Add_value_to_region "high" "friction" "stage" 2 Centroids false] two_tags fields = Some qs /\
  qs "friction"%string = Some q /\ qc q 0%nat = 1 /\ qc q 1%nat = 6 + 2.
Proof. eexists. eexists. split; [reflexivity|]. split; [reflexivity|]. repeat split. Qed.
Example C110_average_case : exists qs q, set_tag_region square false [Add_value_to_region "high" "friction" "stage" 2 Vertices true] two_tags fields = Some qs /\
  qs "friction"%string = Some q /\ qv q 0%nat = 1 /\ qv q 4%nat = 8.
Proof.
  eexists. eexists. split; [reflexivity|]. split; [reflexivity|]. split; [reflexivity|].
  cbn. unfold average. cbn. lra.
Qed.
Example C110_quantities_case : exists qs q, set_tag_region square false [Add_quantities "high" "friction" "stage" Vertices] two_tags fields = Some qs /\
  qs "friction"%string = Some q /\ qv q 0%nat = 1 /\ qv q 5%nat = 1 + 6.
Proof. eexists. eexists. split; [reflexivity|]. split; [reflexivity|]. repeat split. Qed.
Example C110_nodes_case : exists qs q, set_tag_region square false [Set_tag_region "low" "friction" (Constant 9) Unique_vertices] two_tags fields = Some qs /\
  qs "friction"%string = Some q /\ qv q 0%nat = 9 /\ qv q 3%nat = 9 /\ qv q 5%nat = 1.
Proof. eexists. eexists. split; [reflexivity|]. split; [reflexivity|]. repeat split. Qed.
Example C110_unknown_case : set_tag_region square false [Set_tag_region "hihg" "friction" (Constant 9) Vertices] two_tags fields = Some fields.
Proof. apply C110_unknown. cbn. intuition discriminate. Qed.
Example C110_order_case : exists qs q, set_tag_region square false [Set_tag_region "low" "friction" (Constant 9) Vertices; Add_value_to_region "low" "friction" "friction" 1 Vertices false] two_tags fields = Some qs /\
  qs "friction"%string = Some q /\ qv q 0%nat = 9 + 1.
Proof. eexists. eexists. split; [reflexivity|]. split; reflexivity. Qed.
Example C110_function_case : set_tag_region square false [Set_tag_region "low" "friction" (Function px) Unique_vertices] two_tags fields = None.
Proof. apply (C110_function_refuted _ _ _ _ [0%nat]); [repeat constructor; cbn; intuition discriminate|left; reflexivity]. Qed.

(** Setting the nodes of one region changes triangles of the other; adding 0 at
    the nodes changes the values on both. *)
Theorem C110_spread_refuted : exists qs q qs' q',
  set_tag_region square false [Set_tag_region "low" "friction" (Constant 9) Unique_vertices] two_tags fields = Some qs /\
  qs "friction"%string = Some q /\ ~ In 1%nat [0%nat] /\ qv q (3 * 1)%nat <> qv (flat_value 1) (3 * 1)%nat /\
  set_tag_region square false [Add_value_to_region "low" "stage" "stage" 0 Unique_vertices false] two_tags fields = Some qs' /\
  qs' "stage"%string = Some q' /\ qv q' 0%nat <> qv stepped 0%nat /\ qv q' 3%nat <> qv stepped 3%nat.
Proof.
  eexists. eexists. eexists. eexists. split; [reflexivity|]. split; [reflexivity|].
  split; [cbn; intuition discriminate|]. split; [cbn; unfold upd; cbn; lra|]. split; [reflexivity|]. split; [reflexivity|].
  split; cbn; unfold upd; cbn; lra.
Qed.
Print Assumptions C110_spread_refuted.
