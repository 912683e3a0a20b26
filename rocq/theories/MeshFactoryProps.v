(** Properties C04 and C05: the structured mesh factories. *)
From Coq Require Import Reals Lra Lia List Arith Bool.
From Verif Require Import RealLib ListLib NeighbourModel NeighbourProofs NeighbourProps
  MeshFactoryModel MeshFactoryProofs.
Import ListNotations.

(** * Specification *)

(** Signed area of a triangle (positive: counter-clockwise). *)
Definition signed_area (p q r : point) : R :=
  (((fst q - fst p) * (snd r - snd p) - (fst r - fst p) * (snd q - snd p)) / 2)%R.

Definition on_side (len1 len2 : R) (origin : point) (s : side) (p : point) : Prop :=
  match s with
  | left_ => fst p = fst origin
  | right_ => fst p = (fst origin + len1)%R
  | bottom_ => snd p = snd origin
  | top_ => snd p = (snd origin + len2)%R
  end.

(** A mesh of the rectangle [origin, origin + (len1, len2)] in which every
    triangle has area [A]. *)
Record rectangle_mesh (len1 len2 A : R) (origin : point) (points : list point)
       (elements : list tri) (boundary : list ((nat * nat) * side)) : Prop := {
  rm_triangles : forall T a b c, nth_error elements T = Some (a, b, c) ->
     exists pa pb pc, nth_error points a = Some pa /\ nth_error points b = Some pb /\
       nth_error points c = Some pc /\ a <> b /\ b <> c /\ c <> a /\
       signed_area pa pb pc = A;
  rm_accepted : edges_unique elements;
  rm_tagged_iff_boundary : forall T e a b, has_edge elements T e a b ->
     ((exists s, In ((T, e), s) boundary) <-> (forall l j, ~ has_edge elements l j b a));
  rm_tag_side : forall T e s, In ((T, e), s) boundary ->
     exists a b pa pb, has_edge elements T e a b /\ nth_error points a = Some pa /\
       nth_error points b = Some pb /\
       on_side len1 len2 origin s pa /\ on_side len1 len2 origin s pb;
  rm_tag_once : NoDup (map fst boundary)
}.

(** Sum of the (signed) triangle areas. *)
Definition total_area (points : list point) (elements : list tri) : R :=
  Rsum (map (fun t => let '(a, b, c) := t in signed_area (pt points a) (pt points b) (pt points c)) elements).

Lemma INR_pos m : 1 <= m -> (0 < INR m)%R.
Proof. intros. apply lt_0_INR. lia. Qed.

Lemma Rsum_const {A} (f : A -> R) c l : (forall x, In x l -> f x = c) -> Rsum (map f l) = (INR (length l) * c)%R.
Proof.
  induction l as [|a l IH]; intros H.
  - simpl. lra.
  - cbn [map length]. rewrite S_INR. simpl Rsum.
    rewrite IH by (intros; apply H; right; auto). rewrite (H a) by (left; auto). lra.
Qed.

Lemma total_area_const l1 l2 A o pts els bd :
  rectangle_mesh l1 l2 A o pts els bd -> total_area pts els = (INR (length els) * A)%R.
Proof.
  intros H. apply Rsum_const. intros [[a b] c] Hin. apply In_nth_error in Hin as (T & HT).
  destruct (rm_triangles _ _ _ _ _ _ _ H T a b c HT) as (pa & pb & pc & A1 & A2 & A3 & _ & _ & _ & E).
  unfold pt. rewrite (nth_error_nth _ _ _ A1), (nth_error_nth _ _ _ A2), (nth_error_nth _ _ _ A3). exact E.
Qed.

(** * C04 *)
Theorem C04_rectangular_mesh_valid :
  forall m n len1 len2 origin, 1 <= m -> 1 <= n -> (0 < len1)%R -> (0 < len2)%R ->
  let points := rectangular_points m n len1 len2 origin in
  let elements := fst (rectangular_mesh m n) in
  let boundary := snd (rectangular_mesh m n) in
  length points = (m + 1) * (n + 1) /\
  length elements = 2 * m * n /\
  (0 < len1 * len2 / (2 * INR m * INR n))%R /\
  rectangle_mesh len1 len2 (len1 * len2 / (2 * INR m * INR n)) origin points elements boundary /\
  total_area points elements = (len1 * len2)%R.
Proof.
  intros m n l1 l2 o Hm Hn Hl1 Hl2 points elements boundary.
  pose proof (INR_pos m Hm) as Im. pose proof (INR_pos n Hn) as In_.
  destruct (rectangular_points_spec m n l1 l2 o) as (LP & NP).
  assert (LE : length elements = 2 * m * n).
  { unfold elements. rewrite rectangular_mesh_eq. cbn [fst].
    rewrite (flat_map_length_const _ 2) by (intros [i j] _; reflexivity).
    rewrite loop2_length. lia. }
  assert (HE : forall T e a b, has_edge elements T e a b <->
     exists i j, i < m /\ j < n /\ rect_edge_at n i j T e a b).
  { intros. rewrite has_edge_key. apply rect_edge_iff. }
  assert (HB : forall T e s, In ((T, e), s) boundary <->
     exists i j, i < m /\ j < n /\ rect_tag_at m n i j T e s).
  { intros. apply rect_boundary. }
  assert (RM : rectangle_mesh l1 l2 (l1 * l2 / (2 * INR m * INR n)) o points elements boundary).
  { constructor.
    - intros T a b c HT. apply rect_element in HT as (i & j & r & Hi & Hj & Hr & HT & Ht).
      destruct r as [|[|r]]; [| |lia]; simpl in Ht; injection Ht as <- <- <-.
      + do 3 eexists. split; [apply NP; lia|]. split; [apply NP; lia|]. split; [apply NP; lia|].
        split; [intros E; index_inject; lia|]. split; [intros E; index_inject; lia|].
        split; [intros E; index_inject; lia|].
        unfold signed_area, grid_point; cbn [fst snd]. rewrite !plus_INR. simpl. field. repeat split; lra.
      + do 3 eexists. split; [apply NP; lia|]. split; [apply NP; lia|]. split; [apply NP; lia|].
        split; [intros E; index_inject; lia|]. split; [intros E; index_inject; lia|].
        split; [intros E; index_inject; lia|].
        unfold signed_area, grid_point; cbn [fst snd]. rewrite !plus_INR. simpl. field. repeat split; lra.
    - intros k i l j a b H1 H2. apply HE in H1 as (i1 & j1 & Hi1 & Hj1 & H1), H2 as (i2 & j2 & Hi2 & Hj2 & H2).
      apply (rect_edges_unique n i1 j1 i2 j2 k i l j a b); auto.
    - intros T e a b H. apply HE in H as (i & j & Hi & Hj & H). split.
      + intros (s & Hs) l k Hk. apply HB in Hs as (i1 & j1 & Hi1 & Hj1 & Hs).
        apply HE in Hk as (i2 & j2 & Hi2 & Hj2 & Hk).
        destruct (rect_cell_unique' n i1 j1 i j T e e s m a b Hj1 Hj Hs H); subst.
        revert Hk. exact (rect_tagged_no_partner m n i j T e s a b i2 j2 l k Hi Hj Hi2 Hj2 Hs H).
      + intros N. destruct (rect_partner m n i j T e a b Hi Hj H) as [(s & Hs)|(i' & j' & T' & e' & Hi' & Hj' & Hp)].
        * exists s. apply HB. eauto.
        * exfalso. apply (N T' e'). apply HE. eauto.
    - intros T e s Hs. apply HB in Hs as (i & j & Hi & Hj & Hs).
      assert (Hmn : INR (m - 1 + 1) = INR m /\ INR (n - 1 + 1) = INR n).
      { split; f_equal; lia. }
      destruct Hs as [(E1 & E2 & E3 & E4)|[(E1 & E2 & E3 & E4)|[(E1 & E2 & E3 & E4)|(E1 & E2 & E3 & E4)]]]; subst T e s.
      + exists (index n (i + 1) j), (index n (i + 1) (j + 1)). do 2 eexists.
        split; [apply HE; exists i, j; repeat split; auto; right; right; left; auto|].
        split; [apply NP; lia|]. split; [apply NP; lia|].
        simpl. subst i. rewrite (proj1 Hmn). (split; (field; repeat split; lra)).
      + exists (index n i j), (index n (i + 1) j). do 2 eexists.
        split; [apply HE; exists i, j; repeat split; auto; right; left; auto|].
        split; [apply NP; lia|]. split; [apply NP; lia|]. subst j. simpl. split; lra.
      + exists (index n i (j + 1)), (index n i j). do 2 eexists.
        split; [apply HE; exists i, j; repeat split; auto; do 5 right; auto|].
        split; [apply NP; lia|]. split; [apply NP; lia|]. subst i. simpl. split; lra.
      + exists (index n (i + 1) (j + 1)), (index n i (j + 1)). do 2 eexists.
        split; [apply HE; exists i, j; repeat split; auto; do 4 right; left; auto|].
        split; [apply NP; lia|]. split; [apply NP; lia|]. simpl. subst j. rewrite (proj2 Hmn).
        (split; (field; repeat split; lra)).
    - apply rect_boundary_NoDup. }
  split; [exact LP|]. split; [exact LE|]. split; [|split; [exact RM|]].
  - apply Rdiv_lt_0_compat; [apply Rmult_lt_0_compat; lra|].
    apply Rmult_lt_0_compat; lra.
  - rewrite (total_area_const _ _ _ _ _ _ _ RM), LE, !mult_INR. simpl. field. repeat split; lra.
Qed.
Print Assumptions C04_rectangular_mesh_valid.

(** Non-vacuity: the smallest case and a non-square case, computed. *)
Example C04_example :
  rectangular_mesh 1 1 = ([(2, 3, 0); (1, 0, 3)],
    [((0, 2), right_); ((0, 1), bottom_); ((1, 2), left_); ((1, 1), top_)]) /\
  length (fst (rectangular_mesh 2 3)) = 12 /\ length (snd (rectangular_mesh 2 3)) = 10.
Proof. vm_compute. auto. Qed.

(** The mesh is accepted by the mesh constructor, and its boundary dictionary
    (whatever natural-number codes stand for the tags) is exactly the set of
    edges that the constructor finds to be without neighbour. *)
Theorem C04_rectangular_accepted_by_mesh :
  forall m n, build_neighbour_structure (fst (rectangular_mesh m n)) <> None.
Proof.
  intros m n. apply C06_rejected_iff_duplicate_edge.
  intros k i l j a b H1 H2. apply has_edge_key in H1, H2. apply rect_edge_iff in H1, H2.
  destruct H1 as (i1 & j1 & Hi1 & Hj1 & H1), H2 as (i2 & j2 & Hi2 & Hj2 & H2).
  apply (rect_edges_unique n i1 j1 i2 j2 k i l j a b); auto.
Qed.
Print Assumptions C04_rectangular_accepted_by_mesh.

(** * C05 *)
Theorem C05_rectangular_cross_mesh_valid :
  forall m n len1 len2 origin, 1 <= m -> 1 <= n -> (0 < len1)%R -> (0 < len2)%R ->
  let '(points, (elements, boundary)) := rectangular_cross m n len1 len2 origin in
  length points = (m + 1) * (n + 1) + m * n /\
  length elements = 4 * m * n /\
  (0 < len1 * len2 / (4 * INR m * INR n))%R /\
  rectangle_mesh len1 len2 (len1 * len2 / (4 * INR m * INR n)) origin points elements boundary /\
  total_area points elements = (len1 * len2)%R.
Proof.
  intros m n l1 l2 o Hm Hn Hl1 Hl2.
  pose proof (INR_pos m Hm) as Im. pose proof (INR_pos n Hn) as In_.
  set (P := (m + 1) * (n + 1)).
  pose proof (cross_eq m n l1 l2 o) as CE. cbv zeta in CE. fold P in CE.
  assert (HE' : forall T t, nth_error (cross_elements m n l1 l2 o) T = Some t <-> _) by
    (intros; apply cross_element).
  assert (HE : forall T e a b, has_edge (cross_elements m n l1 l2 o) T e a b <->
     exists i j, i < m /\ j < n /\ cross_edge_at m n i j T e a b).
  { intros. rewrite has_edge_key. apply cross_edge_iff. }
  pose proof (cross_boundary_iff m n l1 l2 o) as HB.
  pose proof (cross_boundary_NoDup m n l1 l2 o) as HN.
  assert (LE : length (cross_elements m n l1 l2 o) = 4 * m * n).
  { unfold cross_elements. rewrite CE. cbn [fst snd].
    rewrite (flat_map_length_const _ 4) by (intros [p [i j]] _; reflexivity).
    rewrite combine_length, seq_length, loop2_length. lia. }
  unfold cross_elements in HE', HE, LE. unfold cross_boundary in HB, HN.
  destruct (rectangular_cross m n l1 l2 o) as [points [elements boundary]] eqn:ER.
  cbn [fst snd] in *. injection CE as CP _ _.
  assert (LP : length points = P + m * n).
  { rewrite CP, app_length, !map_length, !loop2_length. reflexivity. }
  assert (NP : forall i j, i <= m -> j <= n ->
      nth_error points (index n i j) = Some (grid_point m n l1 l2 o (i, j))).
  { intros i j Hi Hj. rewrite CP, nth_error_app1.
    - apply map_nth_error. apply nth_error_loop. unfold index. repeat split; lia.
    - rewrite map_length, loop2_length. apply index_lt; auto. }
  assert (NC : forall i j, i < m -> j < n ->
      nth_error points (P + (i * n + j)) = Some (centre m n l1 l2 o (i, j))).
  { intros i j Hi Hj. rewrite CP, nth_error_app2.
    - rewrite map_length, loop2_length. fold P. replace (P + (i * n + j) - P) with (i * n + j) by lia.
      apply map_nth_error. apply nth_error_loop. auto.
    - rewrite map_length, loop2_length. fold P. lia. }
  assert (RM : rectangle_mesh l1 l2 (l1 * l2 / (4 * INR m * INR n)) o points elements boundary).
  { constructor.
    - intros T a b c HT. apply HE' in HT as (i & j & r & Hi & Hj & Hr & HT & Ht). fold P in Ht.
      assert (LT : forall a b, a <= m -> b <= n -> index n a b < P) by (intros; apply index_lt; auto).
      destruct r as [|[|[|[|r]]]]; try lia; simpl in Ht; injection Ht as <- <- <-;
      (do 3 eexists; split; [apply NP; lia|]; split; [apply NC; lia|]; split; [apply NP; lia|];
       split; [match goal with |- index _ ?x ?y <> _ => pose proof (LT x y ltac:(lia) ltac:(lia)); lia end|];
       split; [match goal with |- _ <> index _ ?x ?y => pose proof (LT x y ltac:(lia) ltac:(lia)); lia end|];
       split; [intros E; index_inject; lia|];
       unfold signed_area, centre, grid_point; cbn [fst snd]; rewrite !plus_INR; simpl; field; repeat split; lra).
    - intros k i l j a b H1 H2. apply HE in H1 as (i1 & j1 & Hi1 & Hj1 & H1), H2 as (i2 & j2 & Hi2 & Hj2 & H2).
      apply (cross_edges_unique m n i1 j1 i2 j2 k i l j a b); auto.
    - intros T e a b H. apply HE in H as (i & j & Hi & Hj & H). split.
      + intros (s & Hs) l k Hk. apply HB in Hs as (i1 & j1 & Hi1 & Hj1 & Hs).
        apply HE in Hk as (i2 & j2 & Hi2 & Hj2 & Hk).
        destruct (cross_cell_unique n i1 j1 i j T e e s m a b Hj1 Hj Hs H); subst.
        revert Hk. exact (cross_tagged_no_partner m n i j T e s a b i2 j2 l k Hi Hj Hi2 Hj2 Hs H).
      + intros N. destruct (cross_partner m n i j T e a b Hi Hj H) as [(s & Hs)|(i' & j' & T' & e' & Hi' & Hj' & Hp)].
        * exists s. apply HB. eauto.
        * exfalso. apply (N T' e'). apply HE. eauto.
    - intros T e s Hs. apply HB in Hs as (i & j & Hi & Hj & Hs).
      pose proof (cross_tag_edge m n i j T e s Hs) as He.
      assert (Hmn : INR (m - 1 + 1) = INR m /\ INR (n - 1 + 1) = INR n).
      { split; f_equal; lia. }
      destruct Hs as (-> & [(-> & -> & E)|[(-> & -> & E)|[(-> & -> & E)|(-> & -> & E)]]]);
      (do 2 eexists; do 2 eexists; split; [apply HE; exists i, j; split; [auto|split; [auto|exact He]]|];
       cbn [cornerA cornerB]; split; [apply NP; lia|]; split; [apply NP; lia|]).
      + subst i. simpl. split; lra.
      + subst j. simpl. split; lra.
      + subst i. simpl. rewrite (proj1 Hmn). (split; (field; repeat split; lra)).
      + subst j. simpl. rewrite (proj2 Hmn). (split; (field; repeat split; lra)).
    - exact HN. }
  split; [exact LP|]. split; [exact LE|]. split; [|split; [exact RM|]].
  - apply Rdiv_lt_0_compat; [apply Rmult_lt_0_compat; lra|].
    apply Rmult_lt_0_compat; lra.
  - rewrite (total_area_const _ _ _ _ _ _ _ RM), LE, !mult_INR. simpl. field. repeat split; lra.
Qed.
Print Assumptions C05_rectangular_cross_mesh_valid.

Example C05_example :
  snd (rectangular_cross 1 1 1 1 (0, 0)%R) =
    ([(0, 4, 1); (2, 4, 0); (3, 4, 2); (1, 4, 3)],
     [((0, 1), left_); ((1, 1), bottom_); ((2, 1), right_); ((3, 1), top_)]).
Proof. reflexivity. Qed.
