(** C83: the advection domain (fluxes, time step, first order scheme). *)
From Coq Require Import Reals List ZArith Arith Bool Lia Lra Psatz.
From Verif Require Import RealLib ArrayLib CentroidModel GeometryModel GeometryProps FluxProofs AdvectionModel AdvectionProofs.
Import ListNotations.
Local Open Scope R_scope.

Definition interior (D : adomain) (e : nat) : Prop := (0 <= a_neighbours D e)%Z.

(** Symmetric neighbour structure; normals of the two sides of an edge are
    opposite and its lengths equal. *)
Record paired_mesh (D : adomain) : Prop := {
  pm_range : forall e, (e < 3 * a_n D)%nat -> interior D e ->
    (Z.to_nat (a_neighbours D e) < a_n D /\ a_neighbour_edges D e < 3)%nat;
  pm_back : forall e, (e < 3 * a_n D)%nat -> interior D e ->
    interior D (a_partner D e) /\ a_partner D (a_partner D e) = e;
  pm_normals : forall e, (e < 3 * a_n D)%nat -> interior D e ->
    a_nx D (a_partner D e) = - a_nx D e /\ a_ny D (a_partner D e) = - a_ny D e /\
    a_edgelengths D (a_partner D e) = a_edgelengths D e }.

(** Edge lengths, areas and normals of closed triangles. *)
Record closed_triangles (D : adomain) : Prop := {
  ct_length : forall e, (e < 3 * a_n D)%nat -> 0 < a_edgelengths D e;
  ct_area : forall k, (k < a_n D)%nat -> 0 < a_areas D k;
  ct_closed : forall k, (k < a_n D)%nat ->
    a_edgelengths D (3 * k + 0) * a_nx D (3 * k + 0) + a_edgelengths D (3 * k + 1) * a_nx D (3 * k + 1)
      + a_edgelengths D (3 * k + 2) * a_nx D (3 * k + 2) = 0 /\
    a_edgelengths D (3 * k + 0) * a_ny D (3 * k + 0) + a_edgelengths D (3 * k + 1) * a_ny D (3 * k + 1)
      + a_edgelengths D (3 * k + 2) * a_ny D (3 * k + 2) = 0 }.

(** The flux through an interior edge leaves one triangle and enters the
    other. *)
Lemma edge_flux_partner D edge bdry e : paired_mesh D -> (e < 3 * a_n D)%nat -> interior D e ->
  edge_flux D edge bdry (a_partner D e) = - edge_flux D edge bdry e.
Proof.
  intros P He Hi. destruct (pm_back D P e He Hi) as [B1 B2]. destruct (pm_normals D P e He Hi) as (N1 & N2 & _).
  assert (V : normal_velocity D (a_partner D e) = - normal_velocity D e)
    by (unfold normal_velocity; rewrite N1, N2; ring).
  unfold edge_flux. rewrite V. unfold outer_value.
  destruct (Z.ltb_spec (a_neighbours D e) 0) as [X | _]; [unfold interior in Hi; lia |].
  destruct (Z.ltb_spec (a_neighbours D (a_partner D e)) 0) as [X | _]; [unfold interior in B1; lia |].
  rewrite B2.
  destruct (Rltb_spec (- normal_velocity D e) 0), (Rltb_spec (normal_velocity D e) 0); try lra;
    first [ring | assert (normal_velocity D e = 0) as -> by lra; ring].
Qed.

(** The area-weighted sum of the updates is minus the flux through the
    boundary edges, for all edge and boundary values. *)
Theorem C83_conservation :
  forall D edge bdry huge mt u, paired_mesh D ->
  (forall k, (k < a_n D)%nat -> a_areas D k <> 0) ->
  let up := fst (compute_fluxes D edge bdry huge mt u) in
  Rsum (map (fun k => a_areas D k * up k) (seq 0 (a_n D))) =
  - Rsum (map (fun e => edge_flux D edge bdry e * a_edgelengths D e)
              (filter (fun e => Z.ltb (a_neighbours D e) 0) (seq 0 (3 * a_n D)))).
Proof.
  intros D edge bdry huge mt u P HA up.
  set (f := fun e => edge_flux D edge bdry e * a_edgelengths D e).
  assert (E1 : Rsum (map (fun k => a_areas D k * up k) (seq 0 (a_n D))) =
               - Rsum (map f (seq 0 (3 * a_n D)))).
  { rewrite Rsum_triples. replace (- Rsum _) with (-1 * Rsum (map (fun k => f (3 * k)%nat + f (3 * k + 1)%nat + f (3 * k + 2)%nat) (seq 0 (a_n D)))) by ring.
    rewrite <- Rsum_map_scal. apply Rsum_map_ext_in. intros k Hk. apply in_seq in Hk.
    unfold up. rewrite compute_fluxes_update by lia. unfold flux_sum, f. rewrite Nat.add_0_r.
    field. apply HA. lia. }
  rewrite E1. f_equal. rewrite (Rsum_map_filter (fun e => Z.ltb (a_neighbours D e) 0) f).
  assert (E2 : Rsum (map f (seq 0 (3 * a_n D))) =
    Rsum (map (fun e => (if Z.ltb (a_neighbours D e) 0 then f e else 0) +
                        (if negb (Z.ltb (a_neighbours D e) 0) then f e else 0)) (seq 0 (3 * a_n D)))).
  { apply Rsum_map_ext_in. intros e _. destruct (Z.ltb (a_neighbours D e) 0); cbn; lra. }
  rewrite E2, Rsum_map_plus, <- (Rsum_map_filter (fun e => negb (Z.ltb (a_neighbours D e) 0)) f).
  rewrite (Rsum_involution f (a_partner D)).
  - lra.
  - apply NoDup_filter, seq_NoDup.
  - intros e He. apply filter_In in He as [He Hn]. apply in_seq in He.
    assert (Hi : interior D e) by (unfold interior; destruct (Z.ltb_spec (a_neighbours D e) 0); [discriminate | assumption]).
    assert (He' : (e < 3 * a_n D)%nat) by lia.
    destruct (pm_back D P e He' Hi) as [B1 B2]. destruct (pm_range D P e He' Hi) as [R1 R2].
    destruct (pm_normals D P e He' Hi) as (_ & _ & L).
    split; [| split; [exact B2 |]].
    + apply filter_In. split; [apply in_seq; unfold a_partner; lia |].
      unfold interior in B1. destruct (Z.ltb_spec (a_neighbours D (a_partner D e)) 0); [lia | reflexivity].
    + unfold f. rewrite edge_flux_partner, L by assumption. ring.
Qed.
Print Assumptions C83_conservation.

Lemma closed_velocity D k : closed_triangles D -> (k < a_n D)%nat ->
  normal_velocity D (3 * k + 0) * a_edgelengths D (3 * k + 0) +
  normal_velocity D (3 * k + 1) * a_edgelengths D (3 * k + 1) +
  normal_velocity D (3 * k + 2) * a_edgelengths D (3 * k + 2) = 0.
Proof.
  intros C Hk. destruct (ct_closed D C k Hk) as [X Y]. unfold normal_velocity.
  transitivity (a_v1 D * (a_edgelengths D (3 * k + 0) * a_nx D (3 * k + 0) + a_edgelengths D (3 * k + 1) * a_nx D (3 * k + 1)
      + a_edgelengths D (3 * k + 2) * a_nx D (3 * k + 2)) +
    a_v2 D * (a_edgelengths D (3 * k + 0) * a_ny D (3 * k + 0) + a_edgelengths D (3 * k + 1) * a_ny D (3 * k + 1)
      + a_edgelengths D (3 * k + 2) * a_ny D (3 * k + 2))); [ring |]. rewrite X, Y. ring.
Qed.

(** A constant state with the same values on the boundary does not change. *)
Theorem C83_constant_state :
  forall D c bdry huge mt u k, closed_triangles D -> (k < a_n D)%nat -> (forall j, bdry j = c) ->
  fst (compute_fluxes D (fun _ => c) bdry huge mt u) k = 0.
Proof.
  intros D c bdry huge mt u k C Hk Hb. rewrite compute_fluxes_update by assumption.
  assert (E : forall e, edge_flux D (fun _ => c) bdry e = c * normal_velocity D e).
  { intros e. unfold edge_flux, outer_value. rewrite Hb.
    destruct (Rltb (normal_velocity D e) 0), (Z.ltb (a_neighbours D e) 0); reflexivity. }
  unfold flux_sum. rewrite !E. pose proof (closed_velocity D k C Hk) as V.
  replace (- (c * normal_velocity D (3 * k + 0) * a_edgelengths D (3 * k + 0)) -
    c * normal_velocity D (3 * k + 1) * a_edgelengths D (3 * k + 1) -
    c * normal_velocity D (3 * k + 2) * a_edgelengths D (3 * k + 2)) with
    (- c * (normal_velocity D (3 * k + 0) * a_edgelengths D (3 * k + 0) +
            normal_velocity D (3 * k + 1) * a_edgelengths D (3 * k + 1) +
            normal_velocity D (3 * k + 2) * a_edgelengths D (3 * k + 2))) by ring.
  rewrite V. unfold Rdiv. ring.
Qed.
Print Assumptions C83_constant_state.

(** The returned time step is the largest number that is at most the maximum,
    the "huge" constant (if there are triangles) and radius / |normal
    velocity| of every edge of a full triangle that is crossed. *)
Definition crossed (D : adomain) (k i : nat) : Prop :=
  (k < a_n D)%nat /\ (i < 3)%nat /\ a_full D k = 1%Z /\ normal_velocity D (3 * k + i) <> 0.
Theorem C83_timestep :
  forall D edge bdry huge mt u, (0 < a_n D)%nat ->
  let t := snd (compute_fluxes D edge bdry huge mt u) in
  t <= mt /\ t <= huge /\
  (forall k i, crossed D k i -> t <= a_radii D k / Rabs (normal_velocity D (3 * k + i))) /\
  (t = mt \/ t = huge \/ exists k i, crossed D k i /\ t = a_radii D k / Rabs (normal_velocity D (3 * k + i))).
Proof.
  intros D edge bdry huge mt u Hn t. unfold t. rewrite compute_fluxes_step.
  set (l := map (cell_limit D edge bdry huge) (seq 0 (a_n D))).
  destruct (fold_min_le l mt) as [F1 F2].
  assert (I : forall k, (k < a_n D)%nat -> fold_left Rmin l mt <= cell_limit D edge bdry huge k).
  { intros k Hk. apply F2. apply in_map. apply in_seq. lia. }
  assert (L : forall k, cell_limit D edge bdry huge k = speed_limit D k 2 (speed_limit D k 1 (speed_limit D k 0 huge))).
  { intros k. unfold cell_limit. apply cell_fluxes_step. }
  split; [exact F1 |]. split; [| split].
  - specialize (I 0%nat Hn). rewrite L in I.
    pose proof (speed_limit_le D 0 2 (speed_limit D 0 1 (speed_limit D 0 0 huge))).
    pose proof (speed_limit_le D 0 1 (speed_limit D 0 0 huge)). pose proof (speed_limit_le D 0 0 huge). lra.
  - intros k i (Hk & Hi & Hf & Hv). specialize (I k Hk). rewrite L in I.
    pose proof (speed_limit_le D k 2 (speed_limit D k 1 (speed_limit D k 0 huge))).
    pose proof (speed_limit_le D k 1 (speed_limit D k 0 huge)).
    destruct i as [| [| [| i]]]; [| | | lia].
    + pose proof (speed_limit_bound D k 0 huge Hf Hv). lra.
    + pose proof (speed_limit_bound D k 1 (speed_limit D k 0 huge) Hf Hv). lra.
    + pose proof (speed_limit_bound D k 2 (speed_limit D k 1 (speed_limit D k 0 huge)) Hf Hv). lra.
  - destruct (fold_min_attained l mt) as [E | H]; [now left | right].
    apply in_map_iff in H as (k & E & Hk). apply in_seq in Hk. rewrite <- E, L.
    assert (K : forall i o, (i < 3)%nat -> speed_limit D k i o = o \/
              (crossed D k i /\ speed_limit D k i o = a_radii D k / Rabs (normal_velocity D (3 * k + i)))).
    { intros i o Hi. unfold speed_limit. destruct (Z.eqb_spec (a_full D k) 1); [| now left].
      destruct (Reqb_spec (Rabs (normal_velocity D (3 * k + i))) 0) as [_ | Hv]; [now left |].
      unfold Rmin. destruct (Rle_dec _ _); [now left | right]. split; [| reflexivity].
      repeat split; try assumption; try lia. intros X. apply Hv. rewrite X. apply Rabs_R0. }
    destruct (K 2%nat (speed_limit D k 1 (speed_limit D k 0 huge)) ltac:(lia)) as [-> | [C ->]];
      [| right; now exists k, 2%nat].
    destruct (K 1%nat (speed_limit D k 0 huge) ltac:(lia)) as [-> | [C ->]]; [| right; now exists k, 1%nat].
    destruct (K 0%nat huge ltac:(lia)) as [-> | [C ->]]; [now left | right; now exists k, 0%nat].
Qed.
Print Assumptions C83_timestep.

(** The Python version computes the same update and time step. *)
Theorem C83_python_version :
  forall D edge bdry huge mt u,
  snd (compute_fluxes_python D edge bdry huge mt u) = snd (compute_fluxes D edge bdry huge mt u) /\
  forall k, fst (compute_fluxes_python D edge bdry huge mt u) k = fst (compute_fluxes D edge bdry huge mt u) k.
Proof.
  intros D edge bdry huge mt u.
  assert (E : compute_fluxes_python D edge bdry huge mt u = compute_fluxes D edge bdry huge mt u);
    [| rewrite E; now split].
  assert (S1 : forall k st i, py_edge_step D edge bdry k st i = edge_step D edge bdry k st i).
  { intros k [f o] i. unfold py_edge_step, edge_step, py_flux_function, edge_flux, outer_value, normal_velocity.
    f_equal. destruct (Z.eqb (a_full D k) 1); [| reflexivity].
    destruct (Reqb _ 0); cbn [negb]; [reflexivity |]. symmetry. apply min_as_if. }
  assert (S2 : forall st k, py_tri_step D edge bdry huge st k = tri_step D edge bdry huge st k).
  { intros [a t] k. unfold py_tri_step, tri_step, cell_fluxes. cbn [fold_left]. rewrite !S1.
    destruct (edge_step D edge bdry k _ 2) as [f o]. cbn [fst snd]. now rewrite min_as_if. }
  unfold compute_fluxes_python, compute_fluxes. generalize (u, mt). induction (seq 0 (a_n D)) as [| a l IH]; intros st; cbn [fold_left];
    [reflexivity |]. now rewrite S2.
Qed.
Print Assumptions C83_python_version.

(** *** The maximum principle of the first order scheme *)

(** radius * perimeter <= 2 * area: true for inscribed circles. *)
Definition radii_fit (D : adomain) : Prop := forall k, (k < a_n D)%nat -> 0 <= a_radii D k /\
  a_radii D k * (a_edgelengths D (3 * k + 0) + a_edgelengths D (3 * k + 1) + a_edgelengths D (3 * k + 2)) <= 2 * a_areas D k.
Definition all_full (D : adomain) : Prop := forall k, (k < a_n D)%nat -> a_full D k = 1%Z.
Definition in_range (m M : R) (l : list R) : Prop := forall x, In x l -> m <= x <= M.

Lemma scale_upwind vn len r q : 0 < len ->
  (if Rltb vn 0 then r * vn else q * vn) * len = if Rltb (vn * len) 0 then r * (vn * len) else q * (vn * len).
Proof.
  intros H. destruct (Rltb_spec vn 0), (Rltb_spec (vn * len) 0); try ring; nra.
Qed.

Lemma in_range_nth m M q k : in_range m M q -> (k < length q)%nat -> m <= nth k q 0 <= M.
Proof. intros H Hk. apply H. now apply nth_In. Qed.
Lemma nth_in_range m M l : (forall k, (k < length l)%nat -> m <= nth k l 0 <= M) -> in_range m M l.
Proof. intros H x Hx. apply (In_nth _ _ 0) in Hx as (k & Hk & <-). now apply H. Qed.

Lemma euler_in_range D m M b dt q huge mt :
  closed_triangles D -> radii_fit D -> all_full D ->
  (forall e, (e < 3 * a_n D)%nat -> interior D e ->
     (Z.to_nat (a_neighbours D e) < a_n D /\ a_neighbour_edges D e < 3)%nat) ->
  length q = a_n D -> 0 <= dt <= flux_timestep D huge mt b q ->
  in_range m M q -> (forall j, m <= b j <= M) -> in_range m M (euler D b dt q).
Proof.
  intros C RF AF NB E Hdt HR HB. apply nth_in_range. intros k Hk. rewrite euler_length in Hk.
  assert (Hn : (k < a_n D)%nat) by lia. rewrite euler_nth by assumption.
  assert (O : forall i, (i < 3)%nat -> m <= outer_value D (first_order_edges q) b (3 * k + i) <= M).
  { intros i Hi. unfold outer_value. destruct (Z.ltb_spec (a_neighbours D (3 * k + i)) 0); [apply HB |].
    destruct (NB (3 * k + i)%nat ltac:(lia) H) as [B1 B2]. unfold a_partner.
    rewrite first_order_edges_at by assumption. apply in_range_nth; [assumption | lia]. }
  set (w := fun i => normal_velocity D (3 * k + i) * a_edgelengths D (3 * k + i)).
  assert (LP : forall i, (i < 3)%nat -> 0 < a_edgelengths D (3 * k + i)) by (intros; apply (ct_length D C); lia).
  assert (F : flux_sum D (first_order_edges q) b k =
    - (if Rltb (w 0%nat) 0 then outer_value D (first_order_edges q) b (3 * k + 0) * w 0%nat else nth k q 0 * w 0%nat) -
      (if Rltb (w 1%nat) 0 then outer_value D (first_order_edges q) b (3 * k + 1) * w 1%nat else nth k q 0 * w 1%nat) -
      (if Rltb (w 2%nat) 0 then outer_value D (first_order_edges q) b (3 * k + 2) * w 2%nat else nth k q 0 * w 2%nat)).
  { unfold flux_sum, edge_flux. rewrite !first_order_edges_at by lia. unfold w.
    rewrite !scale_upwind by (apply LP; lia). reflexivity. }
  pose proof (ct_area D C k Hn) as HA.
  set (s := - (if Rltb (w 0%nat) 0 then outer_value D (first_order_edges q) b (3 * k + 0) * w 0%nat else nth k q 0 * w 0%nat) -
      (if Rltb (w 1%nat) 0 then outer_value D (first_order_edges q) b (3 * k + 1) * w 1%nat else nth k q 0 * w 1%nat) -
      (if Rltb (w 2%nat) 0 then outer_value D (first_order_edges q) b (3 * k + 2) * w 2%nat else nth k q 0 * w 2%nat)) in *.
  rewrite F. replace (dt * (s / a_areas D k)) with (dt / a_areas D k * s) by (unfold Rdiv; ring). unfold s.
  assert (W : w 0%nat + w 1%nat + w 2%nat = 0) by (apply (closed_velocity D k C Hn)).
  apply upwind_combination; try (apply O; lia); try assumption.
  - apply Rmult_le_pos; [lra |]. now apply Rlt_le, Rinv_0_lt_compat.
  - assert (HW : dt * (Rabs (w 0%nat) + Rabs (w 1%nat) + Rabs (w 2%nat)) <= 2 * a_areas D k).
    { destruct (RF k Hn) as [R0 R1].
      assert (B : forall i, (i < 3)%nat -> dt * Rabs (w i) <= a_radii D k * a_edgelengths D (3 * k + i)).
      { intros i Hi. unfold w. rewrite Rabs_mult, (Rabs_right (a_edgelengths D (3 * k + i))) by (specialize (LP i Hi); lra).
        specialize (LP i Hi). rewrite <- Rmult_assoc. apply Rmult_le_compat_r; [lra |].
        destruct (Req_dec (normal_velocity D (3 * k + i)) 0) as [Z | NZ].
        - rewrite Z, Rabs_R0, Rmult_0_r. assumption.
        - destruct (C83_timestep D (first_order_edges q) b huge mt (fun _ => 0) ltac:(lia)) as (_ & _ & T & _).
          assert (CR : crossed D k i) by (split; [assumption | split; [assumption | split; [now apply AF | assumption]]]).
          specialize (T k i CR). fold (flux_timestep D huge mt b q) in T.
          pose proof (Rabs_pos_lt _ NZ) as P.
          apply Rle_trans with (a_radii D k / Rabs (normal_velocity D (3 * k + i)) * Rabs (normal_velocity D (3 * k + i))).
          + apply Rmult_le_compat_r; lra.
          + right. field. lra. }
      pose proof (B 0%nat ltac:(lia)). pose proof (B 1%nat ltac:(lia)). pose proof (B 2%nat ltac:(lia)). lra. }
    rewrite <- (inflow_half _ _ _ W) in HW.
    set (p := Rmax 0 (- w 0%nat) + Rmax 0 (- w 1%nat) + Rmax 0 (- w 2%nat)) in *.
    replace (dt / a_areas D k * p) with (dt * p / a_areas D k) by (field; lra).
    apply Rmult_le_reg_r with (a_areas D k); [assumption |]. unfold Rdiv. rewrite Rmult_assoc, Rinv_l by lra. lra.
  - now apply in_range_nth; [| lia].
Qed.

Lemma saxpy_in_range m M a b q r : 0 <= a -> 0 <= b -> length r = length q ->
  in_range m M q -> in_range m M r -> in_range ((a + b) * m) ((a + b) * M) (saxpy a b q r).
Proof.
  intros Ha Hb E Hq Hr. apply nth_in_range. intros k Hk. unfold saxpy in *. rewrite map2_length in Hk by assumption.
  rewrite (map2_nth _ 0 0) by assumption.
  pose proof (in_range_nth m M q k Hq Hk). assert (Hk' : (k < length r)%nat) by lia.
  pose proof (in_range_nth m M r k Hr Hk'). nra.
Qed.

Lemma flux_timestep_any D huge mt b q b' q' : flux_timestep D huge mt b q = flux_timestep D huge mt b' q'.
Proof.
  unfold flux_timestep. now rewrite !compute_fluxes_step.
Qed.

Section MaximumPrinciple.
Variable D : adomain.
Variables m M huge mt : R.
Hypothesis C : closed_triangles D.
Hypothesis RF : radii_fit D.
Hypothesis AF : all_full D.
Hypothesis NB : forall e, (e < 3 * a_n D)%nat -> interior D e ->
     (Z.to_nat (a_neighbours D e) < a_n D /\ a_neighbour_edges D e < 3)%nat.

Lemma step_in_range method b0 b1 b2 dt q :
  length q = a_n D -> 0 <= dt <= flux_timestep D huge mt b0 q ->
  in_range m M q -> (forall j, m <= b0 j <= M) -> (forall j, m <= b1 j <= M) -> (forall j, m <= b2 j <= M) ->
  in_range m M (step D method b0 b1 b2 dt q) /\ length (step D method b0 b1 b2 dt q) = a_n D.
Proof using C RF AF NB.
  intros E Hdt HR H0 H1 H2.
  assert (Q : forall b r, length r = a_n D -> in_range m M r -> (forall j, m <= b j <= M) ->
            in_range m M (euler D b dt r) /\ length (euler D b dt r) = a_n D).
  { intros b r Er Hr Hb. split; [| rewrite euler_length; assumption].
    apply (euler_in_range D m M b dt r huge mt); try assumption. now rewrite (flux_timestep_any D huge mt b r b0 q). }
  destruct method; unfold step.
  - now apply Q.
  - destruct (Q b0 q E HR H0) as [A1 A2]. destruct (Q b1 _ A2 A1 H1) as [B1 B2].
    assert (L : length q = length (euler D b1 dt (euler D b0 dt q))) by lia.
    split; [| unfold saxpy; rewrite map2_length; lia].
    pose proof (saxpy_in_range m M (1/2) (1/2) _ q ltac:(lra) ltac:(lra) L B1 HR) as S1.
    intros x Hx. specialize (S1 x Hx). lra.
  - destruct (Q b0 q E HR H0) as [A1 A2]. destruct (Q b1 _ A2 A1 H1) as [B1 B2].
    assert (L : length q = length (euler D b1 dt (euler D b0 dt q))) by lia.
    pose proof (saxpy_in_range m M (1/4) (3/4) _ q ltac:(lra) ltac:(lra) L B1 HR) as S1.
    set (q1 := saxpy (1/4) (3/4) (euler D b1 dt (euler D b0 dt q)) q) in *.
    assert (L1 : length q1 = a_n D) by (unfold q1, saxpy; rewrite map2_length; lia).
    assert (R1 : in_range m M q1) by (intros x Hx; specialize (S1 x Hx); lra).
    destruct (Q b2 q1 L1 R1 H2) as [C1 C2].
    assert (L2 : length q = length (euler D b2 dt q1)) by lia.
    pose proof (saxpy_in_range m M 2 1 _ q ltac:(lra) ltac:(lra) L2 C1 HR) as S2.
    split.
    + intros x Hx. apply in_map_iff in Hx as (y & <- & Hy). specialize (S2 y Hy). lra.
    + rewrite map_length. unfold saxpy. rewrite map2_length; lia.
Qed.

Lemma run_in_range method ss : forall q, length q = a_n D -> in_range m M q ->
  (forall s, In s ss -> 0 <= sd_dt s <= flux_timestep D huge mt (fun _ => 0) [] /\
     forall j, m <= sd_b0 s j <= M /\ m <= sd_b1 s j <= M /\ m <= sd_b2 s j <= M) ->
  in_range m M (run D method ss q).
Proof using C RF AF NB.
  induction ss as [| s ss IH]; intros q E HR H; [exact HR |]. cbn [run fold_left].
  destruct (H s (or_introl eq_refl)) as [Hdt Hb].
  destruct (step_in_range method (sd_b0 s) (sd_b1 s) (sd_b2 s) (sd_dt s) q) as [S1 S2]; try assumption; try (apply Hb).
  - now rewrite (flux_timestep_any D huge mt (sd_b0 s) q (fun _ => 0) []).
  - apply IH; [exact S2 | exact S1 |]. intros s' Hs'. apply H. now right.
Qed.
End MaximumPrinciple.

(** For every number of steps of each of the three time stepping schemes,
    with steps no longer than the one that the flux computation returns: the
    values stay in every interval that contains the initial and all boundary
    values, provided that the radii are at most those of the inscribed
    circles. *)
Theorem C83_maximum_principle_partial :
  forall D m M huge mt method ss q,
  closed_triangles D -> radii_fit D -> all_full D ->
  (forall e, (e < 3 * a_n D)%nat -> interior D e ->
     (Z.to_nat (a_neighbours D e) < a_n D /\ a_neighbour_edges D e < 3)%nat) ->
  length q = a_n D -> in_range m M q ->
  (forall s, In s ss -> 0 <= sd_dt s <= flux_timestep D huge mt (fun _ => 0) [] /\
     forall j, m <= sd_b0 s j <= M /\ m <= sd_b1 s j <= M /\ m <= sd_b2 s j <= M) ->
  in_range m M (run D method ss q).
Proof. intros. now apply (run_in_range D m M huge mt). Qed.
Print Assumptions C83_maximum_principle_partial.

(** The time step does not depend on the state: the bound of the theorem is
    the one of every step. *)
Theorem C83_timestep_independent :
  forall D huge mt b q, flux_timestep D huge mt b q = flux_timestep D huge mt (fun _ => 0) [].
Proof. intros. apply flux_timestep_any. Qed.
Print Assumptions C83_timestep_independent.

(** *** Meshes of the constructor *)

(** The arrays that [General_mesh] computes from vertex coordinates, with
    either kind of radius. *)
Definition tri6 := (R * R * R * R * R * R)%type.
Definition on_tri {A} (f : R -> R -> R -> R -> R -> R -> A) (t : tri6) : A :=
  let '(x0, y0, x1, y1, x2, y2) := t in f x0 y0 x1 y1 x2 y2.
Definition mesh_domain (inscribed : bool) (N : nat) (tri : nat -> tri6) (nb : nat -> Z) (ne : nat -> nat) (v1 v2 : R) : adomain :=
  ADomain N nb ne
    (fun e => fst (on_tri normal (tri (e / 3)%nat) (e mod 3)))
    (fun e => snd (on_tri normal (tri (e / 3)%nat) (e mod 3)))
    (fun k => on_tri area (tri k))
    (fun k => if inscribed then on_tri radius_inscribed (tri k) else on_tri radius_old (tri k))
    (fun e => on_tri edgelength (tri (e / 3)%nat) (e mod 3))
    (fun _ => 1%Z) v1 v2.

Lemma div3 k i : (i < 3)%nat -> ((3 * k + i) / 3 = k /\ (3 * k + i) mod 3 = i)%nat.
Proof.
  intros H. split.
  - rewrite Nat.mul_comm, Nat.div_add_l by lia. rewrite Nat.div_small by lia. lia.
  - rewrite Nat.add_comm, Nat.mul_comm, Nat.mod_add by lia. now apply Nat.mod_small.
Qed.

Theorem C83_constructor_meshes :
  forall inscribed N tri nb ne v1 v2,
  (forall k, (k < N)%nat -> 0 < on_tri area (tri k)) ->
  let D := mesh_domain inscribed N tri nb ne v1 v2 in
  closed_triangles D /\ all_full D /\ (inscribed = true -> radii_fit D).
Proof.
  intros inscribed N tri nb ne v1 v2 HA D.
  assert (HC : forall k x0 y0 x1 y1 x2 y2, (k < N)%nat -> tri k = (x0, y0, x1, y1, x2, y2) -> 0 < cross_half x0 y0 x1 y1 x2 y2).
  { intros k x0 y0 x1 y1 x2 y2 Hk E. specialize (HA k Hk). rewrite E in HA. cbn in HA.
    now rewrite (proj1 (C07_area _ _ _ _ _ _)) in HA. }
  assert (LP : forall k i, (k < N)%nat -> (i < 3)%nat -> 0 < a_edgelengths D (3 * k + i)).
  { intros k i Hk Hi. unfold D, mesh_domain. cbn [a_edgelengths].
    destruct (div3 k i Hi) as [-> ->]. destruct (tri k) as [[[[[x0 y0] x1] y1] x2] y2] eqn:E. cbn [on_tri].
    now apply (C07_normals_unit_outward x0 y0 x1 y1 x2 y2 i (HC _ _ _ _ _ _ _ Hk E) Hi). }
  split; [| split; [now intros k _ |]].
  - constructor.
    + intros e He. pose proof (Nat.div_mod e 3 ltac:(lia)) as E.
      assert (Hm : (e mod 3 < 3)%nat) by (apply Nat.mod_upper_bound; lia).
      rewrite E. apply LP; [| assumption]. apply Nat.div_lt_upper_bound; [lia |]. exact He.
    + intros k Hk. now apply HA.
    + intros k Hk. unfold D, mesh_domain. cbn [a_edgelengths a_nx a_ny].
      destruct (div3 k 0 ltac:(lia)) as [-> ->]. destruct (div3 k 1 ltac:(lia)) as [-> ->].
      destruct (div3 k 2 ltac:(lia)) as [-> ->].
      destruct (tri k) as [[[[[x0 y0] x1] y1] x2] y2] eqn:E. cbn [on_tri].
      apply (C07_normals_closed x0 y0 x1 y1 x2 y2). exact (HC _ _ _ _ _ _ _ Hk E).
  - intros -> k Hk. unfold D, mesh_domain. cbn [a_edgelengths a_radii a_areas].
    destruct (div3 k 0 ltac:(lia)) as [-> ->]. destruct (div3 k 1 ltac:(lia)) as [-> ->].
    destruct (div3 k 2 ltac:(lia)) as [-> ->].
    destruct (tri k) as [[[[[x0 y0] x1] y1] x2] y2] eqn:E. cbn [on_tri edgelength].
    pose proof (HC _ _ _ _ _ _ _ Hk E) as H.
    split; [apply Rlt_le; now apply C07_radius_positive |].
    unfold radius_inscribed, l0, l1, l2.
    replace ((x2 - x1) ^ 2 + (y2 - y1) ^ 2) with ((x1 - x2) ^ 2 + (y1 - y2) ^ 2) by ring.
    replace ((x0 - x2) ^ 2 + (y0 - y2) ^ 2) with ((x2 - x0) ^ 2 + (y2 - y0) ^ 2) by ring.
    replace ((x1 - x0) ^ 2 + (y1 - y0) ^ 2) with ((x0 - x1) ^ 2 + (y0 - y1) ^ 2) by ring.
    destruct (C07_normals_unit_outward x0 y0 x1 y1 x2 y2 0 H ltac:(lia)) as (_ & P & _).
    cbn [edgelength] in P. unfold l0 in P.
    replace ((x2 - x1) ^ 2 + (y2 - y1) ^ 2) with ((x1 - x2) ^ 2 + (y1 - y2) ^ 2) in P by ring.
    pose proof (sqrt_pos ((x0 - x1) ^ 2 + (y0 - y1) ^ 2)). pose proof (sqrt_pos ((x2 - x0) ^ 2 + (y2 - y0) ^ 2)).
    right. field. lra.
Qed.
Print Assumptions C83_constructor_meshes.

(** With [use_inscribed_circle]: the maximum principle for every mesh that the
    constructor accepts. *)
Theorem C83_maximum_principle_inscribed_partial :
  forall N tri nb ne v1 v2 m M huge mt method ss q,
  let D := mesh_domain true N tri nb ne v1 v2 in
  (forall k, (k < N)%nat -> 0 < on_tri area (tri k)) ->
  (forall e, (e < 3 * N)%nat -> (0 <= nb e)%Z -> (Z.to_nat (nb e) < N /\ ne e < 3)%nat) ->
  length q = N -> in_range m M q ->
  (forall s, In s ss -> 0 <= sd_dt s <= flux_timestep D huge mt (fun _ => 0) [] /\
     forall j, m <= sd_b0 s j <= M /\ m <= sd_b1 s j <= M /\ m <= sd_b2 s j <= M) ->
  in_range m M (run D method ss q).
Proof.
  intros N tri nb ne v1 v2 m M huge mt method ss q D HA HN E HR HS.
  destruct (C83_constructor_meshes true N tri nb ne v1 v2 HA) as (C & AF & RF).
  apply (C83_maximum_principle_partial D m M huge mt); try assumption. now apply RF.
Qed.
Print Assumptions C83_maximum_principle_inscribed_partial.

(** *** The default radii *)

(** One triangle (0,0), (4,0), (1,1/12), velocity (1,0) (the default), all
    neighbours boundary edges with value 0, initial value 1. *)
Definition thin : tri6 := (0, 0, 4, 0, 1, 1/12).
Definition thin_domain : adomain := mesh_domain false 1 (fun _ => thin) (fun _ => (-1)%Z) (fun _ => 0%nat) 1 0.

Lemma thin_area : on_tri area thin = 1/6.
Proof. cbn. unfold area. lra. Qed.

Lemma sqrt_ge a x : 0 <= a -> a * a <= x -> a <= sqrt x.
Proof. intros Ha H. rewrite <- (sqrt_square a) by assumption. apply sqrt_le_1_alt. exact H. Qed.
Lemma sqrt_le a x : 0 <= a -> x <= a * a -> sqrt x <= a.
Proof. intros Ha H. rewrite <- (sqrt_square a) by assumption. now apply sqrt_le_1_alt. Qed.

Lemma thin_radius : 1/3 <= on_tri radius_old thin.
Proof.
  cbn. unfold radius_old, mid_dist, centroid. cbn [fst snd].
  repeat apply Rmin_glb; apply sqrt_ge; lra.
Qed.

(** The step that compute_fluxes returns takes the value from 1 to -1 or less,
    although all data are between 0 and 1. *)
Theorem C83_default_radii_refuted :
  let dt := flux_timestep thin_domain (10^10) 1000 (fun _ => 0) [1] in
  0 < on_tri area thin /\ 0 < dt /\
  in_range 0 1 [1] /\
  exists x, euler thin_domain (fun _ => 0) dt [1] = [x] /\ x <= -1.
Proof.
  intros dt. split; [rewrite thin_area; lra |].
  assert (V0 : normal_velocity thin_domain 0 = (1/12) / l0 4 0 1 (1/12)).
  { unfold normal_velocity, thin_domain, mesh_domain. cbn. unfold Rdiv. ring. }
  assert (V1 : normal_velocity thin_domain 1 = - (1/12) / l1 0 0 1 (1/12)).
  { unfold normal_velocity, thin_domain, mesh_domain. cbn. unfold Rdiv. ring. }
  assert (V2 : normal_velocity thin_domain 2 = 0).
  { unfold normal_velocity, thin_domain, mesh_domain. cbn. unfold Rdiv. ring. }
  assert (L0 : 1 <= l0 4 0 1 (1/12)) by (unfold l0; apply sqrt_ge; lra).
  assert (L1 : 1 <= l1 0 0 1 (1/12)) by (unfold l1; apply sqrt_ge; lra).
  assert (LL : l1 0 0 1 (1/12) <= l0 4 0 1 (1/12)).
  { unfold l0, l1. apply sqrt_le_1_alt. lra. }
  assert (RU : on_tri radius_old thin <= 2).
  { cbn. unfold radius_old. eapply Rle_trans; [apply Rmin_r |]. unfold mid_dist, centroid. cbn [fst snd].
    apply sqrt_le; lra. }
  assert (B : forall l, 1 <= l -> 0 < (1/12) / l <= 1/12).
  { intros l Hl. split; [apply Rdiv_lt_0_compat; lra |].
    apply Rmult_le_reg_r with l; [lra |]. unfold Rdiv at 1. rewrite Rmult_assoc, Rinv_l by lra. lra. }
  pose proof (B _ L0) as B0. pose proof (B _ L1) as B1.
  assert (Hdt : dt >= 4 * l1 0 0 1 (1/12)).
  { unfold dt.
    destruct (C83_timestep thin_domain (first_order_edges [1]) (fun _ => 0) (10^10) 1000 (fun _ => 0)) as (_ & _ & _ & T);
      [cbn; lia |].
    fold (flux_timestep thin_domain (10^10) 1000 (fun _ => 0) [1]) in T.
    assert (L1' : l1 0 0 1 (1/12) <= 2) by (unfold l1; apply sqrt_le; lra).
    destruct T as [-> | [-> | (k & i & (Hk & Hi & _ & Hv) & ->)]]; [lra | lra |].
    cbn in Hk. assert (k = 0%nat) as -> by lia.
    change (a_radii thin_domain 0) with (on_tri radius_old thin).
    pose proof thin_radius as TR.
    assert (G : forall l, 1 <= l -> l1 0 0 1 (1/12) <= l ->
       on_tri radius_old thin / ((1/12) / l) >= 4 * l1 0 0 1 (1/12)).
    { intros l Hl HL. replace (on_tri radius_old thin / (1 / 12 / l)) with (12 * l * on_tri radius_old thin) by (field; lra). nra. }
    destruct i as [| [| [| i]]]; [| | | lia]; cbn [Nat.mul Nat.add].
    - rewrite V0, Rabs_right by lra. apply G; lra.
    - rewrite V1. replace (- (1 / 12) / l1 0 0 1 (1 / 12)) with (- ((1/12) / l1 0 0 1 (1/12))) by (unfold Rdiv; ring).
      rewrite Rabs_Ropp, Rabs_right by lra. apply G; lra.
    - exfalso. apply Hv. exact V2. }
  split; [lra |]. split; [intros x [<- | []]; lra |].
  exists (nth 0 (euler thin_domain (fun _ => 0) dt [1]) 0). split.
  - pose proof (euler_length thin_domain (fun _ => 0) dt [1]) as EL.
    destruct (euler thin_domain (fun _ => 0) dt [1]) as [| x [| y l]]; cbn in EL; try lia. reflexivity.
  - rewrite euler_nth by (cbn; lia). unfold flux_sum, edge_flux. cbn [Nat.mul Nat.add].
    rewrite V0, V1, V2. rewrite (proj2 (Rltb_false ((1/12) / l0 4 0 1 (1/12)) 0)) by lra.
    rewrite (proj2 (Rltb_true (- (1/12) / l1 0 0 1 (1/12)) 0)) by (replace (- (1 / 12) / l1 0 0 1 (1 / 12)) with (- ((1/12) / l1 0 0 1 (1/12))) by (unfold Rdiv; ring); lra).
    rewrite (proj2 (Rltb_false 0 0)) by lra.
    change (first_order_edges [1] 0) with 1. change (first_order_edges [1] 2) with 1.
    change (outer_value thin_domain (first_order_edges [1]) (fun _ => 0) 1) with 0.
    change (a_edgelengths thin_domain 0) with (l0 4 0 1 (1/12)).
    change (a_areas thin_domain 0) with (on_tri area thin). rewrite thin_area.
    change (nth 0 [1] 0) with 1.
    match goal with |- 1 + dt * ?s <= -1 => replace s with (- (1/2)) by (field; lra) end. lra.
Qed.
Print Assumptions C83_default_radii_refuted.

(** A non-trivial run: one triangle with inscribed radius, boundary value 0. *)
Example C83_maximum_principle_example :
  in_range 0 1 (run (mesh_domain true 1 (fun _ => thin) (fun _ => (-1)%Z) (fun _ => 0%nat) 1 0) RK3
    [StageData (fun _ => 0) (fun _ => 0) (fun _ => 0) 0] [1]).
Proof.
  apply (C83_maximum_principle_inscribed_partial 1 (fun _ => thin) (fun _ => (-1)%Z) (fun _ => 0%nat) 1 0 0 1 (10^10) 1000).
  - intros k _. rewrite thin_area. lra.
  - intros; lia.
  - reflexivity.
  - intros x [<- | []]. lra.
  - intros s [<- | []]. cbn [sd_dt sd_b0 sd_b1 sd_b2]. split; [| intros; lra]. split; [lra |].
    set (D := mesh_domain true 1 (fun _ => thin) (fun _ => (-1)%Z) (fun _ => 0%nat) 1 0).
    destruct (C83_timestep D (first_order_edges []) (fun _ => 0) (10^10) 1000 (fun _ => 0)) as (_ & _ & _ & T); [cbn; lia |].
    fold (flux_timestep D (10^10) 1000 (fun _ => 0) []) in T.
    destruct T as [-> | [-> | (k & i & (Hk & _ & _ & Hv) & ->)]]; [lra | lra |].
    apply Rmult_le_pos; [| apply Rlt_le, Rinv_0_lt_compat, Rabs_pos_lt, Hv].
    change (a_radii D k) with (on_tri radius_inscribed thin). apply Rlt_le.
    apply (C07_radius_positive 0 0 4 0 1 (1/12)). unfold cross_half. lra.
Qed.
