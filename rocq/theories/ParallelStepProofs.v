(** Locality of the time step: what the step of a process computes on its own
    triangles is what the step of the undivided domain computes there. *)
From Coq Require Import Reals List ZArith Arith Bool Lia Lra.
From Verif Require Import RealLib ArrayLib CentroidModel CentroidProofs BoundaryModel BoundaryProps FluxModel FluxFunctionProofs
  FluxProofs FluxProps FluxTimestepProps ReconModel ReconProofs RKModel RKProofs StepModel StepProofs ParallelStepModel.
Import ListNotations.
Local Open Scope R_scope.

(** * Edges *)
Lemma div3 k i : (i < 3)%nat -> ((3 * k + i) / 3 = k)%nat.
Proof. intros H. rewrite Nat.mul_comm, Nat.div_add_l by lia. rewrite Nat.div_small by lia. lia. Qed.
Lemma mod3 k i : (i < 3)%nat -> ((3 * k + i) mod 3 = i)%nat.
Proof. intros H. rewrite Nat.add_comm, Nat.mul_comm, Nat.mod_add by lia. apply Nat.mod_small. lia. Qed.
Lemma split3 e : exists k i, (i < 3)%nat /\ (e = 3 * k + i)%nat.
Proof. exists (e / 3)%nat, (e mod 3)%nat. split; [apply Nat.mod_upper_bound; lia|apply Nat.div_mod; lia]. Qed.

(** The two sides of an edge have opposite normals and the same length. *)
Definition shared_edges (D : domain) : Prop := forall e, (e < 3 * number_of_elements D)%nat -> interior D e = true ->
  normal_x D (partner D e) = - normal_x D e /\ normal_y D (partner D e) = - normal_y D e /\
  edgelengths D (partner D e) = edgelengths D e.
Definition no_walls (D : domain) : Prop := forall e, edge_flux_type D e <> 1%Z.

Lemma edge_plain D rw e : no_walls D -> compute_edge D rw e = compute_edge D 0 e.
Proof. intros H. unfold compute_edge. cbv zeta. rewrite (proj2 (Z.eqb_neq _ _) (H e)). reflexivity. Qed.

Lemma partner_div D e : wf_mesh D -> (e < 3 * number_of_elements D)%nat -> interior D e = true ->
  (partner D e / 3 = Z.to_nat (neighbours D e))%nat /\ (Z.to_nat (neighbours D (partner D e)) = e / 3)%nat.
Proof.
  intros W He Hi. destruct (wf_range D W e He Hi) as (A & B). destruct (wf_back D W e He Hi) as (B1 & B2 & B3).
  destruct (wf_range D W _ (partner_lt D W e He Hi) B1) as (R3 & R4).
  split.
  - unfold partner. rewrite Nat.div_add_l by lia. rewrite Nat.div_small by lia. lia.
  - rewrite <- B2 at 2. unfold partner at 2. rewrite Nat.div_add_l by lia. rewrite Nat.div_small by lia. lia.
Qed.

(** An interior edge gives the same from both sides. *)
Lemma edge_swap D e : wf_mesh D -> shared_edges D -> no_walls D ->
  (e < 3 * number_of_elements D)%nat -> interior D e = true ->
  let a := compute_edge D 0 e in let b := compute_edge D 0 (partner D e) in
  er_flux b = vneg (er_flux a) /\ er_pg_n b = er_pg_k a /\ er_speed b = er_speed a.
Proof.
  intros W Sh Nw He Hi. cbv zeta. destruct (wf_back D W e He Hi) as (B1 & B2 & _).
  destruct (partner_div D e W He Hi) as (P1 & P2). destruct (Sh e He Hi) as (N1 & N2 & N3).
  unfold compute_edge. cbv zeta. rewrite (proj2 (Z.eqb_neq _ _) (Nw e)), (proj2 (Z.eqb_neq _ _) (Nw (partner D e))).
  rewrite Hi, B1, B2, P1, P2, N1, N2, N3. rewrite (Rmax_comm (bed_edge D (partner D e))).
  rewrite flux_function_swap. cbv zeta. cbn [er_flux er_pg_n er_pg_k er_speed fst snd f_edge f_speed f_pressure].
  split; [|split; reflexivity]. unfold vneg. cbn [FluxModel.c0 FluxModel.c1 FluxModel.c2]. f_equal; ring.
Qed.

Lemma vneg_vneg v : vneg (vneg v) = v.
Proof. destruct v. unfold vneg. cbn [FluxModel.c0 FluxModel.c1 FluxModel.c2]. f_equal; ring. Qed.

(** What the flux loop leaves for an edge does not depend on which side was
    visited first. *)
Lemma efw_plain D e : wf_mesh D -> shared_edges D -> no_walls D -> (e < 3 * number_of_elements D)%nat ->
  efw_value D e = vneg (er_flux (compute_edge D 0 e)) /\ pgw_value D e = er_pg_k (compute_edge D 0 e).
Proof.
  intros W Sh Nw He. unfold efw_value, pgw_value, leader, final_edge. rewrite !(edge_plain D (walls_before _ _)) by exact Nw.
  destruct (interior D e) eqn:Hi; cbn [negb orb]; [|split; reflexivity].
  destruct (e <? partner D e)%nat; [split; reflexivity|].
  destruct (edge_swap D e W Sh Nw He Hi) as (A & B & _). rewrite A, B. split; reflexivity.
Qed.

(** * The time step limit, without reference to the order of edges *)

(** The neighbour of a full triangle is full if it comes first. *)
Definition full_first (D : domain) : Prop := forall e, (e < 3 * number_of_elements D)%nat -> interior D e = true ->
  (partner D e < e)%nat -> tri_full_flag D (e / 3) = 1%Z -> tri_full_flag D (partner D e / 3) = 1%Z.

Definition bound_of (D : domain) (e : nat) (b : R) : Prop :=
  (e < 3 * number_of_elements D)%nat /\ tri_full_flag D (e / 3) = 1%Z /\ epsilon D < er_speed (compute_edge D 0 e) /\
  (b = radii D (e / 3) / er_speed (compute_edge D 0 e) \/
   interior D e = true /\ b = radii D (Z.to_nat (neighbours D e)) / er_speed (compute_edge D 0 e)).

Lemma bounds_any D b : wf_mesh D -> shared_edges D -> no_walls D -> full_first D -> (forall e, update_next_flux D e = 1%Z) ->
  (exists e, limiting_edge D e /\ cfl_bound D e b) <-> (exists e, bound_of D e b).
Proof.
  intros W Sh Nw FF U. split.
  - intros (e & (A & _ & _ & B & C) & H). exists e. unfold final_edge, cfl_bound, final_edge in *. rewrite edge_plain in * by exact Nw.
    repeat split; auto.
  - intros (e & A & B & C & H).
    destruct (interior D e) eqn:Hi; [destruct (Nat.lt_ge_cases e (partner D e)) as [Lt|Ge]|].
    + exists e. unfold limiting_edge, cfl_bound, final_edge. rewrite edge_plain by exact Nw. rewrite Hi. repeat split; auto.
    + destruct (wf_back D W e A Hi) as (B1 & B2 & B3). destruct (partner_div D e W A Hi) as (P1 & P2).
      destruct (edge_swap D e W Sh Nw A Hi) as (_ & _ & Sp).
      exists (partner D e). unfold limiting_edge, cfl_bound, final_edge. rewrite !edge_plain by exact Nw.
      rewrite Sp, B1, B2, P2. assert (Lt : (partner D e < e)%nat) by lia.
      split; [|rewrite P1; tauto]. refine (conj (partner_lt D W e A Hi) (conj (U _) (conj (or_intror Lt) (conj _ C)))).
      apply FF; auto.
    + exists e. unfold limiting_edge, cfl_bound, final_edge. rewrite edge_plain by exact Nw. rewrite Hi. repeat split; auto.
Qed.

(** * A part of the mesh *)

(** Facts about one domain: arrays derived from the neighbour structure, no
    riverwalls, default switches. *)
Record mesh_ok (C : config) : Prop := {
  mo_wf : wf_mesh (cf_dom C);
  mo_shared : shared_edges (cf_dom C);
  mo_self : forall k i, (k < N C)%nat -> (i < 3)%nat -> interior (cf_dom C) (3 * k + i) = true ->
    Z.to_nat (neighbours (cf_dom C) (3 * k + i)) <> k;
  mo_elements : r_number_of_elements (cf_rec C) = N C;
  mo_surrogate : forall k i, (k < N C)%nat -> (i < 3)%nat -> r_surrogate (cf_rec C) (3 * k + i)%nat =
    if interior (cf_dom C) (3 * k + i) then Z.to_nat (neighbours (cf_dom C) (3 * k + i)) else k;
  mo_boundaries : forall k, (k < N C)%nat -> r_number_of_boundaries (cf_rec C) k =
    Z.of_nat (length (filter (fun i => negb (interior (cf_dom C) (3 * k + i))) [0; 1; 2]%nat));
  mo_walls : no_walls (cf_dom C);
  mo_update : (forall e, update_next_flux (cf_dom C) e = 1%Z) /\ (forall k, r_update (cf_rec C) k = 1%Z);
  mo_velocity : r_velocity (cf_rec C) = 1%Z;
  mo_increase : allow_timestep_increase (cf_dom C) = 1%Z }.

(** Triangle [j] of the part [L] is triangle [up j] of [C]; the first [nf] are
    the full triangles of the part. *)
Record submesh (C L : config) (up : nat -> nat) (nf : nat) : Prop := {
  sm_full : (nf <= N L)%nat;
  sm_range : forall j, (j < N L)%nat -> (up j < N C)%nat;
  sm_inj : forall j j', (j < N L)%nat -> (j' < N L)%nat -> up j = up j' -> j = j';
  sm_flag : forall j, (j < N L)%nat -> tri_full_flag (cf_dom L) j = if (j <? nf)%nat then 1%Z else 0%Z;
  (* settings *)
  sm_epsilon : epsilon (cf_dom L) = epsilon (cf_dom C);
  sm_g : g (cf_dom L) = g (cf_dom C);
  sm_froude : low_froude (cf_dom L) = low_froude (cf_dom C);
  sm_fluxcalls : timestep_fluxcalls (cf_dom L) = timestep_fluxcalls (cf_dom C);
  sm_sloped : cf_sloped L = cf_sloped C;
  sm_mah : mah L = mah C;
  sm_beta_w : r_beta_w (cf_rec L) = r_beta_w (cf_rec C) /\ r_beta_w_dry (cf_rec L) = r_beta_w_dry (cf_rec C);
  sm_beta_uh : r_beta_uh (cf_rec L) = r_beta_uh (cf_rec C) /\ r_beta_uh_dry (cf_rec L) = r_beta_uh_dry (cf_rec C);
  sm_beta_vh : r_beta_vh (cf_rec L) = r_beta_vh (cf_rec C) /\ r_beta_vh_dry (cf_rec L) = r_beta_vh_dry (cf_rec C);
  (* triangles *)
  sm_areas : forall j, (j < N L)%nat -> areas (cf_dom L) j = areas (cf_dom C) (up j);
  sm_radii : forall j, (j < N L)%nat -> radii (cf_dom L) j = radii (cf_dom C) (up j);
  sm_bed : forall j, (j < N L)%nat -> bed L j = bed C (up j);
  sm_centre : forall j, (j < N L)%nat -> r_cx (cf_rec L) j = r_cx (cf_rec C) (up j) /\ r_cy (cf_rec L) j = r_cy (cf_rec C) (up j);
  sm_eta : forall j, (j < N L)%nat -> cf_eta L j = cf_eta C (up j);
  sm_x : forall j, (j < N L)%nat -> cf_x L j = cf_x C (up j);
  (* edges *)
  sm_normal : forall j i, (j < N L)%nat -> (i < 3)%nat ->
    normal_x (cf_dom L) (3 * j + i) = normal_x (cf_dom C) (3 * up j + i) /\
    normal_y (cf_dom L) (3 * j + i) = normal_y (cf_dom C) (3 * up j + i);
  sm_length : forall j i, (j < N L)%nat -> (i < 3)%nat ->
    edgelengths (cf_dom L) (3 * j + i) = edgelengths (cf_dom C) (3 * up j + i);
  sm_mid : forall j i, (j < N L)%nat -> (i < 3)%nat ->
    r_ex (cf_rec L) (3 * j + i)%nat = r_ex (cf_rec C) (3 * up j + i)%nat /\
    r_ey (cf_rec L) (3 * j + i)%nat = r_ey (cf_rec C) (3 * up j + i)%nat;
  (* neighbours within the part are neighbours *)
  sm_neighbour : forall j i, (j < N L)%nat -> (i < 3)%nat -> interior (cf_dom L) (3 * j + i) = true ->
    neighbours (cf_dom C) (3 * up j + i) = Z.of_nat (up (Z.to_nat (neighbours (cf_dom L) (3 * j + i)))) /\
    neighbour_edges (cf_dom C) (3 * up j + i) = neighbour_edges (cf_dom L) (3 * j + i);
  (* two layers of ghosts: the neighbours of full triangles and of their
     neighbours are in the part *)
  sm_layer1 : forall j i, (j < nf)%nat -> (i < 3)%nat ->
    interior (cf_dom C) (3 * up j + i) = true -> interior (cf_dom L) (3 * j + i) = true;
  sm_layer2 : forall j i i', (j < nf)%nat -> (i < 3)%nat -> (i' < 3)%nat -> interior (cf_dom L) (3 * j + i) = true ->
    let j' := Z.to_nat (neighbours (cf_dom L) (3 * j + i)) in
    interior (cf_dom C) (3 * up j' + i') = true -> interior (cf_dom L) (3 * j' + i') = true;
  (* boundary edges of full triangles have the same boundary object *)
  sm_boundary : forall j i, (j < nf)%nat -> (i < 3)%nat -> interior (cf_dom C) (3 * up j + i) = false ->
    let b := Z.to_nat (- neighbours (cf_dom L) (3 * j + i) - 1) in
    let b' := Z.to_nat (- neighbours (cf_dom C) (3 * up j + i) - 1) in
    cf_cells L b = j /\ cf_edges L b = i /\ cf_cells C b' = up j /\ cf_edges C b' = i /\
    exists o, o <> NoBoundary /\
      (exists ids, In (o, ids) (cf_segments L) /\ In b ids) /\ (forall o' ids, In (o', ids) (cf_segments L) -> In b ids -> o' = o) /\
      (exists ids, In (o, ids) (cf_segments C) /\ In b' ids) /\ (forall o' ids, In (o', ids) (cf_segments C) -> In b' ids -> o' = o) }.

Section Local.
Variables C L : config.
Variable up : nat -> nat.
Variable nf : nat.
Hypothesis okC : mesh_ok C.
Hypothesis okL : mesh_ok L.
Hypothesis sub : submesh C L up nf.
Notation n := (N L).

(** Full triangles and their neighbours. *)
Definition near (j : nat) : Prop := (j < nf)%nat \/
  ((j < n)%nat /\ exists k i, (k < nf)%nat /\ (i < 3)%nat /\ interior (cf_dom L) (3 * k + i) = true /\
    j = Z.to_nat (neighbours (cf_dom L) (3 * k + i))).

Lemma near_lt j : near j -> (j < n)%nat.
Proof. intros [H|(H & _)]; auto. pose proof (sm_full _ _ _ _ sub). lia. Qed.

Lemma near_interior j i : near j -> (i < 3)%nat -> interior (cf_dom C) (3 * up j + i) = interior (cf_dom L) (3 * j + i).
Proof.
  intros Hj Hi. pose proof (near_lt j Hj) as Hn. destruct (interior (cf_dom L) (3 * j + i)) eqn:E.
  - destruct (sm_neighbour _ _ _ _ sub j i Hn Hi E) as (A & _). unfold interior. rewrite A. apply Z.leb_le. lia.
  - destruct (interior (cf_dom C) (3 * up j + i)) eqn:F; [|reflexivity]. rewrite <- E. symmetry.
    destruct Hj as [Hj|(_ & k & i' & Hk & Hi' & Ek & ->)].
    + apply (sm_layer1 _ _ _ _ sub); auto.
    + apply (sm_layer2 _ _ _ _ sub k i' i); auto.
Qed.

(** The neighbour of a full triangle is near. *)
Lemma near_neighbour j i : (j < nf)%nat -> (i < 3)%nat -> interior (cf_dom L) (3 * j + i) = true ->
  near (Z.to_nat (neighbours (cf_dom L) (3 * j + i))).
Proof.
  intros Hj Hi E. right. pose proof (sm_full _ _ _ _ sub) as F. split; [|exists j, i; auto].
  apply (wf_range _ (mo_wf L okL)); auto. unfold N in *. lia.
Qed.

(** Surrogate neighbours correspond. *)
Lemma surrogate_lt j i : (j < n)%nat -> (i < 3)%nat -> (r_surrogate (cf_rec L) (3 * j + i) < n)%nat.
Proof.
  intros Hj Hi. rewrite (mo_surrogate L okL) by auto. destruct (interior (cf_dom L) (3 * j + i)) eqn:E; auto.
  apply (wf_range _ (mo_wf L okL)); auto. unfold N in *. lia.
Qed.
Lemma surrogate_inner j i : (j < n)%nat -> (i < 3)%nat -> interior (cf_dom L) (3 * j + i) = true ->
  r_surrogate (cf_rec C) (3 * up j + i) = up (r_surrogate (cf_rec L) (3 * j + i)).
Proof.
  intros Hj Hi E. destruct (sm_neighbour _ _ _ _ sub j i Hj Hi E) as (A & _).
  rewrite (mo_surrogate L okL), (mo_surrogate C okC) by (auto; apply (sm_range _ _ _ _ sub); auto). rewrite E.
  assert (F : interior (cf_dom C) (3 * up j + i) = true) by (unfold interior; rewrite A; apply Z.leb_le; lia).
  rewrite F, A, Nat2Z.id. reflexivity.
Qed.
Lemma surrogate_near j i : near j -> (i < 3)%nat -> r_surrogate (cf_rec C) (3 * up j + i) = up (r_surrogate (cf_rec L) (3 * j + i)).
Proof.
  intros Hj Hi. pose proof (near_lt j Hj) as Hn. destruct (interior (cf_dom L) (3 * j + i)) eqn:E; [apply surrogate_inner; auto|].
  rewrite (mo_surrogate L okL), (mo_surrogate C okC) by (auto; apply (sm_range _ _ _ _ sub); auto).
  rewrite near_interior by auto. rewrite E. reflexivity.
Qed.
Lemma boundaries_near j : near j -> r_number_of_boundaries (cf_rec C) (up j) = r_number_of_boundaries (cf_rec L) j.
Proof.
  intros Hj. pose proof (near_lt j Hj) as Hn.
  rewrite (mo_boundaries L okL), (mo_boundaries C okC) by (auto; apply (sm_range _ _ _ _ sub); auto).
  cbn [filter]. rewrite !near_interior by (auto; lia). reflexivity.
Qed.

Section Values.
Variables (q Q : nat -> R) (x X : StepModel.rest).
Hypothesis hq : forall j, (j < n)%nat -> q j = Q (up j).
Hypothesis hx : forall j, (j < n)%nat -> x_xmom x j = x_xmom X (up j).
Hypothesis hy : forall j, (j < n)%nat -> x_ymom x j = x_ymom X (up j).
Notation I := (recon_of L q x).
Notation J := (recon_of C Q X).

Lemma mah_IJ : r_minimum_allowed_height I = r_minimum_allowed_height J.
Proof. exact (sm_mah _ _ _ _ sub). Qed.

Lemma height1_up j : (j < n)%nat -> height1 I j = height1 J (up j).
Proof.
  intros Hj. unfold height1. cbn [r_velocity r_stage r_bed recon_of]. rewrite (mo_velocity L okL), (mo_velocity C okC).
  cbn [Z.eqb Pos.eqb]. rewrite hq by exact Hj. pose proof (sm_bed _ _ _ _ sub j Hj) as B. unfold bed in B. rewrite B. reflexivity.
Qed.
Lemma wet_up j : (j < n)%nat -> wet_cell I j = wet_cell J (up j).
Proof. intros Hj. unfold wet_cell. rewrite height1_up by exact Hj. rewrite mah_IJ. reflexivity. Qed.
Lemma mom1_up f F j : (j < n)%nat -> f j = F (up j) -> mom1 I f j = mom1 J F (up j) /\ work1 I f j = work1 J F (up j).
Proof.
  intros Hj E. unfold mom1, work1. cbn [r_velocity recon_of]. rewrite (mo_velocity L okL), (mo_velocity C okC).
  cbn [Z.eqb Pos.eqb]. rewrite wet_up, height1_up, E by exact Hj. auto.
Qed.

Lemma dry_side_inner j i : (j < n)%nat -> (i < 3)%nat ->
  r_surrogate (cf_rec C) (3 * up j + i) = up (r_surrogate (cf_rec L) (3 * j + i)) -> dry_side I j i = dry_side J (up j) i.
Proof.
  intros Hj Hi E. unfold dry_side. cbv zeta. cbn [r_surrogate recon_of]. rewrite E.
  pose proof (surrogate_lt j i Hj Hi) as Ls. rewrite height1_up by exact Ls. rewrite mah_IJ. f_equal.
  set (k := r_surrogate (cf_rec L) (3 * j + i)) in *. destruct (Nat.eqb_spec k j) as [->|H]; [symmetry; apply Nat.eqb_refl|].
  symmetry. apply Nat.eqb_neq. intros E'. apply H. apply (sm_inj _ _ _ _ sub); auto.
Qed.
Lemma surrounded_near j : near j -> surrounded I j = surrounded J (up j).
Proof.
  intros Hj. pose proof (near_lt j Hj). unfold surrounded.
  rewrite !(dry_side_inner j) by (auto; try lia; apply surrogate_near; auto; lia). reflexivity.
Qed.

(** If the missing neighbours of a triangle at the rim make a difference, its
    neighbours in the part are dry. *)
Lemma surrounded_rim j i : (j < n)%nat -> (i < 3)%nat -> surrounded I j <> surrounded J (up j) ->
  interior (cf_dom L) (3 * j + i) = true -> height1 I (Z.to_nat (neighbours (cf_dom L) (3 * j + i))) < mah L.
Proof.
  intros Hj Hi Hne Hin.
  assert (D : forall i, (i < 3)%nat -> dry_side I j i = dry_side J (up j) i \/ dry_side I j i = true).
  { intros i' Hi'. destruct (interior (cf_dom L) (3 * j + i')) eqn:E.
    - left. apply dry_side_inner; auto. apply surrogate_inner; auto.
    - right. unfold dry_side. cbv zeta. cbn [r_surrogate recon_of]. rewrite (mo_surrogate L okL) by auto. rewrite E.
      rewrite Nat.eqb_refl. apply orb_true_r. }
  assert (T : dry_side I j i = true).
  { unfold surrounded in Hne.
    pose proof (D 0%nat ltac:(lia)) as D0. pose proof (D 1%nat ltac:(lia)) as D1. pose proof (D 2%nat ltac:(lia)) as D2.
    destruct i as [|[|[|i]]]; try lia;
    destruct (dry_side I j 0), (dry_side I j 1), (dry_side I j 2), (dry_side J (up j) 0), (dry_side J (up j) 1), (dry_side J (up j) 2);
    cbn [andb] in *; try reflexivity; exfalso; destruct D0, D1, D2; try discriminate; apply Hne; reflexivity. }
  unfold dry_side in T. cbv zeta in T. cbn [r_surrogate recon_of] in T. rewrite (mo_surrogate L okL) in T by auto. rewrite Hin in T.
  apply orb_true_iff in T as [T|T].
  - apply Rltb_true in T. exact T.
  - apply Nat.eqb_eq in T. exfalso. exact (mo_self L okL j i Hj Hi Hin T).
Qed.

Lemma mom2_near f F j : near j -> f j = F (up j) -> mom2 I f j = mom2 J F (up j) /\ work2 I f j = work2 J F (up j).
Proof.
  intros Hj E. unfold mom2, work2. rewrite surrounded_near by exact Hj.
  destruct (mom1_up f F j (near_lt j Hj) E) as (-> & ->). auto.
Qed.

(** ** Gradients *)
Lemma nb_up j : near j ->
  (nb0 I j < n)%nat /\ (nb1 I j < n)%nat /\ (nb2 I j < n)%nat /\
  nb0 J (up j) = up (nb0 I j) /\ nb1 J (up j) = up (nb1 I j) /\ nb2 J (up j) = up (nb2 I j).
Proof.
  intros Hj. pose proof (near_lt j Hj) as Hn. unfold nb0, nb1, nb2. cbn [r_surrogate recon_of].
  pose proof (surrogate_lt j 0 Hn ltac:(lia)) as A. pose proof (surrogate_near j 0 Hj ltac:(lia)) as B.
  rewrite Nat.add_0_r in A. rewrite (Nat.add_0_r (3 * j)), (Nat.add_0_r (3 * up j)) in B.
  repeat split; auto; [apply surrogate_lt| apply surrogate_lt|apply surrogate_near|apply surrogate_near]; auto.
Qed.

Lemma centre_up j : (j < n)%nat -> r_cx I j = r_cx J (up j) /\ r_cy I j = r_cy J (up j).
Proof. exact (sm_centre _ _ _ _ sub j). Qed.

Lemma area2_up j : near j -> dx1 I j = dx1 J (up j) /\ dx2 I j = dx2 J (up j) /\ dy1 I j = dy1 J (up j) /\ dy2 I j = dy2 J (up j) /\
  area2 I j = area2 J (up j).
Proof.
  intros Hj. destruct (nb_up j Hj) as (A0 & A1 & A2 & B0 & B1 & B2).
  unfold area2, dx1, dx2, dy1, dy2. rewrite B0, B1, B2.
  destruct (centre_up _ A0) as (-> & ->). destruct (centre_up _ A1) as (-> & ->). destruct (centre_up _ A2) as (-> & ->). auto.
Qed.

Lemma edge_jumps_up j a b : (j < n)%nat -> edge_jumps I j a b = edge_jumps J (up j) a b.
Proof.
  intros Hj. unfold edge_jumps, dxv, dyv. destruct (centre_up _ Hj) as (-> & ->). cbn [r_ex r_ey recon_of].
  destruct (sm_mid _ _ _ _ sub j 0%nat Hj ltac:(lia)) as (-> & ->).
  destruct (sm_mid _ _ _ _ sub j 1%nat Hj ltac:(lia)) as (-> & ->).
  destruct (sm_mid _ _ _ _ sub j 2%nat Hj ltac:(lia)) as (-> & ->). reflexivity.
Qed.

Lemma hfactor_up j : near j -> hfactor I j = hfactor J (up j).
Proof.
  intros Hj. destruct (nb_up j Hj) as (A0 & A1 & A2 & B0 & B1 & B2). unfold hfactor. rewrite B0, B1, B2.
  rewrite !height1_up by (auto; apply near_lt; auto). rewrite mah_IJ. reflexivity.
Qed.

Lemma typical_up v V beta j : near j -> v j = V (up j) -> v (nb0 I j) = V (up (nb0 I j)) -> v (nb1 I j) = V (up (nb1 I j)) ->
  v (nb2 I j) = V (up (nb2 I j)) -> typical_jumps I v beta j = typical_jumps J V beta (up j).
Proof.
  intros Hj E E0 E1 E2. unfold typical_jumps. destruct (Rltb 0 beta); [|reflexivity].
  destruct (nb_up j Hj) as (A0 & A1 & A2 & B0 & B1 & B2). destruct (area2_up j Hj) as (-> & -> & -> & -> & ->).
  rewrite B0, B1, B2, E, E0, E1, E2. rewrite edge_jumps_up by (apply near_lt; auto). reflexivity.
Qed.
Lemma single_up v V j k : (j < n)%nat -> (k < n)%nat -> v j = V (up j) -> v k = V (up k) ->
  single_jumps I v j k = single_jumps J V (up j) (up k).
Proof.
  intros Hj Hk E E'. unfold single_jumps. cbv zeta. rewrite E, E'.
  destruct (centre_up _ Hj) as (-> & ->). destruct (centre_up _ Hk) as (-> & ->). rewrite !edge_jumps_up by auto.
  cbn [r_beta_w recon_of]. rewrite (proj1 (sm_beta_w _ _ _ _ sub)). reflexivity.
Qed.
Lemma internal_up j : near j -> internal_neighbour J (up j) = option_map up (internal_neighbour I j).
Proof.
  intros Hj. pose proof (near_lt j Hj) as Hn. destruct (nb_up j Hj) as (A0 & A1 & A2 & B0 & B1 & B2). unfold internal_neighbour. rewrite B0, B1, B2.
  assert (E : forall a, (a < n)%nat -> (up a =? up j)%nat = (a =? j)%nat).
  { intros a Ha. destruct (Nat.eqb_spec a j) as [->|H]; [apply Nat.eqb_refl|]. apply Nat.eqb_neq. intros E. apply H.
    apply (sm_inj _ _ _ _ sub); auto. }
  rewrite !E by auto. destruct (nb0 I j =? j)%nat; cbn [negb]; [|reflexivity].
  destruct (nb1 I j =? j)%nat; cbn [negb]; [|reflexivity]. destruct (nb2 I j =? j)%nat; reflexivity.
Qed.
Lemma internal_lt j k : (j < n)%nat -> internal_neighbour I j = Some k -> (k < n)%nat /\ (k = nb0 I j \/ k = nb1 I j \/ k = nb2 I j).
Proof.
  intros Hj. unfold internal_neighbour, nb0, nb1, nb2. cbn [r_surrogate recon_of].
  pose proof (surrogate_lt j 0 Hj ltac:(lia)) as A0. rewrite Nat.add_0_r in A0.
  pose proof (surrogate_lt j 1 Hj ltac:(lia)) as A1. pose proof (surrogate_lt j 2 Hj ltac:(lia)) as A2.
  destruct (negb (_ =? j)%nat); [intros E; injection E as <-; auto|].
  destruct (negb (_ =? j)%nat); [intros E; injection E as <-; auto|].
  destruct (negb (_ =? j)%nat); [intros E; injection E as <-; auto|]. discriminate.
Qed.

(** A quantity that corresponds on a near triangle and its neighbours. *)
Lemma cell_jumps_up v V beta beta_dry j : near j -> v j = V (up j) ->
  v (nb0 I j) = V (up (nb0 I j)) -> v (nb1 I j) = V (up (nb1 I j)) -> v (nb2 I j) = V (up (nb2 I j)) ->
  cell_jumps I v beta beta_dry j = cell_jumps J V beta beta_dry (up j).
Proof.
  intros Hj E E0 E1 E2. unfold cell_jumps. cbn [r_number_of_boundaries recon_of]. rewrite boundaries_near by exact Hj.
  destruct (_ =? 3)%Z; [reflexivity|]. destruct (_ <=? 1)%Z.
  - destruct (area2_up j Hj) as (_ & _ & _ & _ & ->). destruct (Rleb _ _); [reflexivity|].
    rewrite hfactor_up by exact Hj. f_equal. apply typical_up; auto.
  - rewrite internal_up by exact Hj. destruct (internal_neighbour I j) as [k|] eqn:K; cbn [option_map]; [|reflexivity].
    destruct (internal_lt j k (near_lt j Hj) K) as (Hk & [-> |[-> | ->]]); f_equal; apply single_up; auto; apply near_lt; auto.
Qed.

(** In a dry triangle the order is reduced. *)
Lemma hfactor_dry j : 0 < mah L -> height1 I j < mah L -> hfactor I j = 0.
Proof.
  intros Hm H. unfold hfactor. cbv zeta. change (r_minimum_allowed_height I) with (mah L).
  match goal with |- Rmin ?a (Rmax 0 ?b) = 0 => set (hf := Rmax 0 b); assert (0 <= hf) by apply Rmax_l end. clearbody hf.
  match goal with |- context [Rmin ?a (height1 I j)] => set (hmin := Rmin a (height1 I j)); assert (hmin <= height1 I j) by apply Rmin_r end.
  rewrite (Rmax_right (hmin - mah L) 0) by lra. unfold Rdiv. rewrite Rmult_0_r, Rmult_0_l. apply Rmin_left. exact H0.
Qed.

(** The other side of an edge within the part. *)
Lemma back_edge j i : (j < n)%nat -> (i < 3)%nat -> interior (cf_dom L) (3 * j + i) = true ->
  let m := Z.to_nat (neighbours (cf_dom L) (3 * j + i)) in
  (m < n)%nat /\ exists i', (i' < 3)%nat /\ interior (cf_dom L) (3 * m + i') = true /\
    Z.to_nat (neighbours (cf_dom L) (3 * m + i')) = j.
Proof.
  intros Hj Hi E m. assert (He : (3 * j + i < 3 * number_of_elements (cf_dom L))%nat) by (unfold N in Hj; lia).
  destruct (wf_range _ (mo_wf L okL) _ He E) as (A & B). split; [exact A|].
  exists (neighbour_edges (cf_dom L) (3 * j + i)). split; [exact B|].
  destruct (wf_back _ (mo_wf L okL) _ He E) as (B1 & _). destruct (partner_div _ _ (mo_wf L okL) He E) as (_ & P2).
  rewrite div3 in P2 by exact Hi. unfold partner in B1, P2. fold m in B1, P2.
  replace (3 * m + neighbour_edges (cf_dom L) (3 * j + i))%nat with (m * 3 + neighbour_edges (cf_dom L) (3 * j + i))%nat by lia.
  auto.
Qed.

Lemma one_inner j a b : (j < n)%nat -> (r_number_of_boundaries (cf_rec L) j <=? 1)%Z = false -> (a < 3)%nat -> (b < 3)%nat ->
  interior (cf_dom L) (3 * j + a) = true -> interior (cf_dom L) (3 * j + b) = true -> a = b.
Proof.
  intros Hj H Ha Hb A B. rewrite (mo_boundaries L okL) in H by exact Hj. apply Z.leb_gt in H. cbn [filter] in H.
  destruct a as [|[|[|a]]], b as [|[|[|b]]]; try lia; rewrite A, B in H;
    destruct (interior (cf_dom L) (3 * j + 0)), (interior (cf_dom L) (3 * j + 1)), (interior (cf_dom L) (3 * j + 2)); cbn in H; lia.
Qed.

Lemma neighbour_agrees f F j i : near j -> (i < 3)%nat -> (forall j, (j < n)%nat -> f j = F (up j)) ->
  let m := r_surrogate (cf_rec L) (3 * j + i) in
  mom2 I f m = mom2 J F (up m) \/ (interior (cf_dom L) (3 * j + i) = true /\ height1 I j < mah L).
Proof.
  intros Hj Hi E m. pose proof (near_lt j Hj) as Hn. pose proof (surrogate_lt j i Hn Hi) as Hm. fold m in Hm.
  destruct (bool_dec (surrounded I m) (surrounded J (up m))) as [Es|Ns].
  - left. unfold mom2. rewrite Es. destruct (mom1_up f F m Hm (E m Hm)) as (-> & _). reflexivity.
  - destruct (interior (cf_dom L) (3 * j + i)) eqn:Hin.
    + right. split; [reflexivity|]. unfold m in *. rewrite (mo_surrogate L okL) in * by auto. rewrite Hin in *.
      destruct (back_edge j i Hn Hi Hin) as (_ & i' & Hi' & Hin' & Eb). rewrite <- Eb.
      apply (surrounded_rim _ i'); auto.
    + exfalso. apply Ns. apply surrounded_near. unfold m. rewrite (mo_surrogate L okL) by auto. rewrite Hin. exact Hj.
Qed.

Lemma mom_jumps_up f F beta j : 0 < mah L -> near j -> (forall j, (j < n)%nat -> f j = F (up j)) ->
  cell_jumps I (mom2 I f) beta 0 j = cell_jumps J (mom2 J F) beta 0 (up j).
Proof.
  intros Hm Hj E. pose proof (near_lt j Hj) as Hn.
  assert (E0 : mom2 I f j = mom2 J F (up j)) by (apply mom2_near; auto).
  assert (A : (mom2 I f (nb0 I j) = mom2 J F (up (nb0 I j)) /\ mom2 I f (nb1 I j) = mom2 J F (up (nb1 I j)) /\
               mom2 I f (nb2 I j) = mom2 J F (up (nb2 I j))) \/ height1 I j < mah L).
  { unfold nb0, nb1, nb2. cbn [r_surrogate recon_of].
    pose proof (neighbour_agrees f F j 0 Hj ltac:(lia) E) as A0. cbv zeta in A0. rewrite (Nat.add_0_r (3 * j)) in A0.
    pose proof (neighbour_agrees f F j 1 Hj ltac:(lia) E) as A1. pose proof (neighbour_agrees f F j 2 Hj ltac:(lia) E) as A2.
    cbv zeta in A1, A2. tauto. }
  destruct A as [(A0 & A1 & A2)|Dry]; [apply cell_jumps_up; auto|].
  unfold cell_jumps. cbn [r_number_of_boundaries recon_of]. rewrite boundaries_near by exact Hj.
  destruct (_ =? 3)%Z; [reflexivity|]. destruct (r_number_of_boundaries (cf_rec L) j <=? 1)%Z eqn:Nb.
  - destruct (area2_up j Hj) as (_ & _ & _ & _ & ->). destruct (Rleb _ _); [reflexivity|].
    rewrite <- hfactor_up by exact Hj. rewrite hfactor_dry by auto. f_equal. unfold typical_jumps.
    replace (0 + (beta - 0) * 0) with 0 by ring. rewrite (proj2 (Rltb_false 0 0)) by lra. reflexivity.
  - rewrite internal_up by exact Hj. destruct (internal_neighbour I j) as [k|] eqn:K; cbn [option_map]; [|reflexivity].
    destruct (internal_lt j k Hn K) as (Hk & Wh). f_equal. apply single_up; auto.
    (* the only neighbour is near *)
    assert (exists a, (a < 3)%nat /\ k = r_surrogate (cf_rec L) (3 * j + a)%nat) as (a & Ha & ->).
    { unfold nb0, nb1, nb2 in Wh. cbn [r_surrogate recon_of] in Wh. destruct Wh as [-> |[-> | ->]];
      [exists 0%nat; rewrite Nat.add_0_r|exists 1%nat|exists 2%nat]; auto. }
    apply mom2_near; auto. destruct (interior (cf_dom L) (3 * j + a)) eqn:Ia.
    + destruct Hj as [Hf|(_ & k' & i & Hk' & Hi & Ik & ->)].
      * rewrite (mo_surrogate L okL), Ia by auto. apply near_neighbour; auto.
      * destruct (back_edge k' i) as (_ & b & Hb & Ib & Eb); auto; [pose proof (sm_full _ _ _ _ sub); lia|].
        rewrite (one_inner _ a b Hn Nb Ha Hb Ia Ib) in *. rewrite (mo_surrogate L okL), Ib, Eb by auto. left. exact Hk'.
    + rewrite (mo_surrogate L okL), Ia by auto. exact Hj.
Qed.

(** ** Edge values *)
Lemma update_on k : to_update I k = true /\ to_update J k = true.
Proof. unfold to_update. cbn [r_update recon_of]. rewrite (proj2 (mo_update L okL)), (proj2 (mo_update C okC)). auto. Qed.

Lemma extrapolated_up v V old OLD beta beta_dry j i : (i < 3)%nat -> v j = V (up j) ->
  cell_jumps I v beta beta_dry j = cell_jumps J V beta beta_dry (up j) ->
  (cell_jumps I v beta beta_dry j <> None) ->
  extrapolated I v old beta beta_dry (3 * j + i) = extrapolated J V OLD beta beta_dry (3 * up j + i).
Proof.
  intros Hi E K Nn. unfold extrapolated. cbv zeta. rewrite !div3, !mod3 by exact Hi.
  rewrite (proj1 (update_on j)), (proj2 (update_on (up j))). rewrite <- K, E. destruct (cell_jumps I v beta beta_dry j); [reflexivity|congruence].
Qed.

(** No error exit. *)
Lemma jumps_some (c : config) (oc : mesh_ok c) qq xx v beta beta_dry k : (k < N c)%nat ->
  cell_jumps (recon_of c qq xx) v beta beta_dry k <> None.
Proof.
  intros Hk. unfold cell_jumps. cbn [r_number_of_boundaries recon_of].
  destruct (r_number_of_boundaries (cf_rec c) k =? 3)%Z eqn:E3; [discriminate|].
  destruct (_ <=? 1)%Z eqn:E1; [destruct (Rleb _ _); discriminate|].
  destruct (internal_neighbour_some (recon_of c qq xx) k) as (m & ->); [|discriminate].
  rewrite (mo_boundaries c oc) in E3, E1 by exact Hk.
  assert (Ex : exists i, (i < 3)%nat /\ interior (cf_dom c) (3 * k + i) = true).
  { cbn [filter] in E3, E1.
    destruct (interior (cf_dom c) (3 * k + 0)) eqn:I0; [exists 0%nat; auto|].
    destruct (interior (cf_dom c) (3 * k + 1)) eqn:I1; [exists 1%nat; auto|].
    destruct (interior (cf_dom c) (3 * k + 2)) eqn:I2; [exists 2%nat; auto|]. cbn in E3. discriminate. }
  destruct Ex as (i & Hi & Hin). exists i. split; [exact Hi|]. cbn [r_surrogate recon_of].
  rewrite (mo_surrogate c oc), Hin by auto. apply (mo_self c oc); auto.
Qed.

Lemma ok_recon (c : config) (oc : mesh_ok c) qq xx : recon_ok (recon_of c qq xx) = true.
Proof.
  unfold recon_ok. apply forallb_forall. intros k Hk. apply in_seq in Hk. cbn [recon_of r_number_of_elements] in Hk.
  rewrite (mo_elements c oc) in Hk. apply orb_true_iff. right.
  pose proof (jumps_some c oc qq xx (height1 (recon_of c qq xx)) (r_beta_w (recon_of c qq xx)) (r_beta_w_dry (recon_of c qq xx)) k ltac:(lia)) as A.
  destruct (cell_jumps _ _ _ _ _); [reflexivity|congruence].
Qed.

Hypothesis mah_pos : 0 < mah L.
Hypothesis no_dry : r_beta_uh_dry (cf_rec L) = 0 /\ r_beta_vh_dry (cf_rec L) = 0.

Lemma stage_edges_up j i : near j -> (i < 3)%nat -> stage_edges I (3 * j + i) = stage_edges J (3 * up j + i).
Proof.
  intros Hj Hi. destruct (nb_up j Hj) as (A0 & A1 & A2 & _). unfold stage_edges. cbn [r_stage r_beta_w r_beta_w_dry recon_of].
  destruct (sm_beta_w _ _ _ _ sub) as (-> & ->).
  apply extrapolated_up; auto using near_lt; [apply cell_jumps_up; auto using near_lt|apply jumps_some; auto using near_lt].
Qed.
Lemma height_edges_up j i : near j -> (i < 3)%nat -> height_edges I (3 * j + i) = height_edges J (3 * up j + i).
Proof.
  intros Hj Hi. destruct (nb_up j Hj) as (A0 & A1 & A2 & _). unfold height_edges. cbn [r_beta_w r_beta_w_dry recon_of].
  destruct (sm_beta_w _ _ _ _ sub) as (-> & ->).
  apply extrapolated_up; auto using near_lt, height1_up; [apply cell_jumps_up; auto using near_lt, height1_up|apply jumps_some; auto using near_lt].
Qed.
Lemma mom_edges_up f F old OLD beta j i : near j -> (i < 3)%nat -> (forall j, (j < n)%nat -> f j = F (up j)) ->
  mom_edges I f old beta 0 (3 * j + i) = mom_edges J F OLD beta 0 (3 * up j + i).
Proof.
  intros Hj Hi E. unfold mom_edges. cbv zeta. rewrite !div3 by exact Hi.
  rewrite (proj1 (update_on j)), (proj2 (update_on (up j))). cbn [andb r_velocity recon_of].
  rewrite (mo_velocity L okL), (mo_velocity C okC). cbn [Z.eqb Pos.eqb]. rewrite height_edges_up by auto. f_equal.
  apply extrapolated_up; auto; [apply mom2_near; auto using near_lt|apply mom_jumps_up; auto|apply jumps_some; auto using near_lt].
Qed.
Lemma xmom_edges_up j i : near j -> (i < 3)%nat -> xmom_edges I (3 * j + i) = xmom_edges J (3 * up j + i).
Proof.
  intros Hj Hi. unfold xmom_edges. cbn [r_xmom r_beta_uh r_beta_uh_dry r_xmom_e recon_of].
  destruct (sm_beta_uh _ _ _ _ sub) as (B & <-). rewrite B, (proj1 no_dry). apply mom_edges_up; auto.
Qed.
Lemma ymom_edges_up j i : near j -> (i < 3)%nat -> ymom_edges I (3 * j + i) = ymom_edges J (3 * up j + i).
Proof.
  intros Hj Hi. unfold ymom_edges. cbn [r_ymom r_beta_vh r_beta_vh_dry r_ymom_e recon_of].
  destruct (sm_beta_vh _ _ _ _ sub) as (B & <-). rewrite B, (proj2 no_dry). apply mom_edges_up; auto.
Qed.
Lemma bed_edges_up j i : near j -> (i < 3)%nat -> bed_edges I (3 * j + i) = bed_edges J (3 * up j + i).
Proof.
  intros Hj Hi. unfold bed_edges. rewrite !div3 by exact Hi. rewrite (proj1 (update_on j)), (proj2 (update_on (up j))).
  rewrite stage_edges_up, height_edges_up by auto. reflexivity.
Qed.
Lemma bed_vertices_up old OLD j i : near j -> (i < 3)%nat ->
  vertex_from_edges I (bed_edges I) old (3 * j + i) = vertex_from_edges J (bed_edges J) OLD (3 * up j + i).
Proof.
  intros Hj Hi. unfold vertex_from_edges. cbv zeta. rewrite !div3, !mod3 by exact Hi.
  rewrite (proj1 (update_on j)), (proj2 (update_on (up j))).
  rewrite !bed_edges_up by (auto; apply Nat.mod_upper_bound; lia). reflexivity.
Qed.
Lemma mom_centroid_up f F j : near j -> f j = F (up j) -> mom_centroid I f j = mom_centroid J F (up j).
Proof.
  intros Hj E. unfold mom_centroid. cbn [r_velocity recon_of]. rewrite (mo_velocity L okL), (mo_velocity C okC). cbn [Z.eqb Pos.eqb].
  apply mom2_near; auto.
Qed.
End Values.

(** ** Boundary values *)
Definition bvalue (o : boundary_object) (n1 n2 st xm ym cst cxm cym : R) : R * R * R :=
  match o with
  | Reflective => let r1 := - xm * n1 - ym * n2 in let r2 := - xm * n2 + ym * n1 in (st, n1 * r1 - n2 * r2, n2 * r1 + n1 * r2)
  | Transmissive true => (cst, cxm, cym)
  | Transmissive false => (st, xm, ym)
  | Dirichlet v => (BoundaryModel.c0 v, BoundaryModel.c1 v, BoundaryModel.c2 v)
  | NoBoundary => (0, 0, 0)
  end.

Lemma apply_value o d ids j : o <> NoBoundary -> In j ids ->
  (bv (apply_boundary o d ids) Stage j, bv (apply_boundary o d ids) Xmom j, bv (apply_boundary o d ids) Ymom j) =
  bvalue o (n1_of d j) (n2_of d j) (at_edge d Stage j) (at_edge d Xmom j) (at_edge d Ymom j)
    (cv d Stage (cells d j)) (cv d Xmom (cells d j)) (cv d Ymom (cells d j)).
Proof.
  intros Ho Hj. destruct o as [|[]|v|]; [| | | |congruence];
    unfold apply_boundary, reflective_segment, transmissive_segment, dirichlet_segment; cbv zeta; bsimp;
    (destruct (in_dec Nat.eq_dec j ids); [|tauto]); reflexivity.
Qed.
Lemma apply_other o d ids j a : ~ In j ids -> bv (apply_boundary o d ids) a j = bv d a j.
Proof.
  intros Hj. destruct o as [|[]|v|]; unfold apply_boundary, reflective_segment, transmissive_segment, dirichlet_segment; cbv zeta; bsimp;
    (destruct (in_dec Nat.eq_dec j ids); [tauto|]); destruct a; reflexivity.
Qed.

Lemma boundary_value_spec (c : config) qq xx o b v i : o <> NoBoundary -> (i < 3)%nat ->
  cf_cells c b = v -> cf_edges c b = i ->
  (exists ids, In (o, ids) (cf_segments c) /\ In b ids) -> (forall o' ids, In (o', ids) (cf_segments c) -> In b ids -> o' = o) ->
  (update_boundary c qq xx Stage b, update_boundary c qq xx Xmom b, update_boundary c qq xx Ymom b) =
  bvalue o (normal_x (cf_dom c) (3 * v + i)) (normal_y (cf_dom c) (3 * v + i))
    (x_se xx (3 * v + i)%nat) (x_ue xx (3 * v + i)%nat) (x_ve xx (3 * v + i)%nat) (qq v) (x_xmom xx v) (x_ymom xx v).
Proof.
  intros Ho Hi Ec Ee (ids & I1 & I2) Un. unfold update_boundary.
  apply (segments_establish (fun d => (bv d Stage b, bv d Xmom b, bv d Ymom b) = _) b).
  - intros d ids' o' (S1 & S2 & S3 & S4 & S5) Hin Hb. rewrite (Un o' ids' Hin Hb). rewrite apply_value by auto.
    unfold n1_of, n2_of, at_edge. rewrite S1, S2, S3, S4, S5. cbn [cells edges normals ev cv bdom_of]. rewrite Ec, Ee.
    destruct i as [|[|[|i]]]; try lia; reflexivity.
  - intros d ids' o' _ _ Hb E. rewrite !apply_other by exact Hb. exact E.
  - exists o, ids. auto.
Qed.

(** ** Fluxes *)
Section Fluxes.
Variables (q Q : nat -> R) (x X : StepModel.rest).
Hypothesis hq : forall j, (j < n)%nat -> q j = Q (up j).
Hypothesis hh : forall j, (j < n)%nat -> x_height x j = x_height X (up j).
Hypothesis hmx : forall j, (j < nf)%nat -> x_xmom x j = x_xmom X (up j).
Hypothesis hmy : forall j, (j < nf)%nat -> x_ymom x j = x_ymom X (up j).
Hypothesis hse : forall j i, near j -> (i < 3)%nat -> x_se x (3 * j + i)%nat = x_se X (3 * up j + i)%nat.
Hypothesis hhe : forall j i, near j -> (i < 3)%nat -> x_he x (3 * j + i)%nat = x_he X (3 * up j + i)%nat.
Hypothesis hue : forall j i, near j -> (i < 3)%nat -> x_ue x (3 * j + i)%nat = x_ue X (3 * up j + i)%nat.
Hypothesis hve : forall j i, near j -> (i < 3)%nat -> x_ve x (3 * j + i)%nat = x_ve X (3 * up j + i)%nat.
Hypothesis hze : forall j i, near j -> (i < 3)%nat -> x_ze x (3 * j + i)%nat = x_ze X (3 * up j + i)%nat.
Let x' := boundary_step L q x.
Let X' := boundary_step C Q X.
Notation DL := (fill L q x').
Notation DC := (fill C Q X').

Lemma full_lt j : (j < nf)%nat -> (j < n)%nat.
Proof. intros H. pose proof (sm_full _ _ _ _ sub). lia. Qed.

Lemma boundary_up j i : (j < nf)%nat -> (i < 3)%nat -> interior (cf_dom L) (3 * j + i) = false ->
  let b := Z.to_nat (- neighbours (cf_dom L) (3 * j + i) - 1) in
  let b' := Z.to_nat (- neighbours (cf_dom C) (3 * up j + i) - 1) in
  forall a, a = Stage \/ a = Xmom \/ a = Ymom -> x_bv x' a b = x_bv X' a b'.
Proof.
  intros Hj Hi Hin b b'. assert (Nj : near j) by (left; exact Hj).
  destruct (sm_boundary _ _ _ _ sub j i Hj Hi) as (E1 & E2 & E3 & E4 & o & Ho & L1 & L2 & C1 & C2).
  { rewrite near_interior by auto. exact Hin. }
  fold b in E1, E2, L1, L2. fold b' in E3, E4, C1, C2.
  pose proof (boundary_value_spec L q x o b j i Ho Hi E1 E2 L1 L2) as VL.
  pose proof (boundary_value_spec C Q X o b' (up j) i Ho Hi E3 E4 C1 C2) as VC.
  destruct (sm_normal _ _ _ _ sub j i (full_lt j Hj) Hi) as (N1 & N2).
  rewrite N1, N2, hse, hue, hve, hq, hmx, hmy, <- VC in VL by auto using full_lt.
  unfold x', X'. cbn [x_bv boundary_step]. intros a [-> |[-> | ->]]; congruence.
Qed.

Lemma edge_up j i : (j < nf)%nat -> (i < 3)%nat -> compute_edge DL 0 (3 * j + i) = compute_edge DC 0 (3 * up j + i).
Proof.
  intros Hj Hi. assert (Nj : near j) by (left; exact Hj). pose proof (full_lt j Hj) as Hn.
  pose proof (boundary_up j i Hj Hi) as B. cbv zeta in B.
  pose proof (near_interior j i Nj Hi) as E.
  unfold compute_edge. cbv zeta. unfold interior, partner in *.
  cbn [fill number_of_elements epsilon g low_froude neighbours neighbour_edges normal_x normal_y edgelengths stage_edge xmom_edge ymom_edge bed_edge
       height_edge stage_centroid bed_centroid height_centroid stage_boundary xmom_boundary ymom_boundary edge_flux_type] in *.
  rewrite (proj2 (Z.eqb_neq _ _) (mo_walls L okL (3 * j + i)%nat)), (proj2 (Z.eqb_neq _ _) (mo_walls C okC (3 * up j + i)%nat)).
  rewrite !div3, E by exact Hi.
  destruct (sm_normal _ _ _ _ sub j i Hn Hi) as (-> & ->). rewrite (sm_length _ _ _ _ sub j i Hn Hi).
  rewrite (sm_epsilon _ _ _ _ sub), (sm_g _ _ _ _ sub), (sm_froude _ _ _ _ sub).
  change (x_se x') with (x_se x). change (x_he x') with (x_he x). change (x_ue x') with (x_ue x). change (x_ve x') with (x_ve x).
  change (x_ze x') with (x_ze x). change (x_height x') with (x_height x).
  change (x_se X') with (x_se X). change (x_he X') with (x_he X). change (x_ue X') with (x_ue X). change (x_ve X') with (x_ve X).
  change (x_ze X') with (x_ze X). change (x_height X') with (x_height X).
  pose proof (sm_bed _ _ _ _ sub j Hn) as Bj. unfold bed in Bj.
  destruct (0 <=? neighbours (cf_dom L) (3 * j + i))%Z eqn:In.
  - assert (Ik : interior (cf_dom L) (3 * j + i) = true) by exact In.
    destruct (sm_neighbour _ _ _ _ sub j i Hn Hi Ik) as (A1 & A2). rewrite A1, A2, Nat2Z.id.
    pose proof (near_neighbour j i Hj Hi Ik) as Nm. pose proof (near_lt _ Nm) as Hm.
    destruct (wf_range _ (mo_wf L okL) (3 * j + i)%nat) as (_ & Hi'); [unfold N in Hn; lia|exact Ik|].
    set (m := Z.to_nat (neighbours (cf_dom L) (3 * j + i))) in *. set (i' := neighbour_edges (cf_dom L) (3 * j + i)) in *.
    pose proof (sm_bed _ _ _ _ sub m Hm) as Bm. unfold bed in Bm.
    rewrite !(Nat.mul_comm m 3), !(Nat.mul_comm (up m) 3).
    rewrite !hse, !hue, !hve, !hhe, !hze, !hh, Bj, Bm by auto. reflexivity.
  - specialize (B eq_refl). rewrite !B by auto. rewrite !hse, !hue, !hve, !hhe, !hze, !hh, Bj by auto. reflexivity.
Qed.
End Fluxes.

(** ** Distribution *)
Lemma protect_values (c : config) qq xx : 0 < mah c ->
  let r := protect_step c qq xx in
  (forall k, (k < N c)%nat -> fst r k = Rmax (qq k) (bed c k) /\
     x_xmom (snd r) k = (if Rltb (qq k - bed c k) (mah c) then 0 else x_xmom xx k) /\
     x_ymom (snd r) k = (if Rltb (qq k - bed c k) (mah c) then 0 else x_ymom xx k)) /\
  x_stage (snd r) = fst r /\ x_su (snd r) = x_su xx /\ x_sv (snd r) = x_sv xx /\ x_step (snd r) = x_step xx.
Proof.
  intros Hm. unfold protect_step, protect_new. rewrite protect_loop_eq. cbv zeta. cbn [fst snd x_xmom x_ymom x_su x_sv x_step x_stage].
  split; [|auto]. intros k Hk. set (cl := cell_of c qq (x_xmom xx) (x_ymom xx) k).
  assert (E : forall f old, back f (map (protected (mah c)) (cells_of c qq (x_xmom xx) (x_ymom xx))) old k = f (protected (mah c) cl)).
  { intros f old. unfold cells_of. rewrite map_map, back_map, (proj2 (Nat.ltb_lt _ _) Hk). reflexivity. }
  rewrite !E. destruct (protect_cell_spec (mah c) cl ltac:(lra)) as (_ & _ & _ & A & B & D & _).
  split; [exact A|]. destruct (Rltb_spec (qq k - bed c k) (mah c)) as [Hl|Hl].
  - exact (B Hl).
  - rewrite D by (cbn; lra). split; reflexivity.
Qed.

(** What [distribute_step] gives, in a form that compares. *)
Definition good (lim : nat) (q Q : nat -> R) (x X : StepModel.rest) : Prop :=
  (forall j, (j < lim)%nat -> q j = Q (up j) /\ x_xmom x j = x_xmom X (up j) /\ x_ymom x j = x_ymom X (up j)) /\
  (forall j, (j < n)%nat -> x_su x j = 0 /\ x_sv x j = 0) /\ (forall k, (k < N C)%nat -> x_su X k = 0 /\ x_sv X k = 0) /\
  x_step x = x_step X.

Record distributed (q Q : nat -> R) (x X : StepModel.rest) : Prop := {
  di_q : forall j, (j < n)%nat -> q j = Q (up j);
  di_height : forall j, (j < n)%nat -> x_height x j = x_height X (up j);
  di_stage : forall j, (j < n)%nat -> x_stage x j = x_stage X (up j);
  di_xmom : forall j, (j < nf)%nat -> x_xmom x j = x_xmom X (up j);
  di_ymom : forall j, (j < nf)%nat -> x_ymom x j = x_ymom X (up j);
  di_se : forall j i, near j -> (i < 3)%nat -> x_se x (3 * j + i)%nat = x_se X (3 * up j + i)%nat;
  di_he : forall j i, near j -> (i < 3)%nat -> x_he x (3 * j + i)%nat = x_he X (3 * up j + i)%nat;
  di_ue : forall j i, near j -> (i < 3)%nat -> x_ue x (3 * j + i)%nat = x_ue X (3 * up j + i)%nat;
  di_ve : forall j i, near j -> (i < 3)%nat -> x_ve x (3 * j + i)%nat = x_ve X (3 * up j + i)%nat;
  di_ze : forall j i, near j -> (i < 3)%nat -> x_ze x (3 * j + i)%nat = x_ze X (3 * up j + i)%nat;
  di_zv : forall j i, near j -> (i < 3)%nat -> x_zv x (3 * j + i)%nat = x_zv X (3 * up j + i)%nat;
  di_zero : forall j, (j < n)%nat -> x_su x j = 0 /\ x_sv x j = 0;
  di_zero' : forall k, (k < N C)%nat -> x_su X k = 0 /\ x_sv X k = 0;
  di_step : x_step x = x_step X }.

Hypothesis mah_pos : 0 < mah C.
Hypothesis no_dry : r_beta_uh_dry (cf_rec C) = 0 /\ r_beta_vh_dry (cf_rec C) = 0.

Lemma distribute_up q Q x X : good n q Q x X -> exists q' Q' x' X',
  distribute_step L q (Some x) = (q', Some (boundary_step L q' x')) /\
  distribute_step C Q (Some X) = (Q', Some (boundary_step C Q' X')) /\ distributed q' Q' x' X'.
Proof.
  intros (A & Z1 & Z2 & St). pose proof (sm_mah _ _ _ _ sub) as Em. assert (mL : 0 < mah L) by (rewrite Em; exact mah_pos).
  destruct (protect_values L q x mL) as (P1 & P2 & P3 & P4 & P5). destruct (protect_values C Q X mah_pos) as (R1 & R2 & R3 & R4 & R5).
  unfold distribute_step. destruct (protect_step L q x) as [q' x1] eqn:EL. destruct (protect_step C Q X) as [Q' X1] eqn:EC.
  cbn [fst snd] in *.
  unfold extrapolate_step. rewrite (ok_recon L okL q' x1), (ok_recon C okC Q' X1).
  eexists _, _, _, _. split; [reflexivity|]. split; [reflexivity|].
  assert (H1 : forall j, (j < n)%nat -> q' j = Q' (up j) /\ x_xmom x1 j = x_xmom X1 (up j) /\ x_ymom x1 j = x_ymom X1 (up j)).
  { intros j Hj. pose proof (sm_range _ _ _ _ sub j Hj) as Hu. destruct (P1 j Hj) as (-> & -> & ->). destruct (R1 (up j) Hu) as (-> & -> & ->).
    destruct (A j Hj) as (-> & -> & ->). rewrite (sm_bed _ _ _ _ sub j Hj), Em. auto. }
  assert (hq : forall j, (j < n)%nat -> q' j = Q' (up j)) by (intros; apply H1; auto).
  assert (hx : forall j, (j < n)%nat -> x_xmom x1 j = x_xmom X1 (up j)) by (intros; apply H1; auto).
  assert (hy : forall j, (j < n)%nat -> x_ymom x1 j = x_ymom X1 (up j)) by (intros; apply H1; auto).
  assert (nd : r_beta_uh_dry (cf_rec L) = 0 /\ r_beta_vh_dry (cf_rec L) = 0).
  { rewrite (proj2 (sm_beta_uh _ _ _ _ sub)), (proj2 (sm_beta_vh _ _ _ _ sub)). exact no_dry. }
  pose proof full_lt as fl.
  split; cbn [x_height x_stage x_xmom x_ymom x_se x_he x_ue x_ve x_ze x_zv x_su x_sv x_step].
  - exact hq.
  - intros j Hj. apply height1_up; auto.
  - intros j Hj. rewrite P2, R2. auto.
  - intros j Hj. apply mom_centroid_up; auto. left; auto.
  - intros j Hj. apply mom_centroid_up; auto. left; auto.
  - intros j i Hj Hi. apply stage_edges_up; auto.
  - intros j i Hj Hi. apply height_edges_up; auto.
  - intros j i Hj Hi. apply xmom_edges_up; auto.
  - intros j i Hj Hi. apply ymom_edges_up; auto.
  - intros j i Hj Hi. apply bed_edges_up; auto.
  - intros j i Hj Hi. apply bed_vertices_up; auto.
  - rewrite P3, P4. exact Z1.
  - rewrite R3, R4. exact Z2.
  - rewrite P5, R5. exact St.
Qed.

(** ** The flux computation *)
Lemma fill_facts (c : config) (oc : mesh_ok c) qq xx s w : flux_invariant (cf_dom c) s w ->
  wf_mesh (fill c qq xx) /\ shared_edges (fill c qq xx) /\ no_walls (fill c qq xx) /\ (forall e, update_next_flux (fill c qq xx) e = 1%Z) /\
  update_flags_symmetric (fill c qq xx) /\ flux_invariant (fill c qq xx) s w.
Proof.
  intros F. destruct (mo_update c oc) as (U & _).
  split; [destruct (mo_wf c oc) as [W1 W2]; split; [exact W1|exact W2]|].
  split; [exact (mo_shared c oc)|]. split; [exact (mo_walls c oc)|]. split; [exact U|]. split; [|exact F].
  intros e _ _. cbn [update_next_flux fill]. rewrite !U. reflexivity.
Qed.

Lemma flux_values D s w b t : wf_mesh D -> shared_edges D -> no_walls D -> (forall e, update_next_flux D e = 1%Z) -> flux_invariant D s w ->
  let o := compute_fluxes D s w b t in
  forall k, (k < number_of_elements D)%nat ->
  let r i := compute_edge D 0 (3 * k + i) in
  out_stage o k = (0 + c0 (vneg (er_flux (r 0%nat))) + c0 (vneg (er_flux (r 1%nat))) + c0 (vneg (er_flux (r 2%nat)))) * (1 / areas D k) /\
  out_xmom o k = (0 + c1 (vneg (er_flux (r 0%nat))) - normal_x D (3 * k + 0) * er_pg_k (r 0%nat)
     + c1 (vneg (er_flux (r 1%nat))) - normal_x D (3 * k + 1) * er_pg_k (r 1%nat)
     + c1 (vneg (er_flux (r 2%nat))) - normal_x D (3 * k + 2) * er_pg_k (r 2%nat)) * (1 / areas D k) /\
  out_ymom o k = (0 + c2 (vneg (er_flux (r 0%nat))) - normal_y D (3 * k + 0) * er_pg_k (r 0%nat)
     + c2 (vneg (er_flux (r 1%nat))) - normal_y D (3 * k + 1) * er_pg_k (r 1%nat)
     + c2 (vneg (er_flux (r 2%nat))) - normal_y D (3 * k + 2) * er_pg_k (r 2%nat)) * (1 / areas D k).
Proof.
  intros W Sh Nw U F o k Hk r.
  assert (Us : update_flags_symmetric D) by (intros e _ _; rewrite !U; reflexivity).
  unfold o, compute_fluxes; cbv zeta; cbn [out_stage out_xmom out_ymom].
  match goal with |- context [edge_loop D _ ?sub (Work _ _ _ _ _ ?lt _)] =>
    pose proof (fun e He => flux_loop_values D s w e sub lt W Us F He) as V end.
  cbv zeta in V.
  match goal with |- context [stage_update D ?x] => set (w' := x) in * end. clearbody w'.
  assert (E : forall i, (i < 3)%nat -> edge_flux_work w' (3 * k + i) = vneg (er_flux (r i)) /\ pressuregrad_work w' (3 * k + i) = er_pg_k (r i)).
  { intros i Hi. assert (He : (3 * k + i < 3 * number_of_elements D)%nat) by lia. destruct (V _ He) as (_ & A & B).
    rewrite U in A, B. cbn [Z.eqb Pos.eqb] in A, B. rewrite A, B. apply efw_plain; auto. }
  unfold stage_update, xmom_update, ymom_update. cbn [fold_left].
  destruct (E 0%nat ltac:(lia)) as (-> & ->). destruct (E 1%nat ltac:(lia)) as (-> & ->). destruct (E 2%nat ltac:(lia)) as (-> & ->).
  auto.
Qed.

Lemma flux_up q Q x X s S w W b B t T : distributed q Q x X -> flux_invariant (cf_dom L) s w -> flux_invariant (cf_dom C) S W ->
  let o := compute_fluxes (fill L q (boundary_step L q x)) s w b t in
  let O := compute_fluxes (fill C Q (boundary_step C Q X)) S W B T in
  forall j, (j < nf)%nat -> out_stage o j = out_stage O (up j) /\ out_xmom o j = out_xmom O (up j) /\ out_ymom o j = out_ymom O (up j).
Proof.
  intros Di F G o O j Hj. pose proof (full_lt j Hj) as Hn. pose proof (sm_range _ _ _ _ sub j Hn) as Hu.
  destruct (fill_facts L okL q (boundary_step L q x) s w F) as (W1 & W2 & W3 & W4 & _ & W6).
  destruct (fill_facts C okC Q (boundary_step C Q X) S W G) as (V1 & V2 & V3 & V4 & _ & V6).
  destruct (flux_values _ s w b t W1 W2 W3 W4 W6 j Hn) as (A1 & A2 & A3).
  destruct (flux_values _ S W B T V1 V2 V3 V4 V6 (up j) Hu) as (B1 & B2 & B3).
  fold o in A1, A2, A3. fold O in B1, B2, B3. rewrite A1, A2, A3, B1, B2, B3.
  destruct Di. rewrite !(edge_up q Q x X) by (auto; lia).
  cbn [areas normal_x normal_y fill]. rewrite (sm_areas _ _ _ _ sub j Hn).
  destruct (sm_normal _ _ _ _ sub j 0%nat Hn ltac:(lia)) as (-> & ->).
  destruct (sm_normal _ _ _ _ sub j 1%nat Hn ltac:(lia)) as (-> & ->).
  destruct (sm_normal _ _ _ _ sub j 2%nat Hn ltac:(lia)) as (-> & ->). auto.
Qed.

(** ** Friction and the update *)
Lemma friction_values (c : config) xx k : (k < N c)%nat ->
  let r := add_update (if cf_sloped c then friction_sloped_cell (g (cf_dom c)) (mah c) (friction_cell_of c xx k)
                       else friction_flat_cell (g (cf_dom c)) (mah c) (friction_cell_of c xx k)) (x_su xx k, x_sv xx k) in
  back fst (friction_step c xx) (x_su xx) k = fst r /\ back snd (friction_step c xx) (x_sv xx) k = snd r.
Proof.
  intros Hk. unfold back, friction_step, manning_friction_implicit.
  rewrite (map2_nth_error _ _ _ k (friction_cell_of c xx k) (x_su xx k, x_sv xx k)); [split; reflexivity| |].
  - apply nth_map_seq. exact Hk.
  - apply (nth_map_seq (fun k => (x_su xx k, x_sv xx k))). exact Hk.
Qed.

Lemma finish_values (c : config) d qq xx :
  (forall k, (k < N c)%nat -> 0 < denominator d (x_xmom xx k) (x_su xx k)) ->
  (forall k, (k < N c)%nat -> 0 < denominator d (x_ymom xx k) (x_sv xx k)) ->
  exists q' x', finish_step c d qq (Some xx) = (q', Some x') /\ x_step x' = x_step xx /\
  forall k, (k < N c)%nat -> x_su x' k = 0 /\ x_sv x' k = 0 /\
    let u := (x_xmom xx k + d * x_eu xx k) / denominator d (x_xmom xx k) (x_su xx k) in
    let v := (x_ymom xx k + d * x_ev xx k) / denominator d (x_ymom xx k) (x_sv xx k) in
    let cl := fixed (Cell (qq k) (bed c k) u v (areas (cf_dom c) k) (tri_full_flag (cf_dom c) k) (qq k, qq k, qq k)) in
    q' k = c_stage cl /\ x_xmom x' k = c_xmom cl /\ x_ymom x' k = c_ymom cl.
Proof.
  intros Hx Hy. unfold finish_step.
  destruct (momentum_update_ok c d (x_xmom xx) (x_eu xx) (x_su xx) Hx) as (xm & su & -> & Ex).
  destruct (momentum_update_ok c d (x_ymom xx) (x_ev xx) (x_sv xx) Hy) as (ym & sv & -> & Ey).
  eexists _, _. split; [reflexivity|]. split; [reflexivity|]. intros k Hk. cbn [x_su x_sv x_xmom x_ymom].
  destruct (Ex k Hk) as (-> & Eu). destruct (Ey k Hk) as (-> & Ev). split; [reflexivity|]. split; [reflexivity|].
  cbv zeta. rewrite <- Eu, <- Ev. unfold fix_negative_cells. rewrite fix_negative_loop_eq. cbn [fst].
  unfold cells_of. rewrite map_map, !back_map, (proj2 (Nat.ltb_lt _ _) Hk). auto.
Qed.

Hypothesis g_pos : 0 <= g (cf_dom C).

(** After friction the denominators are positive. *)
Lemma denominators (c : config) o d qq xx : 0 <= g (cf_dom c) -> 0 < mah c -> 0 <= d ->
  (forall k, (k < N c)%nat -> x_su xx k = 0 /\ x_sv xx k = 0) ->
  exists q' x' x1, forcing_step c o (Some xx) = Some x1 /\ finish_step c d qq (Some x1) = (q', Some x') /\ x_step x' = x_step xx /\
  forall k, (k < N c)%nat -> x_su x' k = 0 /\ x_sv x' k = 0 /\
    let f := add_update (if cf_sloped c then friction_sloped_cell (g (cf_dom c)) (mah c) (friction_cell_of c xx k)
                         else friction_flat_cell (g (cf_dom c)) (mah c) (friction_cell_of c xx k)) (0, 0) in
    let u := (x_xmom xx k + d * out_xmom o k) / denominator d (x_xmom xx k) (fst f) in
    let v := (x_ymom xx k + d * out_ymom o k) / denominator d (x_ymom xx k) (snd f) in
    let cl := fixed (Cell (qq k) (bed c k) u v (areas (cf_dom c) k) (tri_full_flag (cf_dom c) k) (qq k, qq k, qq k)) in
    q' k = c_stage cl /\ x_xmom x' k = c_xmom cl /\ x_ymom x' k = c_ymom cl.
Proof.
  intros Hg Hm Hd Hz. unfold forcing_step.
  match goal with |- context [Some ?a] => set (x1 := a) end.
  assert (Dx : forall k, (k < N c)%nat -> 0 < denominator d (x_xmom x1 k) (x_su x1 k) /\ 0 < denominator d (x_ymom x1 k) (x_sv x1 k)).
  { intros k Hk. unfold x1. cbn [x_xmom x_ymom x_su x_sv].
    destruct (friction_step_spec c xx k Hg Hm Hk) as (f & Hf & -> & ->). destruct (Hz k Hk) as (-> & ->).
    pose proof (friction_denominator d (x_xmom xx k) f Hd Hf). pose proof (friction_denominator d (x_ymom xx k) f Hd Hf). lra. }
  destruct (finish_values c d qq x1) as (q' & x' & E & Es & Ek); [intros; apply Dx; auto|intros; apply Dx; auto|].
  exists q', x', x1. split; [reflexivity|]. split; [exact E|]. split; [exact Es|]. intros k Hk.
  destruct (Ek k Hk) as (S1 & S2 & K). split; [exact S1|]. split; [exact S2|].
  unfold x1 in K. cbn [x_xmom x_ymom x_su x_sv x_eu x_ev] in K.
  destruct (friction_values c xx k Hk) as (F1 & F2). rewrite F1, F2 in K. destruct (Hz k Hk) as (Z1 & Z2). rewrite Z1, Z2 in K. exact K.
Qed.

Lemma friction_cell_up q Q x X j : distributed q Q x X -> (j < nf)%nat ->
  friction_cell_of L (boundary_step L q x) j = friction_cell_of C (boundary_step C Q X) (up j).
Proof.
  intros Di Hj. pose proof (full_lt j Hj) as Hn. assert (Nj : near j) by (left; exact Hj). unfold friction_cell_of.
  cbn [boundary_step x_stage x_zv x_xmom x_ymom].
  pose proof (di_zv _ _ _ _ Di j 0%nat Nj ltac:(lia)) as E. rewrite (Nat.add_0_r (3 * j)), (Nat.add_0_r (3 * up j)) in E. rewrite E.
  rewrite (di_zv _ _ _ _ Di j 1%nat Nj), (di_zv _ _ _ _ Di j 2%nat Nj) by lia.
  rewrite (di_stage _ _ _ _ Di j Hn), (di_xmom _ _ _ _ Di j Hj), (di_ymom _ _ _ _ Di j Hj).
  rewrite (sm_bed _ _ _ _ sub j Hn), (sm_x _ _ _ _ sub j Hn), (sm_eta _ _ _ _ sub j Hn). reflexivity.
Qed.

Hypothesis allfull : forall k, tri_full_flag (cf_dom C) k = 1%Z.

Lemma update_up d q Q x X s Sc w W b B t T : 0 <= d -> distributed q Q x X ->
  flux_invariant (cf_dom L) s w -> flux_invariant (cf_dom C) Sc W ->
  let o := compute_fluxes (fill L q (boundary_step L q x)) s w b t in
  let O := compute_fluxes (fill C Q (boundary_step C Q X)) Sc W B T in
  exists q2 Q2 x2 X2,
    finish_step L d (fun k => q k + d * out_stage o k) (forcing_step L o (Some (boundary_step L q x))) = (q2, Some x2) /\
    finish_step C d (fun k => Q k + d * out_stage O k) (forcing_step C O (Some (boundary_step C Q X))) = (Q2, Some X2) /\
    good nf q2 Q2 x2 X2 /\ x_step X2 = x_step X.
Proof.
  intros Hd Di F G o O.
  pose proof (flux_up q Q x X s Sc w W b B t T Di F G) as FU. cbv zeta in FU. fold o O in FU.
  destruct (denominators L o d (fun k => q k + d * out_stage o k) (boundary_step L q x)) as (q2 & x2 & x1 & E1 & E2 & E3 & E4).
  { rewrite (sm_g _ _ _ _ sub). exact g_pos. } { rewrite (sm_mah _ _ _ _ sub). exact mah_pos. } { exact Hd. } { exact (di_zero _ _ _ _ Di). }
  destruct (denominators C O d (fun k => Q k + d * out_stage O k) (boundary_step C Q X)) as (Q2 & X2 & X1 & G1 & G2 & G3 & G4); auto.
  { exact (di_zero' _ _ _ _ Di). }
  exists q2, Q2, x2, X2. rewrite E1, G1. split; [exact E2|]. split; [exact G2|]. split; [|exact G3].
  clearbody o O. split; [|split; [|split]].
  - intros j Hj. pose proof (full_lt j Hj) as Hn. pose proof (sm_range _ _ _ _ sub j Hn) as Hu.
    destruct (E4 j Hn) as (_ & _ & K). destruct (G4 (up j) Hu) as (_ & _ & M).
    cbv zeta in K, M. rewrite (friction_cell_up q Q x X j Di Hj) in K.
    destruct (FU j Hj) as (U1 & U2 & U3). rewrite U1, U2, U3 in K.
    cbn [boundary_step x_xmom x_ymom] in K, M. rewrite (di_xmom _ _ _ _ Di j Hj), (di_ymom _ _ _ _ Di j Hj), (di_q _ _ _ _ Di j Hn) in K.
    rewrite (sm_sloped _ _ _ _ sub), (sm_g _ _ _ _ sub), (sm_mah _ _ _ _ sub), (sm_bed _ _ _ _ sub j Hn), (sm_areas _ _ _ _ sub j Hn) in K.
    rewrite (sm_flag _ _ _ _ sub j Hn), (proj2 (Nat.ltb_lt _ _) Hj) in K. rewrite allfull in M.
    destruct K as (-> & -> & ->). destruct M as (-> & -> & ->). auto.
  - intros j Hj. destruct (E4 j Hj) as (A & A' & _). auto.
  - intros j Hj. destruct (G4 j Hj) as (A & A' & _). auto.
  - rewrite E3, G3. exact (di_step _ _ _ _ Di).
Qed.

(** ** An Euler part *)
Definition same_statics (a b : statics) : Prop :=
  st_call a = st_call b /\ st_fluxcalls a = st_fluxcalls b /\ st_base_call a = st_base_call b.

(** The local state [s] shows the global state [S] on the first [lim] triangles. *)
Definition agrees (lim : nat) (s S : sw_state) : Prop :=
  (exists x X, RKModel.rest _ s = Some x /\ RKModel.rest _ S = Some X /\ good lim (RKModel.q _ s) (RKModel.q _ S) x X) /\
  same_statics (sta _ s) (sta _ S) /\ flux_invariant (cf_dom L) (sta _ s) (wk _ s) /\ flux_invariant (cf_dom C) (sta _ S) (wk _ S).

Notation part c := (euler xstate (distribute_step c) (dom_of c) (forcing_step c) (finish_step c)).

Lemma statics_up s S w W b B t T q Q x X : same_statics s S ->
  same_statics (out_statics (compute_fluxes (fill L q x) s w b t)) (out_statics (compute_fluxes (fill C Q X) S W B T)).
Proof.
  intros (A & B' & D). unfold same_statics, compute_fluxes. cbv zeta. cbn [out_statics st_call st_fluxcalls st_base_call timestep_fluxcalls fill].
  rewrite A, B', D, (sm_fluxcalls _ _ _ _ sub). auto.
Qed.

Lemma part_up d s S : 0 <= d -> agrees n s S -> agrees nf (part L d s) (part C d S).
Proof.
  intros Hd ((x & X & Ex & EX & Gd) & Sm & F & G).
  destruct (distribute_up _ _ _ _ Gd) as (q1 & Q1 & x1 & X1 & D1 & D2 & Di).
  unfold euler, distribute. rewrite Ex, EX, D1, D2. unfold compute. cbn [set_qx RKModel.q RKModel.rest sta wk bfs flux_dt fst snd dom_of].
  unfold update_conserved. cbn [RKModel.q RKModel.rest dt sta wk bfs flux_dt].
  destruct (update_up d q1 Q1 x1 X1 (sta _ s) (sta _ S) (wk _ s) (wk _ S) (bfs _ s) (bfs _ S) (flux_dt _ s) (flux_dt _ S) Hd Di F G)
    as (q2 & Q2 & x2 & X2 & U1 & U2 & Gd2 & St2).
  rewrite U1, U2. split; [|split; [|split]].
  - exists x2, X2. split; [reflexivity|]. split; [reflexivity|]. exact Gd2.
  - cbn [sta set_qx]. apply statics_up. exact Sm.
  - cbn [sta wk set_qx]. destruct (fill_facts L okL q1 (boundary_step L q1 x1) _ _ F) as (W1 & _ & _ & _ & W5 & W6).
    exact (C08_invariant_preserved _ _ _ (bfs _ s) (flux_dt _ s) W1 W5 W6).
  - cbn [sta wk set_qx]. destruct (fill_facts C okC Q1 (boundary_step C Q1 X1) _ _ G) as (W1 & _ & _ & _ & W5 & W6).
    exact (C08_invariant_preserved _ _ _ (bfs _ S) (flux_dt _ S) W1 W5 W6).
Qed.

(** The step counter, and the flux time step. *)
Lemma step_count s S x X : agrees n s S -> RKModel.rest _ s = Some x -> RKModel.rest _ S = Some X -> x_step x = x_step X.
Proof. intros ((x' & X' & E1 & E2 & _ & _ & _ & E) & _) A B. congruence. Qed.

(** ** Bounds on the time step *)
Section Bounds.
Variables (q Q : nat -> R) (x X : StepModel.rest).
Hypothesis Di : distributed q Q x X.
Notation DL := (fill L q (boundary_step L q x)).
Notation DC := (fill C Q (boundary_step C Q X)).

Lemma full_first_L : full_first DL.
Proof.
  intros e He Hi Hlt. cbn [tri_full_flag fill]. 
  assert (Le : (e / 3 < N L)%nat) by (apply Nat.div_lt_upper_bound; [lia|exact He]).
  assert (Lp : (partner DL e / 3 < N L)%nat) by (assert (partner DL e / 3 <= e / 3)%nat by (apply Nat.div_le_mono; lia); lia).
  rewrite !(sm_flag _ _ _ _ sub) by assumption.
  destruct (Nat.ltb_spec (e / 3) nf) as [A|A]; [|discriminate]. intros _.
  destruct (Nat.ltb_spec (partner DL e / 3) nf) as [B|B]; [reflexivity|].
  exfalso. assert (e / 3 < partner DL e / 3)%nat by lia.
  assert (partner DL e / 3 <= e / 3)%nat by (apply Nat.div_le_mono; lia). lia.
Qed.
Lemma full_first_C : full_first DC.
Proof. intros e He Hi Hlt _. apply allfull. Qed.

Lemma bound_edge j i b : (j < nf)%nat -> (i < 3)%nat -> bound_of DL (3 * j + i) b <-> bound_of DC (3 * up j + i) b.
Proof.
  intros Hj Hi. pose proof (full_lt j Hj) as Hn. pose proof (sm_range _ _ _ _ sub j Hn) as Hu. assert (Nj : near j) by (left; exact Hj).
  assert (EE : compute_edge DL 0 (3 * j + i) = compute_edge DC 0 (3 * up j + i)) by (destruct Di; apply (edge_up q Q x X); auto).
  unfold bound_of. rewrite EE, !div3 by exact Hi.
  change (interior DL (3 * j + i)) with (interior (cf_dom L) (3 * j + i)).
  change (interior DC (3 * up j + i)) with (interior (cf_dom C) (3 * up j + i)).
  cbn [tri_full_flag fill number_of_elements epsilon radii neighbours].
  rewrite (sm_flag _ _ _ _ sub j Hn), (proj2 (Nat.ltb_lt _ _) Hj), allfull, (sm_epsilon _ _ _ _ sub), (sm_radii _ _ _ _ sub j Hn).
  rewrite (near_interior j i) by auto. set (v := er_speed (compute_edge DC 0 (3 * up j + i))). clearbody v.
  assert (A : (3 * j + i < 3 * number_of_elements (cf_dom L))%nat) by (unfold N in Hn; lia).
  assert (B : (3 * up j + i < 3 * number_of_elements (cf_dom C))%nat) by (unfold N in Hu; lia).
  assert (K : interior (cf_dom L) (3 * j + i) = true ->
    radii (cf_dom L) (Z.to_nat (neighbours (cf_dom L) (3 * j + i))) = radii (cf_dom C) (Z.to_nat (neighbours (cf_dom C) (3 * up j + i)))).
  { intros In. destruct (sm_neighbour _ _ _ _ sub j i Hn Hi In) as (-> & _). rewrite Nat2Z.id. apply (sm_radii _ _ _ _ sub).
    apply (wf_range _ (mo_wf L okL)); auto. }
  split; intros (_ & _ & H1 & [H2|(H2 & H3)]); split; auto; split; auto; split; auto; right; split; auto.
  - rewrite <- K by exact H2. exact H3.
  - rewrite K by exact H2. exact H3.
Qed.

Lemma bounds_down b : (exists e, bound_of DL e b) -> exists e, bound_of DC e b.
Proof.
  intros (e & H). destruct (split3 e) as (j & i & Hi & ->). exists (3 * up j + i)%nat. apply bound_edge; auto.
  destruct H as (He & H & _). rewrite div3 in H by exact Hi. cbn [tri_full_flag fill] in H. rewrite (sm_flag _ _ _ _ sub) in H.
  2:{ change (3 * j + i < 3 * N L)%nat in He. lia. }
  destruct (Nat.ltb_spec j nf); [assumption|discriminate].
Qed.
Lemma bounds_lift b j i : (j < nf)%nat -> (i < 3)%nat -> bound_of DC (3 * up j + i) b -> exists e, bound_of DL e b.
Proof. intros Hj Hi H. exists (3 * j + i)%nat. apply bound_edge; auto. Qed.
End Bounds.
End Local.

(** * All processes *)
Lemma minimum_spec n f : (0 < n)%nat -> (forall p, (p < n)%nat -> minimum n f <= f p) /\ exists p, (p < n)%nat /\ minimum n f = f p.
Proof.
  intros Hn. unfold minimum.
  assert (G : forall l a, fold_left (fun m p => Rmin m (f p)) l a <= a /\
     (forall p, In p l -> fold_left (fun m p => Rmin m (f p)) l a <= f p) /\
     (fold_left (fun m p => Rmin m (f p)) l a = a \/ exists p, In p l /\ fold_left (fun m p => Rmin m (f p)) l a = f p)).
  { induction l as [|p l IH]; intros a; cbn [fold_left]; [split; [lra|split; [intros ? []|left; reflexivity]]|].
    destruct (IH (Rmin a (f p))) as (A & B & D). pose proof (Rmin_l a (f p)). pose proof (Rmin_r a (f p)).
    split; [lra|]. split; [intros p' [<-|H']; [lra|auto]|]. destruct D as [D|(p' & H' & D)]; [|right; exists p'; split; [right|]; auto].
    rewrite D. unfold Rmin. destruct (Rle_dec a (f p)); [left; reflexivity|right; exists p; split; [left|]; auto]. }
  destruct (G (seq 1 (n - 1)) (f 0%nat)) as (A & B & D). split.
  - intros [|p] Hp; [exact A|]. apply B, in_seq. lia.
  - destruct D as [D|(p & Hp & D)]; [exists 0%nat; split; auto|]. apply in_seq in Hp. exists p. split; [lia|exact D].
Qed.

Lemma minimum_ext n f h : (0 < n)%nat -> (forall p, (p < n)%nat -> f p = h p) -> minimum n f = minimum n h.
Proof.
  intros Hn E. destruct (minimum_spec n f Hn) as (A & p & Hp & A'). destruct (minimum_spec n h Hn) as (B & p' & Hp' & B').
  specialize (A p' Hp'). specialize (B p Hp). rewrite E in A by auto. rewrite <- E in B by auto. lra.
Qed.
