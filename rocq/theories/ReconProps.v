(** Property C11: the limited reconstruction stays within the range of the
    neighbouring centroid values.  Property C48: a lake at rest survives
    reconstruction followed by the flux computation. *)
From Coq Require Import Reals List ZArith Arith Bool Lia Lra.
From Verif Require Import RealLib ArrayLib FluxModel FluxFunctionProofs FluxProofs FluxProps ReconModel ReconProofs.
Import ListNotations.
Local Open Scope R_scope.

(** Limiter parameters used by the routine all lie in [0,1]. *)
Record betas_ok (I : recon) : Prop := {
  b_w : 0 <= r_beta_w I <= 1; b_wd : 0 <= r_beta_w_dry I <= 1;
  b_u : 0 <= r_beta_uh I <= 1; b_ud : 0 <= r_beta_uh_dry I <= 1;
  b_v : 0 <= r_beta_vh I <= 1; b_vd : 0 <= r_beta_vh_dry I <= 1;
  b_m : 0 < r_minimum_allowed_height I }.

(** The values of [q] in triangle [k] and its three (surrogate) neighbours lie in [lo, hi]. *)
Definition local_range (I : recon) (q : nat -> R) (k : nat) (lo hi : R) : Prop :=
  lo <= q k <= hi /\ forall i, (i < 3)%nat -> lo <= q (r_surrogate I (3 * k + i)%nat) <= hi.

Lemma local_range_nb I q k lo hi : local_range I q k lo hi ->
  lo <= q k <= hi /\ lo <= q (nb0 I k) <= hi /\ lo <= q (nb1 I k) <= hi /\ lo <= q (nb2 I k) <= hi.
Proof.
  intros (H & K). pose proof (K 0%nat ltac:(lia)) as K0. replace (3 * k + 0)%nat with (3 * k)%nat in K0 by lia.
  split; [exact H|]. split; [exact K0|]. split; apply K; lia.
Qed.

(** The routine did not take its error exit and triangle [k] was due. *)
Definition reconstructed (I : recon) (k : nat) : Prop :=
  (k < r_number_of_elements I)%nat /\ r_update I k <> 0%Z /\ recon_ok I = true.

Lemma cell_jumps_some I q q' b bd b' bd' k :
  cell_jumps I q b bd k <> None -> exists d, cell_jumps I q' b' bd' k = Some d.
Proof.
  unfold cell_jumps. destruct (_ =? 3)%Z; [eauto|]. destruct (_ <=? 1)%Z; [destruct (Rleb (area2 I k) 0); eauto|].
  destruct (internal_neighbour I k); [eauto|congruence].
Qed.

Lemma reconstructed_jumps I q b bd k : reconstructed I k -> exists d, cell_jumps I q b bd k = Some d.
Proof.
  intros (Hk & Hu & Hok). unfold recon_ok in Hok. rewrite forallb_forall in Hok.
  specialize (Hok k ltac:(apply in_seq; lia)). unfold to_update in Hok.
  rewrite (proj2 (Z.eqb_neq _ _) Hu) in Hok. cbn in Hok.
  eapply cell_jumps_some with (q := height1 I) (b := r_beta_w I) (bd := r_beta_w_dry I).
  destruct (cell_jumps _ _ _ _ _); congruence.
Qed.

Lemma extrapolated_value I q old b bd k i : reconstructed I k -> (i < 3)%nat ->
  exists d, cell_jumps I q b bd k = Some d /\ extrapolated I q old b bd (3 * k + i) = q k + jump d i.
Proof.
  intros Hr Hi. destruct (reconstructed_jumps I q b bd k Hr) as (d & E). exists d. split; auto.
  unfold extrapolated. cbv zeta.
  replace ((3 * k + i) / 3)%nat with k by (rewrite Nat.mul_comm, Nat.div_add_l, Nat.div_small by lia; lia).
  replace ((3 * k + i) mod 3)%nat with i by (rewrite Nat.mul_comm, Nat.add_comm, Nat.mod_add, Nat.mod_small by lia; reflexivity).
  rewrite E. destruct Hr as (_ & Hu & _). unfold to_update. rewrite (proj2 (Z.eqb_neq _ _) Hu). reflexivity.
Qed.

(** * C11 *)

(** The limiter itself, for any parameter beta >= 0: limited jumps lie between
    beta times the extreme jumps, and all three are scaled by one factor. *)
Theorem C11_limit_gradient :
  forall d qmin qmax beta, qmin <= 0 <= qmax -> 0 <= beta ->
  let d' := limit_gradient d qmin qmax beta in
  (forall i, (i < 3)%nat -> beta * qmin - tiny <= jump d' i <= beta * qmax + tiny) /\
  exists phi, 0 <= phi <= 1 /\ forall i, (i < 3)%nat -> jump d' i = jump d i * phi.
Proof.
  intros d qmin qmax beta (H1 & H2) Hb. cbv zeta. split.
  - intros i Hi. apply limit_gradient_range; auto.
  - exists (limit_phi d qmin qmax beta). split; [apply limit_phi_spec; auto|].
    intros i Hi. apply jump_limited; auto.
Qed.
Print Assumptions C11_limit_gradient.

(** Stage and height at the edges stay in the local range. *)
Theorem C11_edges_within_neighbour_range :
  forall I k i lo hi, betas_ok I -> reconstructed I k -> (i < 3)%nat ->
  (local_range I (r_stage I) k lo hi -> lo - tiny <= stage_edges I (3 * k + i) <= hi + tiny) /\
  (local_range I (height1 I) k lo hi -> lo - tiny <= height_edges I (3 * k + i) <= hi + tiny).
Proof.
  intros I k i lo hi [Bw Bwd _ _ _ _ Bm] Hr Hi. split; intros HL; apply local_range_nb in HL as (A & B & C & D).
  - destruct (extrapolated_value I (r_stage I) (r_stage_e I) (r_beta_w I) (r_beta_w_dry I) k i Hr Hi) as (d & E & V).
    unfold stage_edges. rewrite V. apply (cell_jumps_range I _ (r_beta_w I) (r_beta_w_dry I) k d lo hi i); auto.
  - destruct (extrapolated_value I (height1 I) (r_height_e I) (r_beta_w I) (r_beta_w_dry I) k i Hr Hi) as (d & E & V).
    unfold height_edges. rewrite V. apply (cell_jumps_range I _ (r_beta_w I) (r_beta_w_dry I) k d lo hi i); auto.
Qed.
Print Assumptions C11_edges_within_neighbour_range.

(** With velocity extrapolation, the momentum at an edge is the edge height
    times a velocity in the local range of velocities. *)
Theorem C11_edge_momentum :
  forall I k i lo hi, betas_ok I -> reconstructed I k -> (i < 3)%nat -> r_velocity I = 1%Z ->
  (local_range I (mom2 I (r_xmom I)) k lo hi ->
   exists v, xmom_edges I (3 * k + i) = v * height_edges I (3 * k + i) /\ lo - tiny <= v <= hi + tiny) /\
  (local_range I (mom2 I (r_ymom I)) k lo hi ->
   exists v, ymom_edges I (3 * k + i) = v * height_edges I (3 * k + i) /\ lo - tiny <= v <= hi + tiny).
Proof.
  intros I k i lo hi [Bw Bwd Bu Bud Bv Bvd Bm] Hr Hi Hv.
  assert (T : to_update I ((3 * k + i) / 3) && Z.eqb (r_velocity I) 1 = true).
  { replace ((3 * k + i) / 3)%nat with k by (rewrite Nat.mul_comm, Nat.div_add_l, Nat.div_small by lia; lia).
    rewrite Hv. destruct Hr as (_ & Hu & _). unfold to_update. rewrite (proj2 (Z.eqb_neq _ _) Hu). reflexivity. }
  split; intros HL; apply local_range_nb in HL as (A & B & C & D).
  - destruct (extrapolated_value I (mom2 I (r_xmom I)) (r_xmom_e I) (r_beta_uh I) (r_beta_uh_dry I) k i Hr Hi) as (d & E & V).
    eexists. split; [unfold xmom_edges, mom_edges; rewrite T; reflexivity|]. rewrite V. apply (cell_jumps_range I _ (r_beta_uh I) (r_beta_uh_dry I) k d lo hi i); auto.
  - destruct (extrapolated_value I (mom2 I (r_ymom I)) (r_ymom_e I) (r_beta_vh I) (r_beta_vh_dry I) k i Hr Hi) as (d & E & V).
    eexists. split; [unfold ymom_edges, mom_edges; rewrite T; reflexivity|]. rewrite V. apply (cell_jumps_range I _ (r_beta_vh I) (r_beta_vh_dry I) k d lo hi i); auto.
Qed.
Print Assumptions C11_edge_momentum.

(** Non-negative heights: edge heights are non-negative up to the cut-off
    [tiny] = 1e-100, and exactly so when neighbouring depths exceed it. *)
Theorem C11_height_nonnegative :
  forall I k i, betas_ok I -> reconstructed I k -> (i < 3)%nat -> r_velocity I = 1%Z ->
  - tiny <= height_edges I (3 * k + i) /\
  (forall lo, tiny <= lo -> lo <= height1 I k ->
   (forall j, (j < 3)%nat -> lo <= height1 I (r_surrogate I (3 * k + j)%nat)) ->
   0 <= height_edges I (3 * k + i)).
Proof.
  intros I k i B Hr Hi Hv.
  assert (P : forall n, 0 <= height1 I n) by (intros; unfold height1; rewrite Hv; apply Rmax_r).
  set (hi := Rmax (height1 I k) (Rmax (height1 I (r_surrogate I (3 * k + 0)%nat))
     (Rmax (height1 I (r_surrogate I (3 * k + 1)%nat)) (height1 I (r_surrogate I (3 * k + 2)%nat))))).
  assert (U : height1 I k <= hi /\ forall j, (j < 3)%nat -> height1 I (r_surrogate I (3 * k + j)%nat) <= hi).
  { unfold hi. split; [apply Rmax_l|]. intros j Hj.
    eapply Rle_trans; [|apply Rmax_r]. destruct j as [|[|[|j]]]; [| | |lia].
    - apply Rmax_l.
    - eapply Rle_trans; [|apply Rmax_r]. apply Rmax_l.
    - eapply Rle_trans; [|apply Rmax_r]. apply Rmax_r. }
  split.
  - assert (L : local_range I (height1 I) k 0 hi) by (split; [split; [apply P|apply U]|intros; split; [apply P|apply U; auto]]).
    pose proof (proj2 (C11_edges_within_neighbour_range I k i 0 hi B Hr Hi) L). lra.
  - intros lo Hlo H1 H2.
    assert (L : local_range I (height1 I) k lo hi) by (split; [split; [auto|apply U]|intros; split; [auto|apply U; auto]]).
    pose proof (proj2 (C11_edges_within_neighbour_range I k i lo hi B Hr Hi) L). lra.
Qed.
Print Assumptions C11_height_nonnegative.

(** In the default setting (dry limiter parameter 0) and away from corner
    triangles with two boundary edges, the edge heights are exactly
    non-negative, dry neighbours included. *)
Theorem C11_height_nonnegative_default :
  forall I k i, betas_ok I -> reconstructed I k -> (i < 3)%nat -> r_velocity I = 1%Z ->
  r_beta_w_dry I = 0 -> tiny <= r_minimum_allowed_height I -> r_number_of_boundaries I k <> 2%Z ->
  (r_number_of_boundaries I k <= 3)%Z ->
  0 <= height_edges I (3 * k + i).
Proof.
  intros I k i B Hr Hi Hv Hd Ht Hn Hn3.
  assert (P : forall n, 0 <= height1 I n) by (intros; unfold height1; rewrite Hv; apply Rmax_r).
  destruct (extrapolated_value I (height1 I) (r_height_e I) (r_beta_w I) (r_beta_w_dry I) k i Hr Hi) as (d & E & V).
  unfold height_edges. rewrite V.
  assert (F : 0 <= height1 I k + jump flat i) by (pose proof (P k); destruct i as [|[|[|?]]]; cbn; lra).
  set (hmin := Rmin (Rmin (height1 I (nb0 I k)) (Rmin (height1 I (nb1 I k)) (height1 I (nb2 I k)))) (height1 I k)).
  destruct (Rle_lt_dec hmin (r_minimum_allowed_height I)) as [Lo|Hi2].
  - unfold cell_jumps in E. destruct (_ =? 3)%Z eqn:E3; [injection E as <-; exact F|].
    destruct (r_number_of_boundaries I k <=? 1)%Z eqn:E1.
    + destruct (Rleb (area2 I k) 0); injection E as <-; [exact F|].
      rewrite (hfactor_dry I k (b_m I B) Lo), Hd. unfold typical_jumps.
      rewrite (proj2 (Rltb_false 0 _)) by lra. exact F.
    + apply Z.eqb_neq in E3. apply Z.leb_gt in E1. lia.
  - assert (K : hmin <= height1 I (nb0 I k) /\ hmin <= height1 I (nb1 I k) /\ hmin <= height1 I (nb2 I k) /\ hmin <= height1 I k).
    { unfold hmin. repeat split.
      - eapply Rle_trans; [apply Rmin_l|]. apply Rmin_l.
      - eapply Rle_trans; [apply Rmin_l|]. eapply Rle_trans; [apply Rmin_r|]. apply Rmin_l.
      - eapply Rle_trans; [apply Rmin_l|]. eapply Rle_trans; [apply Rmin_r|]. apply Rmin_r.
      - apply Rmin_r. }
    rewrite <- V. apply (proj2 (C11_height_nonnegative I k i B Hr Hi Hv)) with (lo := hmin); try lra.
    intros j Hj. destruct j as [|[|[|j]]]; [| | |lia]; rewrite ?Nat.add_0_r; apply K.
Qed.
Print Assumptions C11_height_nonnegative_default.

(** The edge coordinates are the edge midpoints and the centroid is the mean
    of the vertices (general_mesh.py). *)
Definition midpoint_mesh (I : recon) (k : nat) : Prop :=
  exists x0 y0 x1 y1 x2 y2,
  r_cx I k = (x0 + x1 + x2) / 3 /\ r_cy I k = (y0 + y1 + y2) / 3 /\
  r_ex I (3 * k) = (x1 + x2) / 2 /\ r_ey I (3 * k) = (y1 + y2) / 2 /\
  r_ex I (3 * k + 1) = (x2 + x0) / 2 /\ r_ey I (3 * k + 1) = (y2 + y0) / 2 /\
  r_ex I (3 * k + 2) = (x0 + x1) / 2 /\ r_ey I (3 * k + 2) = (y0 + y1) / 2.

(** The mean of the three edge values is the centroid value; no condition on
    the limiter parameters. *)
Theorem C11_mean_of_edges_is_centroid :
  forall I k, reconstructed I k -> midpoint_mesh I k ->
  (stage_edges I (3 * k) + stage_edges I (3 * k + 1) + stage_edges I (3 * k + 2)) / 3 = r_stage I k /\
  (height_edges I (3 * k) + height_edges I (3 * k + 1) + height_edges I (3 * k + 2)) / 3 = height1 I k.
Proof.
  intros I k Hr (x0 & y0 & x1 & y1 & x2 & y2 & Ex & Ey & A0 & B0 & A1 & B1 & A2 & B2).
  assert (SX : dxv I k 0 + dxv I k 1 + dxv I k 2 = 0).
  { unfold dxv. rewrite Nat.add_0_r, A0, A1, A2, Ex. field. }
  assert (SY : dyv I k 0 + dyv I k 1 + dyv I k 2 = 0).
  { unfold dyv. rewrite Nat.add_0_r, B0, B1, B2, Ey. field. }
  assert (K : forall q old b bd,
    (extrapolated I q old b bd (3 * k) + extrapolated I q old b bd (3 * k + 1) + extrapolated I q old b bd (3 * k + 2)) / 3 = q k).
  { intros. destruct (extrapolated_value I q old b bd k 0 Hr ltac:(lia)) as (d0 & E0 & V0).
    destruct (extrapolated_value I q old b bd k 1 Hr ltac:(lia)) as (d1 & E1 & V1).
    destruct (extrapolated_value I q old b bd k 2 Hr ltac:(lia)) as (d2 & E2 & V2).
    rewrite Nat.add_0_r in V0. rewrite V0, V1, V2.
    assert (d1 = d0) by congruence. assert (d2 = d0) by congruence. subst.
    pose proof (cell_jumps_sum I q b bd k d0 SX SY E0). lra. }
  split; apply K.
Qed.
Print Assumptions C11_mean_of_edges_is_centroid.

(** Vertex values: every edge value is the mean of the values at its two end
    vertices, for every quantity (the five vertex arrays are built alike). *)
Theorem C11_edges_are_means_of_vertices :
  forall I k edges old, reconstructed I k ->
  let v := vertex_from_edges I edges old in
  (v (3 * k + 1)%nat + v (3 * k + 2)%nat) / 2 = edges (3 * k)%nat /\
  (v (3 * k + 2)%nat + v (3 * k)%nat) / 2 = edges (3 * k + 1)%nat /\
  (v (3 * k)%nat + v (3 * k + 1)%nat) / 2 = edges (3 * k + 2)%nat.
Proof.
  intros I k edges old (_ & Hu & _). cbv zeta.
  assert (K : forall i, (i < 3)%nat -> vertex_from_edges I edges old (3 * k + i) =
    edges (3 * k + (i + 1) mod 3)%nat + edges (3 * k + (i + 2) mod 3)%nat - edges (3 * k + i)%nat).
  { intros i Hi. unfold vertex_from_edges. cbv zeta.
    replace ((3 * k + i) / 3)%nat with k by (rewrite Nat.mul_comm, Nat.div_add_l, Nat.div_small by lia; lia).
    replace ((3 * k + i) mod 3)%nat with i by (rewrite Nat.mul_comm, Nat.add_comm, Nat.mod_add, Nat.mod_small by lia; reflexivity).
    unfold to_update. rewrite (proj2 (Z.eqb_neq _ _) Hu). reflexivity. }
  pose proof (K 0%nat ltac:(lia)) as K0. pose proof (K 1%nat ltac:(lia)) as K1. pose proof (K 2%nat ltac:(lia)) as K2.
  rewrite Nat.add_0_r in K0. cbn [Nat.modulo Nat.divmod plus Nat.sub fst snd] in K0, K1, K2. rewrite Nat.add_0_r in K1, K2.
  rewrite K0, K1, K2. repeat split; lra.
Qed.
Print Assumptions C11_edges_are_means_of_vertices.

(** * C48 *)

(** The flux computation reads the arrays written by the reconstruction. *)
Record after_recon (D : domain) (I : recon) : Prop := {
  ar_n : number_of_elements D = r_number_of_elements I;
  ar_stage : stage_edge D = stage_edges I;
  ar_height : height_edge D = height_edges I;
  ar_bed : bed_edge D = bed_edges I;
  ar_xmom : xmom_edge D = xmom_edges I;
  ar_ymom : ymom_edge D = ymom_edges I;
  ar_bedc : bed_centroid D = r_bed I;
  ar_heightc : height_centroid D = height1 I }.

(** Flat surface, no momentum, every triangle wet, at the centroids. *)
Record still_water (I : recon) (w : R) : Prop := {
  sw_stage : forall k, (k < r_number_of_elements I)%nat -> r_stage I k = w;
  sw_xmom : forall k, (k < r_number_of_elements I)%nat -> r_xmom I k = 0;
  sw_ymom : forall k, (k < r_number_of_elements I)%nat -> r_ymom I k = 0;
  sw_wet : forall k, (k < r_number_of_elements I)%nat -> r_bed I k + tiny <= w }.

Theorem C48_still_water_reconstructed_at_rest :
  forall D I w, betas_ok I -> r_velocity I = 1%Z -> recon_ok I = true ->
  (forall k, r_update I k <> 0%Z) ->
  (forall k i, (k < r_number_of_elements I)%nat -> (i < 3)%nat ->
     (r_surrogate I (3 * k + i) < r_number_of_elements I)%nat) ->
  still_water I w -> after_recon D I ->
  (forall m, stage_boundary D m = w /\ xmom_boundary D m = 0 /\ ymom_boundary D m = 0) ->
  lake_at_rest D w.
Proof.
  intros D I w B Hv Hok Hu Hs [S1 S2 S3 S4] [A0 A1 A2 A3 A4 A5 A6 A7] Hb. pose proof tiny_pos as Ht.
  assert (H1 : forall k, (k < r_number_of_elements I)%nat -> height1 I k = w - r_bed I k).
  { intros k Hk. unfold height1. rewrite Hv, (S1 k Hk). cbn [Z.eqb Pos.eqb]. apply Rmax_left. specialize (S4 k Hk). lra. }
  assert (Idx : forall e, (e < 3 * r_number_of_elements I)%nat ->
    exists k i, e = (3 * k + i)%nat /\ (k < r_number_of_elements I)%nat /\ (i < 3)%nat /\ reconstructed I k /\ (e / 3 = k)%nat).
  { intros e He. exists (e / 3)%nat, (e mod 3)%nat. pose proof (Nat.div_mod e 3 ltac:(lia)).
    pose proof (Nat.mod_upper_bound e 3 ltac:(lia)).
    assert (e / 3 < r_number_of_elements I)%nat by (apply Nat.div_lt_upper_bound; lia).
    repeat split; auto. }
  assert (St : forall e, (e < 3 * r_number_of_elements I)%nat -> stage_edges I e = w).
  { intros e He. destruct (Idx e He) as (k & i & -> & Hk & Hi & Hr & _).
    destruct (extrapolated_value I (r_stage I) (r_stage_e I) (r_beta_w I) (r_beta_w_dry I) k i Hr Hi) as (d & E & V).
    unfold stage_edges. rewrite V, (S1 k Hk).
    rewrite (cell_jumps_const I (r_stage I) (r_beta_w I) (r_beta_w_dry I) k d w i Hi (S1 k Hk)); [ring| | |exact (S1 _ (Hs k 2%nat Hk ltac:(lia)))|exact E].
    - apply S1. unfold nb0. replace (3 * k)%nat with (3 * k + 0)%nat by lia. apply Hs; auto.
    - apply S1. apply Hs; auto. }
  assert (Mz : forall mom, (forall k, (k < r_number_of_elements I)%nat -> mom k = 0) ->
     forall k, (k < r_number_of_elements I)%nat -> mom2 I mom k = 0).
  { intros mom Hm k Hk. unfold mom2, mom1. rewrite (Hm k Hk), Hv. destruct (surrounded I k); [reflexivity|].
    cbn [Z.eqb Pos.eqb]. destruct (wet_cell I k); ring. }
  assert (Mo : forall mom old b bd, (forall k, (k < r_number_of_elements I)%nat -> mom k = 0) ->
     forall e, (e < 3 * r_number_of_elements I)%nat -> mom_edges I mom old b bd e = 0).
  { intros mom old b bd Hm e He. destruct (Idx e He) as (k & i & -> & Hk & Hi & Hr & _).
    pose proof (Mz mom Hm) as Hz.
    destruct (extrapolated_value I (mom2 I mom) old b bd k i Hr Hi) as (d & E & V).
    unfold mom_edges. cbv zeta. rewrite V, (Hz k Hk).
    rewrite (cell_jumps_const I (mom2 I mom) b bd k d 0 i Hi (Hz k Hk)); [destruct (_ && _); ring| | |exact (Hz _ (Hs k 2%nat Hk ltac:(lia)))|exact E].
    - apply Hz. unfold nb0. replace (3 * k)%nat with (3 * k + 0)%nat by lia. apply Hs; auto.
    - apply Hz. apply Hs; auto. }
  assert (Bd : forall e, (e < 3 * r_number_of_elements I)%nat -> bed_edges I e = w - height_edges I e).
  { intros e He. destruct (Idx e He) as (k & i & E0 & Hk & Hi & Hr & E3). unfold bed_edges.
    rewrite E3. unfold to_update. rewrite (proj2 (Z.eqb_neq _ _) (Hu k)). cbn [negb]. rewrite St by auto. reflexivity. }
  constructor; rewrite ?A0, ?A1, ?A2, ?A3, ?A4, ?A5, ?A6, ?A7; auto; try (intros; apply Hb).
  - intros e He. apply Mo; auto.
  - intros e He. apply Mo; auto.
  - intros e He. rewrite Bd by auto. ring.
  - intros e He. rewrite Bd by auto. destruct (Idx e He) as (k & i & -> & Hk & Hi & Hr & _).
    enough (0 <= height_edges I (3 * k + i)) by lra.
    apply (proj2 (C11_height_nonnegative I k i B Hr Hi Hv)) with (lo := tiny); [lra| |].
    + rewrite H1 by auto. specialize (S4 k Hk). lra.
    + intros j Hj. pose proof (Hs k j Hk Hj) as Hn. rewrite H1 by auto. specialize (S4 _ Hn). lra.
Qed.
Print Assumptions C48_still_water_reconstructed_at_rest.

(** Reconstruction followed by the flux computation leaves still water still. *)
Theorem C48_still_water_stays_still :
  forall D I w s wk b t, betas_ok I -> r_velocity I = 1%Z -> recon_ok I = true ->
  (forall k, r_update I k <> 0%Z) ->
  (forall k i, (k < r_number_of_elements I)%nat -> (i < 3)%nat ->
     (r_surrogate I (3 * k + i) < r_number_of_elements I)%nat) ->
  still_water I w -> after_recon D I ->
  (forall m, stage_boundary D m = w /\ xmom_boundary D m = 0 /\ ymom_boundary D m = 0) ->
  wf_mesh D -> flux_invariant D s wk ->
  (forall e, update_next_flux D e = 1%Z) -> (forall e, edge_flux_type D e <> 1%Z) ->
  tiny <= epsilon D -> closed_cells D -> shared_lengths D ->
  let o := compute_fluxes D s wk b t in
  forall k, (k < number_of_elements D)%nat -> out_stage o k = 0 /\ out_xmom o k = 0 /\ out_ymom o k = 0.
Proof.
  intros. apply C09_lake_at_rest_preserved with (level := w); auto.
  eapply C48_still_water_reconstructed_at_rest; eauto.
Qed.
Print Assumptions C48_still_water_stays_still.

(** The reconstruction works on velocities but hands the momenta back: a wet
    triangle with at least one wet neighbour keeps its momentum, a triangle that
    is dry or surrounded by dry ones ends with none. *)
Theorem C48_momentum_kept :
  forall I mom k, r_velocity I = 1%Z ->
  let depth j := Rmax (r_stage I j - r_bed I j) 0 in
  (r_minimum_allowed_height I < depth k ->
   (exists i, (i < 3)%nat /\ r_surrogate I (3 * k + i) <> k /\ r_minimum_allowed_height I <= depth (r_surrogate I (3 * k + i))) ->
   mom_centroid I mom k = mom k) /\
  (depth k <= r_minimum_allowed_height I -> mom_centroid I mom k = 0) /\
  ((forall i, (i < 3)%nat -> r_surrogate I (3 * k + i) = k \/ depth (r_surrogate I (3 * k + i)) < r_minimum_allowed_height I) ->
   mom_centroid I mom k = 0).
Proof.
  intros I mom k V depth.
  assert (E : forall j, height1 I j = depth j) by (intros j; unfold height1; rewrite V; reflexivity).
  unfold mom_centroid, work2, work1, wet_cell. rewrite V, !E. cbn [Z.eqb Pos.eqb]. refine (conj _ (conj _ _)).
  - intros W (i & Hi & N & L).
    assert (D : dry_side I k i = false).
    { unfold dry_side. rewrite E. rewrite (proj2 (Rltb_false _ _)) by lra. apply Nat.eqb_neq. exact N. }
    replace (surrounded I k) with false.
    + rewrite (proj2 (Rltb_true _ _)) by lra. reflexivity.
    + unfold surrounded. destruct i as [|[|[|i]]]; [| | |lia]; rewrite D; rewrite ?andb_false_r; reflexivity.
  - intros W. rewrite (proj2 (Rltb_false _ _)) by lra. destruct (surrounded I k); reflexivity.
  - intros H. replace (surrounded I k) with true; [reflexivity|].
    assert (D : forall i, (i < 3)%nat -> dry_side I k i = true).
    { intros i Hi. unfold dry_side. rewrite E. destruct (H i Hi) as [K|K].
      - rewrite K at 2. rewrite Nat.eqb_refl. apply orb_true_r.
      - rewrite (proj2 (Rltb_true _ _)) by lra. reflexivity. }
    unfold surrounded. rewrite !D by lia. reflexivity.
Qed.
Print Assumptions C48_momentum_kept.

(** * Non-vacuity *)

Definition ex_recon (bed : nat -> R) : recon := {|
  r_number_of_elements := 2; r_update := fun _ => 1%Z;
  r_number_of_boundaries := fun _ => 2%Z;
  r_surrogate := fun e => match e with 0%nat => 1%nat | 3%nat => 0%nat | _ => (e / 3)%nat end;
  r_ex := fun e => match e with 0%nat => 1/2 | 1%nat => 0 | 2%nat => 1/2 | 3%nat => 1/2 | 4%nat => 1 | _ => 1/2 end;
  r_ey := fun e => match e with 0%nat => 1/2 | 1%nat => 1/2 | 2%nat => 0 | 3%nat => 1/2 | 4%nat => 1/2 | _ => 1 end;
  r_cx := fun k => match k with 0%nat => 1/3 | _ => 2/3 end;
  r_cy := fun k => match k with 0%nat => 1/3 | _ => 2/3 end;
  r_beta_w := 1; r_beta_w_dry := 0; r_beta_uh := 1; r_beta_uh_dry := 0; r_beta_vh := 1; r_beta_vh_dry := 0;
  r_minimum_allowed_height := / 10 ^ 5; r_velocity := 1%Z;
  r_stage := fun _ => 2; r_bed := bed; r_height := fun _ => 0; r_xmom := fun _ => 0; r_ymom := fun _ => 0;
  r_stage_e := fun _ => 0; r_height_e := fun _ => 0; r_xmom_e := fun _ => 0; r_ymom_e := fun _ => 0;
  r_bed_e := fun _ => 0;
  r_stage_v := fun _ => 0; r_height_v := fun _ => 0; r_xmom_v := fun _ => 0; r_ymom_v := fun _ => 0;
  r_bed_v := fun _ => 0 |}.

Lemma tiny_le_1 : tiny <= 1.
Proof.
  unfold tiny. rewrite <- Rinv_1. apply Rinv_le_contravar; [lra|]. apply pow_R1_Rle. lra.
Qed.

Example C11_example bed : betas_ok (ex_recon bed) /\ reconstructed (ex_recon bed) 0 /\
  reconstructed (ex_recon bed) 1 /\ midpoint_mesh (ex_recon bed) 0.
Proof.
  split; [constructor; cbn -[pow]; try lra; apply Rinv_0_lt_compat, pow_lt; lra|].
  assert (K : recon_ok (ex_recon bed) = true) by reflexivity.
  split; [split; [cbn; lia|split; [discriminate|exact K]]|].
  split; [split; [cbn; lia|split; [discriminate|exact K]]|].
  exists 0, 0, 1, 0, 0, 1. cbn. repeat split; lra.
Qed.

Example C48_example bed : (forall k, bed k <= 1) -> still_water (ex_recon bed) 2.
Proof.
  intros Hb. constructor; cbn; auto. intros k _. specialize (Hb k). pose proof tiny_le_1. lra.
Qed.
