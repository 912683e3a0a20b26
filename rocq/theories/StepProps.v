(** Properties C73 and C75: complete time steps of a closed basin. *)
From Coq Require Import Reals List ZArith Arith Bool Lia Lra.
From Verif Require Import RealLib ArrayLib CentroidModel CentroidProofs BoundaryModel BoundaryProps FluxModel FluxFunctionProofs
  FluxProofs FluxProps ReconModel ReconProofs ReconProps RKModel RKProofs StepModel StepProofs.
Import ListNotations.
Local Open Scope R_scope.

(** A sequential domain: consistent mesh, no ghost triangles, all fluxes and
    reconstructions recomputed in every call, and the reconstruction does not
    take its error exit (a condition on the mesh only). *)
Record sequential (C : config) : Prop := {
  sq_n : r_number_of_elements (cf_rec C) = number_of_elements (cf_dom C);
  sq_mesh : wf_mesh (cf_dom C);
  sq_full : forall k, tri_full_flag (cf_dom C) k = 1%Z;
  sq_areas : forall k, (k < number_of_elements (cf_dom C))%nat -> 0 < areas (cf_dom C) k;
  sq_flux : forall e, update_next_flux (cf_dom C) e = 1%Z;
  sq_recon : forall k, r_update (cf_rec C) k <> 0%Z;
  sq_mah : 0 <= r_minimum_allowed_height (cf_rec C) }.

(** All boundary objects are reflective; every boundary edge belongs to a
    segment, has a unit normal and is not a riverwall. *)
Record closed (C : config) : Prop := {
  cl_reflective : forall b ids, In (b, ids) (cf_segments C) -> b = Reflective;
  cl_edges : forall e, (e < 3 * number_of_elements (cf_dom C))%nat -> (neighbours (cf_dom C) e < 0)%Z ->
    let b := Z.to_nat (- neighbours (cf_dom C) e - 1) in
    (exists o ids, In (o, ids) (cf_segments C) /\ In b ids) /\
    (3 * cf_cells C b + cf_edges C b = e /\ cf_edges C b < 3)%nat /\
    normal_x (cf_dom C) e ^ 2 + normal_y (cf_dom C) e ^ 2 = 1 /\
    edge_flux_type (cf_dom C) e <> 1%Z }.

(** Volume of water. *)
Definition water (C : config) (q : nat -> R) : R :=
  Rsum (map (fun k => areas (cf_dom C) k * (q k - r_bed (cf_rec C) k)) (seq 0 (number_of_elements (cf_dom C)))).

(** State between two steps. *)
Definition between_steps (C : config) (s : sw_state) : Prop :=
  flux_invariant (cf_dom C) (sta _ s) (wk _ s) /\ forall i, bfs _ s i = 0.

Lemma water_total C q : sequential C -> water C q = total (cf_dom C) q - total (cf_dom C) (r_bed (cf_rec C)).
Proof.
  intros Q. rewrite !(total_full C (sq_full C Q)). rewrite <- Rsum_map_minus. apply Rsum_map_ext_in. intros; ring.
Qed.

Lemma water_change C q q' : sequential C -> water C q' - water C q = total (cf_dom C) q' - total (cf_dom C) q.
Proof. intros Q. rewrite !water_total by exact Q. ring. Qed.

Lemma fill_mesh C q x : same_mesh (cf_dom C) (fill C q x).
Proof. constructor; reflexivity. Qed.

Lemma fill_wf C q x : wf_mesh (cf_dom C) -> wf_mesh (fill C q x).
Proof. intros [A B]. constructor; [exact A|exact B]. Qed.

(** The edges written by the reconstruction satisfy stage = bed + height. *)
Lemma edges_consistent I e : r_update I (e / 3)%nat <> 0%Z -> stage_edges I e = bed_edges I e + height_edges I e.
Proof. intros H. unfold bed_edges, to_update. rewrite (proj2 (Z.eqb_neq _ _) H). cbn [negb]. ring. Qed.

Lemma even_2 i : Nat.even (2 * i) = true.
Proof. rewrite Nat.even_mul. reflexivity. Qed.
Lemma even_2_1 i : Nat.even (2 * i + 1) = false.
Proof. rewrite Nat.even_add, Nat.even_mul. reflexivity. Qed.
Lemma div_2 i : (2 * i / 2 = i)%nat.
Proof. rewrite Nat.mul_comm. apply Nat.div_mul. lia. Qed.
Lemma div_2_1 i : ((2 * i + 1) / 2 = i)%nat.
Proof. rewrite Nat.mul_comm, Nat.div_add_l by lia. cbn. lia. Qed.

Lemma bdom_normals C q x j e : (3 * cf_cells C j + cf_edges C j = e)%nat ->
  n1_of (bdom_of C q x) j = normal_x (cf_dom C) e /\ n2_of (bdom_of C q x) j = normal_y (cf_dom C) e.
Proof.
  intros <-. unfold n1_of, n2_of, bdom_of. cbn [normals cells edges].
  rewrite even_2, even_2_1, div_2, div_2_1. split; reflexivity.
Qed.

Lemma closed_boundary_values C q x e : closed C -> (e < 3 * number_of_elements (cf_dom C))%nat ->
  (neighbours (cf_dom C) e < 0)%Z ->
  let b := Z.to_nat (- neighbours (cf_dom C) e - 1) in
  update_boundary C q x Stage b = x_se x e /\
  normal_x (cf_dom C) e * update_boundary C q x Xmom b + normal_y (cf_dom C) e * update_boundary C q x Ymom b
  = - (normal_x (cf_dom C) e * x_ue x e + normal_y (cf_dom C) e * x_ve x e).
Proof.
  intros [R E] He Hn b. destruct (E e He Hn) as (Hin & (Hc & Hl) & U & _). fold b in Hin, Hc, Hl.
  set (d0 := bdom_of C q x).
  destruct (bdom_normals C q x b e Hc) as (N1 & N2). fold d0 in N1, N2.
  set (Pv := fun d => bv d Stage b = x_se x e /\ normal_part d0 b (bv d Xmom b) (bv d Ymom b)
       = - (normal_x (cf_dom C) e * x_ue x e + normal_y (cf_dom C) e * x_ve x e)).
  assert (G : Pv (fold_left (fun d s => apply_boundary (fst s) d (snd s)) (cf_segments C) d0)).
  { apply (segments_establish Pv b); unfold Pv; clear Pv.
    - intros d ids o (S1 & S2 & S3 & S4 & S5) Ho Hb. rewrite (R _ _ Ho). cbn [apply_boundary].
      assert (M1 : n1_of d b = n1_of d0 b) by (unfold n1_of; rewrite S1, S2, S3; reflexivity).
      assert (M2 : n2_of d b = n2_of d0 b) by (unfold n2_of; rewrite S1, S2, S3; reflexivity).
      assert (Ud : unit_normal d b) by (unfold unit_normal; rewrite M1, M2, N1, N2; exact U).
      assert (At : forall a, at_edge d a b = at_edge d0 a b) by (intros a; unfold at_edge; rewrite S1, S2, S4; reflexivity).
      destruct (C30_reflects_momentum d ids b Hb Ud) as (P1 & _ & _ & P4 & _).
      split.
      + rewrite P1, At. unfold at_edge, d0, bdom_of; cbn [ev cells edges]. rewrite Hc. reflexivity.
      + unfold normal_part in P4 |- *. rewrite M1, M2 in P4. rewrite P4, !At, N1, N2.
        unfold at_edge, d0, bdom_of; cbn [ev cells edges]. rewrite Hc. reflexivity.
    - intros d ids o _ Ho Hb (Q1 & Q2). rewrite (R _ _ Ho). cbn [apply_boundary].
      destruct (C30_changes_only_the_segment d ids) as (_ & K). rewrite !K by exact Hb. auto.
    - exact Hin. }
  destruct G as (G1 & G2). unfold update_boundary. fold d0. split; [exact G1|].
  unfold normal_part in G2. rewrite N1, N2 in G2. exact G2.
Qed.

(** After [distribute_step] no mass crosses the boundary edges. *)
Lemma closed_edges_pass_nothing C q x x' : sequential C -> closed C ->
  extrapolate_step C q x = Some x' ->
  forall e rw, (e < 3 * number_of_elements (cf_dom C))%nat -> interior (cf_dom C) e = false ->
  c0 (er_flux (compute_edge (fill C q (boundary_step C q x')) rw e)) = 0.
Proof.
  intros Q Cl E e rw He Hi.
  assert (Hn : (neighbours (cf_dom C) e < 0)%Z) by (unfold interior in Hi; apply Z.leb_gt in Hi; exact Hi).
  destruct (closed_boundary_values C q x' e Cl He Hn) as (B1 & B2).
  destruct (cl_edges C Cl e He Hn) as (_ & _ & _ & T).
  apply reflective_edge; cbn [fill stage_edge bed_edge height_edge stage_boundary xmom_boundary ymom_boundary xmom_edge ymom_edge
    neighbours edge_flux_type normal_x normal_y boundary_step x_se x_ze x_he x_bv x_ue x_ve]; auto.
  unfold extrapolate_step in E. destruct (recon_ok _); [|discriminate]. injection E as <-. cbn [x_se x_ze x_he].
  apply edges_consistent. apply (sq_recon C Q).
Qed.

(** * C73 *)

Section Conservation.
Variable C : config.
Variable dts : nat -> R -> R.
Variable m : scheme.
Hypothesis Q : sequential C.
Hypothesis Cl : closed C.
Variables K M B : R.
Notation D0 := (cf_dom C).

Definition balanced (s : sw_state) : Prop :=
  match RKModel.rest _ s with
  | None => True
  | Some x => between_steps C s /\ total D0 (q _ s) - x_made x = K /\ M <= x_made x /\ bfi _ s = B
  end.

Lemma total_mono f h : (forall k, (k < N C)%nat -> f k <= h k) -> total D0 f <= total D0 h.
Proof.
  intros H. rewrite !(total_full C (sq_full C Q)).
  enough (E : 0 <= Rsum (map (fun k => areas D0 k * h k) (seq 0 (N C))) - Rsum (map (fun k => areas D0 k * f k) (seq 0 (N C)))) by lra.
  rewrite <- Rsum_map_minus. apply Rsum_nonneg. intros v Hv. apply in_map_iff in Hv as (k & <- & Hk). apply in_seq in Hk.
  pose proof (sq_areas C Q k ltac:(unfold N in Hk; lia)). specialize (H k ltac:(lia)).
  rewrite <- Rmult_minus_distr_l. apply Rmult_le_pos; lra.
Qed.

Lemma balanced_euler s d : balanced s ->
  balanced (euler xstate (distribute_step C) (dom_of C) (forcing_step C) (finish_step C) d s).
Proof.
  intros H. unfold balanced, euler, compute, distribute, set_qx, update_conserved in *. destruct s as [q0 x st w b ft dt0 bi fs].
  cbn [RKModel.q RKModel.rest sta wk bfs flux_dt dt bfi fsvi fst snd] in *.
  destruct x as [x|]; cbn [distribute_step fst snd].
  2: { cbn [forcing_step finish_step snd set_qx RKModel.rest]. exact I. }
  destruct H as ((F & B0) & HK & HM & HB). cbn [RKModel.q sta wk bfs] in *.
  pose proof (protect_step_spec C (sq_full C Q) (sq_mah C Q) q0 x) as P. cbv zeta in P.
  destruct (protect_step C q0 x) as [q1 x1]. cbn [fst snd] in P |- *. destruct P as (P1 & P2 & _).
  destruct (extrapolate_step C q1 x1) as [x2|] eqn:E.
  2: { cbn [forcing_step finish_step snd set_qx RKModel.rest]. exact I. }
  assert (Made : x_made x2 = x_made x1).
  { unfold extrapolate_step in E. destruct (recon_ok _); [|discriminate]. injection E as <-. reflexivity. }
  cbn [dom_of]. set (D := fill C q1 (boundary_step C q1 x2)).
  assert (F' : flux_invariant D st w) by (apply (same_mesh_invariant D0 D); [apply fill_mesh|exact F]).
  assert (W : wf_mesh D) by (apply fill_wf, (sq_mesh C Q)).
  assert (U : update_flags_symmetric D) by (intros e _ _; unfold D; cbn [fill update_next_flux]; rewrite !(sq_flux C Q); reflexivity).
  assert (Z0 : forall i, out_boundary_flux_sum (compute_fluxes D st w b ft) i = b i).
  { apply closed_flux; auto; [intros; apply (sq_flux C Q)|intros; apply (sq_full C Q)|].
    intros e rw He Hi. apply (closed_edges_pass_nothing C q1 x1 x2 Q Cl E e rw He Hi). }
  destruct (C08_mass_conserved D st w b ft W U F') as (_ & Cons).
  { intros k. right. apply (sq_full C Q). }
  { intros k Hk. apply Rgt_not_eq, (sq_areas C Q k Hk). }
  cbv zeta in Cons. rewrite Z0, Rminus_diag_eq in Cons by reflexivity.
  change (total D0 (out_stage (compute_fluxes D st w b ft)) = 0) in Cons.
  pose proof (C08_invariant_preserved D st w b ft W U F') as Inv. cbv zeta in Inv.
  apply (same_mesh_invariant D0 D _ _ (fill_mesh C q1 (boundary_step C q1 x2))) in Inv.
  set (o := compute_fluxes D st w b ft) in *. clearbody o.
  match goal with |- context [finish_step C d ?qq ?xx] => pose proof (finish_step_spec C (sq_full C Q) d qq xx) as FS;
    destruct (finish_step C d qq xx) as [q3 [x3|]] end; cbn [snd set_qx RKModel.rest]; [|exact I].
  destruct FS as (x0 & Ex & G1 & G2 & _). cbn [forcing_step] in Ex. injection Ex as <-. cbn [x_made boundary_step] in G2.
  cbn [fst RKModel.q bfi]. rewrite total_add, Cons in G2.
  split; [split; [exact Inv|intros i; etransitivity; [apply Z0|apply B0]]|].
  rewrite Made, P2 in G2.
  unfold set_qx. cbn [RKModel.q fst bfi]. split; [lra|]. split; [|exact HB].
  assert (total D0 q0 <= total D0 q1) by (apply total_mono; intros k Hk; rewrite P1 by exact Hk; apply Rmax_l).
  assert (total D0 (fun k => q1 k + d * out_stage o k) <= total D0 q3)
    by (apply total_mono; intros k Hk; rewrite G1 by exact Hk; apply Rmax_l).
  rewrite total_add, Cons in H0. lra.
Qed.

Lemma balanced_steps n s : balanced s -> balanced (sw_steps C dts m n s).
Proof.
  apply P_steps with (okd := fun _ => True).
  - auto.
  - intros s' d _. apply balanced_euler.
  - intros s'. destruct s'; exact (fun h => h).
  - intros s0 s' -> H0 H1. unfold balanced, saxpy, set_qx in *. destruct s0 as [q0 x0 u1 u2 u3 u4 u5 u6 u7], s' as [q1 x1 t1 t2 t3 t4 t5 t6 t7].
    cbn [RKModel.q RKModel.rest bfi fst snd dt] in *. destruct x0 as [x0|], x1 as [x1|]; cbn [combine_step]; try exact I.
    destruct H0 as (_ & A1 & A2 & A3), H1 as (I1 & B1 & B2 & B3). split; [exact I1|]. rewrite total_linear.
    cbn [blend x_made]. split; [lra|]. split; [lra|exact B3].
  - intros s0 s' -> H0 H1. unfold balanced, saxpy, set_qx in *. destruct s0 as [q0 x0 u1 u2 u3 u4 u5 u6 u7], s' as [q1 x1 t1 t2 t3 t4 t5 t6 t7].
    cbn [RKModel.q RKModel.rest bfi fst snd dt] in *. destruct x0 as [x0|], x1 as [x1|]; cbn [combine_step]; try exact I.
    destruct H0 as (_ & A1 & A2 & A3), H1 as (I1 & B1 & B2 & B3). split; [exact I1|]. rewrite total_linear.
    cbn [blend x_made]. split; [lra|]. split; [lra|exact B3].
  - intros s0 s' -> H0 H1. unfold balanced, thirds, saxpy, set_qx in *. destruct s0 as [q0 x0 u1 u2 u3 u4 u5 u6 u7], s' as [q1 x1 t1 t2 t3 t4 t5 t6 t7].
    cbn [RKModel.q RKModel.rest bfi fst snd dt] in *. destruct x0 as [x0|], x1 as [x1|]; cbn [combine_step]; try exact I.
    destruct H0 as (_ & A1 & A2 & A3), H1 as (I1 & B1 & B2 & B3). split; [exact I1|]. rewrite total_third, total_linear.
    cbn [third blend x_made]. split; [lra|]. split; [lra|exact B3].
  - intros s' H. unfold balanced, other_operators, boundary_flux_integral_op in *. destruct s' as [q1 x1 t1 t2 t3 t4 t5 t6 t7].
    cbn [RKModel.q RKModel.rest bfi bfs dt operators_step] in *. destruct x1 as [x1|]; [|exact I].
    destruct H as ((I1 & I2) & A1 & A2 & A3). cbn [bfs RKModel.q bfi] in *. split; [split; [exact I1|reflexivity]|].
    cbn [x_made]. split; [exact A1|]. split; [exact A2|]. rewrite !I2. destruct m; rewrite A3; ring.
Qed.
End Conservation.

(** In a closed basin, over any number of steps of any of the schemes with any
    time steps, the water volume changes only by what the two protection
    kernels add, which is never negative, and the recorded boundary flux
    integral does not change. *)
Theorem C73_closed_basin :
  forall C dts m n s x x', sequential C -> closed C -> between_steps C s ->
  let s' := sw_steps C dts m n s in
  RKModel.rest _ s = Some x -> RKModel.rest _ s' = Some x' ->
  water C (q _ s') - water C (q _ s) = x_made x' - x_made x /\ 0 <= x_made x' - x_made x /\
  bfi _ s' = bfi _ s /\ between_steps C s'.
Proof.
  intros C dts m n s x x' Q Cl Bt s' Hx Hx'.
  pose proof (balanced_steps C dts m Q Cl (total (cf_dom C) (q _ s) - x_made x) (x_made x) (bfi _ s) n s) as H.
  unfold balanced in H. fold s' in H. rewrite Hx, Hx' in H. destruct H as (H1 & H2 & H3 & H4).
  - split; [exact Bt|]. split; [reflexivity|]. split; [lra|reflexivity].
  - rewrite water_change by exact Q. split; [lra|]. split; [lra|]. split; [exact H4|exact H1].
Qed.
Print Assumptions C73_closed_basin.

(** What the counter [x_made] counts: each protection kernel adds the volume
    between bed and surface of the triangles whose surface is below the bed. *)
Theorem C73_protection_adds :
  forall C q x, sequential C ->
  x_made (snd (protect_step C q x)) - x_made x =
  Rsum (map (fun k => areas (cf_dom C) k * Rmax (r_bed (cf_rec C) k - q k) 0) (seq 0 (number_of_elements (cf_dom C)))) /\
  forall d q' x', finish_step C d q (Some x) = (q', Some x') ->
  x_made x' - x_made x =
  Rsum (map (fun k => areas (cf_dom C) k * Rmax (r_bed (cf_rec C) k - q k) 0) (seq 0 (number_of_elements (cf_dom C)))).
Proof.
  intros C q x Q.
  assert (G : forall q', (forall k, (k < N C)%nat -> q' k = Rmax (q k) (bed C k)) ->
    total (cf_dom C) q' - total (cf_dom C) q =
    Rsum (map (fun k => areas (cf_dom C) k * Rmax (r_bed (cf_rec C) k - q k) 0) (seq 0 (N C)))).
  { intros q' H. rewrite !(total_full C (sq_full C Q)), <- Rsum_map_minus. apply Rsum_map_ext_in.
    intros k Hk. apply in_seq in Hk. rewrite H by lia. rewrite <- Rmult_minus_distr_l. f_equal.
    unfold bed, Rmax. repeat destruct (Rle_dec _ _); lra. }
  split.
  - destruct (protect_step_spec C (sq_full C Q) (sq_mah C Q) q x) as (A & B & _). rewrite B. etransitivity; [|exact (G _ A)]. ring.
  - intros d q' x' E. pose proof (finish_step_spec C (sq_full C Q) d q (Some x)) as F. rewrite E in F.
    destruct F as (x0 & Ex & A & B & _). injection Ex as <-. rewrite B. etransitivity; [|exact (G _ A)]. ring.
Qed.
Print Assumptions C73_protection_adds.

(** * The run does not end in an exception *)

(** The semi-implicit updates are zero, as they are in a new domain and after
    every update. *)
Definition semi_zero (C : config) (s : sw_state) : Prop :=
  exists x, RKModel.rest _ s = Some x /\ forall k, (k < N C)%nat -> x_su x k = 0 /\ x_sv x k = 0.

Lemma semi_zero_euler C s d : sequential C -> recon_fine C -> 0 <= g (cf_dom C) -> 0 < r_minimum_allowed_height (cf_rec C) ->
  0 <= d -> semi_zero C s ->
  semi_zero C (euler xstate (distribute_step C) (dom_of C) (forcing_step C) (finish_step C) d s).
Proof.
  intros Q Rf Hg Hm Hd (x & Hx & Z). unfold euler, compute, distribute, update_conserved, semi_zero.
  destruct s as [q0 x0 st w b ft dt0 bi fs]. cbn [RKModel.q RKModel.rest sta wk bfs flux_dt dt bfi fsvi] in *. subst x0.
  unfold set_qx. cbn [RKModel.q RKModel.rest sta wk bfs flux_dt dt bfi fsvi distribute_step].
  pose proof (protect_step_spec C (sq_full C Q) (sq_mah C Q) q0 x) as P. cbv zeta in P.
  destruct (protect_step C q0 x) as [q1 x1]. cbn [fst snd] in P |- *. destruct P as (_ & _ & _ & _ & P5 & P6 & _).
  unfold extrapolate_step. rewrite (recon_fine_ok C q1 x1 Rf).
  set (x2 := boundary_step C q1 _). cbn [dom_of fst snd forcing_step].
  set (o := compute_fluxes _ _ _ _ _). clearbody o.
  assert (Z2 : forall k, (k < N C)%nat -> x_su x2 k = 0 /\ x_sv x2 k = 0).
  { intros k Hk. unfold x2. cbn [boundary_step x_su x_sv]. rewrite P5, P6. auto. }
  cbn [finish_step x_xmom x_ymom x_eu x_ev x_su x_sv].
  destruct (momentum_update_ok C d (x_xmom x2) (out_xmom o) (back fst (friction_step C x2) (x_su x2))) as (xm & su & E1 & V1).
  { intros k Hk. destruct (friction_step_spec C x2 k Hg Hm Hk) as (f & Hf & F1 & _). rewrite F1, (proj1 (Z2 k Hk)).
    pose proof (friction_denominator d (x_xmom x2 k) f Hd Hf). lra. }
  destruct (momentum_update_ok C d (x_ymom x2) (out_ymom o) (back snd (friction_step C x2) (x_sv x2))) as (ym & sv & E2 & V2).
  { intros k Hk. destruct (friction_step_spec C x2 k Hg Hm Hk) as (f & Hf & _ & F2). rewrite F2, (proj2 (Z2 k Hk)).
    pose proof (friction_denominator d (x_ymom x2 k) f Hd Hf). lra. }
  rewrite E1, E2. eexists. split; [reflexivity|]. intros k Hk. cbn [x_su x_sv].
  split; [apply (V1 k Hk)|apply (V2 k Hk)].
Qed.

(** With time steps that are not negative, no exception ends the run: the
    friction term never makes a denominator of the momentum update zero or
    negative. *)
Theorem C73_no_exception :
  forall C dts m n s, sequential C -> recon_fine C -> 0 <= g (cf_dom C) -> 0 < r_minimum_allowed_height (cf_rec C) ->
  (forall i f, 0 <= dts i f) -> semi_zero C s ->
  semi_zero C (sw_steps C dts m n s).
Proof.
  intros C dts m n s Q Rf Hg Hm Hd. apply P_steps with (okd := fun d => 0 <= d).
  - intros f x. unfold choose_dt_step. destruct x; [apply Hd|lra].
  - intros s' d Hd'. apply semi_zero_euler; auto.
  - intros s' (x & H). exists x. destruct s'; exact H.
  - intros s0 s' _ (x0 & E0 & _) (x1 & E1 & S1). unfold saxpy, set_qx, semi_zero. rewrite E0, E1.
    cbn [fst snd RKModel.rest combine_step]. destruct m; eexists; (split; [reflexivity|]); exact S1.
  - intros s0 s' _ (x0 & E0 & _) (x1 & E1 & S1). unfold saxpy, set_qx, semi_zero. rewrite E0, E1.
    cbn [fst snd RKModel.rest combine_step]. destruct m; eexists; (split; [reflexivity|]); exact S1.
  - intros s0 s' _ (x0 & E0 & _) (x1 & E1 & S1). unfold thirds, saxpy, set_qx, semi_zero. rewrite E0, E1.
    cbn [fst snd RKModel.rest combine_step]. destruct m; eexists; (split; [reflexivity|]); exact S1.
  - intros s' (x & E & H). unfold other_operators, boundary_flux_integral_op, semi_zero.
    destruct s' as [q1 x1 t1 t2 t3 t4 t5 t6 t7]. cbn [RKModel.rest RKModel.q operators_step] in *. subst x1.
    eexists. split; [reflexivity|]. exact H.
Qed.
Print Assumptions C73_no_exception.

(** * C75 *)

Definition nonnegative (C : config) (s : sw_state) : Prop :=
  RKModel.rest _ s = None \/ forall k, (k < N C)%nat -> bed C k <= q _ s k.

Lemma nonnegative_euler C s d : sequential C ->
  nonnegative C (euler xstate (distribute_step C) (dom_of C) (forcing_step C) (finish_step C) d s).
Proof.
  intros Q. unfold euler, compute, update_conserved, nonnegative, set_qx. cbn [fst snd RKModel.q RKModel.rest dt].
  match goal with |- context [finish_step C d ?qq ?xx] => pose proof (finish_step_spec C (sq_full C Q) d qq xx) as F;
    destruct (finish_step C d qq xx) as [q' [x'|]] end; cbn [fst snd]; [right|left; reflexivity].
  destruct F as (x0 & _ & A & _). intros k Hk. rewrite A by exact Hk. apply Rmax_r.
Qed.

(** The surface is nowhere below the bed at the end of a complete step, for any
    time step and any scheme, if it was not at the beginning. *)
Theorem C75_depth_nonnegative :
  forall C dts m n s, sequential C ->
  (forall k, (k < number_of_elements (cf_dom C))%nat -> r_bed (cf_rec C) k <= q _ s k) ->
  let s' := sw_steps C dts m n s in
  RKModel.rest _ s' <> None ->
  forall k, (k < number_of_elements (cf_dom C))%nat -> r_bed (cf_rec C) k <= q _ s' k.
Proof.
  intros C dts m n s Q H s' Hn.
  assert (G : nonnegative C s').
  { unfold s', sw_steps. apply P_steps with (P := nonnegative C) (okd := fun _ => True).
    - auto.
    - intros s1 d _ _. apply nonnegative_euler. exact Q.
    - intros s1. destruct s1; exact (fun h => h).
    - intros s0 s1 _ H0 H1. unfold nonnegative, saxpy, set_qx in *. destruct s0 as [q0 x0 u1 u2 u3 u4 u5 u6 u7], s1 as [q1 x1 t1 t2 t3 t4 t5 t6 t7].
      cbn [RKModel.q RKModel.rest fst snd dt] in *. destruct x0, x1; cbn [combine_step]; auto.
      destruct H0 as [H0|H0], H1 as [H1|H1]; try discriminate. right. intros k Hk. specialize (H0 k Hk). specialize (H1 k Hk). lra.
    - intros s0 s1 _ H0 H1. unfold nonnegative, saxpy, set_qx in *. destruct s0 as [q0 x0 u1 u2 u3 u4 u5 u6 u7], s1 as [q1 x1 t1 t2 t3 t4 t5 t6 t7].
      cbn [RKModel.q RKModel.rest fst snd dt] in *. destruct x0, x1; cbn [combine_step]; auto.
      destruct H0 as [H0|H0], H1 as [H1|H1]; try discriminate. right. intros k Hk. specialize (H0 k Hk). specialize (H1 k Hk). lra.
    - intros s0 s1 _ H0 H1. unfold nonnegative, thirds, saxpy, set_qx in *. destruct s0 as [q0 x0 u1 u2 u3 u4 u5 u6 u7], s1 as [q1 x1 t1 t2 t3 t4 t5 t6 t7].
      cbn [RKModel.q RKModel.rest fst snd dt] in *. destruct x0, x1; cbn [combine_step]; auto.
      destruct H0 as [H0|H0], H1 as [H1|H1]; try discriminate. right. intros k Hk. specialize (H0 k Hk). specialize (H1 k Hk). lra.
    - intros s1 H1. unfold nonnegative, other_operators, boundary_flux_integral_op in *. destruct s1 as [q1 x1 t1 t2 t3 t4 t5 t6 t7].
      cbn [RKModel.q RKModel.rest operators_step] in *. destruct x1; auto. destruct H1; [discriminate|]. right. auto.
    - right. exact H. }
  destruct G as [G|G]; [contradiction|exact G].
Qed.
Print Assumptions C75_depth_nonnegative.

(** The Euler scheme ends with a non-negative depth whatever it starts from. *)
Theorem C75_euler_repairs :
  forall C dts n s, sequential C ->
  let s' := sw_steps C dts Euler (S n) s in
  RKModel.rest _ s' <> None ->
  forall k, (k < number_of_elements (cf_dom C))%nat -> r_bed (cf_rec C) k <= q _ s' k.
Proof.
  intros C dts n s Q s' Hn. set (s1 := sw_step C dts Euler s).
  assert (H1 : RKModel.rest _ s1 = None \/ forall k, (k < N C)%nat -> bed C k <= q _ s1 k).
  { unfold s1, sw_step, step. cbn [evolve_one_step].
    pose proof (euler_chosen xstate (distribute_step C) (dom_of C) (forcing_step C) (choose_dt_step dts) (finish_step C) s) as E.
    unfold evolve_one_euler_step. destruct (compute _ _ _ _) as [s2 e2]. rewrite E.
    match goal with |- context [euler _ _ _ _ _ ?d s] => pose proof (nonnegative_euler C s d Q) as G end.
    unfold nonnegative in G. set (s3 := euler _ _ _ _ _ _ s) in *. clearbody s3.
    destruct s3 as [q1 x1 t1 t2 t3 t4 t5 t6 t7]. cbn in *. destruct x1; cbn in *; auto. destruct G; [discriminate|auto]. }
  destruct H1 as [H1|H1].
  - exfalso. apply Hn. unfold s', sw_steps. cbn [steps]. fold (sw_step C dts Euler s). fold s1.
    assert (Dead : forall s0, RKModel.rest _ s0 = None -> RKModel.rest _ (sw_steps C dts Euler n s0) = None); [|exact (Dead s1 H1)].
    intros s0. unfold sw_steps. apply P_steps with (P := fun s => RKModel.rest _ s = None) (okd := fun _ => True); auto.
    + intros s3 d _ H. unfold euler, compute, distribute, update_conserved, set_qx. cbn. rewrite H. reflexivity.
    + discriminate.
    + discriminate.
    + discriminate.
    + intros s3 H. unfold other_operators, boundary_flux_integral_op. cbn. rewrite H. reflexivity.
  - unfold s'. apply (C75_depth_nonnegative C dts Euler n s1 Q H1). exact Hn.
Qed.
Print Assumptions C75_euler_repairs.

(** * Non-vacuity: two unit squares side by side, cut into four triangles *)

Definition strip_neighbours (e : nat) : Z :=
  nth e [1; -1; -2;  0; 2; -3;  3; 1; -4;  2; -5; -6]%Z (-7)%Z.
Definition strip_neighbour_edges (e : nat) : nat := nth e [0; 0; 0;  0; 1; 0;  0; 1; 0;  0; 0; 0]%nat 0%nat.
Definition strip_nx (e : nat) : R :=
  nth e [/ sqrt 2; -1; 0;  - / sqrt 2; 1; 0;  / sqrt 2; -1; 0;  - / sqrt 2; 1; 0] 0.
Definition strip_ny (e : nat) : R :=
  nth e [/ sqrt 2; 0; -1;  - / sqrt 2; 0; 1;  / sqrt 2; 0; -1;  - / sqrt 2; 0; 1] 0.
Definition strip_len (e : nat) : R :=
  nth e [sqrt 2; 1; 1;  sqrt 2; 1; 1;  sqrt 2; 1; 1;  sqrt 2; 1; 1] 1.
Definition strip_domain : domain := {|
  number_of_elements := 4; epsilon := / 10 ^ 12; g := 98 / 10; low_froude := 1;
  neighbours := strip_neighbours; neighbour_edges := strip_neighbour_edges;
  normal_x := strip_nx; normal_y := strip_ny; edgelengths := strip_len;
  radii := fun _ => 1 / 10; areas := fun _ => 1 / 2; tri_full_flag := fun _ => 1%Z;
  stage_edge := fun _ => 0; xmom_edge := fun _ => 0; ymom_edge := fun _ => 0; bed_edge := fun _ => 0; height_edge := fun _ => 0;
  stage_centroid := fun _ => 0; bed_centroid := fun _ => 0; height_centroid := fun _ => 0;
  stage_boundary := fun _ => 0; xmom_boundary := fun _ => 0; ymom_boundary := fun _ => 0;
  edge_flux_type := fun _ => 0%Z; riverwall_elevation := fun _ => 0;
  riverwall_rowIndex := fun _ => 0%nat; ncol_riverwall := 5; riverwall_props := fun _ => 1;
  update_next_flux := fun _ => 1%Z; timestep_fluxcalls := 1; allow_timestep_increase := 1%Z |}.
Definition strip_recon (b : nat -> R) : recon := {|
  r_number_of_elements := 4; r_update := fun _ => 1%Z;
  r_number_of_boundaries := fun k => nth k [2; 1; 1; 2]%Z 3%Z;
  r_surrogate := fun e => nth e [1; 0; 0;  0; 2; 1;  3; 1; 2;  2; 3; 3]%nat 0%nat;
  r_ex := fun e => nth e [1/2; 0; 1/2;  1/2; 1; 1/2;  3/2; 1; 3/2;  3/2; 2; 3/2] 0;
  r_ey := fun e => nth e [1/2; 1/2; 0;  1/2; 1/2; 1;  1/2; 1/2; 0;  1/2; 1/2; 1] 0;
  r_cx := fun k => nth k [1/3; 2/3; 4/3; 5/3] 0;
  r_cy := fun k => nth k [1/3; 2/3; 1/3; 2/3] 0;
  r_beta_w := 1 / 2; r_beta_w_dry := 0; r_beta_uh := 1 / 2; r_beta_uh_dry := 0; r_beta_vh := 1 / 2; r_beta_vh_dry := 0;
  r_minimum_allowed_height := / 10 ^ 5; r_velocity := 1%Z;
  r_stage := fun _ => 0; r_bed := b; r_height := fun _ => 0; r_xmom := fun _ => 0; r_ymom := fun _ => 0;
  r_stage_e := fun _ => 0; r_height_e := fun _ => 0; r_xmom_e := fun _ => 0; r_ymom_e := fun _ => 0;
  r_bed_e := fun _ => 0;
  r_stage_v := fun _ => 0; r_height_v := fun _ => 0; r_xmom_v := fun _ => 0; r_ymom_v := fun _ => 0;
  r_bed_v := fun _ => 0 |}.

(** [b]: bed at the centroids; [o]: the boundary object of the short side on
    the left, the other sides are reflective. *)
Definition strip (b : nat -> R) (o : boundary_object) : config := {|
  cf_dom := strip_domain; cf_rec := strip_recon b; cf_sloped := false; cf_eta := fun _ => 3 / 100;
  cf_x := fun _ => ((0, 0), (1, 0), (0, 1));
  cf_cells := fun j => nth j [0; 0; 1; 2; 3; 3]%nat 0%nat; cf_edges := fun j => nth j [1; 2; 2; 2; 1; 2]%nat 0%nat;
  cf_segments := [(o, [0%nat]); (Reflective, [1; 2; 3; 4; 5]%nat)] |}.

(** A state between steps, with stage [q0] and momenta [u], [v]. *)
Definition strip_rest (u v : nat -> R) : rest :=
  Rest u v (fun _ => 0) (fun _ => 0) (fun _ => 0) (fun _ => 0) (fun _ => 0) (fun _ => 0) (fun _ => 0) (fun _ => 0)
    (fun _ _ => 0) (fun _ => 0) (fun _ => 0) (fun _ => 0) (fun _ => 0) 0 0.
Definition strip_state (q0 u v : nat -> R) : sw_state :=
  State xstate q0 (Some (strip_rest u v)) ex_statics ex_work (fun _ => 0) 0 0 0 0.

Ltac twelve e H := destruct e as [|[|[|[|[|[|[|[|[|[|[|[|e]]]]]]]]]]]]; [..|exfalso; cbn in H; lia].

Lemma strip_sequential b o : sequential (strip b o).
Proof.
  constructor; cbn -[pow]; auto; try discriminate.
  - constructor; intros e He Hi; cbn in He; twelve e He; try discriminate Hi; cbn; try (split; lia); repeat split; try reflexivity; lia.
  - intros. lra.
  - left. apply Rinv_0_lt_compat, pow_lt. lra.
Qed.

Lemma strip_unit e : (e < 12)%nat -> strip_nx e ^ 2 + strip_ny e ^ 2 = 1.
Proof.
  intros He. assert (S2 : / sqrt 2 * / sqrt 2 = / 2) by (rewrite <- Rinv_mult, sqrt_sqrt by lra; reflexivity).
  twelve e He; unfold strip_nx, strip_ny; cbn [nth]; try ring;
    match goal with |- ?a ^ 2 + ?b ^ 2 = 1 => transitivity (2 * (/ sqrt 2 * / sqrt 2)); [ring|rewrite S2; field] end.
Qed.

Lemma strip_between b o q0 u v : between_steps (strip b o) (strip_state q0 u v).
Proof.
  split; [|reflexivity]. apply C08_invariant_initial; cbn; [lia|reflexivity|reflexivity].
Qed.

Lemma strip_fine b o : recon_fine (strip b o).
Proof.
  intros k Hk. cbn in Hk. destruct k as [|[|[|[|k]]]]; [..|lia]; cbn.
  - right. right. exists 0%nat. split; [lia|]. cbn. discriminate.
  - left. lia.
  - left. lia.
  - right. right. exists 0%nat. split; [lia|]. cbn. discriminate.
Qed.

(** Any bed, surface and momenta. *)
Example C73_example b q0 u v :
  sequential (strip b Reflective) /\ closed (strip b Reflective) /\
  between_steps (strip b Reflective) (strip_state q0 u v) /\ recon_fine (strip b Reflective) /\
  semi_zero (strip b Reflective) (strip_state q0 u v).
Proof.
  split; [apply strip_sequential|]. split; [|split; [apply strip_between|split; [apply strip_fine|]]].
  - constructor.
    + intros o ids. cbn. intros [E|[E|[]]]; congruence.
    + intros e He Hn. cbn in He. cbv zeta.
      refine (conj _ (conj _ (conj (strip_unit e He) _))); [| |discriminate].
      * twelve e He; cbn in Hn; try lia; [exists Reflective, [0%nat]|exists Reflective, [1; 2; 3; 4; 5]%nat..]; cbn; auto 10.
      * twelve e He; cbn in Hn; try (exfalso; lia); (split; [reflexivity|apply Nat.ltb_lt; reflexivity]).
  - exists (strip_rest u v). split; [reflexivity|]. split; reflexivity.
Qed.

Example C75_example b : let q0 := fun k => b k + 1 in
  sequential (strip b Reflective) /\ forall k, (k < 4)%nat -> b k <= q0 k.
Proof. cbv zeta. split; [apply strip_sequential|]. intros. lra. Qed.

(** * A riverwall on the boundary *)

(** Where a boundary edge is flagged as riverwall the boundary condition is
    bypassed: the head outside is taken from the depth at the centroid above
    the bed of the edge, so a reflective boundary passes water when the bed is
    higher at the edge than at the centroid. *)
Theorem C73_riverwall_refuted :
  forall D rw e, interior D e = false -> edge_flux_type D e = 1%Z ->
  bed_centroid D (e / 3) < riverwall_elevation D rw ->
  bed_edge D e <= riverwall_elevation D rw ->
  stage_centroid D (e / 3) <= riverwall_elevation D rw < height_centroid D (e / 3) + bed_edge D e ->
  let ii := (riverwall_rowIndex D rw * ncol_riverwall D)%nat in
  0 < riverwall_props D ii -> 0 <= riverwall_props D (ii + 1) < riverwall_props D (ii + 2) ->
  0 <= riverwall_props D (ii + 3) < riverwall_props D (ii + 4) -> 0 < g D ->
  tiny <= height_centroid D (e / 3) + bed_edge D e - riverwall_elevation D rw -> 0 < edgelengths D e ->
  c0 (er_flux (compute_edge D rw e)) < 0.
Proof.
  intros D rw e Hi Ht Hz Hb (Hs & Hh) ii Q0 (S1 & S2) (H1 & H2) Hg Tm Hl.
  unfold compute_edge. cbv zeta. rewrite Hi, Ht. cbn [Z.eqb Pos.eqb].
  set (F := flux_function_central _ _ _ _ _ _ _ _ _ _ _ _). clearbody F.
  set (r := riverwall_elevation D rw) in *. set (zl := bed_edge D e) in *. set (zc := bed_centroid D (e / 3)) in *.
  set (hc := height_centroid D (e / 3)) in *. set (sc := stage_centroid D (e / 3)) in *.
  rewrite !(Rmax_left zl zl) by lra. rewrite (Rmax_left zc zc) by lra. rewrite !(Rmax_left r zl) by lra.
  rewrite (proj2 (Rltb_true zc r) Hz). rewrite (Rmax_right (sc - r) 0) by lra. rewrite (Rmax_left (hc + zl - r) 0) by lra.
  set (m := hc + zl - r) in *. assert (Hm : 0 < m) by (unfold m; lra).
  rewrite (proj2 (Rltb_true 0 m) Hm), orb_true_r. fold ii. cbn [er_flux c0].
  pose proof tiny_pos as T.
  unfold adjust_edgeflux_with_weir. cbv zeta. rewrite (Rmin_left 0 m), (Rmax_right 0 m) by lra.
  rewrite (Rmax_left m tiny) by exact Tm.
  replace (0 / m) with 0 by (field; lra).
  match goal with |- context [0 / Rmax ?a tiny] => replace (0 / Rmax a tiny) with 0
    by (field; pose proof (Rmax_r a tiny); lra) end.
  rewrite (proj2 (Rltb_true 0 m) Hm).
  rewrite (proj2 (Rltb_true 0 (riverwall_props D (ii + 2)))) by lra.
  rewrite (proj2 (Rltb_true 0 (riverwall_props D (ii + 4)))) by lra. cbn [andb fst c0].
  rewrite (Rmax_right (0 - riverwall_props D (ii + 1)) 0), (Rmax_right (0 - riverwall_props D (ii + 3)) 0) by lra.
  replace (0 / (riverwall_props D (ii + 2) - riverwall_props D (ii + 1))) with 0 by (field; lra).
  replace (0 / (riverwall_props D (ii + 4) - riverwall_props D (ii + 3))) with 0 by (field; lra).
  rewrite (Rmin_left 0 1) by lra.
  assert (Sq : 0 < sqrt (2 / 3 * g D * m)) by (apply sqrt_lt_R0, Rmult_lt_0_compat; lra).
  set (Qf := riverwall_props D ii) in *.
  assert (W : 0 < Qf * (2 / 3) * m * sqrt (2 / 3 * g D * m)) by (repeat apply Rmult_lt_0_compat; lra).
  set (W0 := Qf * (2 / 3) * m * sqrt (2 / 3 * g D * m)) in *.
  replace (Qf * (2 / 3) * 0 * sqrt (2 / 3 * g D * 0)) with 0 by ring.
  replace (0 / Rmax W0 tiny) with 0 by (field; pose proof (Rmax_r W0 tiny); lra).
  assert (P : 0 < cpow (1 - 0) (385 / 1000)).
  { unfold cpow. rewrite (proj2 (Rltb_true 0 (1 - 0))) by lra. unfold Rpower. apply exp_pos. }
  assert (W1 : 0 < W0 * cpow (1 - 0) (385 / 1000)) by (apply Rmult_lt_0_compat; auto).
  set (W2 := W0 * cpow (1 - 0) (385 / 1000)) in *. clearbody W2.
  replace ((W2 * -1 * (1 - 0) + 0 * c0 (f_edge F)) * (1 - 0) + 0 * c0 (f_edge F)) with (- W2) by ring.
  assert (0 < W2 * edgelengths D e) by (apply Rmult_lt_0_compat; auto). lra.
Qed.
Print Assumptions C73_riverwall_refuted.

(** The left edge of the unit square with a wall of height 2, bed 1 at the edge
    and 0 at the centroid, water level 2 on both sides. *)
Example C73_riverwall_example :
  exists D, wf_mesh D /\ interior D 1 = false /\ edge_flux_type D 1 = 1%Z /\
  stage_boundary D 0 = stage_edge D 1 /\ xmom_boundary D 0 = 0 /\ ymom_boundary D 0 = 0 /\
  xmom_edge D 1 = 0 /\ ymom_edge D 1 = 0 /\ stage_edge D 1 = bed_edge D 1 + height_edge D 1 /\
  bed_centroid D 0 < riverwall_elevation D 0 /\ bed_edge D 1 <= riverwall_elevation D 0 /\
  stage_centroid D 0 <= riverwall_elevation D 0 < height_centroid D 0 + bed_edge D 1 /\
  tiny <= height_centroid D 0 + bed_edge D 1 - riverwall_elevation D 0.
Proof.
  set (D := ex_domain (fun e => match e with 1%nat => 1 | _ => 0 end) (fun _ => 0) 0).
  exists {| number_of_elements := 2; epsilon := epsilon D; g := g D; low_froude := low_froude D;
    neighbours := neighbours D; neighbour_edges := neighbour_edges D; normal_x := normal_x D; normal_y := normal_y D;
    edgelengths := edgelengths D; radii := radii D; areas := areas D; tri_full_flag := tri_full_flag D;
    stage_edge := stage_edge D; xmom_edge := xmom_edge D; ymom_edge := ymom_edge D; bed_edge := bed_edge D;
    height_edge := height_edge D; stage_centroid := stage_centroid D; bed_centroid := bed_centroid D;
    height_centroid := height_centroid D; stage_boundary := stage_boundary D; xmom_boundary := xmom_boundary D;
    ymom_boundary := ymom_boundary D; edge_flux_type := fun e => match e with 1%nat => 1%Z | _ => 0%Z end;
    riverwall_elevation := fun _ => 2; riverwall_rowIndex := fun _ => 0%nat; ncol_riverwall := 5;
    riverwall_props := fun i => nth i [1; 9/10; 95/100; 1; 3/2] 1; update_next_flux := update_next_flux D;
    timestep_fluxcalls := 1; allow_timestep_increase := 1%Z |}.
  split; [destruct (ex_wf (bed_edge D) (bed_centroid D) 0) as [A B]; constructor; [exact A|exact B]|].
  cbn. pose proof tiny_le_1. repeat split; try reflexivity; lra.
Qed.
