(** Properties C74 (still water with shores) and C77 (triangles with one
    internal neighbour). *)
From Coq Require Import Reals List ZArith Arith Bool Lia Lra.
From Verif Require Import RealLib ArrayLib CentroidModel CentroidProofs BoundaryModel BoundaryProps FluxModel FluxFunctionProofs
  FluxProofs FluxProps ReconModel ReconProofs ReconProps RKModel RKProofs StepModel StepProofs StepProps LakeProofs.
Import ListNotations.
Local Open Scope R_scope.

(** * C77 *)

(** Whatever the values, the reconstruction in a triangle with two boundary
    edges is constant up to twice the cut-off 1e-100 of the limiter: the
    gradient towards the only neighbour is computed and then always removed. *)
Theorem C77_gradient_refuted :
  forall I q k n, 0 <= r_beta_w I ->
  dxv I k 0 + dxv I k 1 + dxv I k 2 = 0 -> dyv I k 0 + dyv I k 1 + dyv I k 2 = 0 ->
  forall i, (i < 3)%nat -> Rabs (jump (single_jumps I q k n) i) <= 2 * tiny.
Proof.
  intros I q k n Hb Hx Hy i Hi. apply Rabs_le. apply single_negligible; auto.
Qed.
Print Assumptions C77_gradient_refuted.

(** It is exactly constant as soon as the provisional jump away from the
    neighbour exceeds the cut-off. *)
Theorem C77_constant :
  forall I q k n i, 0 <= r_beta_w I -> (i < 3)%nat -> Rabs (q n - q k) * lean I k n i < - tiny ->
  single_jumps I q k n = (0, 0, 0).
Proof.
  intros I q k n i Hb Hi H.
  pose proof (single_flat I q k n Hb (or_intror (ex_intro _ i (conj Hi H)))) as F.
  destruct (single_jumps I q k n) as [[a b] c].
  pose proof (F 0%nat) as F0. pose proof (F 1%nat) as F1. pose proof (F 2%nat) as F2. cbn in F0, F1, F2. congruence.
Qed.
Print Assumptions C77_constant.

(** In the unit square cut along a diagonal, stage rising by one from the
    first triangle to the second. *)
Example C77_example : single_jumps (ex_recon (fun _ => 0)) INR 0 1 = (0, 0, 0).
Proof.
  apply (C77_constant _ _ 0 1 1%nat); [cbn; lra|lia|]. unfold lean, dxv, dyv. cbn.
  replace (Rabs (1 - 0)) with 1 by (rewrite Rabs_pos_eq; lra). unfold tiny.
  assert (/ 10 ^ 100 < / 4).
  { apply Rinv_lt_contravar; [apply Rmult_lt_0_compat; [lra|apply pow_lt; lra]|].
    apply Rlt_le_trans with (10 ^ 1); [lra|]. apply Rle_pow; [lra|]. lia. }
  assert (P : 1 * (((2 / 3 - 1 / 3) * (0 - 1 / 3) + (2 / 3 - 1 / 3) * (1 / 2 - 1 / 3)) /
      ((2 / 3 - 1 / 3) * ((2 / 3 - 1 / 3) * 1) + (2 / 3 - 1 / 3) * ((2 / 3 - 1 / 3) * 1))) = - / 4) by field.
  rewrite P. lra.
Qed.

(** * C74 *)

(** Level of the surface and depth when water stands at [w]. *)
Definition level (C : config) (w : R) (k : nat) : R := Rmax w (bed C k).
Definition depth (C : config) (w : R) (k : nat) : R := Rmax (w - bed C k) 0.

(** Two values are equal, or differ by more than the cut-off of the limiter
    seen from an edge on the far side. *)
Definition resolved (C : config) (f : nat -> R) (k n : nat) : Prop :=
  f n = f k \/ exists i, (i < 3)%nat /\ Rabs (f n - f k) * lean (cf_rec C) k n i < - tiny.

(** What the theorem assumes about the domain: the geometric facts of C07, no
    riverwalls, the default limiters near dry land, boundary objects that
    respect the level, and the cut-off of the limiter. *)
Record shores (C : config) (w : R) : Prop := {
  sh_recon : recon_fine C;
  sh_closed : closed_cells (cf_dom C);
  sh_shared : shared_lengths (cf_dom C);
  sh_eps : tiny <= epsilon (cf_dom C);
  sh_walls : forall e, edge_flux_type (cf_dom C) e <> 1%Z;
  sh_velocity : r_velocity (cf_rec C) = 1%Z;
  sh_beta : 0 <= r_beta_w (cf_rec C) <= 1;
  sh_dry : r_beta_w_dry (cf_rec C) = 0;
  sh_mah : tiny <= r_minimum_allowed_height (cf_rec C);
  sh_range : forall k i, (k < N C)%nat -> (i < 3)%nat -> (r_surrogate (cf_rec C) (3 * k + i) < N C)%nat;
  sh_corner : forall k n, (k < N C)%nat -> r_number_of_boundaries (cf_rec C) k = 2%Z ->
    internal_neighbour (cf_rec C) k = Some n -> resolved C (level C w) k n /\ resolved C (depth C w) k n;
  sh_count : forall k, (k < N C)%nat -> (r_number_of_boundaries (cf_rec C) k <= 3)%Z;
  sh_objects : forall b ids, In (b, ids) (cf_segments C) ->
    b = Reflective \/ (exists c, b = Transmissive c) \/
    exists v, b = Dirichlet v /\ BoundaryModel.c0 v = w /\ BoundaryModel.c1 v = 0 /\ BoundaryModel.c2 v = 0;
  sh_edges : forall e, (e < 3 * N C)%nat -> (neighbours (cf_dom C) e < 0)%Z ->
    let b := Z.to_nat (- neighbours (cf_dom C) e - 1) in
    (exists o ids, In (o, ids) (cf_segments C) /\ In b ids) /\
    (3 * cf_cells C b + cf_edges C b = e /\ cf_edges C b < 3)%nat }.

(** Water standing at [w]: surface and momenta. *)
Definition standing (C : config) (w : R) (q : nat -> R) (x : rest) : Prop :=
  forall k, (k < N C)%nat -> q k = level C w k /\ x_xmom x k = 0 /\ x_ymom x k = 0.

Section Lake.
Variable C : config.
Variable w : R.
Hypothesis Q : sequential C.
Hypothesis Sh : shores C w.
Notation D0 := (cf_dom C).

Lemma mah_pos : 0 < r_minimum_allowed_height (cf_rec C).
Proof. pose proof (sh_mah C w Sh). pose proof tiny_pos. lra. Qed.

Lemma edge_cell e : (e < 3 * N C)%nat -> (e / 3 < N C)%nat /\ (e mod 3 < 3)%nat /\ e = (3 * (e / 3) + e mod 3)%nat.
Proof.
  intros H. split; [apply Nat.div_lt_upper_bound; lia|]. split; [apply Nat.mod_upper_bound; lia|].
  apply Nat.div_mod. lia.
Qed.

Section Distributed.
Variables (q : nat -> R) (x : rest).
Hypothesis St : standing C w q x.
Let I := recon_of C q x.

Lemma st_height1 k : (k < N C)%nat -> height1 I k = depth C w k.
Proof.
  intros Hk. unfold height1, I. cbn [recon_of r_velocity r_stage r_bed]. rewrite (sh_velocity C w Sh). cbn [Z.eqb Pos.eqb].
  rewrite (proj1 (St k Hk)). unfold level, depth, bed, Rmax. repeat destruct (Rle_dec _ _); lra.
Qed.

Lemma st_mom2 mom k : (k < N C)%nat -> mom k = 0 -> mom2 I mom k = 0.
Proof.
  intros Hk E. unfold mom2, mom1. destruct (surrounded I k); [reflexivity|]. rewrite E.
  destruct (Z.eqb _ _); [|reflexivity]. destruct (wet_cell I k); [apply Rmult_0_l|reflexivity].
Qed.
Lemma st_work2 mom k : (k < N C)%nat -> mom k = 0 -> work2 I mom k = 0.
Proof.
  intros Hk E. unfold work2, work1. destruct (surrounded I k); [reflexivity|]. rewrite E.
  destruct (Z.eqb _ _); [|reflexivity]. destruct (wet_cell I k); reflexivity.
Qed.

Lemma st_ok : recon_ok I = true.
Proof. apply recon_fine_ok, (sh_recon C w Sh). Qed.

Lemma st_reconstructed k : (k < N C)%nat -> reconstructed I k.
Proof.
  intros Hk. split; [|split; [apply (sq_recon C Q)|exact st_ok]].
  unfold I. cbn [recon_of r_number_of_elements]. rewrite (sq_n C Q). exact Hk.
Qed.

Lemma st_nb k : (k < N C)%nat -> (nb0 I k < N C)%nat /\ (nb1 I k < N C)%nat /\ (nb2 I k < N C)%nat.
Proof.
  intros Hk. unfold nb0, nb1, nb2, I. cbn [recon_of r_surrogate].
  pose proof (sh_range C w Sh k 0 Hk ltac:(lia)) as R0. rewrite Nat.add_0_r in R0.
  split; [exact R0|]. split; apply (sh_range C w Sh); auto; lia.
Qed.

(** Both quantities are constant in the triangle, or the triangle and its
    neighbours are deeper than [minimum_allowed_height]. *)
Lemma st_cases k ds dh : (k < N C)%nat ->
  cell_jumps I (r_stage I) (r_beta_w I) (r_beta_w_dry I) k = Some ds ->
  cell_jumps I (height1 I) (r_beta_w I) (r_beta_w_dry I) k = Some dh ->
  (forall i, (i < 3)%nat -> jump ds i = 0 /\ jump dh i = 0) \/
  (forall n, n = k \/ n = nb0 I k \/ n = nb1 I k \/ n = nb2 I k -> r_minimum_allowed_height (cf_rec C) < depth C w n).
Proof.
  intros Hk Es Eh. unfold cell_jumps in Es, Eh. destruct (st_nb k Hk) as (N0 & N1 & N2).
  assert (Fl : forall i, (i < 3)%nat -> jump flat i = 0) by (intros [|[|[|i]]] Hi; try lia; reflexivity).
  destruct (Z.eqb_spec (r_number_of_boundaries I k) 3) as [B3|B3].
  { injection Es as <-. injection Eh as <-. left. auto. }
  destruct (Z.leb_spec (r_number_of_boundaries I k) 1) as [B1|B1].
  - destruct (Rleb (area2 I k) 0).
    { injection Es as <-. injection Eh as <-. left. auto. }
    destruct (Rlt_le_dec (r_minimum_allowed_height (cf_rec C))
      (Rmin (Rmin (height1 I (nb0 I k)) (Rmin (height1 I (nb1 I k)) (height1 I (nb2 I k)))) (height1 I k))) as [L|L].
    + right. intros n Hn. rewrite !st_height1 in L by auto.
      unfold Rmin in L. destruct Hn as [->|[->|[->| ->]]]; repeat destruct (Rle_dec _ _); lra.
    + left. pose proof (hfactor_dry I k mah_pos L) as H. rewrite H in Es, Eh.
      replace (r_beta_w_dry I) with 0 in * by (symmetry; apply (sh_dry C w Sh)).
      unfold typical_jumps in Es, Eh. rewrite (proj2 (Rltb_false 0 (0 + (r_beta_w I - 0) * 0))) in Es, Eh by lra.
      injection Es as <-. injection Eh as <-. auto.
  - pose proof (sh_count C w Sh k Hk) as Cn. change (r_number_of_boundaries (cf_rec C) k) with (r_number_of_boundaries I k) in Cn.
    destruct (internal_neighbour I k) as [n|] eqn:En; [|discriminate]. injection Es as <-. injection Eh as <-. left.
    destruct (sh_corner C w Sh k n Hk) as (R1 & R2).
    { change (r_number_of_boundaries I k = 2%Z). lia. }
    { exact En. }
    assert (Hn : (n < N C)%nat) by (apply internal_neighbour_surrogate in En as [->|[->| ->]]; auto).
    intros i Hi. split; apply single_flat; try apply (proj1 (sh_beta C w Sh)).
    + unfold resolved in R1. cbn [I recon_of r_stage]. unfold I. cbn [recon_of r_stage].
      rewrite (proj1 (St k Hk)), (proj1 (St n Hn)). exact R1.
    + rewrite !st_height1 by auto. exact R2.
Qed.

Lemma st_edges e : (e < 3 * N C)%nat ->
  ((bed C (e / 3) <= w /\ stage_edges I e = w /\ 0 <= height_edges I e) \/
   (w <= bed C (e / 3) /\ stage_edges I e = bed C (e / 3) /\ height_edges I e = 0)) /\
  xmom_edges I e = 0 /\ ymom_edges I e = 0.
Proof.
  intros He. destruct (edge_cell e He) as (Hk & Hi & E). set (k := (e / 3)%nat) in *. set (i := (e mod 3)%nat) in *.
  rewrite E. pose proof (st_reconstructed k Hk) as Hr. destruct (st_nb k Hk) as (N0 & N1 & N2).
  destruct (extrapolated_value I (r_stage I) (r_stage_e I) (r_beta_w I) (r_beta_w_dry I) k i Hr Hi) as (ds & Es & Vs).
  destruct (extrapolated_value I (height1 I) (r_height_e I) (r_beta_w I) (r_beta_w_dry I) k i Hr Hi) as (dh & Eh & Vh).
  assert (Sk : r_stage I k = level C w k) by (apply (St k Hk)).
  assert (Mo : forall mom old b bd, (forall k, (k < N C)%nat -> mom k = 0) -> mom_edges I mom old b bd (3 * k + i) = 0).
  { intros mom old b bd Hm. unfold mom_edges. cbv zeta.
    destruct (extrapolated_value I (mom2 I mom) old b bd k i Hr Hi) as (d & Ed & Vd). rewrite Vd.
    rewrite (cell_jumps_const I (mom2 I mom) b bd k d 0 i Hi) by (auto; apply st_mom2; auto).
    rewrite st_mom2 by auto. destruct (_ && _); ring. }
  split; [|split; apply Mo; intros j Hj; apply (St j Hj)].
  unfold stage_edges, height_edges. rewrite Vs, Vh, Sk, (st_height1 k Hk).
  destruct (st_cases k ds dh Hk Es Eh) as [F|F].
  - destruct (F i Hi) as (F1 & F2). rewrite F1, F2. unfold level, depth.
    destruct (Rle_lt_dec (bed C k) w) as [L|L]; [left|right].
    + rewrite (Rmax_left w (bed C k)), (Rmax_left (w - bed C k) 0) by lra. lra.
    + rewrite (Rmax_right w (bed C k)), (Rmax_right (w - bed C k) 0) by lra. lra.
  - left. pose proof mah_pos as Mp.
    assert (G : forall n, n = k \/ n = nb0 I k \/ n = nb1 I k \/ n = nb2 I k -> level C w n = w).
    { intros n Hn. specialize (F n Hn). unfold depth, Rmax in F. unfold level. apply Rmax_left. destruct (Rle_dec _ _); lra. }
    assert (Lk : bed C k <= w).
    { pose proof (G k (or_introl eq_refl)) as H. unfold level, Rmax in H. destruct (Rle_dec w (bed C k)); lra. }
    split; [exact Lk|]. rewrite (G k) by auto.
    assert (Sn : forall n, (n < N C)%nat -> r_stage I n = level C w n) by (intros n Hn; apply (St n Hn)).
    rewrite (cell_jumps_const I (r_stage I) (r_beta_w I) (r_beta_w_dry I) k ds w i Hi); auto;
      try (rewrite Sn by auto; apply G; auto). split; [ring|].
    rewrite <- (st_height1 k Hk).
    set (hi := Rmax (height1 I k) (Rmax (height1 I (nb0 I k)) (Rmax (height1 I (nb1 I k)) (height1 I (nb2 I k))))).
    assert (U : height1 I k <= hi /\ height1 I (nb0 I k) <= hi /\ height1 I (nb1 I k) <= hi /\ height1 I (nb2 I k) <= hi).
    { unfold hi, Rmax. repeat destruct (Rle_dec _ _); lra. }
    pose proof (cell_jumps_range I (height1 I) (r_beta_w I) (r_beta_w_dry I) k dh tiny hi i) as R.
    assert (T : forall n, (n < N C)%nat -> n = k \/ n = nb0 I k \/ n = nb1 I k \/ n = nb2 I k -> tiny <= height1 I n).
    { intros n Hn H. rewrite st_height1 by exact Hn. pose proof (sh_mah C w Sh). specialize (F n H). lra. }
    destruct U as (U1 & U2 & U3 & U4).
    assert (tiny - tiny <= height1 I k + jump dh i <= hi + tiny); [|lra].
    apply R; auto; try exact Mp; try exact (sh_beta C w Sh); [|split; [apply T|]; auto..].
    replace (r_beta_w_dry I) with 0 by (symmetry; apply (sh_dry C w Sh)). lra.
Qed.

(** The arrays seen by the flux computation. *)
Lemma st_still x' : extrapolate_step C q x = Some x' ->
  still (fill C q (boundary_step C q x')) w /\ standing C w q x'.
Proof.
  intros E. unfold extrapolate_step in E. fold I in E. rewrite st_ok in E. injection E as <-.
  set (x' := Rest _ _ _ _ _ _ _ _ _ _ _ _ _ _ _ _ _).
  assert (Ze : forall e, (e < 3 * N C)%nat -> bed_edges I e = stage_edges I e - height_edges I e).
  { intros e _. pose proof (edges_consistent I e (sq_recon C Q _)). lra. }
  assert (Hd : forall e, (e < 3 * N C)%nat ->
    stage_edges I e = Rmax w (bed_edges I e) /\ height_edges I e = Rmax (w - bed_edges I e) 0 /\
    ((bed C (e / 3) <= w /\ bed_edges I e <= w) \/ (w <= bed C (e / 3) /\ bed_edges I e = bed C (e / 3)))).
  { intros e He. rewrite (Ze e He). destruct (st_edges e He) as ([(A & B & D)|(A & B & D)] & _).
    - rewrite B. rewrite (Rmax_left w) by lra. rewrite (Rmax_left (w - _) 0) by lra.
      split; [reflexivity|]. split; [ring|]. left. lra.
    - rewrite B, D. rewrite (Rmax_right w) by lra. rewrite (Rmax_right (w - _) 0) by lra.
      split; [ring|]. split; [reflexivity|]. right. split; [exact A|ring]. }
  split.
  - constructor; cbn [fill number_of_elements stage_edge height_edge xmom_edge ymom_edge bed_edge height_centroid bed_centroid
      boundary_step x_se x_he x_ue x_ve x_ze x_height x' xmom_boundary ymom_boundary stage_boundary x_bv neighbours];
      try (intros e He; apply (Hd e He)); try (intros e He; apply (st_edges e He)).
    + intros e He. destruct (edge_cell e He) as (Hk & _ & _). rewrite (st_height1 _ Hk). unfold depth.
      destruct (Hd e He) as (_ & _ & [(A & B)|(A & B)]); [left|right].
      * rewrite Rmax_left by lra. split; [reflexivity|exact B].
      * rewrite Rmax_right by lra. split; [reflexivity|]. rewrite B. exact A.
    + intros e He Hi. set (b := Z.to_nat (- neighbours D0 e - 1)). assert (Hn : (neighbours D0 e < 0)%Z) by (unfold interior in Hi; cbn [fill neighbours] in Hi; apply Z.leb_gt in Hi; exact Hi).
      destruct (sh_edges C w Sh e He Hn) as (Hin & Hc & Hl). fold b in Hin, Hc, Hl.
      destruct (edge_cell e He) as (Hk & _ & _).
      assert (Cb : cf_cells C b = (e / 3)%nat).
      { rewrite <- Hc. rewrite Nat.mul_comm, Nat.div_add_l by lia. rewrite Nat.div_small by lia. lia. }
      set (d0 := bdom_of C q x').
      assert (X0 : at_edge d0 Xmom b = 0 /\ at_edge d0 Ymom b = 0 /\ at_edge d0 Stage b = stage_edges I e).
      { unfold at_edge, d0, bdom_of; cbn [ev cells edges x' x_ue x_ve x_se]. rewrite Hc.
        destruct (st_edges e He) as (_ & A & B). auto. }
      assert (Y0 : cv d0 Xmom (cells d0 b) = 0 /\ cv d0 Ymom (cells d0 b) = 0 /\ cv d0 Stage (cells d0 b) = level C w (e / 3)).
      { unfold d0, bdom_of; cbn [cv cells x' x_xmom x_ymom]. rewrite Cb. unfold mom_centroid.
        destruct (St _ Hk) as (S1 & S2 & S3). rewrite !st_work2, !st_mom2 by auto. destruct (Z.eqb _ _); auto. }
      set (Pv := fun d => bv d Xmom b = 0 /\ bv d Ymom b = 0 /\
        (bv d Stage b = stage_edges I e \/ bv d Stage b = level C w (e / 3) \/ bv d Stage b = w)).
      assert (G : Pv (fold_left (fun d s => apply_boundary (fst s) d (snd s)) (cf_segments C) d0)).
      { apply (segments_establish Pv b); unfold Pv; clear Pv.
        - intros d ids o (S1 & S2 & S3 & S4 & S5) Ho Hb.
          assert (At : forall a, at_edge d a b = at_edge d0 a b) by (intros a; unfold at_edge; rewrite S1, S2, S4; reflexivity).
          assert (Ct : forall a, cv d a (cells d b) = cv d0 a (cells d0 b)) by (intros a; rewrite S1, S5; reflexivity).
          destruct X0 as (X1 & X2 & X3), Y0 as (Y1 & Y2 & Y3).
          destruct (sh_objects C w Sh o ids Ho) as [->|[(c & ->)|(v & -> & V0 & V1 & V2)]]; cbn [apply_boundary].
          + unfold reflective_segment. bsimp. inids Hb. rewrite !At, X1, X2, X3.
            split; [ring|]. split; [ring|]. left. reflexivity.
          + unfold transmissive_segment. bsimp. inids Hb. destruct c.
            * rewrite !Ct, Y1, Y2, Y3. auto.
            * rewrite !At, X1, X2, X3. auto.
          + unfold dirichlet_segment. bsimp. inids Hb. rewrite V0, V1, V2. auto.
        - intros d ids o _ Ho Hb P0.
          destruct (sh_objects C w Sh o ids Ho) as [->|[(c & ->)|(v & -> & _)]]; cbn [apply_boundary].
          + destruct (C30_changes_only_the_segment d ids) as (_ & K). rewrite !K by exact Hb. exact P0.
          + unfold transmissive_segment. bsimp. destruct (in_dec Nat.eq_dec b ids); [tauto|]. exact P0.
          + unfold dirichlet_segment. bsimp. destruct (in_dec Nat.eq_dec b ids); [tauto|]. exact P0.
        - exact Hin. }
      destruct G as (G1 & G2 & G3). split; [exact G1|]. split; [exact G2|].
      unfold update_boundary. fold d0. cbn [x' x_ze].
      destruct (Hd e He) as (H1 & H2 & H3). unfold level in G3.
      destruct G3 as [G3|[G3|G3]]; rewrite G3.
      * rewrite H1. unfold Rmax. repeat destruct (Rle_dec _ _); lra.
      * destruct H3 as [(A & B)|(A & B)]; [rewrite (Rmax_left w) by lra; reflexivity|].
        rewrite B. unfold Rmax. repeat destruct (Rle_dec _ _); lra.
      * reflexivity.
  - intros k Hk. destruct (St k Hk) as (S1 & S2 & S3). cbn [x' x_xmom x_ymom]. split; [exact S1|].
    unfold mom_centroid. rewrite !st_work2, !st_mom2 by auto. destruct (Z.eqb _ _); auto.
Qed.
End Distributed.

Lemma finish_still d q' x : (forall k, (k < N C)%nat -> bed C k <= q' k) ->
  (forall k, (k < N C)%nat -> x_xmom x k = 0 /\ x_ymom x k = 0 /\ x_eu x k = 0 /\ x_ev x k = 0) ->
  exists q3 x3, finish_step C d q' (Some x) = (q3, Some x3) /\
  forall k, (k < N C)%nat -> q3 k = q' k /\ x_xmom x3 k = 0 /\ x_ymom x3 k = 0.
Proof.
  intros Hq Hx. cbn [finish_step].
  destruct (momentum_update_ok C d (x_xmom x) (x_eu x) (x_su x)) as (xm & su & -> & V1).
  { intros k Hk. destruct (Hx k Hk) as (-> & _). rewrite rest_denominator. lra. }
  destruct (momentum_update_ok C d (x_ymom x) (x_ev x) (x_sv x)) as (ym & sv & -> & V2).
  { intros k Hk. destruct (Hx k Hk) as (_ & -> & _). rewrite rest_denominator. lra. }
  eexists _, _. split; [reflexivity|]. intros k Hk. destruct (Hx k Hk) as (X1 & X2 & X3 & X4).
  unfold fix_negative_cells. rewrite fix_negative_loop_eq. cbn [fst x_xmom x_ymom].
  unfold cells_of. rewrite map_map, !back_map, (proj2 (Nat.ltb_lt _ _) Hk).
  destruct (fixed_stage (cell_of C q' xm ym k)) as (_ & _ & F); [apply (sq_full C Q)|]. rewrite F by (apply Hq; exact Hk).
  cbn [cell_of c_stage c_xmom c_ymom]. split; [reflexivity|].
  destruct (V1 k Hk) as (_ & ->). destruct (V2 k Hk) as (_ & ->). rewrite X1, X2, X3, X4, rest_denominator. unfold Rdiv. rewrite Rinv_1. split; ring.
Qed.

Variables M B : R.
Definition at_rest (s : sw_state) : Prop :=
  exists x, RKModel.rest _ s = Some x /\ standing C w (q _ s) x /\ between_steps C s /\ x_made x = M /\ bfi _ s = B.

Lemma at_rest_euler s d : at_rest s ->
  at_rest (euler xstate (distribute_step C) (dom_of C) (forcing_step C) (finish_step C) d s).
Proof.
  intros (x & Hx & St & (F & B0) & HM & HB). unfold euler, compute, distribute, update_conserved.
  destruct s as [q0 x0 st wk0 b ft dt0 bi fs]. cbn [RKModel.q RKModel.rest sta wk bfs flux_dt dt bfi fsvi] in *. subst x0.
  unfold set_qx. cbn [RKModel.q RKModel.rest sta wk bfs flux_dt dt bfi fsvi distribute_step].
  pose proof (protect_step_spec C (sq_full C Q) (sq_mah C Q) q0 x) as P. cbv zeta in P.
  destruct (protect_step C q0 x) as [q1 x1]. cbn [fst snd] in P |- *. destruct P as (P1 & P2 & P3 & P4 & _).
  assert (Eq : forall k, (k < N C)%nat -> q1 k = q0 k).
  { intros k Hk. rewrite P1 by exact Hk. rewrite (proj1 (St k Hk)). unfold level. apply Rmax_left. apply Rmax_r. }
  assert (St1 : standing C w q1 x1).
  { intros k Hk. rewrite Eq by exact Hk. destruct (St k Hk) as (S1 & S2 & S3). split; [exact S1|].
    destruct (Rlt_le_dec (q0 k - bed C k) (mah C)) as [L|L].
    - exact (P3 k Hk L).
    - destruct (P4 k Hk L) as (-> & ->). auto. }
  destruct (extrapolate_step C q1 x1) as [x2|] eqn:E.
  2: { exfalso. unfold extrapolate_step in E. rewrite (st_ok q1 x1) in E. discriminate. }
  destruct (st_still q1 x1 St1 x2 E) as (Sl & St2).
  assert (Made : x_made x2 = x_made x1).
  { unfold extrapolate_step in E. destruct (recon_ok _); [|discriminate]. injection E as <-. reflexivity. }
  cbn [dom_of fst snd]. set (D := fill C q1 (boundary_step C q1 x2)) in *.
  assert (F' : flux_invariant D st wk0) by (apply (same_mesh_invariant D0 D); [apply fill_mesh|exact F]).
  assert (W : wf_mesh D) by (apply fill_wf, (sq_mesh C Q)).
  assert (U : update_flags_symmetric D) by (intros e _ _; unfold D; cbn [fill update_next_flux]; rewrite !(sq_flux C Q); reflexivity).
  assert (Ed : forall e rw, (e < 3 * number_of_elements D)%nat ->
    er_flux (compute_edge D rw e) = V3 0 0 0 /\
    er_pg_k (compute_edge D rw e) = edgelengths D e * (g D / 2 * (height_centroid D (e / 3))^2) /\
    (interior D e = true ->
     er_pg_n (compute_edge D rw e) = edgelengths D e * (g D / 2 * (height_centroid D (Z.to_nat (neighbours D e)))^2))).
  { intros e rw He. apply (edge_still D w rw e W He Sl); [exact (sh_eps C w Sh)|apply (sh_walls C w Sh)]. }
  assert (Z0 : forall i, out_boundary_flux_sum (compute_fluxes D st wk0 b ft) i = b i).
  { apply closed_flux; auto; [intros; apply (sq_flux C Q)|intros; apply (sq_full C Q)|].
    intros e rw He Hi. rewrite (proj1 (Ed e rw He)). reflexivity. }
  pose proof (still_updates D st wk0 b ft W F' (sq_flux C Q) (sh_closed C w Sh) (sh_shared C w Sh) Ed) as Up. cbv zeta in Up.
  change (number_of_elements D) with (N C) in Up.
  pose proof (C08_invariant_preserved D st wk0 b ft W U F') as Inv. cbv zeta in Inv.
  apply (same_mesh_invariant D0 D _ _ (fill_mesh C q1 (boundary_step C q1 x2))) in Inv.
  set (o := compute_fluxes D st wk0 b ft) in *. clearbody o.
  match goal with |- context [finish_step C d ?qq (forcing_step C o (Some ?y))] =>
    destruct (finish_still d qq (match forcing_step C o (Some y) with Some z => z | None => y end)) as (q3 & x3 & Ef & V) end.
  { intros k Hk. destruct (Up k Hk) as (-> & _). rewrite Eq, (proj1 (St k Hk)) by exact Hk. unfold level.
    pose proof (Rmax_r w (bed C k)). lra. }
  { intros k Hk. cbn [forcing_step boundary_step x_xmom x_ymom x_eu x_ev]. destruct (St2 k Hk) as (_ & S2 & S3).
    destruct (Up k Hk) as (_ & U2 & U3). auto. }
  cbn [forcing_step] in Ef |- *.
  match type of Ef with finish_step C d ?qq ?xx = _ => pose proof (finish_step_spec C (sq_full C Q) d qq xx) as FS end.
  rewrite Ef in FS |- *. destruct FS as (y & Ey & G1 & G2 & _). injection Ey as <-. cbn [x_made boundary_step] in G2.
  assert (Eq3 : forall k, (k < N C)%nat -> q3 k = q0 k).
  { intros k Hk. destruct (V k Hk) as (-> & _). destruct (Up k Hk) as (-> & _). rewrite Eq by exact Hk. ring. }
  exists x3. cbn [fst snd RKModel.rest RKModel.q bfi sta wk bfs]. split; [reflexivity|]. split.
  { intros k Hk. rewrite Eq3 by exact Hk. split; [apply (St k Hk)|apply (V k Hk)]. }
  split; [split; [exact Inv|intros i; etransitivity; [apply Z0|apply B0]]|]. split; [|exact HB].
  assert (T1 : total D0 q1 = total D0 q0) by (apply (total_ext C (sq_full C Q)); exact Eq).
  assert (T3 : total D0 q3 = total D0 (fun k => q1 k + d * out_stage o k)).
  { apply (total_ext C (sq_full C Q)). intros k Hk. apply (V k Hk). }
  rewrite G2, Made, P2, T1, T3. lra.
Qed.

Lemma standing_blend a b q0 q1 x0 x1 : a + b = 1 -> standing C w q0 x0 -> standing C w q1 x1 ->
  standing C w (fun k => a * q1 k + b * q0 k) (blend a b x0 x1).
Proof.
  intros E H0 H1 k Hk. destruct (H0 k Hk) as (A1 & A2 & A3), (H1 k Hk) as (B1 & B2 & B3).
  cbn [blend x_xmom x_ymom]. rewrite A1, A2, A3, B1, B2, B3. replace a with (1 - b) by lra. repeat split; ring.
Qed.

Lemma at_rest_steps dts m n s : at_rest s -> at_rest (sw_steps C dts m n s).
Proof.
  apply P_steps with (okd := fun _ => True).
  - auto.
  - intros s' d _. apply at_rest_euler.
  - intros s' (x & H). exists x. destruct s'; exact H.
  - intros s0 s' -> (x0 & E0 & S0 & _ & M0 & _) (x1 & E1 & S1 & I1 & M1 & B1). unfold saxpy, set_qx.
    exists (blend (1/2) (1/2) x0 x1). rewrite E0, E1. cbn [fst snd RKModel.rest RKModel.q bfi combine_step].
    split; [reflexivity|]. split; [apply standing_blend; auto; lra|]. split; [exact I1|]. split; [|exact B1].
    cbn [blend x_made]. rewrite M0, M1. lra.
  - intros s0 s' -> (x0 & E0 & S0 & _ & M0 & _) (x1 & E1 & S1 & I1 & M1 & B1). unfold saxpy, set_qx.
    exists (blend (1/4) (3/4) x0 x1). rewrite E0, E1. cbn [fst snd RKModel.rest RKModel.q bfi combine_step].
    split; [reflexivity|]. split; [apply standing_blend; auto; lra|]. split; [exact I1|]. split; [|exact B1].
    cbn [blend x_made]. rewrite M0, M1. lra.
  - intros s0 s' -> (x0 & E0 & S0 & _ & M0 & _) (x1 & E1 & S1 & I1 & M1 & B1). unfold thirds, saxpy, set_qx.
    exists (third (blend 2 1 x0 x1)). rewrite E0, E1. cbn [fst snd RKModel.rest RKModel.q bfi combine_step].
    split; [reflexivity|]. split; [|split; [exact I1|split; [|exact B1]]].
    + intros k Hk. destruct (S0 k Hk) as (A1 & A2 & A3), (S1 k Hk) as (C1 & C2 & C3).
      cbn [third blend x_xmom x_ymom]. rewrite A1, A2, A3, C1, C2, C3. repeat split; field.
    + cbn [third blend x_made]. rewrite M0, M1. lra.
  - intros s' (x & E & St & (I1 & I2) & HM & HB). unfold other_operators, boundary_flux_integral_op.
    destruct s' as [q1 x1 t1 t2 t3 t4 t5 t6 t7].
    cbn [RKModel.q RKModel.rest bfi bfs dt operators_step sta wk] in *. subst x1. eexists.
    cbn [RKModel.rest RKModel.q bfi]. split; [reflexivity|]. split; [exact St|]. split; [split; [exact I1|reflexivity]|].
    split; [exact HM|]. rewrite !I2. destruct m; rewrite HB; ring.
Qed.
End Lake.

(** Water standing at level [w], with any dry land above it, stays exactly as
    it is over any number of steps of any scheme with any time steps: same
    surface, no momentum, no exception, nothing added by the protection
    kernels, nothing recorded as boundary flux. *)
Theorem C74_lake_with_shores :
  forall C dts m n s x w, sequential C -> shores C w -> between_steps C s ->
  RKModel.rest _ s = Some x -> standing C w (q _ s) x ->
  let s' := sw_steps C dts m n s in
  exists x', RKModel.rest _ s' = Some x' /\ x_made x' = x_made x /\ bfi _ s' = bfi _ s /\
  forall k, (k < number_of_elements (cf_dom C))%nat ->
  q _ s' k = q _ s k /\ x_xmom x' k = 0 /\ x_ymom x' k = 0.
Proof.
  intros C dts m n s x w Q Sh Bt Hx St s'.
  destruct (at_rest_steps C w Q Sh (x_made x) (bfi _ s) dts m n s) as (x' & E & St' & _ & HM & HB).
  { exists x. auto. }
  exists x'. split; [exact E|]. split; [exact HM|]. split; [exact HB|].
  intros k Hk. destruct (St' k Hk) as (A & B & D). destruct (St k Hk) as (A' & _). split; [|auto]. unfold s'. rewrite A, A'. reflexivity.
Qed.
Print Assumptions C74_lake_with_shores.

(** The strip of four triangles: a sloping bed under two of them, dry land at
    two heights, the level kept on the left by a Dirichlet boundary. *)
Definition shore_bed (k : nat) : R := nth k [0; 1/2; 2; 3] 0.
Definition shore_strip : config := strip shore_bed (Dirichlet {| BoundaryModel.c0 := 1; BoundaryModel.c1 := 0; BoundaryModel.c2 := 0 |}).

Lemma tiny_small : tiny < / 10.
Proof.
  unfold tiny. apply Rinv_lt_contravar; [apply Rmult_lt_0_compat; [lra|apply pow_lt; lra]|].
  replace 10 with (10 ^ 1) at 1 by ring. apply Rlt_pow; [lra|lia].
Qed.

Lemma tiny_le_pow n : (n <= 100)%nat -> tiny <= / 10 ^ n.
Proof.
  intros H. unfold tiny. apply Rinv_le_contravar; [apply pow_lt; lra|]. apply Rle_pow; [lra|exact H].
Qed.

Lemma shore_levels k : (k < 4)%nat -> level shore_strip 1 k = nth k [1; 1; 2; 3] 0 /\ depth shore_strip 1 k = nth k [1; 1/2; 0; 0] 0.
Proof.
  intros Hk. unfold level, depth, bed, Rmax. cbn. unfold shore_bed.
  destruct k as [|[|[|[|k]]]]; [..|lia]; cbn; repeat destruct (Rle_dec _ _); lra.
Qed.

Example C74_example :
  sequential shore_strip /\ shores shore_strip 1 /\
  let s := strip_state (level shore_strip 1) (fun _ => 0) (fun _ => 0) in
  between_steps shore_strip s /\ standing shore_strip 1 (q _ s) (strip_rest (fun _ => 0) (fun _ => 0)) /\
  (exists k, (k < 4)%nat /\ depth shore_strip 1 k = 0) /\ (exists k, (k < 4)%nat /\ depth shore_strip 1 k = 1).
Proof.
  split; [apply strip_sequential|]. pose proof tiny_pos as T. pose proof tiny_small as T1. split.
  - constructor; cbn -[pow Rabs].
    + apply strip_fine.
    + assert (0 < sqrt 2) by (apply sqrt_lt_R0; lra).
      intros k Hk. cbn in Hk. destruct k as [|[|[|[|k]]]]; [..|lia]; cbn; split; field; lra.
    + intros e He Hi. cbn in He. twelve e He; try discriminate Hi; reflexivity.
    + apply tiny_le_pow. lia.
    + discriminate.
    + reflexivity.
    + lra.
    + reflexivity.
    + apply tiny_le_pow. lia.
    + intros k i Hk Hi. unfold N in *. cbn in Hk |- *.
      destruct k as [|[|[|[|k]]]]; [..|lia]; destruct i as [|[|[|i]]]; try lia; cbn; lia.
    + intros k n Hk Hb En. unfold N in Hk. cbn in Hk. destruct k as [|[|[|[|k]]]]; [| | | |lia]; try discriminate Hb.
      * assert (n = 1%nat) by (cbn in En; congruence). subst n. split.
        -- left. rewrite (proj1 (shore_levels 0 ltac:(lia))), (proj1 (shore_levels 1 ltac:(lia))). reflexivity.
        -- right. exists 1%nat. split; [lia|].
           rewrite (proj2 (shore_levels 0 ltac:(lia))), (proj2 (shore_levels 1 ltac:(lia))). cbn [nth].
           replace (Rabs (1 / 2 - 1)) with (1 / 2) by (rewrite Rabs_left by lra; lra).
           replace (lean _ 0 1 1) with (- / 4) by (unfold lean, dxv, dyv; cbn; field). lra.
      * assert (n = 2%nat) by (cbn in En; congruence). subst n. split.
        -- right. exists 1%nat. split; [lia|].
           rewrite (proj1 (shore_levels 2 ltac:(lia))), (proj1 (shore_levels 3 ltac:(lia))). cbn [nth].
           replace (Rabs (2 - 3)) with 1 by (rewrite Rabs_left by lra; lra).
           replace (lean _ 3 2 1) with (- / 4) by (unfold lean, dxv, dyv; cbn; field). lra.
        -- left. rewrite (proj2 (shore_levels 2 ltac:(lia))), (proj2 (shore_levels 3 ltac:(lia))). reflexivity.
    + intros k Hk. unfold N in Hk. cbn in Hk. destruct k as [|[|[|[|k]]]]; [..|lia]; cbn; lia.
    + intros b ids [E|[E|[]]]; injection E as <- <-; [right; right; eexists; split; [reflexivity|]; cbn; auto|auto].
    + intros e He Hn. unfold N in He. cbn in He. split.
      * twelve e He; cbn in Hn; try (exfalso; lia);
          [eexists _, [0%nat]; split; [left; reflexivity|cbn; auto]|exists Reflective, [1; 2; 3; 4; 5]%nat; cbn; auto 10..].
      * twelve e He; cbn in Hn; try (exfalso; lia); (split; [reflexivity|apply Nat.ltb_lt; reflexivity]).
  - cbv zeta. split; [apply strip_between|]. split.
    + intros k Hk. cbn. auto.
    + split.
      * exists 2%nat. split; [lia|]. rewrite (proj2 (shore_levels 2 ltac:(lia))). reflexivity.
      * exists 0%nat. split; [lia|]. rewrite (proj2 (shore_levels 0 ltac:(lia))). reflexivity.
Qed.
