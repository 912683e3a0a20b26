(** Still water with shores: facts about the kernels for property C74, and
    about the reconstruction in triangles with two boundary edges. *)
From Coq Require Import Reals List ZArith Arith Bool Lia Lra.
From Verif Require Import RealLib ArrayLib CentroidModel CentroidProofs BoundaryModel BoundaryProps FluxModel FluxFunctionProofs
  FluxProofs FluxProps ReconModel ReconProofs ReconProps RKModel RKProofs StepModel StepProofs.
Import ListNotations.
Local Open Scope R_scope.

(** * Triangles with one internal neighbour *)

(** Component of the offset of edge midpoint [i] towards the neighbour [n],
    relative to the distance of the centroids. *)
Definition lean (I : recon) (k n i : nat) : R :=
  ((r_cx I n - r_cx I k) * dxv I k i + (r_cy I n - r_cy I k) * dyv I k i)
  / ((r_cx I n - r_cx I k) ^ 2 + (r_cy I n - r_cy I k) ^ 2).

Lemma limit_step_le r r0 d qmin qmax : fst (limit_step qmin qmax (r, r0) d) <= r.
Proof. unfold limit_step. cbn [fst]. apply Rmin_r. Qed.

Lemma limit_step_le' s d qmin qmax : fst (limit_step qmin qmax s d) <= fst s.
Proof. destruct s. apply limit_step_le. Qed.

(** A jump against the only possible direction switches the gradient off. *)
Lemma limit_step_blocked s d qmin qmax :
  (qmin = 0 /\ d < - tiny) \/ (qmax = 0 /\ tiny < d) -> fst (limit_step qmin qmax s d) <= 0.
Proof.
  intros H. pose proof tiny_pos. destruct s as [r r0]. unfold limit_step.
  destruct H as [(-> & H)|(-> & H)].
  - rewrite (proj2 (Rltb_true d (- tiny)) H). rewrite (proj2 (Rltb_false tiny d)) by lra. cbn [fst].
    eapply Rle_trans; [apply Rmin_l|]. unfold Rdiv. rewrite Rmult_0_l. lra.
  - rewrite (proj2 (Rltb_true tiny d) H). cbn [fst].
    eapply Rle_trans; [apply Rmin_l|]. unfold Rdiv. rewrite Rmult_0_l. lra.
Qed.

Lemma limit_blocked d qmin qmax beta i : qmin <= 0 <= qmax -> 0 <= beta -> (i < 3)%nat ->
  (qmin = 0 /\ jump d i < - tiny) \/ (qmax = 0 /\ tiny < jump d i) ->
  forall j, jump (limit_gradient d qmin qmax beta) j = 0.
Proof.
  intros (Q1 & Q2) Hb Hi H.
  assert (P : limit_phi d qmin qmax beta = 0).
  { pose proof (proj1 (limit_phi_spec qmin qmax Q1 Q2 d beta Hb)) as (P0 & _).
    apply Rle_antisym; [|exact P0]. unfold limit_phi. cbv zeta. eapply Rle_trans; [apply Rmin_l|].
    set (s1 := limit_step qmin qmax (1000, 1) (jump d 0)). set (s2 := limit_step qmin qmax s1 (jump d 1)).
    set (s3 := limit_step qmin qmax s2 (jump d 2)).
    pose proof (limit_step_le' s1 (jump d 1) qmin qmax) as A1. fold s2 in A1.
    pose proof (limit_step_le' s2 (jump d 2) qmin qmax) as A2. fold s3 in A2.
    assert (fst s3 <= 0).
    { destruct i as [|[|[|i]]]; try lia.
      - pose proof (limit_step_blocked (1000, 1) (jump d 0) qmin qmax H) as B. fold s1 in B. lra.
      - pose proof (limit_step_blocked s1 (jump d 1) qmin qmax H) as B. fold s2 in B. lra.
      - exact (limit_step_blocked s2 (jump d 2) qmin qmax H). }
    rewrite <- (Rmult_0_l beta). apply Rmult_le_compat_r; auto. }
  intros j. unfold limit_gradient. cbv zeta. rewrite P.
  destruct j as [|[|j]]; cbn; ring.
Qed.

Lemma single_provisional I q k n i : (i < 3)%nat ->
  jump (edge_jumps I k
    ((q n - q k) * (1 / ((r_cx I n - r_cx I k) * (r_cx I n - r_cx I k) + (r_cy I n - r_cy I k) * (r_cy I n - r_cy I k)) * (r_cx I n - r_cx I k)))
    ((q n - q k) * (1 / ((r_cx I n - r_cx I k) * (r_cx I n - r_cx I k) + (r_cy I n - r_cy I k) * (r_cy I n - r_cy I k)) * (r_cy I n - r_cy I k)))) i
  = (q n - q k) * lean I k n i.
Proof.
  intros Hi. unfold lean. replace ((r_cx I n - r_cx I k) ^ 2 + (r_cy I n - r_cy I k) ^ 2) with
    ((r_cx I n - r_cx I k) * (r_cx I n - r_cx I k) + (r_cy I n - r_cy I k) * (r_cy I n - r_cy I k)) by ring.
  unfold Rdiv. destruct i as [|[|[|i]]]; try lia; cbn [edge_jumps jump fst snd]; ring.
Qed.

Lemma single_flat I q k n : 0 <= r_beta_w I ->
  (q n = q k \/ exists i, (i < 3)%nat /\ Rabs (q n - q k) * lean I k n i < - tiny) ->
  forall j, jump (single_jumps I q k n) j = 0.
Proof.
  intros Hb H j. unfold single_jumps. cbv zeta. destruct H as [E|(i & Hi & H)].
  - rewrite E. match goal with |- context [edge_jumps I k ?a ?b] => replace (edge_jumps I k a b) with (0, 0, 0) end.
    + destruct (Rleb 0 _); destruct j as [|[|j]]; cbn; ring.
    + unfold edge_jumps. f_equal; [f_equal|]; ring.
  - pose proof (single_provisional I q k n i Hi) as P.
    destruct (Rleb_spec 0 (q n - q k)) as [L|L].
    + rewrite Rabs_pos_eq in H by exact L. apply (limit_blocked _ _ _ _ i); auto; [lra|].
      left. split; [reflexivity|]. rewrite P. exact H.
    + rewrite Rabs_left in H by lra. apply (limit_blocked _ _ _ _ i); auto; [lra|].
      right. split; [reflexivity|]. rewrite P. lra.
Qed.

(** The limiter never lets a gradient of this kind through. *)
Lemma single_negligible I q k n : 0 <= r_beta_w I ->
  dxv I k 0 + dxv I k 1 + dxv I k 2 = 0 -> dyv I k 0 + dyv I k 1 + dyv I k 2 = 0 ->
  forall j, (j < 3)%nat -> - (2 * tiny) <= jump (single_jumps I q k n) j <= 2 * tiny.
Proof.
  intros Hb Sx Sy j Hj. pose proof tiny_pos as T.
  pose proof (single_flat I q k n Hb) as F.
  assert (Sum : lean I k n 0 + lean I k n 1 + lean I k n 2 = 0).
  { unfold lean, Rdiv. rewrite <- !Rmult_plus_distr_r.
    replace ((r_cx I n - r_cx I k) * dxv I k 0 + (r_cy I n - r_cy I k) * dyv I k 0 +
      ((r_cx I n - r_cx I k) * dxv I k 1 + (r_cy I n - r_cy I k) * dyv I k 1) +
      ((r_cx I n - r_cx I k) * dxv I k 2 + (r_cy I n - r_cy I k) * dyv I k 2)) with
      ((r_cx I n - r_cx I k) * (dxv I k 0 + dxv I k 1 + dxv I k 2) + (r_cy I n - r_cy I k) * (dyv I k 0 + dyv I k 1 + dyv I k 2)) by ring.
    rewrite Sx, Sy. ring. }
  set (a := Rabs (q n - q k)) in *.
  destruct (Rlt_le_dec (a * lean I k n 0) (- tiny)) as [L0|L0]; [rewrite F by (right; exists 0%nat; auto); lra|].
  destruct (Rlt_le_dec (a * lean I k n 1) (- tiny)) as [L1|L1]; [rewrite F by (right; exists 1%nat; auto); lra|].
  destruct (Rlt_le_dec (a * lean I k n 2) (- tiny)) as [L2|L2]; [rewrite F by (right; exists 2%nat; auto); lra|].
  assert (A : a * lean I k n 0 + a * lean I k n 1 + a * lean I k n 2 = 0).
  { rewrite <- !Rmult_plus_distr_l, Sum. ring. }
  assert (B : Rabs ((q n - q k) * lean I k n j) <= 2 * tiny).
  { rewrite Rabs_mult. fold a.
    assert (0 <= a) by apply Rabs_pos.
    rewrite <- (Rabs_pos_eq a) by auto. rewrite <- Rabs_mult.
    apply Rabs_le. destruct j as [|[|[|j]]]; try lia; lra. }
  unfold single_jumps. cbv zeta.
  destruct (Rleb_spec 0 (q n - q k)) as [L|L].
  - match goal with |- context [limit_gradient ?d ?x ?y ?c] =>
      pose proof (limit_phi_spec x y ltac:(lra) ltac:(lra) d c Hb) as (P & _); rewrite (jump_limited x y d c j Hj) end.
    rewrite single_provisional by exact Hj.
    set (v := (q n - q k) * lean I k n j) in *. set (p := limit_phi _ _ _ _) in *. clearbody v p.

    assert (- (2 * tiny) <= v <= 2 * tiny) by (unfold Rabs in B; destruct (Rcase_abs v); lra). nra.
  - match goal with |- context [limit_gradient ?d ?x ?y ?c] =>
      pose proof (limit_phi_spec x y ltac:(lra) ltac:(lra) d c Hb) as (P & _); rewrite (jump_limited x y d c j Hj) end.
    rewrite single_provisional by exact Hj.
    set (v := (q n - q k) * lean I k n j) in *. set (p := limit_phi _ _ _ _) in *. clearbody v p.
    assert (- (2 * tiny) <= v <= 2 * tiny) by (unfold Rabs in B; destruct (Rcase_abs v); lra). nra.
Qed.

(** * Fluxes of still water with shores *)

Record still (D : domain) (w : R) : Prop := {
  st_stage : forall e, (e < 3 * number_of_elements D)%nat -> stage_edge D e = Rmax w (bed_edge D e);
  st_height : forall e, (e < 3 * number_of_elements D)%nat -> height_edge D e = Rmax (w - bed_edge D e) 0;
  st_xmom : forall e, (e < 3 * number_of_elements D)%nat -> xmom_edge D e = 0;
  st_ymom : forall e, (e < 3 * number_of_elements D)%nat -> ymom_edge D e = 0;
  st_centroid : forall e, (e < 3 * number_of_elements D)%nat ->
    (height_centroid D (e / 3) = w - bed_centroid D (e / 3) /\ bed_edge D e <= w) \/
    (height_centroid D (e / 3) = 0 /\ w <= bed_edge D e);
  st_boundary : forall e, (e < 3 * number_of_elements D)%nat -> interior D e = false ->
    let b := Z.to_nat (- neighbours D e - 1) in
    xmom_boundary D b = 0 /\ ymom_boundary D b = 0 /\
    Rmax (stage_boundary D b - bed_edge D e) 0 = Rmax (w - bed_edge D e) 0 }.

Lemma flux_still sl sr h hle hre n1 n2 eps ze g lf :
  0 <= h -> tiny <= eps -> (0 < h -> sl = sr) ->
  let F := flux_function_central (V3 sl 0 0) (V3 sr 0 0) h h hle hre n1 n2 eps ze g lf in
  f_edge F = V3 0 0 0 /\ f_pressure F = g / 2 * (h * h).
Proof.
  intros Hh He Hs. destruct (Rle_lt_or_eq_dec 0 h Hh) as [L|L].
  - rewrite <- (Hs L). apply flux_at_rest; auto.
  - cbv zeta. rewrite flux_function_unfold. cbv zeta. subst h.
    rewrite (proj2 (Reqb_true 0 0) eq_refl). cbn. split; [reflexivity|lra].
Qed.

Lemma pressure_still w hc zc z : (hc = w - zc /\ z <= w) \/ (hc = 0 /\ w <= z) ->
  Rmax (w - z) 0 * Rmax (w - z) 0 + (Rmax (w - z) 0 + hc) * (z - zc) = hc ^ 2.
Proof.
  intros [(-> & L)|(-> & L)].
  - rewrite (Rmax_left (w - z) 0) by lra. ring.
  - rewrite (Rmax_right (w - z) 0) by lra. ring.
Qed.

Lemma edge_still D w rw e :
  wf_mesh D -> (e < 3 * number_of_elements D)%nat ->
  still D w -> tiny <= epsilon D -> edge_flux_type D e <> 1%Z ->
  er_flux (compute_edge D rw e) = V3 0 0 0 /\
  er_pg_k (compute_edge D rw e) = edgelengths D e * (g D / 2 * (height_centroid D (e / 3))^2) /\
  (interior D e = true ->
   er_pg_n (compute_edge D rw e) = edgelengths D e * (g D / 2 * (height_centroid D (Z.to_nat (neighbours D e)))^2)).
Proof.
  intros W Hlt [L1 L2 L3 L4 L5 L6] He Ht.
  unfold compute_edge. cbv zeta. rewrite (proj2 (Z.eqb_neq _ _) Ht).
  rewrite (L1 e Hlt), (L2 e Hlt), (L3 e Hlt), (L4 e Hlt). cbn [fst snd].
  pose proof (pressure_still w _ _ _ (L5 e Hlt)) as Pk.
  set (zl := bed_edge D e) in *.
  set (zr := if interior D e then bed_edge D (partner D e) else zl).
  set (sr := if interior D e then stage_edge D (partner D e) else stage_boundary D (Z.to_nat (- neighbours D e - 1))).
  assert (Eq : (if interior D e then V3 (stage_edge D (partner D e)) (xmom_edge D (partner D e)) (ymom_edge D (partner D e))
     else V3 (stage_boundary D (Z.to_nat (- neighbours D e - 1))) (xmom_boundary D (Z.to_nat (- neighbours D e - 1)))
           (ymom_boundary D (Z.to_nat (- neighbours D e - 1)))) = V3 sr 0 0).
  { unfold sr. destruct (interior D e) eqn:Hi.
    - pose proof (partner_lt D W e Hlt Hi) as Hp. rewrite (L3 _ Hp), (L4 _ Hp). reflexivity.
    - destruct (L6 e Hlt Hi) as (B1 & B2 & _). rewrite B1, B2. reflexivity. }
  rewrite Eq. cbn [c0].
  assert (Hre : (if interior D e then height_edge D (partner D e) else Rmax (sr - zr) 0) = Rmax (w - zr) 0).
  { unfold zr, sr. destruct (interior D e) eqn:Hi; [apply L2, partner_lt; auto|]. apply (L6 e Hlt Hi). }
  rewrite Hre.
  set (zh := Rmax zl zr).
  assert (Gl : Rmax (Rmax (w - zl) 0 + zl - zh) 0 = Rmax (w - zh) 0).
  { unfold zh, Rmax. repeat destruct (Rle_dec _ _); lra. }
  assert (Gr : Rmax (Rmax (w - zr) 0 + zr - zh) 0 = Rmax (w - zh) 0).
  { unfold zh, Rmax. repeat destruct (Rle_dec _ _); lra. }
  rewrite Gl, Gr.
  set (h := Rmax (w - zh) 0). assert (Hh : 0 <= h) by apply Rmax_r.
  assert (Hs : 0 < h -> Rmax w zl = sr).
  { intros P. assert (Lw : zh < w) by (unfold h, Rmax in P; destruct (Rle_dec (w - zh) 0); lra).
    assert (zl <= zh /\ zr <= zh) as (Z1 & Z2) by (split; [apply Rmax_l|apply Rmax_r]).
    rewrite Rmax_left by lra. unfold sr. destruct (interior D e) eqn:Hi.
    - rewrite (L1 _ (partner_lt D W e Hlt Hi)). unfold zr in Z2. rewrite Rmax_left by lra. reflexivity.
    - destruct (L6 e Hlt Hi) as (_ & _ & B). fold zl in B. rewrite (Rmax_left (w - zl) 0) in B by lra.
      unfold Rmax in B. destruct (Rle_dec _ 0); lra. }
  destruct (flux_still (Rmax w zl) sr h (Rmax (w - zl) 0) (Rmax (w - zr) 0) (normal_x D e) (normal_y D e) (epsilon D) zh (g D)
    (low_froude D) Hh He Hs) as (F1 & F2).
  rewrite F1, F2. cbn [er_flux er_pg_k er_pg_n c0 c1 c2]. split; [f_equal; ring|]. split.
  - rewrite <- Pk. field.
  - intros Hi. assert (Ez : zr = bed_edge D (partner D e)) by (unfold zr; rewrite Hi; reflexivity).
    rewrite !Hi. clearbody zr h sr. destruct (wf_range D W e Hlt Hi) as (Rn & Re).
    pose proof (partner_lt D W e Hlt Hi) as Hp. pose proof (pressure_still w _ _ _ (L5 _ Hp)) as Pn.
    replace (partner D e / 3)%nat with (Z.to_nat (neighbours D e)) in Pn
      by (unfold partner; rewrite Nat.div_add_l by lia; rewrite Nat.div_small by lia; lia).
    rewrite <- Ez in Pn. rewrite <- Pn. field.
Qed.

(** No updates where every edge flux vanishes and every pressure term is that
    of the depth at the centroid (the last part of the proof of C09). *)
Lemma still_updates D s w b t :
  wf_mesh D -> flux_invariant D s w ->
  (forall e, update_next_flux D e = 1%Z) -> closed_cells D -> shared_lengths D ->
  (forall e rw, (e < 3 * number_of_elements D)%nat ->
    er_flux (compute_edge D rw e) = V3 0 0 0 /\
    er_pg_k (compute_edge D rw e) = edgelengths D e * (g D / 2 * (height_centroid D (e / 3))^2) /\
    (interior D e = true ->
     er_pg_n (compute_edge D rw e) = edgelengths D e * (g D / 2 * (height_centroid D (Z.to_nat (neighbours D e)))^2))) ->
  let o := compute_fluxes D s w b t in
  forall k, (k < number_of_elements D)%nat -> out_stage o k = 0 /\ out_xmom o k = 0 /\ out_ymom o k = 0.
Proof.
  intros W F Hu Hc Hs L. cbv zeta. intros k Hk.
  assert (U : update_flags_symmetric D) by (intros e _ _; rewrite !Hu; reflexivity).
  unfold compute_fluxes; cbv zeta; cbn [out_stage out_xmom out_ymom].
  match goal with |- context [edge_loop D _ ?sub (Work _ _ _ _ _ ?lt _)] =>
    pose proof (fun e He => flux_loop_values D s w e sub lt W U F He) as V end.
  cbv zeta in V.
  match goal with |- context [stage_update D ?x] => set (w' := x) in * end. clearbody w'.
  assert (K : forall e, (e < 3 * number_of_elements D)%nat ->
    edge_flux_work w' e = V3 0 0 0 /\
    pressuregrad_work w' e = edgelengths D e * (g D / 2 * (height_centroid D (e / 3))^2)).
  { intros e Le. destruct (V e Le) as (_ & A & B). rewrite Hu in A, B. cbn [Z.eqb Pos.eqb] in A, B.
    rewrite A, B. unfold efw_value, pgw_value, leader, final_edge.
    destruct (interior D e) eqn:Hi; cbn [negb orb].
    - destruct (e <? partner D e)%nat.
      + destruct (L e (walls_before D e) Le) as (E1 & E2 & _).
        rewrite E1, E2. split; [unfold vneg; cbn; f_equal; ring|reflexivity].
      + destruct (L (partner D e) (walls_before D (partner D e)) (partner_lt D W e Le Hi)) as (E1 & _ & E3).
        destruct (wf_back D W e Le Hi) as (C1 & C2 & C3).
        pose proof (partner_lt D W e Le Hi) as Hp. destruct (wf_range D W _ Hp C1) as (R1 & R2).
        rewrite E1, (E3 C1). split; [reflexivity|]. rewrite (Hs e Le Hi).
        assert (Q2 : (Z.to_nat (neighbours D (partner D e)) = e / 3)%nat).
        { rewrite <- C2 at 2. unfold partner at 2. rewrite Nat.div_add_l by lia. rewrite Nat.div_small by lia. lia. }
        rewrite Q2. reflexivity.
    - destruct (L e (walls_before D e) Le) as (E1 & E2 & _).
      rewrite E1, E2. split; [unfold vneg; cbn; f_equal; ring|reflexivity]. }
  destruct (Hc k Hk) as (Cx & Cy).
  assert (D0 : (3 * k / 3 = k)%nat) by (rewrite Nat.mul_comm; apply Nat.div_mul; lia).
  assert (D1 : ((3 * k + 1) / 3 = k)%nat) by (rewrite Nat.mul_comm, Nat.div_add_l by lia; cbn; lia).
  assert (D2 : ((3 * k + 2) / 3 = k)%nat) by (rewrite Nat.mul_comm, Nat.div_add_l by lia; cbn; lia).
  unfold stage_update, xmom_update, ymom_update. cbn [fold_left].
  replace (3 * k + 0)%nat with (3 * k)%nat by lia.
  destruct (K (3 * k)%nat ltac:(lia)) as (A0 & B0). destruct (K (3 * k + 1)%nat ltac:(lia)) as (A1 & B1).
  destruct (K (3 * k + 2)%nat ltac:(lia)) as (A2 & B2).
  rewrite A0, A1, A2, B0, B1, B2, D0, D1, D2. cbn [c0 c1 c2].
  set (P := g D / 2 * height_centroid D k ^ 2).
  split; [ring|]. split.
  - replace (0 + 0 - normal_x D (3 * k) * (edgelengths D (3 * k) * P) + 0 -
      normal_x D (3 * k + 1) * (edgelengths D (3 * k + 1) * P) + 0 -
      normal_x D (3 * k + 2) * (edgelengths D (3 * k + 2) * P)) with
      (- P * (edgelengths D (3 * k) * normal_x D (3 * k) + edgelengths D (3 * k + 1) * normal_x D (3 * k + 1)
       + edgelengths D (3 * k + 2) * normal_x D (3 * k + 2))) by ring.
    rewrite Cx. ring.
  - replace (0 + 0 - normal_y D (3 * k) * (edgelengths D (3 * k) * P) + 0 -
      normal_y D (3 * k + 1) * (edgelengths D (3 * k + 1) * P) + 0 -
      normal_y D (3 * k + 2) * (edgelengths D (3 * k + 2) * P)) with
      (- P * (edgelengths D (3 * k) * normal_y D (3 * k) + edgelengths D (3 * k + 1) * normal_y D (3 * k + 1)
       + edgelengths D (3 * k + 2) * normal_y D (3 * k + 2))) by ring.
    rewrite Cy. ring.
Qed.
