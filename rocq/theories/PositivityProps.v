(** Property C76: step sizes that keep the depth non-negative. *)
From Coq Require Import Reals List ZArith Arith Bool Lia Lra Psatz.
From Verif Require Import RealLib ArrayLib FluxModel FluxFunctionProofs FluxProofs FluxProps FluxTimestepProps GeometryModel
  ReconModel ReconProofs ReconProps.
Import ListNotations.
Local Open Scope R_scope.

Lemma side_speed ul ur cl cr : 0 <= cl -> 0 <= cr ->
  ul <= smax ul ur cl cr /\ ur <= smax ul ur cl cr /\ smin ul ur cl cr <= ul /\ smin ul ur cl cr <= ur.
Proof.
  intros Hl Hr. destruct (smax_ge ul ur cl cr) as (_ & A & B). destruct (smin_le ul ur cl cr) as (_ & C & D). lra.
Qed.

(** The mass flux lies between the depths on the two sides times the speed. *)
Lemma flux_bounds ql qr hl hr hle hre n1 n2 eps ze g lf :
  0 <= hl -> 0 <= hr -> tiny <= eps -> Rmax (c0 ql) ze = ze + hl -> Rmax (c0 qr) ze = ze + hr ->
  let F := flux_function_central ql qr hl hr hle hre n1 n2 eps ze g lf in
  - (f_speed F * hr) <= c0 (f_edge F) <= f_speed F * hl /\ 0 <= f_speed F.
Proof.
  intros Hl Hr He El Er F. unfold F. rewrite flux_function_unfold. clear F.
  destruct (Reqb hl 0 && Reqb hr 0); [cbn; lra|]. cbv zeta. unfold flux_body. cbv zeta.
  set (l := side_state _ hl hle). set (r := side_state _ hr hre).
  destruct (side_speed (s_u l) (s_u r) (sqrt (g * hl)) (sqrt (g * hr)) (sqrt_pos _) (sqrt_pos _)) as (A & B & C & D).
  destruct (smax_ge (s_u l) (s_u r) (sqrt (g * hl)) (sqrt (g * hr))) as (P & _).
  destruct (smin_le (s_u l) (s_u r) (sqrt (g * hl)) (sqrt (g * hr))) as (M & _).
  set (sM := smax _ _ _ _) in *. set (sm := smin _ _ _ _) in *. clearbody sM sm.
  destruct (Rltb_spec (sM - sm) eps) as [L|L]; [cbn; lra|].
  pose proof tiny_pos as T. rewrite (Rmax_left (sM - sm) tiny) by lra. cbn [f_edge f_speed rotate c0].
  rewrite El, Er. set (u := s_u l) in *. set (v := s_u r) in *. clearbody u v.
  set (s := Rmax sM (- sm)). assert (S1 : sM <= s) by apply Rmax_l. assert (S2 : - sm <= s) by apply Rmax_r. clearbody s.
  set (d := sM - sm). assert (Hd : 0 < d) by (unfold d; lra).
  assert (K : forall a, a / d = a * (1 / d)) by (intros; unfold Rdiv; ring).
  rewrite <- K. clear K.
  set (n := sM * (u * hl) - sm * (v * hr) + sM * sm * (ze + hr - (ze + hl))).
  assert (N1 : n <= sM * hl * d).
  { unfold n, d. assert (0 <= sM * hl * (sM - u)) by (repeat apply Rmult_le_pos; lra).
    assert (0 <= - sm * hr * (sM - v)) by (repeat apply Rmult_le_pos; lra). lra. }
  assert (N2 : - (- sm * hr * d) <= n).
  { unfold n, d. assert (0 <= sM * hl * (u - sm)) by (repeat apply Rmult_le_pos; lra).
    assert (0 <= - sm * hr * (v - sm)) by (repeat apply Rmult_le_pos; lra). lra. }
  assert (M1 : n / d <= sM * hl) by (apply Rmult_le_reg_r with d; [exact Hd|]; replace (n / d * d) with n by (field; lra); exact N1).
  assert (M2 : - (- sm * hr) <= n / d) by (apply Rmult_le_reg_r with d; [exact Hd|]; replace (n / d * d) with n by (field; lra); lra).
  assert (sM * hl <= s * hl) by (apply Rmult_le_compat_r; lra).
  assert (- sm * hr <= s * hr) by (apply Rmult_le_compat_r; lra). lra.
Qed.

(** Edge values that belong to a surface: stage is bed plus height. *)
Definition surface_edges (D : domain) : Prop :=
  forall e, (e < 3 * number_of_elements D)%nat -> stage_edge D e = bed_edge D e + height_edge D e /\ 0 <= height_edge D e.

Lemma edge_bounds D rw e : wf_mesh D -> surface_edges D -> tiny <= epsilon D -> (e < 3 * number_of_elements D)%nat ->
  edge_flux_type D e <> 1%Z -> 0 <= edgelengths D e ->
  let r := compute_edge D rw e in
  c0 (er_flux r) <= er_speed r * edgelengths D e * height_edge D e /\ 0 <= er_speed r /\
  (interior D e = true -> - c0 (er_flux r) <= er_speed r * edgelengths D e * height_edge D (partner D e)).
Proof.
  intros W S T He Hw Hl r. unfold r, compute_edge. clear r. cbv zeta. rewrite (proj2 (Z.eqb_neq _ _) Hw).
  cbn [er_flux er_speed fst snd c0].
  destruct (S e He) as (S1 & S2).
  set (inner := interior D e) in *.
  set (zl := bed_edge D e) in *. set (hle := height_edge D e) in *.
  set (zr := if inner then bed_edge D (partner D e) else zl).
  set (qr := if inner then V3 (stage_edge D (partner D e)) _ _ else V3 (stage_boundary D _) _ _).
  set (hre := if inner then height_edge D (partner D e) else Rmax (c0 qr - zr) 0).
  set (z := Rmax zl zr). assert (Z1 : zl <= z) by apply Rmax_l. assert (Z2 : zr <= z) by apply Rmax_r.
  assert (Hre : 0 <= hre /\ Rmax (c0 qr) z = z + Rmax (hre + zr - z) 0).
  { unfold hre, qr, zr in *. destruct inner eqn:Hi.
    - destruct (S (partner D e) (partner_lt D W e He Hi)) as (P1 & P2). split; [exact P2|]. cbn [c0]. rewrite P1.
      unfold Rmax. repeat destruct (Rle_dec _ _); lra.
    - split; [apply Rmax_r|]. cbn [c0]. assert (z = zl) by (unfold z; apply Rmax_left; lra).
      set (x := stage_boundary D _). unfold Rmax. repeat destruct (Rle_dec _ _); lra. }
  destruct Hre as (H1 & H2).
  assert (H3 : Rmax (stage_edge D e) z = z + Rmax (hle + zl - z) 0).
  { rewrite S1. unfold Rmax. repeat destruct (Rle_dec _ _); lra. }
  pose proof (flux_bounds (V3 (stage_edge D e) (xmom_edge D e) (ymom_edge D e)) qr (Rmax (hle + zl - z) 0) (Rmax (hre + zr - z) 0)
    hle hre (normal_x D e) (normal_y D e) (epsilon D) z (g D) (low_froude D) (Rmax_r _ _) (Rmax_r _ _) T H3 H2) as B.
  cbv zeta in B. set (F := flux_function_central _ _ _ _ _ _ _ _ _ _ _ _) in *. clearbody F. destruct B as (B & Sp).
  assert (A1 : Rmax (hle + zl - z) 0 <= hle) by (unfold Rmax; destruct (Rle_dec _ _); lra).
  assert (A2 : Rmax (hre + zr - z) 0 <= hre) by (unfold Rmax; destruct (Rle_dec _ _); lra).
  assert (G : forall a h, a <= f_speed F * h -> a * edgelengths D e <= f_speed F * edgelengths D e * h).
  { intros a h H. replace (f_speed F * edgelengths D e * h) with (f_speed F * h * edgelengths D e) by ring. apply Rmult_le_compat_r; assumption. }
  split; [|split; [exact Sp|]].
  - apply G. apply Rle_trans with (f_speed F * Rmax (hle + zl - z) 0); [lra|]. apply Rmult_le_compat_l; lra.
  - intros Hi. rewrite <- Ropp_mult_distr_l_reverse. apply G. apply Rle_trans with (f_speed F * Rmax (hre + zr - z) 0); [lra|].
    unfold hre in *. rewrite Hi in *. apply Rmult_le_compat_l; lra.
Qed.

(** Speed used for edge [e]: computed at the representative of the pair. *)
Definition edge_speed (D : domain) (e : nat) : R :=
  er_speed (final_edge D (if leader D e then e else partner D e)).

(** Outflow through an edge is at most speed times length times the depth at
    that edge. *)
Theorem C76_outflow :
  forall D s w b t, wf_mesh D -> update_flags_symmetric D -> flux_invariant D s w -> surface_edges D -> tiny <= epsilon D ->
  shared_lengths D -> (forall e, (e < 3 * number_of_elements D)%nat -> 0 <= edgelengths D e /\ edge_flux_type D e <> 1%Z /\ update_next_flux D e = 1%Z) ->
  forall e, (e < 3 * number_of_elements D)%nat ->
  0 <= edge_speed D e /\
  - c0 (edge_flux_work (out_work (compute_fluxes D s w b t)) e) <= edge_speed D e * edgelengths D e * height_edge D e.
Proof.
  intros D s w b t W U F S T Sl H e He. unfold compute_fluxes. cbv zeta. cbn [out_work].
  match goal with |- context [edge_loop D _ ?sub (Work _ _ _ _ _ ?lt _)] =>
    pose proof (flux_loop_values D s w e sub lt W U F He) as V end.
  cbv zeta in V. destruct V as (_ & V & _). destruct (H e He) as (L & Hw & Hu). rewrite Hu in V. cbn [Z.eqb Pos.eqb] in V. rewrite V. clear V.
  unfold edge_speed, efw_value, final_edge. destruct (leader D e) eqn:Le.
  - destruct (edge_bounds D (walls_before D e) e W S T He Hw L) as (A & B & _). unfold vneg. cbn [c0]. split; [exact B|]. lra.
  - unfold leader in Le. apply orb_false_iff in Le. destruct Le as (Hi & _). apply negb_false_iff in Hi.
    pose proof (partner_lt D W e He Hi) as Hp. destruct (H _ Hp) as (L' & Hw' & _). destruct (wf_back D W e He Hi) as (C1 & C2 & _).
    destruct (edge_bounds D (walls_before D (partner D e)) (partner D e) W S T Hp Hw' L') as (_ & B & A). split; [exact B|].
    specialize (A C1). rewrite C2, (Sl e He Hi) in A. exact A.
Qed.
Print Assumptions C76_outflow.

(** A step with [dt * speed * length <= area / 3] at the three edges of a
    triangle, whose depths at the edges average to the depth at the centroid,
    leaves the depth non-negative. *)
Theorem C76_small_steps :
  forall D s w b t k d, wf_mesh D -> update_flags_symmetric D -> flux_invariant D s w -> surface_edges D -> tiny <= epsilon D ->
  shared_lengths D -> (forall e, (e < 3 * number_of_elements D)%nat -> 0 <= edgelengths D e /\ edge_flux_type D e <> 1%Z /\ update_next_flux D e = 1%Z) ->
  (k < number_of_elements D)%nat -> 0 < areas D k -> 0 <= d ->
  height_edge D (3 * k) + height_edge D (3 * k + 1) + height_edge D (3 * k + 2) = 3 * (stage_centroid D k - bed_centroid D k) ->
  (forall i, (i < 3)%nat -> d * (edge_speed D (3 * k + i) * edgelengths D (3 * k + i)) <= areas D k / 3) ->
  bed_centroid D k <= stage_centroid D k + d * out_stage (compute_fluxes D s w b t) k.
Proof.
  intros D s w b t k d W U F S T Sl H Hk Ha Hd Hh Hc.
  pose proof (C76_outflow D s w b t W U F S T Sl H) as O.
  assert (E : out_stage (compute_fluxes D s w b t) k = stage_update D (out_work (compute_fluxes D s w b t)) k) by reflexivity.
  rewrite E. clear E. set (w' := out_work _) in *. clearbody w'. unfold stage_update. cbn [fold_left].
  pose proof (fun i (Hi : (i < 3)%nat) => O (3 * k + i)%nat ltac:(lia)) as O'. clear O.
  assert (G : forall i, (i < 3)%nat -> - (areas D k / 3 * height_edge D (3 * k + i)) <= d * c0 (edge_flux_work w' (3 * k + i))).
  { intros i Hi. destruct (O' i Hi) as (O1 & O2). specialize (Hc i Hi). destruct (S (3 * k + i)%nat ltac:(lia)) as (_ & Hn).
    apply Rle_trans with (- (d * (edge_speed D (3 * k + i) * edgelengths D (3 * k + i)) * height_edge D (3 * k + i))).
    - apply Ropp_le_contravar. apply Rmult_le_compat_r; assumption.
    - apply Rmult_le_compat_l with (r := d) in O2; [|exact Hd]. lra. }
  pose proof (G 0%nat ltac:(lia)) as G0. pose proof (G 1%nat ltac:(lia)) as G1. pose proof (G 2%nat ltac:(lia)) as G2.
  replace (3 * k + 0)%nat with (3 * k)%nat in * by lia.
  set (e0 := c0 (edge_flux_work w' (3 * k))) in *. set (e1 := c0 (edge_flux_work w' (3 * k + 1))) in *. set (e2 := c0 (edge_flux_work w' (3 * k + 2))) in *.
  set (A := areas D k) in *. set (h := stage_centroid D k - bed_centroid D k) in *.
  assert (X : - h <= d * ((0 + e0 + e1 + e2) * (1 / A))); [|unfold h in X; lra].
  apply Rmult_le_reg_r with A; [exact Ha|]. replace (d * ((0 + e0 + e1 + e2) * (1 / A)) * A) with (d * e0 + d * e1 + d * e2) by (field; lra).
  assert (Y : A / 3 * height_edge D (3 * k) + A / 3 * height_edge D (3 * k + 1) + A / 3 * height_edge D (3 * k + 2) = h * A)
    by (rewrite <- !Rmult_plus_distr_l, Hh; field).
  lra.
Qed.
Print Assumptions C76_small_steps.

(** Sides of a triangle and radius of the inscribed circle. *)
Definition perimeter (D : domain) (k : nat) : R := edgelengths D (3 * k) + edgelengths D (3 * k + 1) + edgelengths D (3 * k + 2).
Definition triangle_sides (D : domain) : Prop :=
  forall k i, (k < number_of_elements D)%nat -> (i < 3)%nat -> 0 < edgelengths D (3 * k + i) /\ 2 * edgelengths D (3 * k + i) <= perimeter D k.

(** With the radius of the inscribed circle and a CFL number of at most 1/3
    the time step of the flux computation satisfies this condition at every
    edge whose speed is above [epsilon]. *)
Theorem C76_inscribed_circle :
  forall D s w b t cfl k d, wf_mesh D -> update_flags_symmetric D -> flux_invariant D s w -> surface_edges D -> tiny <= epsilon D ->
  shared_lengths D -> (forall e, (e < 3 * number_of_elements D)%nat -> edge_flux_type D e <> 1%Z /\ update_next_flux D e = 1%Z) ->
  allow_timestep_increase D = 1%Z -> next_substep D s = 0%nat ->
  triangle_sides D -> (forall n, (n < number_of_elements D)%nat -> tri_full_flag D n = 1%Z /\ 0 < areas D n /\ radii D n = 2 * areas D n / perimeter D n) ->
  let o := compute_fluxes D s w b t in
  0 <= cfl <= 1 / 3 -> 0 <= d <= cfl * out_timestep o ->
  (k < number_of_elements D)%nat ->
  height_edge D (3 * k) + height_edge D (3 * k + 1) + height_edge D (3 * k + 2) = 3 * (stage_centroid D k - bed_centroid D k) ->
  (forall i, (i < 3)%nat -> edge_speed D (3 * k + i) <= epsilon D -> d * (epsilon D * edgelengths D (3 * k + i)) <= areas D k / 3) ->
  bed_centroid D k <= stage_centroid D k + d * out_stage o k.
Proof.
  intros D s w b t cfl k d W U F S T Sl H Ha Hs Ht Hr o Hc Hd Hk Hh Hslow.
  assert (H' : forall e, (e < 3 * number_of_elements D)%nat -> 0 <= edgelengths D e /\ edge_flux_type D e <> 1%Z /\ update_next_flux D e = 1%Z).
  { intros e He. split; [|apply H; exact He].
    destruct (Ht (e / 3)%nat (e mod 3)%nat ltac:(apply Nat.div_lt_upper_bound; lia) ltac:(apply Nat.mod_upper_bound; lia)) as (P & _).
    rewrite <- Nat.div_mod in P by lia. lra. }
  destruct (C46_cfl_timestep D s w b t W U F Ha Hs) as (_ & B & _).
  apply C76_small_steps; try assumption; [apply Hr; exact Hk|lra|].
  intros i Hi. set (e := (3 * k + i)%nat). assert (He : (e < 3 * number_of_elements D)%nat) by (unfold e; lia).
  destruct (Ht k i Hk Hi) as (L1 & L2). fold e in L1, L2. destruct (Hr k Hk) as (Fk & Ak & Rk).
  destruct (C76_outflow D s w b t W U F S T Sl H' e He) as (Sp & _).
  destruct (Rle_lt_dec (edge_speed D e) (epsilon D)) as [Q|Q].
  { apply Rle_trans with (d * (epsilon D * edgelengths D e)); [|exact (Hslow i Hi Q)].
    apply Rmult_le_compat_l; [lra|]. apply Rmult_le_compat_r; lra. }
  assert (Dt : out_timestep o <= radii D k / edge_speed D e).
  { unfold edge_speed in *. destruct (leader D e) eqn:Le.
    - apply (B e).
      + split; [exact He|]. split; [apply H; exact He|]. split; [apply leader_iff; exact Le|].
        assert (K : (e / 3 = k)%nat) by (unfold e; rewrite (Nat.mul_comm 3), Nat.div_add_l by lia; rewrite (Nat.div_small i) by lia; lia).
        rewrite K. split; [exact Fk|exact Q].
      + left. f_equal. f_equal. unfold e. rewrite (Nat.mul_comm 3), Nat.div_add_l by lia. rewrite (Nat.div_small i) by lia. lia.
    - unfold leader in Le. apply orb_false_iff in Le. destruct Le as (Hi' & Lt). apply negb_false_iff in Hi'. apply Nat.ltb_ge in Lt.
      pose proof (partner_lt D W e He Hi') as Hp. destruct (wf_back D W e He Hi') as (C1 & C2 & C3). destruct (wf_range D W _ Hp C1) as (R1 & R2).
      assert (Q2 : (Z.to_nat (neighbours D (partner D e)) = k)%nat).
      { assert (E3 : (Z.to_nat (neighbours D (partner D e)) * 3 + neighbour_edges D (partner D e) = 3 * k + i)%nat) by exact C2. lia. }
      apply (B (partner D e)).
      + split; [exact Hp|]. split; [apply H; exact Hp|]. split; [right; rewrite C2; lia|]. split; [|exact Q].
        apply Hr. apply Nat.div_lt_upper_bound; lia.
      + right. split; [exact C1|]. rewrite Q2. reflexivity. }
  pose proof (epsilon D) as _. pose proof tiny_pos as Tp. assert (Sp' : 0 < edge_speed D e) by lra.
  assert (P1 : d * edge_speed D e <= 1 / 3 * radii D k).
  { apply Rle_trans with (cfl * (radii D k / edge_speed D e) * edge_speed D e).
    - apply Rmult_le_compat_r; [lra|]. apply Rle_trans with (cfl * out_timestep o); [lra|]. apply Rmult_le_compat_l; lra.
    - replace (cfl * (radii D k / edge_speed D e) * edge_speed D e) with (cfl * radii D k) by (field; lra).
      apply Rmult_le_compat_r; [|lra]. rewrite Rk. assert (0 < perimeter D k) by lra. apply Rlt_le, Rdiv_lt_0_compat; lra. }
  rewrite <- Rmult_assoc. apply Rle_trans with (1 / 3 * radii D k * edgelengths D e); [apply Rmult_le_compat_r; lra|].
  rewrite Rk. assert (P2 : 0 < perimeter D k) by lra.
  replace (1 / 3 * (2 * areas D k / perimeter D k) * edgelengths D e) with (areas D k / 3 * (2 * edgelengths D e / perimeter D k)) by (field; lra).
  rewrite <- (Rmult_1_r (areas D k / 3)) at 2. apply Rmult_le_compat_l; [lra|].
  apply Rmult_le_reg_r with (perimeter D k); [exact P2|]. replace (2 * edgelengths D e / perimeter D k * perimeter D k) with (2 * edgelengths D e) by (field; lra). lra.
Qed.
Print Assumptions C76_inscribed_circle.

(** * The radius used by default *)

(** A single right triangle with legs [t] and 1, flat bed, depth 1 at rest and
    dry land at the boundary, with the geometry the mesh constructor computes. *)
Definition thin (t : R) : domain := {|
  number_of_elements := 1; epsilon := / 10 ^ 12; g := 98 / 10; low_froude := 0;
  neighbours := fun e => (- Z.of_nat (e + 1))%Z; neighbour_edges := fun _ => 0%nat;
  normal_x := fun e => fst (normal 0 0 t 0 0 1 e); normal_y := fun e => snd (normal 0 0 t 0 0 1 e); edgelengths := edgelength 0 0 t 0 0 1;
  radii := fun _ => radius_old 0 0 t 0 0 1; areas := fun _ => area 0 0 t 0 0 1; tri_full_flag := fun _ => 1%Z;
  stage_edge := fun _ => 1; xmom_edge := fun _ => 0; ymom_edge := fun _ => 0;
  bed_edge := fun _ => 0; height_edge := fun e => 1;
  stage_centroid := fun _ => 1; bed_centroid := fun _ => 0; height_centroid := fun k => 1;
  stage_boundary := fun _ => -1; xmom_boundary := fun _ => 0; ymom_boundary := fun _ => 0;
  edge_flux_type := fun _ => 0%Z; riverwall_elevation := fun _ => 0;
  riverwall_rowIndex := fun _ => 0%nat; ncol_riverwall := 5; riverwall_props := fun _ => 1;
  update_next_flux := fun _ => 1%Z; timestep_fluxcalls := 1; allow_timestep_increase := 1%Z |}.

Lemma thin_interior t e : interior (thin t) e = false.
Proof. unfold interior. cbn [neighbours thin]. apply Z.leb_gt || apply Z.ltb_ge || idtac; lia. Qed.

Lemma thin_wf t : wf_mesh (thin t).
Proof. split; intros e _ H; rewrite thin_interior in H; discriminate. Qed.

Lemma thin_edge t rw e : let s := sqrt (98 / 10) in
  c0 (er_flux (compute_edge (thin t) rw e)) = s / 2 * edgelengths (thin t) e /\ er_speed (compute_edge (thin t) rw e) = s.
Proof.
  intros s. assert (Hs : 1 < s). { unfold s. rewrite <- sqrt_1 at 1. apply sqrt_lt_1; lra. }
  assert (Hq : s * s = 98 / 10) by (apply sqrt_def; lra).
  unfold compute_edge. cbv zeta. rewrite thin_interior.
  cbn [thin edge_flux_type Z.eqb stage_edge xmom_edge ymom_edge bed_edge height_edge stage_boundary xmom_boundary ymom_boundary epsilon g low_froude c0 fst snd er_flux er_speed].
  rewrite (Rmax_left 0 0) by lra. rewrite (Rmax_left (1 + 0 - 0) 0) by lra. rewrite (Rmax_right (-1 - 0) 0) by lra. rewrite (Rmax_right (0 + 0 - 0) 0) by lra.
  rewrite flux_function_unfold. rewrite (proj2 (Reqb_false (1 + 0 - 0) 0)) by lra. cbn [andb]. cbv zeta.
  unfold side_state. rewrite (proj2 (Rltb_true 0 1)) by lra. rewrite (proj2 (Rltb_false 0 0)) by lra. cbv zeta. unfold flux_body. cbn [s_u].
  replace (sqrt (98 / 10 * (1 + 0 - 0))) with s by (unfold s; f_equal; lra). replace (sqrt (98 / 10 * 0)) with 0 by (rewrite Rmult_0_r, sqrt_0; reflexivity).
  set (u := c1 _ * (1 / 1)). assert (Hu : u = 0) by (unfold u, rotate; cbn [c0 c1 c2]; lra). rewrite Hu. clear Hu u.
  assert (E1 : smax 0 0 s 0 = s). { unfold smax. cbv zeta. rewrite (Rmax_left (0 + s) (0 + 0)) by lra. rewrite (proj2 (Rltb_false (0 + s) 0)) by lra. lra. }
  assert (E2 : smin 0 0 s 0 = - s). { unfold smin. cbv zeta. rewrite (Rmin_left (0 - s) (0 - 0)) by lra. rewrite (proj2 (Rltb_false 0 (0 - s))) by lra. lra. }
  rewrite E1, E2. cbv zeta.
  assert (T : tiny <= 1 /\ / 10 ^ 12 <= 1).
  { split; unfold tiny; rewrite <- Rinv_1; apply Rinv_le_contravar; try lra; apply pow_R1_Rle; lra. }
  rewrite (proj2 (Rltb_false (s - - s) (/ 10 ^ 12))) by lra. rewrite (Rmax_left (s - - s) tiny) by lra.
  cbn [f_edge f_speed rotate c0]. rewrite (Rmax_left 1 0), (Rmax_right (-1) 0), (Rmax_left s (- - s)) by lra. split; [|reflexivity].
  f_equal. field. lra.
Qed.

Lemma out_stage_update D s w b t k : out_stage (compute_fluxes D s w b t) k = stage_update D (out_work (compute_fluxes D s w b t)) k.
Proof. reflexivity. Qed.

Lemma sqrt_of_square x y : 0 <= y -> x = y * y -> sqrt x = y.
Proof. intros H ->. apply sqrt_square, H. Qed.

Lemma thin_geometry t : 0 < t -> let c := sqrt (t ^ 2 + 1) in
  area 0 0 t 0 0 1 = t / 2 /\ l0 t 0 0 1 = c /\ l1 0 0 0 1 = 1 /\ l2 0 0 t 0 = t /\ radius_old 0 0 t 0 0 1 = c / 6.
Proof.
  intros H c. assert (Hc : 0 <= c) by apply sqrt_pos. assert (Hq : c * c = t ^ 2 + 1) by (apply sqrt_def; pose proof (pow2_ge_0 t); lra).
  split; [unfold area; field|]. split; [unfold l0, c; f_equal; ring|].
  split; [unfold l1; apply sqrt_of_square; [lra|ring]|]. split; [unfold l2; apply sqrt_of_square; [lra|ring]|].
  unfold radius_old, mid_dist, centroid. cbn [fst snd].
  assert (E : sqrt (((0 + t + 0) / 3 - (t + 0) / 2) ^ 2 + ((0 + 0 + 1) / 3 - (0 + 1) / 2) ^ 2) = c / 6).
  { apply sqrt_of_square; [lra|]. replace (c / 6 * (c / 6)) with (c * c / 36) by field. rewrite Hq. field. }
  rewrite E. rewrite !Rmin_left; [reflexivity| |].
  - rewrite <- E. apply sqrt_le_1_alt. pose proof (pow2_ge_0 t). cbn in *. nra.
  - apply Rmin_glb_lt || idtac. rewrite Rmin_left; rewrite <- E; apply sqrt_le_1_alt; pose proof (pow2_ge_0 t); cbn in *; nra.
Qed.

Theorem C76_default_radius_refuted :
  forall cfl b0 t0, 0 < cfl -> exists t, 0 < t /\ let D := thin t in
  wf_mesh D /\ flux_invariant D ex_statics ex_work /\ surface_edges D /\ tiny <= epsilon D /\
  height_edge D 0 + height_edge D 1 + height_edge D 2 = 3 * (stage_centroid D 0 - bed_centroid D 0) /\
  let o := compute_fluxes D ex_statics ex_work b0 t0 in
  stage_centroid D 0 + cfl * out_timestep o * out_stage o 0%nat < bed_centroid D 0.
Proof.
  intros cfl b0 t0 Hcfl. exists (Rmin (cfl / 4) 1). set (t := Rmin (cfl / 4) 1).
  assert (T0 : 0 < t) by (apply Rmin_glb_lt; lra). assert (T1 : t <= cfl / 4) by apply Rmin_l. assert (T2 : t <= 1) by apply Rmin_r. clearbody t.
  split; [exact T0|]. cbv zeta.
  assert (FI : flux_invariant (thin t) ex_statics ex_work) by (apply C08_invariant_initial; cbn; [lia|reflexivity|reflexivity]).
  split; [apply thin_wf|]. split; [exact FI|].
  split; [intros e _; cbn; lra|].
  split; [unfold tiny; apply Rinv_le_contravar; [apply pow_lt; lra|apply Rle_pow; [lra|lia]]|].
  split; [cbn; lra|].
  assert (U : update_flags_symmetric (thin t)) by (intros e _ _; reflexivity).
  destruct (thin_geometry t T0) as (GA & G0 & G1 & G2 & GR). set (c := sqrt (t ^ 2 + 1)) in *.
  assert (C1 : 1 <= c). { unfold c. rewrite <- sqrt_1 at 1. apply sqrt_le_1_alt. pose proof (pow2_ge_0 t). lra. }
  assert (C2 : c <= 2). { unfold c. replace 2 with (sqrt (2 * 2)) by (apply sqrt_square; lra). apply sqrt_le_1_alt. cbn. nra. }
  clearbody c.
  set (s := sqrt (98 / 10)). assert (Hs : 1 < s) by (unfold s; rewrite <- sqrt_1 at 1; apply sqrt_lt_1; lra).
  assert (Lim : forall e, (e < 3)%nat -> limiting_edge (thin t) e).
  { intros e He. split; [cbn; lia|]. split; [reflexivity|]. split; [left; apply thin_interior|]. split; [reflexivity|].
    unfold final_edge. destruct (thin_edge t (walls_before (thin t) e) e) as (_ & ->). fold s. cbn [epsilon thin].
    apply Rle_lt_trans with 1; [|exact Hs]. rewrite <- Rinv_1. apply Rinv_le_contravar; [lra|apply pow_R1_Rle; lra]. }
  assert (Bd : forall e x, cfl_bound (thin t) e x -> x = c / 6 / s).
  { intros e x [-> | (Hi & _)]; [|rewrite thin_interior in Hi; discriminate]. unfold final_edge.
    destruct (thin_edge t (walls_before (thin t) e) e) as (_ & ->). fold s. cbn [radii thin]. rewrite GR. reflexivity. }
  destruct (C46_cfl_timestep (thin t) ex_statics ex_work b0 t0 (thin_wf t) U FI eq_refl eq_refl) as (_ & _ & [Big|(e & x & Le & Bx & Ex)]).
  { exfalso. destruct (C46_cfl_timestep (thin t) ex_statics ex_work b0 t0 (thin_wf t) U FI eq_refl eq_refl) as (_ & Up & _).
    specialize (Up 0%nat _ (Lim 0%nat ltac:(lia)) (or_introl eq_refl)). rewrite Big in Up.
    rewrite (Bd 0%nat _ (or_introl eq_refl)) in Up.
    assert (1 <= 10 ^ 100) by (apply pow_R1_Rle; lra).
    assert (c / 6 / s < 1). { apply Rmult_lt_reg_r with s; [lra|]. replace (c / 6 / s * s) with (c / 6) by (field; lra). lra. }
    lra. }
  apply Bd in Bx. rewrite Bx in Ex. rewrite Ex. clear Ex Bx x Le e.
  assert (V : forall e, (e < 3)%nat -> c0 (edge_flux_work (out_work (compute_fluxes (thin t) ex_statics ex_work b0 t0)) e) = - (s / 2 * edgelengths (thin t) e)).
  { intros e He. unfold compute_fluxes. cbv zeta. cbn [out_work].
    match goal with |- context [edge_loop _ _ ?sub (Work _ _ _ _ _ ?lt _)] =>
      pose proof (flux_loop_values (thin t) ex_statics ex_work e sub lt (thin_wf t) U FI ltac:(cbn; lia)) as V end.
    cbv zeta in V. destruct V as (_ & V & _). cbn [update_next_flux thin Z.eqb Pos.eqb] in V. etransitivity; [exact (f_equal c0 V)|].
    unfold efw_value, leader. rewrite thin_interior. cbn [negb orb vneg c0]. unfold final_edge.
    destruct (thin_edge t (walls_before (thin t) e) e) as (-> & _). reflexivity. }
  assert (Up : out_stage (compute_fluxes (thin t) ex_statics ex_work b0 t0) 0%nat = - (s / 2 * (c + 1 + t)) * (1 / (t / 2))).
  { rewrite out_stage_update. set (w' := out_work _) in *. clearbody w'.
    unfold stage_update. cbn [fold_left Nat.mul Nat.add]. rewrite !V by lia. cbn [edgelengths areas thin edgelength]. rewrite GA, G0, G1, G2. f_equal. ring. }
  rewrite Up. cbn [stage_centroid bed_centroid thin].
  replace (1 + cfl * (c / 6 / s) * (- (s / 2 * (c + 1 + t)) * (1 / (t / 2)))) with (1 - cfl * (c * (c + 1 + t) / 6 / t)) by (field; lra).
  assert (X : 1 < cfl * (c * (c + 1 + t) / 6 / t)).
  { apply Rlt_le_trans with (cfl * (2 / 6 / t)).
    - apply Rmult_lt_reg_r with t; [exact T0|]. replace (cfl * (2 / 6 / t) * t) with (cfl / 3) by (field; lra). lra.
    - apply Rmult_le_compat_l; [lra|]. unfold Rdiv. apply Rmult_le_compat_r; [apply Rlt_le, Rinv_0_lt_compat, T0|]. apply Rmult_le_compat_r; [lra|]. nra. }
  lra.
Qed.
Print Assumptions C76_default_radius_refuted.

(** The theorems above apply to the unit square with depth 1 at rest. *)
Example C76_example : let D := ex_domain (fun _ => 1) (fun _ => 1) 0 in
  wf_mesh D /\ surface_edges D /\ shared_lengths D /\ tiny <= epsilon D /\
  (forall e, (e < 3 * number_of_elements D)%nat -> 0 <= edgelengths D e /\ edge_flux_type D e <> 1%Z /\ update_next_flux D e = 1%Z) /\
  height_edge D 0 + height_edge D 1 + height_edge D 2 = 3 * (stage_centroid D 0 - bed_centroid D 0).
Proof.
  cbv zeta. split; [apply ex_wf|]. split; [intros e _; cbn; lra|]. split.
  { intros e He Hi. cbn in He. destruct e as [|[|[|[|[|[|e]]]]]]; try lia; try discriminate Hi; reflexivity. }
  split; [unfold tiny; apply Rinv_le_contravar; [apply pow_lt; lra|apply Rle_pow; [lra|lia]]|]. split; [|cbn; lra].
  intros e He. cbn in He. split; [|split; [cbn; lia|reflexivity]].
  destruct e as [|[|[|[|[|[|e]]]]]]; try lia; cbn; try lra; apply sqrt_pos.
Qed.

(** The reconstruction provides what the theorems assume about the edges: a
    surface with non-negative depth whose mean is the depth at the centroid. *)
Theorem C76_reconstruction :
  forall D I, after_recon D I -> betas_ok I -> r_velocity I = 1%Z -> recon_ok I = true -> (forall k, r_update I k <> 0%Z) ->
  r_beta_w_dry I = 0 -> tiny <= r_minimum_allowed_height I ->
  (forall k, (k < number_of_elements D)%nat -> (r_number_of_boundaries I k <= 3)%Z /\
     (r_number_of_boundaries I k = 2%Z -> forall i, (i < 3)%nat -> 0 <= height_edges I (3 * k + i))) ->
  surface_edges D /\
  forall k, (k < number_of_elements D)%nat -> midpoint_mesh I k -> bed_centroid D k <= r_stage I k ->
  height_edge D (3 * k) + height_edge D (3 * k + 1) + height_edge D (3 * k + 2) = 3 * (r_stage I k - bed_centroid D k).
Proof.
  intros D I [A0 A1 A2 A3 A4 A5 A6 A7] B Hv Hok Hu Hd Hm Hb. split.
  - intros e He. rewrite A1, A2, A3. assert (Hk : (e / 3 < number_of_elements D)%nat) by (apply Nat.div_lt_upper_bound; lia).
    assert (Hi : (e mod 3 < 3)%nat) by (apply Nat.mod_upper_bound; lia).
    split.
    + unfold bed_edges. replace (to_update I (e / 3)) with true by (unfold to_update; rewrite (proj2 (Z.eqb_neq _ _) (Hu _)); reflexivity). ring.
    + rewrite (Nat.div_mod e 3) by lia. destruct (Hb _ Hk) as (B1 & B2).
      destruct (Z.eq_dec (r_number_of_boundaries I (e / 3)) 2) as [E|E]; [apply B2; assumption|].
      apply C11_height_nonnegative_default; auto. split; [rewrite <- A0; exact Hk|]. split; [apply Hu|exact Hok].
  - intros k Hk Mm Hz. rewrite A2. rewrite A6 in Hz. rewrite A6.
    destruct (C11_mean_of_edges_is_centroid I k) as (_ & M); [split; [rewrite <- A0; exact Hk|split; [apply Hu|exact Hok]]|exact Mm|].
    assert (E : height1 I k = r_stage I k - r_bed I k) by (unfold height1; rewrite Hv; cbn [Z.eqb Pos.eqb]; apply Rmax_left; lra).
    rewrite E in M. lra.
Qed.
Print Assumptions C76_reconstruction.
