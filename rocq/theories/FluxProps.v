(** Properties C08, C09, C46 and C47: the flux computation over the whole mesh. *)
From Coq Require Import Reals List ZArith Arith Bool Lia Lra Permutation.
From Verif Require Import RealLib ArrayLib FluxModel FluxFunctionProofs FluxProofs.
Import ListNotations.
Local Open Scope R_scope.

(** * Hypotheses on the mesh and on the work arrays *)

(** Update flags (used when fluxes are not recomputed on every call) agree on
    the two sides of an interior edge. *)
Definition update_flags_symmetric (D : domain) : Prop :=
  forall e, (e < 3 * number_of_elements D)%nat -> interior D e = true ->
  update_next_flux D (partner D e) = update_next_flux D e.

(** Invariant of the static counter and the work arrays between calls: no
    mark is from the future, and the stored fluxes of the two sides of an
    interior edge are opposite.  It holds for zero-initialised arrays. *)
Definition flux_invariant (D : domain) (s : statics) (w : work) : Prop :=
  (forall e, (e < 3 * number_of_elements D)%nat -> (already_computed_flux w e <= st_call s)%Z) /\
  (forall e, (e < 3 * number_of_elements D)%nat -> interior D e = true ->
     c0 (edge_flux_work w (partner D e)) = - c0 (edge_flux_work w e)).

Lemma flux_loop_values D s w e sub lt :
  wf_mesh D -> update_flags_symmetric D -> flux_invariant D s w ->
  (e < 3 * number_of_elements D)%nat ->
  let w0 := Work (edge_flux_work w) (pressuregrad_work w) (already_computed_flux w)
                 (edge_timestep w) (fun _ => 0) lt 0 in
  let st := edge_loop D (st_call s + 1) sub w0 in
  let up := Z.eqb (update_next_flux D e) 1 in
  already_computed_flux st e = (if up then st_call s + 1 else already_computed_flux w e)%Z /\
  edge_flux_work st e = (if up then efw_value D e else edge_flux_work w e) /\
  pressuregrad_work st e = (if up then pgw_value D e else pressuregrad_work w e).
Proof.
  intros W U (F & _) He. cbv zeta.
  refine (loop_values D (st_call s + 1) sub
    (Work (edge_flux_work w) (pressuregrad_work w) (already_computed_flux w)
          (edge_timestep w) (fun _ => 0) lt 0) W _ U eq_refl e He).
  intros e' He'. cbn. specialize (F e' He'). lia.
Qed.

(** * C08 *)

Theorem C08_invariant_preserved :
  forall D s w b t, wf_mesh D -> update_flags_symmetric D -> flux_invariant D s w ->
  let o := compute_fluxes D s w b t in
  flux_invariant D (out_statics o) (out_work o).
Proof.
  intros D s w b t W U F o. split; intros e He.
  - unfold o, compute_fluxes; cbv zeta; cbn [out_work out_statics st_call].
    destruct (flux_loop_values D s w e (next_substep D s)
      (if (allow_timestep_increase D =? 1)%Z then 10 ^ 100 else st_local_timestep s) W U F He) as (A & _).
    rewrite A. destruct F as (F & _). specialize (F e He). destruct (update_next_flux D e =? 1)%Z; lia.
  - intros Hi. unfold o, compute_fluxes; cbv zeta; cbn [out_work].
    pose proof (partner_lt D W e He Hi) as Hp.
    match goal with |- context [edge_loop D _ ?sub (Work _ _ _ _ _ ?lt _)] =>
      destruct (flux_loop_values D s w e sub lt W U F He) as (_ & A & _);
      destruct (flux_loop_values D s w _ sub lt W U F Hp) as (_ & B & _) end.
    rewrite A, B, (U e He Hi). destruct (update_next_flux D e =? 1)%Z.
    + apply efw_value_partner; auto.
    + apply F; auto.
Qed.
Print Assumptions C08_invariant_preserved.

(** Zero-initialised arrays satisfy the invariant. *)
Theorem C08_invariant_initial :
  forall D s w, (0 <= st_call s)%Z -> (forall e, already_computed_flux w e = 0%Z) ->
  (forall e, edge_flux_work w e = V3 0 0 0) -> flux_invariant D s w.
Proof.
  intros D s w H A B. split; intros; [rewrite A; lia|]. rewrite !B. cbn. ring.
Qed.

(** Every interior edge flux is computed once, on the side visited first, and
    stored with opposite signs on the two sides; boundary edge fluxes are
    stored with a minus sign. *)
Theorem C08_each_edge_once :
  forall D s w b t e, wf_mesh D -> update_flags_symmetric D -> flux_invariant D s w ->
  (e < 3 * number_of_elements D)%nat -> update_next_flux D e = 1%Z ->
  let o := out_work (compute_fluxes D s w b t) in
  let r := compute_edge D (length (filter (fun j => Z.eqb (edge_flux_type D j) 1) (seq 0 e))) e in
  (interior D e = false \/ (e < partner D e)%nat -> edge_flux_work o e = vneg (er_flux r)) /\
  (interior D e = true -> (e < partner D e)%nat -> edge_flux_work o (partner D e) = er_flux r).
Proof.
  intros D s w b t e W U F He Hu. cbv zeta. unfold compute_fluxes; cbv zeta; cbn [out_work].
  match goal with |- context [edge_loop D _ ?sub (Work _ _ _ _ _ ?lt _)] =>
    pose proof (flux_loop_values D s w e sub lt W U F He) as (_ & A & _);
    pose proof (fun He' => flux_loop_values D s w (partner D e) sub lt W U F He') as B end.
  rewrite A, Hu. cbn [Z.eqb Pos.eqb]. unfold efw_value, leader. split.
  - intros [H|H].
    + rewrite H. reflexivity.
    + rewrite (proj2 (Nat.ltb_lt _ _) H), orb_true_r. reflexivity.
  - intros Hi Hlt. destruct (B (partner_lt D W e He Hi)) as (_ & B2 & _).
    rewrite B2, (U e He Hi), Hu. cbn [Z.eqb Pos.eqb].
    destruct (wf_back D W e He Hi) as (C1 & C2 & C3). unfold efw_value, leader. rewrite C1, C2. cbn [negb orb].
    rewrite (proj2 (Nat.ltb_ge e (partner D e)) ltac:(lia)) || idtac.
    destruct (Nat.ltb_spec (partner D e) e); [lia|]. reflexivity.
Qed.
Print Assumptions C08_each_edge_once.

(** The area-weighted sum of the stage updates over the full (non-ghost)
    triangles equals what the call adds to the recorded boundary flux sum, in
    the entry of the current substep. *)
Theorem C08_mass_conserved :
  forall D s w b t, wf_mesh D -> update_flags_symmetric D -> flux_invariant D s w ->
  (forall k, tri_full_flag D k = 0%Z \/ tri_full_flag D k = 1%Z) ->
  (forall k, (k < number_of_elements D)%nat -> areas D k <> 0) ->
  let o := compute_fluxes D s w b t in
  let j := next_substep D s in
  (forall i, i <> j -> out_boundary_flux_sum o i = b i) /\
  Rsum (map (fun k => if Z.eqb (tri_full_flag D k) 1 then areas D k * out_stage o k else 0)
            (seq 0 (number_of_elements D)))
  = out_boundary_flux_sum o j - b j.
Proof.
  intros D s w b t W U F Hflag Har. cbv zeta.
  pose proof (C08_invariant_preserved D s w b t W U F) as (_ & Anti). cbv zeta in Anti.
  unfold compute_fluxes in *; cbv zeta in *; cbn [out_work out_boundary_flux_sum out_stage] in *.
  set (j := next_substep D s) in *.
  split; [intros i Hi; apply upd_other; auto|]. rewrite upd_same.
  match goal with |- context [stage_update D ?x] => set (w' := x) in * end. clearbody w' j.
  unfold boundary_flux. rewrite (fold_cond_sum (counts_as_boundary D) (fun e => c0 (edge_flux_work w' e))).
  set (N := number_of_elements D) in *.
  set (full := fun k => Z.eqb (tri_full_flag D k) 1).
  (* sum of all edge fluxes of full triangles *)
  assert (E1 : Rsum (map (fun k => if full k then areas D k * stage_update D w' k else 0) (seq 0 N))
    = Rsum (map (fun e => if full (e / 3)%nat then c0 (edge_flux_work w' e) else 0) (seq 0 (3 * N)))).
  { rewrite Rsum_triples. apply Rsum_map_ext_in. intros k Hk. apply in_seq in Hk.
    replace (3 * k / 3)%nat with k by (symmetry; rewrite Nat.mul_comm; apply Nat.div_mul; lia).
    replace ((3 * k + 1) / 3)%nat with k by (symmetry; rewrite Nat.mul_comm, Nat.div_add_l by lia; cbn; lia).
    replace ((3 * k + 2) / 3)%nat with k by (symmetry; rewrite Nat.mul_comm, Nat.div_add_l by lia; cbn; lia).
    destruct (full k); [|lra]. unfold stage_update. cbn [fold_left].
    replace (3 * k + 0)%nat with (3 * k)%nat by lia. field. apply Har. lia. }
  unfold full in E1 at 1. rewrite E1. clear E1.
  (* split into boundary part and interior full-full part *)
  set (p := fun e => interior D e && full (e / 3)%nat && full (Z.to_nat (neighbours D e))).
  assert (E2 : Rsum (map (fun e => if full (e / 3)%nat then c0 (edge_flux_work w' e) else 0) (seq 0 (3 * N)))
    = Rsum (map (fun e => (if counts_as_boundary D e then c0 (edge_flux_work w' e) else 0)
                          + (if p e then c0 (edge_flux_work w' e) else 0)) (seq 0 (3 * N)))).
  { apply Rsum_map_ext_in. intros e _. unfold counts_as_boundary, p, full.
    destruct (Hflag (e / 3)%nat) as [->| ->], (Hflag (Z.to_nat (neighbours D e))) as [->| ->],
      (interior D e); cbn; lra. }
  rewrite E2, Rsum_map_plus, <- (Rsum_map_filter p).
  rewrite (Rsum_involution (fun e => c0 (edge_flux_work w' e)) (partner D)).
  - lra.
  - apply NoDup_filter, seq_NoDup.
  - intros e He. apply filter_In in He as (He & Hp). apply in_seq in He.
    assert (He' : (e < 3 * N)%nat) by lia. unfold p in Hp.
    apply andb_true_iff in Hp as (Hp & F2). apply andb_true_iff in Hp as (Hi & F1).
    destruct (wf_back D W e He' Hi) as (B1 & B2 & B3). destruct (wf_range D W e He' Hi) as (R1 & R2).
    pose proof (partner_lt D W e He' Hi) as Hp.
    destruct (wf_range D W (partner D e) Hp B1) as (R3 & R4).
    assert (Q1 : (partner D e / 3 = Z.to_nat (neighbours D e))%nat).
    { unfold partner. rewrite Nat.div_add_l by lia. rewrite Nat.div_small by lia. lia. }
    assert (Q2 : (Z.to_nat (neighbours D (partner D e)) = e / 3)%nat).
    { rewrite <- B2 at 2. unfold partner at 2. rewrite Nat.div_add_l by lia. rewrite Nat.div_small by lia. lia. }
    split; [|split; auto].
    apply filter_In. split; [apply in_seq; lia|]. unfold p. rewrite B1, Q1, Q2, F1, F2. reflexivity.
Qed.
Print Assumptions C08_mass_conserved.

(** * C09 *)

(** A flat water surface at level [w] with zero velocity and matching
    boundary values; the bed is arbitrary, also discontinuous at edges, as
    long as it does not exceed [w] at the edges. *)
Record lake_at_rest (D : domain) (w : R) : Prop := {
  lar_stage : forall e, (e < 3 * number_of_elements D)%nat -> stage_edge D e = w;
  lar_xmom : forall e, (e < 3 * number_of_elements D)%nat -> xmom_edge D e = 0;
  lar_ymom : forall e, (e < 3 * number_of_elements D)%nat -> ymom_edge D e = 0;
  lar_height : forall e, (e < 3 * number_of_elements D)%nat -> height_edge D e = w - bed_edge D e;
  lar_wet : forall e, (e < 3 * number_of_elements D)%nat -> bed_edge D e <= w;
  lar_centroid : forall k, (k < number_of_elements D)%nat -> height_centroid D k = w - bed_centroid D k;
  lar_stage_b : forall m, stage_boundary D m = w;
  lar_xmom_b : forall m, xmom_boundary D m = 0;
  lar_ymom_b : forall m, ymom_boundary D m = 0 }.

(** Geometric facts established by C07 (closed normals) and by sharing edges. *)
Definition closed_cells (D : domain) : Prop :=
  forall k, (k < number_of_elements D)%nat ->
  edgelengths D (3 * k) * normal_x D (3 * k) + edgelengths D (3 * k + 1) * normal_x D (3 * k + 1)
    + edgelengths D (3 * k + 2) * normal_x D (3 * k + 2) = 0 /\
  edgelengths D (3 * k) * normal_y D (3 * k) + edgelengths D (3 * k + 1) * normal_y D (3 * k + 1)
    + edgelengths D (3 * k + 2) * normal_y D (3 * k + 2) = 0.
Definition shared_lengths (D : domain) : Prop :=
  forall e, (e < 3 * number_of_elements D)%nat -> interior D e = true ->
  edgelengths D (partner D e) = edgelengths D e.

(** The flux function at rest. *)
Lemma flux_at_rest w h hle hre n1 n2 eps ze g lf :
  0 <= h -> tiny <= eps ->
  let F := flux_function_central (V3 w 0 0) (V3 w 0 0) h h hle hre n1 n2 eps ze g lf in
  f_edge F = V3 0 0 0 /\ f_pressure F = g / 2 * (h * h).
Proof.
  intros Hh He. cbv zeta. rewrite flux_function_unfold. cbv zeta.
  destruct (Reqb_spec h 0) as [->|Hn]; cbn [andb].
  - cbn. split; [reflexivity|lra].
  - assert (E : forall he, side_state (rotate (V3 w 0 0) n1 n2) h he = Side 0 0 0 0).
    { intros. unfold side_state, rotate; cbn [c0 c1 c2]. destruct (Rltb 0 he); [|reflexivity]. f_equal; ring. }
    rewrite !E. unfold flux_body. cbv zeta. cbn [s_u s_uh s_vh s_v c0].
    set (M := smax _ _ _ _). set (m := smin _ _ _ _). pose proof tiny_pos.
    destruct (Rltb_spec (M - m) eps); cbn [f_edge f_pressure].
    + split; [reflexivity|lra].
    + rewrite (Rmax_left (M - m) tiny) by lra. unfold rotate; cbn [c0 c1 c2]. split.
      * f_equal; ring.
      * field. lra.
Qed.

Lemma edge_at_rest D w rw e :
  wf_mesh D -> (e < 3 * number_of_elements D)%nat ->
  lake_at_rest D w -> tiny <= epsilon D -> edge_flux_type D e <> 1%Z ->
  er_flux (compute_edge D rw e) = V3 0 0 0 /\
  er_pg_k (compute_edge D rw e) = edgelengths D e * (g D / 2 * (height_centroid D (e / 3))^2) /\
  (interior D e = true ->
   er_pg_n (compute_edge D rw e) = edgelengths D e * (g D / 2 * (height_centroid D (Z.to_nat (neighbours D e)))^2)).
Proof.
  intros W Hlt L He Ht. destruct L as [L1 L2 L3 L4 L5 L6 L7 L8 L9].
  unfold compute_edge. cbv zeta. rewrite (proj2 (Z.eqb_neq _ _) Ht).
  rewrite (L1 e Hlt), (L2 e Hlt), (L3 e Hlt), (L4 e Hlt), L7, L8, L9. cbn [fst snd].
  assert (Hk : (e / 3 < number_of_elements D)%nat) by (apply Nat.div_lt_upper_bound; lia).
  rewrite (L6 _ Hk). cbv iota.
  pose proof (L5 e Hlt) as W1.
  set (qr := if interior D e then V3 (stage_edge D (partner D e)) (xmom_edge D (partner D e)) (ymom_edge D (partner D e)) else V3 w 0 0).
  set (zr := if interior D e then bed_edge D (partner D e) else bed_edge D e).
  assert (Eq : qr = V3 w 0 0).
  { unfold qr. destruct (interior D e) eqn:Hi; [|reflexivity]. pose proof (partner_lt D W e Hlt Hi) as Hp.
    rewrite (L1 _ Hp), (L2 _ Hp), (L3 _ Hp). reflexivity. }
  rewrite Eq. cbn [c0].
  assert (Hre : (if interior D e then height_edge D (partner D e) else Rmax (w - zr) 0) = w - zr).
  { unfold zr. destruct (interior D e) eqn:Hi; [apply L4, partner_lt; auto|]. apply Rmax_left. lra. }
  rewrite Hre.
  set (zh := Rmax (bed_edge D e) zr).
  replace (w - bed_edge D e + bed_edge D e - zh) with (w - zh) by ring.
  replace (w - zr + zr - zh) with (w - zh) by ring.
  set (h := Rmax (w - zh) 0). assert (Hh : 0 <= h) by apply Rmax_r.
  destruct (flux_at_rest w h (w - bed_edge D e) (w - zr) (normal_x D e) (normal_y D e) (epsilon D) zh (g D) (low_froude D) Hh He)
    as (F1 & F2).
  rewrite F1, F2. cbn [er_flux er_pg_k er_pg_n c0 c1 c2]. split; [f_equal; ring|]. split.
  - field.
  - intros Hi. rewrite Hi. destruct (wf_range D W e Hlt Hi) as (Rn & _).
    rewrite (L6 _ Rn). unfold zr. rewrite Hi. field.
Qed.

Theorem C09_lake_at_rest_preserved :
  forall D s w b t level, wf_mesh D -> flux_invariant D s w ->
  (forall e, update_next_flux D e = 1%Z) -> (forall e, edge_flux_type D e <> 1%Z) ->
  tiny <= epsilon D -> closed_cells D -> shared_lengths D -> lake_at_rest D level ->
  let o := compute_fluxes D s w b t in
  forall k, (k < number_of_elements D)%nat -> out_stage o k = 0 /\ out_xmom o k = 0 /\ out_ymom o k = 0.
Proof.
  intros D s w b t level W F Hu Hw He Hc Hs L. cbv zeta. intros k Hk.
  assert (U : update_flags_symmetric D) by (intros e _ _; rewrite !Hu; reflexivity).
  unfold compute_fluxes; cbv zeta; cbn [out_stage out_xmom out_ymom].
  match goal with |- context [edge_loop D _ ?sub (Work _ _ _ _ _ ?lt _)] =>
    pose proof (fun e He => flux_loop_values D s w e sub lt W U F He) as V end.
  cbv zeta in V.
  match goal with |- context [stage_update D ?x] => set (w' := x) in * end. clearbody w'.
  assert (K : forall e, (e < 3 * number_of_elements D)%nat ->
    edge_flux_work w' e = V3 0 0 0 /\
    pressuregrad_work w' e = edgelengths D e * (g D / 2 * (height_centroid D (e / 3))^2)).
  { intros e Le. destruct (V e Le) as (_ & A & B). rewrite Hu in A, B. cbn [Z.eqb Pos.eqb] in A, B.
    rewrite A, B. unfold efw_value, pgw_value, leader, final_edge.
    destruct (interior D e) eqn:Hi; cbn [negb orb].
    - destruct (e <? partner D e)%nat.
      + destruct (edge_at_rest D level (walls_before D e) e W Le L He (Hw e)) as (E1 & E2 & _).
        rewrite E1, E2. split; [unfold vneg; cbn; f_equal; ring|reflexivity].
      + destruct (edge_at_rest D level (walls_before D (partner D e)) (partner D e) W (partner_lt D W e Le Hi) L He (Hw _)) as (E1 & _ & E3).
        destruct (wf_back D W e Le Hi) as (C1 & C2 & C3).
        pose proof (partner_lt D W e Le Hi) as Hp. destruct (wf_range D W _ Hp C1) as (R1 & R2).
        rewrite E1, (E3 C1). split; [reflexivity|]. rewrite (Hs e Le Hi).
        assert (Q2 : (Z.to_nat (neighbours D (partner D e)) = e / 3)%nat).
        { rewrite <- C2 at 2. unfold partner at 2. rewrite Nat.div_add_l by lia. rewrite Nat.div_small by lia. lia. }
        rewrite Q2. reflexivity.
    - destruct (edge_at_rest D level (walls_before D e) e W Le L He (Hw e)) as (E1 & E2 & _).
      rewrite E1, E2. split; [unfold vneg; cbn; f_equal; ring|reflexivity]. }
  destruct (Hc k Hk) as (Cx & Cy).
  assert (D0 : (3 * k / 3 = k)%nat) by (rewrite Nat.mul_comm; apply Nat.div_mul; lia).
  assert (D1 : ((3 * k + 1) / 3 = k)%nat) by (rewrite Nat.mul_comm, Nat.div_add_l by lia; cbn; lia).
  assert (D2 : ((3 * k + 2) / 3 = k)%nat) by (rewrite Nat.mul_comm, Nat.div_add_l by lia; cbn; lia).
  unfold stage_update, xmom_update, ymom_update. cbn [fold_left].
  replace (3 * k + 0)%nat with (3 * k)%nat by lia.
  destruct (K (3 * k)%nat ltac:(lia)) as (A0 & B0). destruct (K (3 * k + 1)%nat ltac:(lia)) as (A1 & B1).
  destruct (K (3 * k + 2)%nat ltac:(lia)) as (A2 & B2).
  rewrite A0, A1, A2, B0, B1, B2, D0, D1, D2. cbn [c0 c1 c2].
  set (P := g D / 2 * height_centroid D k ^ 2).
  split; [ring|]. split.
  - replace (0 + 0 - normal_x D (3 * k) * (edgelengths D (3 * k) * P) + 0 -
      normal_x D (3 * k + 1) * (edgelengths D (3 * k + 1) * P) + 0 -
      normal_x D (3 * k + 2) * (edgelengths D (3 * k + 2) * P)) with
      (- P * (edgelengths D (3 * k) * normal_x D (3 * k) + edgelengths D (3 * k + 1) * normal_x D (3 * k + 1)
       + edgelengths D (3 * k + 2) * normal_x D (3 * k + 2))) by ring.
    rewrite Cx. ring.
  - replace (0 + 0 - normal_y D (3 * k) * (edgelengths D (3 * k) * P) + 0 -
      normal_y D (3 * k + 1) * (edgelengths D (3 * k + 1) * P) + 0 -
      normal_y D (3 * k + 2) * (edgelengths D (3 * k + 2) * P)) with
      (- P * (edgelengths D (3 * k) * normal_y D (3 * k) + edgelengths D (3 * k + 1) * normal_y D (3 * k + 1)
       + edgelengths D (3 * k + 2) * normal_y D (3 * k + 2))) by ring.
    rewrite Cy. ring.
Qed.
Print Assumptions C09_lake_at_rest_preserved.

(** * Non-vacuity: the unit square split into two triangles *)

Definition ex_neighbours (e : nat) : Z :=
  (match e with 0%nat => 1 | 3%nat => 0 | 1%nat => -1 | 2%nat => -2 | 4%nat => -3 | _ => -4 end)%Z.
Definition ex_nx (e : nat) : R :=
  match e with 0%nat => / sqrt 2 | 1%nat => -1 | 2%nat => 0 | 3%nat => - / sqrt 2 | 4%nat => 1 | _ => 0 end.
Definition ex_ny (e : nat) : R :=
  match e with 0%nat => / sqrt 2 | 1%nat => 0 | 2%nat => -1 | 3%nat => - / sqrt 2 | 4%nat => 0 | _ => 1 end.
Definition ex_len (e : nat) : R := match e with 0%nat => sqrt 2 | 3%nat => sqrt 2 | _ => 1 end.

(** Stage 2 everywhere; [bed] arbitrary; [u] is the x momentum of triangle 0. *)
Definition ex_domain (bed bedc : nat -> R) (u : R) : domain := {|
  number_of_elements := 2; epsilon := / 10 ^ 12; g := 98 / 10; low_froude := 0;
  neighbours := ex_neighbours; neighbour_edges := fun _ => 0%nat;
  normal_x := ex_nx; normal_y := ex_ny; edgelengths := ex_len;
  radii := fun _ => 1 / 10; areas := fun _ => 1 / 2; tri_full_flag := fun _ => 1%Z;
  stage_edge := fun _ => 2; xmom_edge := fun e => if (e <? 3)%nat then u else 0; ymom_edge := fun _ => 0;
  bed_edge := bed; height_edge := fun e => 2 - bed e;
  stage_centroid := fun _ => 2; bed_centroid := bedc; height_centroid := fun k => 2 - bedc k;
  stage_boundary := fun _ => 2; xmom_boundary := fun _ => 0; ymom_boundary := fun _ => 0;
  edge_flux_type := fun _ => 0%Z; riverwall_elevation := fun _ => 0;
  riverwall_rowIndex := fun _ => 0%nat; ncol_riverwall := 5; riverwall_props := fun _ => 1;
  update_next_flux := fun _ => 1%Z; timestep_fluxcalls := 1; allow_timestep_increase := 1%Z |}.

Definition ex_work : work :=
  Work (fun _ => V3 0 0 0) (fun _ => 0) (fun _ => 0%Z) (fun _ => 0) (fun _ => 0) 0 0.
Definition ex_statics : statics := Statics 0 1 1 0.

Lemma ex_wf bed bedc u : wf_mesh (ex_domain bed bedc u).
Proof.
  split; intros e He Hi; cbn in He;
    destruct e as [|[|[|[|[|[|e]]]]]]; try lia; try discriminate Hi;
    cbn; try (split; lia); repeat split; try reflexivity; lia.
Qed.

Example C08_example bed bedc u :
  let D := ex_domain bed bedc u in
  wf_mesh D /\ update_flags_symmetric D /\ flux_invariant D ex_statics ex_work /\
  (forall k, tri_full_flag D k = 0%Z \/ tri_full_flag D k = 1%Z) /\
  (forall k, (k < number_of_elements D)%nat -> areas D k <> 0).
Proof.
  cbv zeta. split; [apply ex_wf|]. split; [intros e _ _; reflexivity|]. split.
  - apply C08_invariant_initial; cbn; [lia|reflexivity|reflexivity].
  - split; [right; reflexivity|]. intros k _. cbn. lra.
Qed.

(** Any bed below the surface. *)
Example C09_example bed bedc : (forall e, bed e <= 2) ->
  let D := ex_domain bed bedc 0 in
  tiny <= epsilon D /\ closed_cells D /\ shared_lengths D /\ lake_at_rest D 2.
Proof.
  intros Hb. cbv zeta. split; [|split; [|split]].
  - cbn -[pow]. unfold tiny. apply Rinv_le_contravar; [apply pow_lt; lra|].
    apply Rle_pow; [lra|]. repeat constructor.
  - assert (0 < sqrt 2) by (apply sqrt_lt_R0; lra).
    intros k Hk. cbn in Hk. destruct k as [|[|k]]; [| |lia]; cbn; split; field; lra.
  - intros e He Hi. cbn in He. destruct e as [|[|[|[|[|[|e]]]]]]; try lia; try discriminate Hi; reflexivity.
  - constructor; intros; cbn; auto; try lra. destruct (e <=? 2)%nat; reflexivity.
Qed.
