(** Composition of the flux properties with the mesh construction: a mesh
    built by [build_neighbour_structure] from triangles with distinct
    vertices satisfies the mesh hypothesis of C08, C09 and C46. *)
From Coq Require Import Reals List ZArith Arith Bool Lia Lra.
From Verif Require Import NeighbourModel NeighbourProofs NeighbourProps
  RealLib ArrayLib FluxModel FluxFunctionProps FluxProofs FluxProps FluxTimestepProps.
Import ListNotations.

(** The flux code sees the neighbour arrays of the mesh; boundary entries may
    have been renumbered to other negative numbers (C44). *)
Definition sees_mesh (D : domain) (ts : list tri) (rows : list row) : Prop :=
  number_of_elements D = length ts /\
  forall k i, k < length ts -> i < 3 ->
    ((0 <= nb rows k i)%Z -> neighbours D (3 * k + i) = nb rows k i) /\
    ((nb rows k i < 0)%Z -> (neighbours D (3 * k + i) < 0)%Z) /\
    ((0 <= nb rows k i)%Z -> Z.of_nat (neighbour_edges D (3 * k + i)) = nbe rows k i).

Definition distinct_vertices (ts : list tri) : Prop :=
  forall k i a b, has_edge ts k i a b -> a <> b.

Lemma edge_of_index ts e : e < 3 * length ts ->
  exists k i a b, e = 3 * k + i /\ k < length ts /\ i < 3 /\ has_edge ts k i a b.
Proof.
  intros He. pose proof (Nat.div_mod e 3 ltac:(lia)). pose proof (Nat.mod_upper_bound e 3 ltac:(lia)).
  assert (Hk : e / 3 < length ts) by (apply Nat.div_lt_upper_bound; lia).
  destruct (nth_error ts (e / 3)) as [t|] eqn:Et; [|apply nth_error_None in Et; lia].
  destruct (edge_key t (e mod 3)) as [a b] eqn:Ek.
  exists (e / 3), (e mod 3), a, b. repeat split; auto. apply has_edge_key. exists t. auto.
Qed.

Lemma has_edge_range ts k i a b : has_edge ts k i a b -> k < length ts /\ i < 3.
Proof.
  intros H. apply has_edge_key in H as (t & Ht & Hi & _). split; auto.
  apply nth_error_Some. congruence.
Qed.

Theorem C08_built_mesh_is_wf :
  forall D ts rows, build_neighbour_structure ts = Some rows -> distinct_vertices ts ->
  sees_mesh D ts rows -> wf_mesh D.
Proof.
  intros D ts rows B Hd (HN & HS).
  assert (K : forall e, e < 3 * number_of_elements D -> interior D e = true ->
    exists k i a b l j, e = 3 * k + i /\ has_edge ts k i a b /\ has_edge ts l j b a /\
      neighbours D e = Z.of_nat l /\ neighbour_edges D e = j /\
      neighbours D (3 * l + j) = Z.of_nat k /\ neighbour_edges D (3 * l + j) = i).
  { intros e He Hi. rewrite HN in He. destruct (edge_of_index ts e He) as (k & i & a & b & -> & Hk & Hi3 & He').
    destruct (HS k i Hk Hi3) as (S1 & S2 & S3). unfold interior in Hi. apply Z.leb_le in Hi.
    assert (P : (0 <= nb rows k i)%Z) by (destruct (Z_lt_le_dec (nb rows k i) 0); [specialize (S2 l)|]; lia).
    destruct (C06_boundary_iff_no_opposite_edge ts rows k i a b B He') as (_ & Ex).
    destruct (Ex P) as (l & j & Hn). pose proof Hn as (N1 & N2).
    destruct (C06_neighbours_symmetric ts rows k i l j a b B He' Hn) as (Hl & (M1 & M2)).
    destruct (has_edge_range ts l j b a Hl) as (Rl & Rj).
    destruct (HS l j Rl Rj) as (T1 & _ & T3). rewrite M1, M2 in *.
    specialize (S1 P). specialize (S3 P).
    exists k, i, a, b, l, j. repeat split; auto; try lia. }
  split; intros e He Hi; destruct (K e He Hi) as (k & i & a & b & l & j & -> & H1 & H2 & E1 & E2 & E3 & E4);
    destruct (has_edge_range _ _ _ _ _ H1) as (Rk & Ri); destruct (has_edge_range _ _ _ _ _ H2) as (Rl & Rj).
  - rewrite E1, E2, Nat2Z.id, HN. auto.
  - assert (P : partner D (3 * k + i) = 3 * l + j) by (unfold partner; rewrite E1, E2, Nat2Z.id; lia).
    rewrite P. split; [|split].
    + unfold interior. rewrite E3. apply Z.leb_le. lia.
    + unfold partner. rewrite E3, E4, Nat2Z.id. lia.
    + intros Q. assert (l = k) by lia. assert (j = i) by lia. subst.
      apply has_edge_key in H1 as (t1 & A1 & _ & A2). apply has_edge_key in H2 as (t2 & B1 & _ & B2).
      assert (a = b) by congruence. apply (Hd k i a b); auto. apply has_edge_key. exists t1; auto.
Qed.
Print Assumptions C08_built_mesh_is_wf.

(** Mass conservation for every mesh the constructor accepts. *)
Theorem C08_mass_conserved_on_built_mesh :
  forall D ts rows s w b t, build_neighbour_structure ts = Some rows -> distinct_vertices ts ->
  sees_mesh D ts rows -> update_flags_symmetric D -> flux_invariant D s w ->
  (forall k, tri_full_flag D k = 1%Z) -> (forall k, k < number_of_elements D -> areas D k <> 0%R) ->
  let j := next_substep D s in
  (Rsum (map (fun k => areas D k * out_stage (compute_fluxes D s w b t) k)
                       (seq 0 (number_of_elements D)))
  = out_boundary_flux_sum (compute_fluxes D s w b t) j - b j)%R.
Proof.
  intros D ts rows s w b t B Hd HS U F Hf Ha.
  destruct (C08_mass_conserved D s w b t (C08_built_mesh_is_wf D ts rows B Hd HS) U F) as (_ & E); auto.
  cbv zeta. rewrite <- E. apply Rsum_map_ext_in. intros k _. rewrite Hf. reflexivity.
Qed.
Print Assumptions C08_mass_conserved_on_built_mesh.

(** Non-vacuity: the two-triangle square of [ex_domain]. *)
Example C08_built_mesh_example bed bedc u :
  exists rows, build_neighbour_structure [(0, 1, 2); (3, 2, 1)] = Some rows /\
  distinct_vertices [(0, 1, 2); (3, 2, 1)] /\ sees_mesh (ex_domain bed bedc u) [(0, 1, 2); (3, 2, 1)] rows.
Proof.
  eexists. split; [reflexivity|]. split.
  - intros k i a b (n0 & n1 & n2 & H & K). destruct k as [|[|[|k]]]; cbn in H; try discriminate; injection H as <- <- <-; lia.
  - split; [reflexivity|]. intros k i Hk Hi. cbn in Hk.
    destruct k as [|[|k]]; [| |lia]; (destruct i as [|[|[|i]]]; [| | |lia]); cbn; repeat split; intros; try lia; reflexivity.
Qed.

(** A limiting edge exists in the example: still water of depth 2. *)
Example C46_example :
  limiting_edge (ex_domain (fun _ => 0%R) (fun _ => 0%R) 0%R) 1.
Proof.
  split; [cbn; lia|]. split; [reflexivity|]. split; [left; reflexivity|]. split; [reflexivity|].
  unfold final_edge, compute_edge; cbv zeta.
  set (D := ex_domain _ _ _). change (edge_flux_type D 1 =? 1)%Z with false.
  change (interior D 1) with false. cbv iota. cbn [fst snd er_speed].
  match goal with |- (_ < f_speed (flux_function_central ?ql ?qr ?hl ?hr ?hle ?hre ?n1 ?n2 ?eps ?ze ?g ?lf))%R =>
    destruct (C10_max_speed ql qr hl hr hle hre n1 n2 eps ze g lf) as (_ & K & _);
    assert (E1 : hl = 2%R) end.
  { cbn. rewrite (Rmax_left 0 0) by lra. rewrite Rmax_left; lra. }
  cbv zeta in K.
  match type of K with _ -> (?a <= Rmax ?l ?r)%R -> _ => assert (E2 : (1 < l)%R) end.
  { apply Rlt_le_trans with (sqrt (98 / 10 * 2)).
    - rewrite <- sqrt_1. apply sqrt_lt_1; lra.
    - rewrite E1. change (FluxModel.g D) with (98 / 10)%R.
      match goal with |- (_ <= Rabs ?x + _)%R => pose proof (Rabs_pos x); lra end. }
  assert (E3 : (/ 10 ^ 12 < 1)%R).
  { rewrite <- Rinv_1. apply Rinv_lt_contravar; [|apply Rlt_pow_R1; [lra|lia]].
    rewrite Rmult_1_l. apply pow_lt; lra. }
  change (epsilon D) with (/ 10 ^ 12)%R in *.
  destruct K as (K & _).
  - left. rewrite E1. lra.
  - eapply Rle_trans; [|apply Rmax_l]. lra.
  - eapply Rlt_le_trans; [|exact K]. lra.
Qed.
