(** Property C62: the flux kernel of sw_domain_openmp.c gives the same result
    in every interleaving of its parallel loop, and this result is the one of
    the sequential kernel. *)
From Coq Require Import Reals List ZArith Arith Bool Lia Lra Permutation.
From Verif Require Import RealLib ListLib ArrayLib ParLib FluxModel FluxFunctionProofs FluxFunctionProps FluxProofs
  FluxProps FluxTimestepProps ReconModel CentroidModel OmpModel OmpProofs.
Import ListNotations.
Local Open Scope R_scope.

(** The flux and pressure term of each edge computed from its own triangle. *)
Definition own_work (D : domain) : work :=
  Work (fun e => vneg (er_flux (final_edge D e))) (fun e => er_pg_k (final_edge D e))
       (fun _ => 0%Z) (fun _ => 0) (fun _ => 0) 0 0.

(** The values an iteration combines into the reduction variables. *)
Definition counted_edge (D : domain) (sub k i : nat) : bool :=
  Nat.eqb sub 0 && Z.eqb (tri_full_flag D k) 1 && Rltb (epsilon D) (er_speed (final_edge D (3 * k + i))).
Definition contributions (D : domain) (sub k : nat) : list R * list R :=
  (map (fun i => radii D k * 1 / Rmax (er_speed (final_edge D (3 * k + i))) (epsilon D))
       (filter (counted_edge D sub k) [0; 1; 2]%nat),
   map (fun i => c0 (vneg (er_flux (final_edge D (3 * k + i)))))
       (filter (fun i => counts_as_boundary D (3 * k + i)) [0; 1; 2]%nat)).

Lemma three_edges k i N : (k < N)%nat -> In i [0; 1; 2]%nat -> (3 * k + i < 3 * N)%nat.
Proof. cbn. lia. Qed.

Lemma iteration_alone D sub k m : (k < number_of_elements D)%nat ->
  let o := alone loc_eqb (flux_iteration D (edge_river_wall_counter D) sub k) m in
  fst o (SU, k) = stage_update D (own_work D) k /\
  fst o (XU, k) = xmom_update D (own_work D) k /\
  fst o (YU, k) = ymom_update D (own_work D) k /\
  snd o = contributions D sub k.
Proof.
  intros Hk. cbv zeta. unfold flux_iteration. cbn [alone].
  match goal with |- context [alone _ _ ?mm] => 
    pose proof (flux_edges_alone D (edge_river_wall_counter D) sub k [0; 1; 2]%nat 0 [] [] mm) as (I1 & I2 & I3 & _ & I5) end.
  cbv zeta in I1, I2, I3, I5. rewrite I1, I2, I3, I5. clear I1 I2 I3 I5. putsimp. cbn [app].
  pose proof (fun i Hi => counter_edge D (3 * k + i) (three_edges k i _ Hk Hi)) as E.
  pose proof (E 0%nat ltac:(cbn; auto)) as E0. pose proof (E 1%nat ltac:(cbn; auto)) as E1.
  pose proof (E 2%nat ltac:(cbn; auto)) as E2. clear E.
  unfold stage_update, xmom_update, ymom_update, contributions, counted_edge. 
  cbn [fold_left own_work edge_flux_work pressuregrad_work filter].
  rewrite E0, E1, E2.
  refine (conj eq_refl (conj eq_refl (conj eq_refl _))). f_equal.
  - repeat match goal with |- context [if ?b then _ else _] => destruct b end; cbn [map];
      rewrite ?E0, ?E1, ?E2; reflexivity.
  - repeat match goal with |- context [if ?b then _ else _] => destruct b end; cbn [map];
      rewrite ?E0, ?E1, ?E2; reflexivity.
Qed.

Lemma vneg_vneg v : vneg (vneg v) = v.
Proof. destruct v as [p q r]. unfold vneg. cbn [c0 c1 c2]. f_equal; ring. Qed.

(** What every call leaves behind. *)
Lemma omp_outcome big D s m b t m' b' t' :
  10 ^ 100 <= big -> omp_compute_fluxes big D s m b t m' b' t' ->
  let K := number_of_elements D in let sub := next_substep D s in
  (forall k, (k < K)%nat -> m' (SU, k) = stage_update D (own_work D) k /\
     m' (XU, k) = xmom_update D (own_work D) k /\ m' (YU, k) = ymom_update D (own_work D) k) /\
  b' = upd b sub (boundary_flux D (own_work D) 0) /\
  t' = if Nat.eqb sub 0 then fold_left Rmin (flat_map (fun k => fst (contributions D sub k)) (seq 0 K)) (10 ^ 100) else t.
Proof.
  intros Hb (c & ps' & tt & bb & St & Fi & Pt & Pb & Eb & Et). cbv zeta.
  set (K := number_of_elements D) in *. set (sub := next_substep D s) in *.
  destruct (local_result K _ m c m' ps' (fun i _ => flux_iteration_local D _ sub i) St Fi) as (L1 & _ & L3).
  assert (Res : map (fun k => result_of ([], []) (ps' k)) (seq 0 K) = map (contributions D sub) (seq 0 K)).
  { apply map_ext_in. intros k Hk. apply in_seq in Hk. rewrite L3 by lia. cbn [result_of].
    destruct (iteration_alone D sub k m ltac:(unfold K in *; lia)) as (_ & _ & _ & ->). reflexivity. }
  rewrite Res, flat_map_map in Pt, Pb. refine (conj _ (conj _ _)).
  - intros k Hk. rewrite !L1 by exact Hk.
    destruct (iteration_alone D sub k m Hk) as (A1 & A2 & A3 & _). rewrite A1, A2, A3. auto.
  - rewrite Eb. f_equal. rewrite (reduce_plus _ _ _ Pb), Rplus_0_l, Rsum_flat_map.
    unfold boundary_flux. rewrite (fold_cond_sum (counts_as_boundary D) (fun e => c0 (edge_flux_work (own_work D) e))).
    rewrite Rplus_0_l, Rsum_triples. fold K. apply Rsum_map_ext_in. intros k _. cbn [contributions snd filter].
    rewrite !Nat.add_0_r. cbn [own_work edge_flux_work].
    repeat match goal with |- context [if ?b then _ else _] => destruct b end; cbn [map Rsum fold_right];
      rewrite ?Nat.add_0_r; lra.
  - rewrite Et. destruct (Nat.eqb sub 0); [|reflexivity]. apply (reduce_min _ _ _ _ Hb Pt).
Qed.

(** Whatever the interleaving of the iterations, the assignment of iterations
    to threads and the order of the reductions, the kernel leaves the same
    updates, boundary flux and time step. *)
Theorem C62_flux_schedule_independent :
  forall big D s m b t m1 b1 t1 m2 b2 t2, 10 ^ 100 <= big ->
  omp_compute_fluxes big D s m b t m1 b1 t1 -> omp_compute_fluxes big D s m b t m2 b2 t2 ->
  (forall l, m1 l = m2 l) /\ b1 = b2 /\ t1 = t2.
Proof.
  intros big D s m b t m1 b1 t1 m2 b2 t2 Hb H1 H2.
  destruct (omp_outcome _ _ _ _ _ _ _ _ _ Hb H1) as (_ & B1 & T1).
  destruct (omp_outcome _ _ _ _ _ _ _ _ _ Hb H2) as (_ & B2 & T2).
  refine (conj _ (conj _ _)); [|congruence|congruence].
  destruct H1 as (c1 & ps1 & tt1 & bb1 & St1 & Fi1 & _). destruct H2 as (c2 & ps2 & tt2 & bb2 & St2 & Fi2 & _).
  pose proof (local_race_free (number_of_elements D) _ m
    (fun i _ => flux_iteration_local D (edge_river_wall_counter D) (next_substep D s) i)) as RF.
  intros l. 
  rewrite (proj1 (race_free_sequential _ _ _ _ loc_eqb_spec _ _ _ _ _ _ RF St1 Fi1) l),
          (proj1 (race_free_sequential _ _ _ _ loc_eqb_spec _ _ _ _ _ _ RF St2 Fi2) l). reflexivity.
Qed.
Print Assumptions C62_flux_schedule_independent.

(** The loop always ends: executions have a bounded length, and one that is
    not finished can go on. *)
Theorem C62_flux_loop_ends :
  forall D sub m c s, let K := number_of_elements D in
  let ps := flux_iteration D (edge_river_wall_counter D) sub in
  steps loc_eqb K c (m, ps) s ->
  (c <= total loc_eqb K ps m)%nat /\ (finished K (snd s) \/ exists i u, (i < K)%nat /\ step loc_eqb i s u).
Proof.
  intros D sub m c s K ps H. split.
  - apply (execution_bounded _ _ _ _ loc_eqb_spec _ _ _ _ _ (local_race_free K ps m (fun i _ => flux_iteration_local D _ sub i)) H).
  - apply execution_continues.
Qed.
Print Assumptions C62_flux_loop_ends.

(** On a mesh whose interior edges look the same from both sides, the updates
    are those of the sequential kernel (when it updates every edge); the
    recorded boundary flux is what the sequential kernel adds to its entry;
    without ghost triangles the time step is the same. *)
Theorem C62_flux_matches_sequential :
  forall big D s m b t m' b' t' w, 10 ^ 100 <= big ->
  wf_mesh D -> consistent_edges D -> (forall e, update_next_flux D e = 1%Z) -> flux_invariant D s w ->
  omp_compute_fluxes big D s m b t m' b' t' ->
  let o := compute_fluxes D s w b t in
  let j := next_substep D s in
  (forall k, (k < number_of_elements D)%nat ->
     m' (SU, k) = out_stage o k /\ m' (XU, k) = out_xmom o k /\ m' (YU, k) = out_ymom o k) /\
  (forall i, i <> j -> b' i = out_boundary_flux_sum o i) /\
  b' j = out_boundary_flux_sum o j - b j /\
  ((forall k, tri_full_flag D k = 1%Z) -> allow_timestep_increase D = 1%Z -> 0 < epsilon D -> t' = out_timestep o).
Proof.
  intros big D s m b t m' b' t' w Hb W C U F H.
  destruct (omp_outcome _ _ _ _ _ _ _ _ _ Hb H) as (O1 & O2 & O3). cbv zeta.
  assert (US : update_flags_symmetric D) by (intros e _ _; rewrite !U; reflexivity).
  set (K := number_of_elements D) in *. set (sub := next_substep D s) in *.
  (* the sequential work arrays hold the same values *)
  assert (V : forall e, (e < 3 * K)%nat ->
    edge_flux_work (out_work (compute_fluxes D s w b t)) e = edge_flux_work (own_work D) e /\
    pressuregrad_work (out_work (compute_fluxes D s w b t)) e = pressuregrad_work (own_work D) e).
  { intros e He. unfold compute_fluxes; cbv zeta; cbn [out_work].
    match goal with |- context [edge_loop D _ ?sub (Work _ _ _ _ _ ?lt _)] =>
      destruct (flux_loop_values D s w e sub lt W US F He) as (_ & A & B) end.
    rewrite A, B, U. cbn [Z.eqb Pos.eqb own_work edge_flux_work pressuregrad_work].
    unfold efw_value, pgw_value, leader. destruct (interior D e) eqn:Hi; [|split; reflexivity]. cbn [negb orb].
    destruct (Nat.ltb_spec e (partner D e)); [split; reflexivity|].
    destruct (wf_back D W e He Hi) as (B1 & B2 & B3). destruct (partner_div D e W He Hi) as (P1 & _).
    destruct (final_edge_partner D (partner D e) W C P1 B1) as (F1 & F2 & _). rewrite B2 in F1, F2.
    rewrite F1, F2. split; [|reflexivity]. rewrite vneg_vneg. reflexivity. }
  assert (V0 : forall k, (k < K)%nat -> forall i, In i [0; 1; 2]%nat ->
    edge_flux_work (own_work D) (3 * k + i) = edge_flux_work (out_work (compute_fluxes D s w b t)) (3 * k + i) /\
    pressuregrad_work (own_work D) (3 * k + i) = pressuregrad_work (out_work (compute_fluxes D s w b t)) (3 * k + i)).
  { intros k Hk i Hi. destruct (V (3 * k + i)%nat) as [-> ->]; [cbn in Hi; lia|]. auto. }
  refine (conj _ (conj _ (conj _ _))).
  - intros k Hk. destruct (O1 k Hk) as (-> & -> & ->).
    destruct (V0 k Hk 0%nat ltac:(cbn; auto)) as [X0 Y0]. destruct (V0 k Hk 1%nat ltac:(cbn; auto)) as [X1 Y1].
    destruct (V0 k Hk 2%nat ltac:(cbn; auto)) as [X2 Y2].
    change (out_stage (compute_fluxes D s w b t)) with (stage_update D (out_work (compute_fluxes D s w b t))).
    change (out_xmom (compute_fluxes D s w b t)) with (xmom_update D (out_work (compute_fluxes D s w b t))).
    change (out_ymom (compute_fluxes D s w b t)) with (ymom_update D (out_work (compute_fluxes D s w b t))).
    unfold stage_update, xmom_update, ymom_update. cbn [fold_left]. rewrite X0, X1, X2, Y0, Y1, Y2. auto.
  - intros i Hi. rewrite O2, upd_other by auto. unfold compute_fluxes; cbv zeta; cbn [out_boundary_flux_sum].
    fold sub. rewrite upd_other by auto. reflexivity.
  - rewrite O2, upd_same.
    change (out_boundary_flux_sum (compute_fluxes D s w b t)) with
      (upd b sub (boundary_flux D (out_work (compute_fluxes D s w b t)) (b sub))).
    rewrite upd_same. unfold boundary_flux.
    rewrite !(fold_cond_sum (counts_as_boundary D) (fun e => c0 (edge_flux_work _ e))).
    enough (E : Rsum (map (fun e => if counts_as_boundary D e then c0 (edge_flux_work (own_work D) e) else 0) (seq 0 (3 * K))) =
      Rsum (map (fun e => if counts_as_boundary D e then c0 (edge_flux_work (out_work (compute_fluxes D s w b t)) e) else 0) (seq 0 (3 * K)))).
    { fold K. rewrite E. lra. }
    apply Rsum_map_ext_in. intros e He. apply in_seq in He. destruct (V e ltac:(lia)) as [-> _]. reflexivity.
  - intros Full Al Eps. rewrite O3. unfold sub. destruct (Nat.eqb_spec (next_substep D s) 0) as [E0|N0].
    + destruct (C46_cfl_timestep D s w b t W US F Al E0) as (D1 & D2 & D3). cbv zeta in D1, D2, D3.
      apply same_le. intros z. rewrite fold_Rmin_le.
      assert (Q : forall e, (e < 3 * K)%nat -> epsilon D < er_speed (final_edge D e) ->
        exists e', limiting_edge D e' /\ cfl_bound D e' (radii D (e / 3) / er_speed (final_edge D e))).
      { intros e He Sp. destruct (interior D e) eqn:Hi.
        - destruct (Nat.lt_ge_cases e (partner D e)) as [L|L].
          + exists e. split; [|left; reflexivity]. repeat split; auto.
          + destruct (wf_back D W e He Hi) as (B1 & B2 & B3). destruct (partner_div D e W He Hi) as (P1 & P2 & P3).
            destruct (final_edge_partner D e W C He Hi) as (_ & _ & S1).
            exists (partner D e). split.
            * refine (conj P1 (conj (U _) (conj _ (conj (Full _) _)))); [right; rewrite B2; lia|rewrite S1; exact Sp].
            * right. split; [exact B1|]. rewrite P3, S1. reflexivity.
        - exists e. split; [|left; reflexivity]. repeat split; auto. }
      assert (Div : forall e, ((3 * (e / 3) + e mod 3 = e)%nat)).
      { intros e. symmetry. apply Nat.div_mod_eq. }
      split.
      * intros [L|(a & Ha & L)]; [lra|]. apply in_flat_map in Ha as (k & Hk & Ha). apply in_seq in Hk.
        cbn [contributions fst] in Ha. apply in_map_iff in Ha as (i & <- & Ha). apply filter_In in Ha as (Hi & Ct).
        unfold counted_edge in Ct. apply andb_true_iff in Ct as (_ & Sp). apply Rltb_true in Sp.
        assert (He : (3 * k + i < 3 * K)%nat) by (apply three_edges; [lia|exact Hi]).
        destruct (Q _ He Sp) as (e' & Le & Cb). specialize (D2 e' _ Le Cb).
        rewrite Rmax_left in L by lra.
        replace ((3 * k + i) / 3)%nat with k in D2.
        { replace (radii D k * 1) with (radii D k) in L by ring. lra. }
        symmetry. rewrite Nat.mul_comm, Nat.div_add_l by lia. rewrite Nat.div_small; [lia|]. clear - Hi. cbn in Hi. lia.
      * intros L. destruct D3 as [D3|(e & bd & Le & Cb & D3)]; [left; lra|]. right.
        assert (G : forall f, (f < 3 * K)%nat -> epsilon D < er_speed (final_edge D f) ->
          radii D (f / 3) / er_speed (final_edge D f) = bd -> 
          exists a, In a (flat_map (fun k => fst (contributions D (next_substep D s) k)) (seq 0 K)) /\ a <= z).
        { intros f Hf Sp Ef. exists bd. split; [|lra]. apply in_flat_map. exists (f / 3)%nat. split.
          - apply in_seq. split; [lia|]. cbn [plus]. apply Nat.div_lt_upper_bound; lia.
          - cbn [contributions fst]. apply in_map_iff. exists (f mod 3)%nat. rewrite Div. split.
            + rewrite Rmax_left by lra. rewrite <- Ef. unfold Rdiv. ring.
            + apply filter_In. split; [pose proof (Nat.mod_upper_bound f 3 ltac:(lia)); cbn [In]; lia|].
              unfold counted_edge. rewrite E0, Full, Div. cbn [Nat.eqb Z.eqb Pos.eqb andb].
              apply Rltb_true. exact Sp. }
        destruct Le as (He & _ & _ & _ & Sp). destruct Cb as [->|(Hi & ->)].
        -- apply (G e He Sp eq_refl).
        -- destruct (partner_div D e W He Hi) as (P1 & P2 & _).
           destruct (final_edge_partner D e W C He Hi) as (_ & _ & S1).
           apply (G (partner D e) P1); [rewrite S1; exact Sp|]. rewrite P2, S1. reflexivity.
    + unfold compute_fluxes; cbv zeta; cbn [out_timestep]. destruct (Nat.eqb_spec (next_substep D s) 0); [congruence|reflexivity].
Qed.
Print Assumptions C62_flux_matches_sequential.

(** Consequence: the kernel conserves mass. *)
Theorem C62_flux_conserves_mass :
  forall big D s m b t m' b' t', 10 ^ 100 <= big -> (0 <= st_call s)%Z ->
  wf_mesh D -> consistent_edges D ->
  (forall k, tri_full_flag D k = 0%Z \/ tri_full_flag D k = 1%Z) ->
  (forall k, (k < number_of_elements D)%nat -> areas D k <> 0) ->
  omp_compute_fluxes big D s m b t m' b' t' ->
  Rsum (map (fun k => if Z.eqb (tri_full_flag D k) 1 then areas D k * m' (SU, k) else 0)
            (seq 0 (number_of_elements D))) = b' (next_substep D s).
Proof.
  intros big D s m b t m' b' t' Hb Hs W C Fl Ar H.
  (* the kernel does not use update_next_flux *)
  set (D1 := Domain (number_of_elements D) (epsilon D) (g D) (low_froude D) (neighbours D) (neighbour_edges D)
     (normal_x D) (normal_y D) (edgelengths D) (radii D) (areas D) (tri_full_flag D)
     (stage_edge D) (xmom_edge D) (ymom_edge D) (bed_edge D) (height_edge D)
     (stage_centroid D) (bed_centroid D) (height_centroid D) (stage_boundary D) (xmom_boundary D) (ymom_boundary D)
     (edge_flux_type D) (riverwall_elevation D) (riverwall_rowIndex D) (ncol_riverwall D) (riverwall_props D)
     (fun _ => 1%Z) (timestep_fluxcalls D) (allow_timestep_increase D)).
  assert (W1 : wf_mesh D1) by (destruct W as [A B]; split; [exact A|exact B]).
  assert (C1 : consistent_edges D1) by (destruct C as [c1 c2 c3 c4 c5]; split; [exact c1|exact c2|exact c3|exact c4|exact c5]).
  assert (H1 : omp_compute_fluxes big D1 s m b t m' b' t') by exact H.
  set (w := Work (fun _ => V3 0 0 0) (fun _ => 0) (fun _ => 0%Z) (fun _ => 0) (fun _ => 0) 0 0).
  assert (F : flux_invariant D1 s w) by (apply C08_invariant_initial; auto).
  destruct (C62_flux_matches_sequential big D1 s m b t m' b' t' w Hb W1 C1 (fun _ => eq_refl) F H1)
    as (A1 & _ & A3 & _). cbv zeta in A1, A3.
  destruct (C08_mass_conserved D1 s w b t W1 (fun _ _ _ => eq_refl) F Fl Ar) as (_ & M). cbv zeta in M.
  change (next_substep D s) with (next_substep D1 s). rewrite A3. rewrite <- M.
  apply Rsum_map_ext_in. intros k Hk. apply in_seq in Hk.
  change (tri_full_flag D1 k) with (tri_full_flag D k). change (areas D1 k) with (areas D k).
  destruct (Z.eqb (tri_full_flag D k) 1); [|reflexivity].
  destruct (A1 k) as (-> & _); [change (number_of_elements D1) with (number_of_elements D) in *; lia|]. reflexivity.
Qed.
Print Assumptions C62_flux_conserves_mass.

(** Non-vacuity: a call always has an execution, and the two-triangle square
    looks the same from both sides of its interior edge. *)
Example C62_execution_exists big D s m b t : exists m' b' t', omp_compute_fluxes big D s m b t m' b' t'.
Proof.
  set (K := number_of_elements D). set (ps := flux_iteration D (edge_river_wall_counter D) (next_substep D s)).
  destruct (sequential_reachable _ _ _ loc_eqb K K 0 m ps ltac:(lia)) as (c & ps' & S1 & S2 & _).
  pose proof (sequential_length _ _ _ loc_eqb (map ps (seq 0 K)) m) as L. rewrite map_length, seq_length in L.
  do 3 eexists. 
  exists c, ps', [flat_map fst (map (fun k => result_of ([], []) (ps' k)) (seq 0 K))],
    [flat_map snd (map (fun k => result_of ([], []) (ps' k)) (seq 0 K))].
  split; [exact S1|]. split.
  - intros i Hi. rewrite S2 by lia. rewrite Nat.sub_0_r.
    destruct (nth_error (snd (sequential loc_eqb (map ps (seq 0 K)) m)) i) as [a|] eqn:E.
    + exists a. erewrite nth_error_nth; [reflexivity|]. rewrite nth_error_map, E. reflexivity.
    + apply nth_error_None in E. lia.
  - cbn [concat]. rewrite !app_nil_r. repeat split; apply Permutation_refl.
Qed.

Example C62_consistent_example bed bedc u : consistent_edges (ex_domain bed bedc u).
Proof.
  split; intros e He Hi; cbn in He; try (intros T; discriminate T);
    destruct e as [|[|[|[|[|[|e]]]]]]; try lia; try discriminate Hi; cbn; repeat split; try reflexivity; lra.
Qed.
