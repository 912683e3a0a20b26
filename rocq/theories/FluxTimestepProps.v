(** Property C46: the time step returned by the flux computation is the CFL
    minimum over all edges.  Property C47: each riverwall edge uses its own
    riverwall entry. *)
From Coq Require Import Reals List ZArith Arith Bool Lia Lra Permutation.
From Verif Require Import RealLib ArrayLib FluxModel FluxFunctionProofs FluxProofs FluxProps.
Import ListNotations.
Local Open Scope R_scope.

Lemma step_lt D call st ki :
  (interior D ki = true -> partner D ki <> ki) ->
  local_timestep (edge_step D call 0 st ki) =
  if skipped D call st ki then local_timestep st else
  let r := compute_edge D (riverwall_count st) ki in
  let tmp := 1 / Rmax (er_speed r) (epsilon D) in
  if Z.eqb (tri_full_flag D (ki / 3)) 1 && Rltb (epsilon D) (er_speed r) then
    let lt1 := Rmin (local_timestep st) (radii D (ki / 3) * tmp) in
    if interior D ki then Rmin lt1 (radii D (Z.to_nat (neighbours D ki)) * tmp) else lt1
  else local_timestep st.
Proof.
  intros Hp. unfold edge_step, skipped. destruct (_ || _); [reflexivity|]. cbn [Nat.eqb].
  unfold timestep_update; cbv zeta; cbn [local_timestep].
  destruct (_ && _); [|reflexivity]. destruct (interior D ki); [|rewrite upd_same; reflexivity].
  rewrite upd_same, upd_other by (intros E; apply Hp; auto). rewrite upd_same. reflexivity.
Qed.

(** The edges that limit the time step: computed in this call, attached to a
    full triangle, with a speed above [epsilon]. *)
Definition limiting_edge (D : domain) (e : nat) : Prop :=
  (e < 3 * number_of_elements D)%nat /\ update_next_flux D e = 1%Z /\
  (interior D e = false \/ (e < partner D e)%nat) /\
  tri_full_flag D (e / 3) = 1%Z /\ epsilon D < er_speed (final_edge D e).

(** The CFL bounds that edge [e] puts on the time step: radius over speed, for
    the triangle(s) it belongs to. *)
Definition cfl_bound (D : domain) (e : nat) (b : R) : Prop :=
  b = radii D (e / 3) / er_speed (final_edge D e) \/
  (interior D e = true /\ b = radii D (Z.to_nat (neighbours D e)) / er_speed (final_edge D e)).

Lemma leader_iff D e : leader D e = true <-> interior D e = false \/ (e < partner D e)%nat.
Proof.
  unfold leader. rewrite orb_true_iff, negb_true_iff, Nat.ltb_lt. reflexivity.
Qed.

Section CFL.
Variables (D : domain) (call : Z) (st0 : work).
Hypothesis wf : wf_mesh D.
Hypothesis fresh : forall e, (e < 3 * number_of_elements D)%nat -> already_computed_flux st0 e <> call.
Hypothesis sym : update_flags_symmetric D.
Hypothesis rw0 : riverwall_count st0 = 0%nat.

Lemma cfl_run j : (j <= 3 * number_of_elements D)%nat ->
  (forall e b, (e < j)%nat -> limiting_edge D e -> cfl_bound D e b -> local_timestep (run D call 0 st0 j) <= b) /\
  (local_timestep (run D call 0 st0 j) <= local_timestep st0) /\
  (local_timestep (run D call 0 st0 j) = local_timestep st0 \/
   exists e b, limiting_edge D e /\ cfl_bound D e b /\ local_timestep (run D call 0 st0 j) = b).
Proof.
  induction j as [|j IH]; intros Hj.
  - split; [intros; lia|]. split; [apply Rle_refl|left; reflexivity].
  - assert (Hj' : (j < 3 * number_of_elements D)%nat) by lia.
    destruct (IH ltac:(lia)) as (I1 & I2 & I3).
    pose proof (skipped_run D call 0 st0 wf fresh sym rw0 j Hj') as SK.
    pose proof (rw_run D call 0 st0 rw0 j) as RW.
    rewrite run_S. set (st := run D call 0 st0 j) in *. clearbody st.
    rewrite step_lt by (intros Hi; apply (wf_back D wf j Hj' Hi)).
    rewrite SK, RW. fold (final_edge D j). cbv zeta.
    set (t := local_timestep st) in *.
    destruct (update_next_flux D j =? 1)%Z eqn:UJ; cbn [andb negb];
      [destruct (leader D j) eqn:LJ; cbn [negb]|].
    2: { split; auto. intros e b He Le. destruct (Nat.eq_dec e j) as [->|]; [|apply I1; auto; lia].
         destruct Le as (_ & _ & Q & _). apply leader_iff in Q. congruence. }
    2: { split; auto. intros e b He Le. destruct (Nat.eq_dec e j) as [->|]; [|apply I1; auto; lia].
         destruct Le as (_ & Q & _). apply Z.eqb_neq in UJ. congruence. }
    destruct ((tri_full_flag D (j / 3) =? 1)%Z && Rltb (epsilon D) (er_speed (final_edge D j))) eqn:FE.
    2: { split; auto. intros e b He Le. destruct (Nat.eq_dec e j) as [->|]; [|apply I1; auto; lia].
         destruct Le as (_ & _ & _ & Q1 & Q2). apply andb_false_iff in FE as [FE|FE].
         - apply Z.eqb_neq in FE. congruence.
         - apply Rltb_false in FE. lra. }
    apply andb_true_iff in FE as (F1 & F2). apply Z.eqb_eq in F1. apply Rltb_true in F2.
    assert (LE : limiting_edge D j).
    { repeat split; auto. apply Z.eqb_eq; auto. apply leader_iff; auto. }
    rewrite (Rmax_left (er_speed (final_edge D j))) by lra.
    set (v := er_speed (final_edge D j)) in *.
    set (b1 := radii D (j / 3) * (1 / v)). set (b2 := radii D (Z.to_nat (neighbours D j)) * (1 / v)).
    assert (E1 : b1 = radii D (j / 3) / v) by (unfold b1, Rdiv; ring).
    assert (E2 : b2 = radii D (Z.to_nat (neighbours D j)) / v) by (unfold b2, Rdiv; ring).
    set (m := if interior D j then Rmin (Rmin t b1) b2 else Rmin t b1).
    pose proof (Rmin_l t b1). pose proof (Rmin_r t b1). pose proof (Rmin_l (Rmin t b1) b2). pose proof (Rmin_r (Rmin t b1) b2).
    assert (Mt : m <= t) by (unfold m; destruct (interior D j); lra).
    assert (M1 : m <= b1) by (unfold m; destruct (interior D j); lra).
    split; [|split].
    + intros e b He Le Cb. destruct (Nat.eq_dec e j) as [->|].
      * destruct Cb as [->|(Hi & ->)]; fold v; [lra|]. unfold m. rewrite Hi. lra.
      * specialize (I1 e b ltac:(lia) Le Cb). lra.
    + lra.
    + assert (K : m = t \/ m = b1 \/ (interior D j = true /\ m = b2)).
      { unfold m. destruct (interior D j); [|unfold Rmin; destruct (Rle_dec t b1); auto].
        unfold Rmin. destruct (Rle_dec t b1), (Rle_dec _ b2); auto. }
      destruct K as [->|[->|(Hi & ->)]]; [exact I3| |].
      * right. exists j, b1. split; auto. split; [left; auto|reflexivity].
      * right. exists j, b2. split; auto. split; [right; auto|reflexivity].
Qed.
End CFL.

(** On the first substep, with all fluxes allowed to be updated, the returned
    time step is at most radius/speed for every triangle at every limiting
    edge, and it is either the initial value 1e100 or attained by one of them. *)
Theorem C46_cfl_timestep :
  forall D s w b t, wf_mesh D -> update_flags_symmetric D -> flux_invariant D s w ->
  allow_timestep_increase D = 1%Z ->
  next_substep D s = 0%nat ->
  let dt := out_timestep (compute_fluxes D s w b t) in
  dt <= 10 ^ 100 /\
  (forall e b, limiting_edge D e -> cfl_bound D e b -> dt <= b) /\
  (dt = 10 ^ 100 \/ exists e b, limiting_edge D e /\ cfl_bound D e b /\ dt = b).
Proof.
  intros D s w b t W U (F & _) Ha Hm. cbv zeta. unfold compute_fluxes; cbv zeta; cbn [out_timestep].
  rewrite Ha, Hm. cbn [Nat.eqb Z.eqb Pos.eqb].
  match goal with |- context [edge_loop D ?c 0 ?w0] =>
    pose proof (cfl_run D c w0 W) as K; rewrite (loop_is_run D c 0 w0) end.
  specialize (K ltac:(intros e He; cbn; specialize (F e He); lia) U eq_refl _ (le_n _)).
  destruct K as (K1 & K2 & K3). refine (conj K2 (conj _ K3)).
  intros e b' Le. apply K1; auto. apply Le.
Qed.
Print Assumptions C46_cfl_timestep.

(** The index of a riverwall edge into the riverwall arrays is the number of
    riverwall edges with a smaller edge index: whatever was skipped before,
    the [j]-th riverwall edge reads entry [j].  (Stated as: the value stored
    for an edge is computed with that entry.) *)
Theorem C47_riverwall_entry :
  forall D s w b t e, wf_mesh D -> update_flags_symmetric D -> flux_invariant D s w ->
  (e < 3 * number_of_elements D)%nat -> update_next_flux D e = 1%Z ->
  interior D e = false \/ (e < partner D e)%nat ->
  forall walls j, walls = filter (fun i => Z.eqb (edge_flux_type D i) 1) (seq 0 (3 * number_of_elements D)) ->
  nth_error walls j = Some e ->
  edge_flux_work (out_work (compute_fluxes D s w b t)) e = vneg (er_flux (compute_edge D j e)).
Proof.
  intros D s w b t e W U F He Hu Hl walls j -> Hn.
  destruct (C08_each_edge_once D s w b t e W U F He Hu) as (A & _). rewrite (A Hl). f_equal. f_equal. f_equal.
  (* length of the filtered prefix is j *)
  assert (HS : seq 0 (3 * number_of_elements D) = seq 0 e ++ seq e (3 * number_of_elements D - e)).
  { rewrite <- seq_app. f_equal. lia. }
  rewrite HS, filter_app in Hn.
  set (p := fun i => (edge_flux_type D i =? 1)%Z) in *.
  destruct (Nat.lt_ge_cases j (length (filter p (seq 0 e)))) as [Lt|Ge].
  - rewrite nth_error_app1 in Hn by auto. apply nth_error_In in Hn. apply filter_In in Hn as (Hn & _).
    apply in_seq in Hn. lia.
  - rewrite nth_error_app2 in Hn by auto.
    destruct (3 * number_of_elements D - e)%nat as [|m] eqn:EM; [lia|].
    cbn [seq filter] in Hn.
    assert (NI : forall q, nth_error (filter p (seq (S e) m)) q <> Some e).
    { intros q Q. apply nth_error_In in Q. apply filter_In in Q as (Q & _). apply in_seq in Q. lia. }
    destruct (p e).
    + destruct (j - length (filter p (seq 0 e)))%nat as [|q] eqn:EQ; [lia|].
      exfalso. exact (NI q Hn).
    + exfalso. exact (NI _ Hn).
Qed.
Print Assumptions C47_riverwall_entry.

(** The later substeps of a time step leave the time step of the first alone. *)
Theorem C46_later_substeps : forall D s w b t, next_substep D s <> 0%nat ->
  out_timestep (compute_fluxes D s w b t) = t.
Proof.
  intros D s w b t H. unfold compute_fluxes. cbv zeta. cbn [out_timestep].
  rewrite (proj2 (Nat.eqb_neq _ _) H). reflexivity.
Qed.
Print Assumptions C46_later_substeps.

Example C46_later_substeps_example : forall D, timestep_fluxcalls D = 2%nat ->
  next_substep D (Statics 0 2 0 0) = 1%nat.
Proof. intros D H. unfold next_substep. cbn [st_call st_fluxcalls st_base_call]. rewrite H. reflexivity. Qed.
