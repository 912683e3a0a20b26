(** The edge loop of the flux computation. *)
From Coq Require Import Reals List ZArith Arith Bool Lia Lra Permutation.
From Verif Require Import RealLib ArrayLib FluxModel.
Import ListNotations.
Local Open Scope R_scope.

(** Number of riverwall edges with index below [j]. *)
Definition walls_before (D : domain) (j : nat) : nat :=
  length (filter (fun e => Z.eqb (edge_flux_type D e) 1) (seq 0 j)).

Definition final_edge (D : domain) (e : nat) : edge_result := compute_edge D (walls_before D e) e.

(** Symmetric neighbour structure. *)
Record wf_mesh (D : domain) : Prop := {
  wf_range : forall e, (e < 3 * number_of_elements D)%nat -> interior D e = true ->
    (Z.to_nat (neighbours D e) < number_of_elements D /\ neighbour_edges D e < 3)%nat;
  wf_back : forall e, (e < 3 * number_of_elements D)%nat -> interior D e = true ->
    interior D (partner D e) = true /\ partner D (partner D e) = e /\ partner D e <> e }.

Section Loop.
Variable D : domain.
Variable call : Z.
Variable sub : nat.
Variable st0 : work.
Let N3 := (3 * number_of_elements D)%nat.
Hypothesis wf : wf_mesh D.
Hypothesis fresh : forall e, (e < N3)%nat -> already_computed_flux st0 e <> call.
Hypothesis sym_update : forall e, (e < N3)%nat -> interior D e = true ->
  update_next_flux D (partner D e) = update_next_flux D e.
Hypothesis rw0 : riverwall_count st0 = 0%nat.

Definition run (j : nat) : work := fold_left (edge_step D call sub) (seq 0 j) st0.

Lemma run_S j : run (S j) = edge_step D call sub (run j) j.
Proof. unfold run. rewrite seq_S, fold_left_app. reflexivity. Qed.

Lemma walls_S j : walls_before D (S j) =
  if Z.eqb (edge_flux_type D j) 1 then S (walls_before D j) else walls_before D j.
Proof.
  unfold walls_before. rewrite seq_S, filter_app, app_length. cbn [filter plus].
  destruct (edge_flux_type D j =? 1)%Z; cbn [length]; lia.
Qed.

Lemma partner_lt e : (e < N3)%nat -> interior D e = true -> (partner D e < N3)%nat.
Proof using wf. clear rw0 fresh sym_update st0. intros H1 H2. destruct (wf_range D wf e H1 H2). unfold partner, N3. lia. Qed.

(** Edge [e] is the representative of its edge pair. *)
Definition leader (e : nat) : bool :=
  negb (interior D e) || (e <? partner D e)%nat.

(** Edges stored in by step [j]: [j] itself and its partner. *)
Definition done_before (j e : nat) : bool :=
  Z.eqb (update_next_flux D e) 1 &&
  ((e <? j)%nat || (interior D e && (partner D e <? j)%nat)).

Lemma rw_run j : riverwall_count (run j) = walls_before D j.
Proof.
  induction j as [|j IH]; [exact rw0|]. rewrite run_S, walls_S. unfold edge_step.
  destruct (_ || _); [cbn; rewrite IH; reflexivity|].
  destruct (Nat.eqb sub 0); cbn; rewrite IH; reflexivity.
Qed.

Lemma ts_efw D' ki s st : edge_flux_work (timestep_update D' ki s st) = edge_flux_work st.
Proof. reflexivity. Qed.
Lemma ts_pgw D' ki s st : pressuregrad_work (timestep_update D' ki s st) = pressuregrad_work st.
Proof. reflexivity. Qed.
Lemma ts_acf D' ki s st : already_computed_flux (timestep_update D' ki s st) = already_computed_flux st.
Proof. reflexivity. Qed.

(** Fields after one step. *)
Definition skipped (st : work) (ki : nat) : bool :=
  Z.eqb (already_computed_flux st ki) call || negb (Z.eqb (update_next_flux D ki) 1).

Lemma step_efw st ki : edge_flux_work (edge_step D call sub st ki) =
  if skipped st ki then edge_flux_work st else
  let r := compute_edge D (riverwall_count st) ki in
  let a := upd (edge_flux_work st) ki (vneg (er_flux r)) in
  if interior D ki then upd a (partner D ki) (er_flux r) else a.
Proof. unfold edge_step, skipped. destruct (_ || _); [reflexivity|]. destruct (Nat.eqb sub 0); reflexivity. Qed.
Lemma step_pgw st ki : pressuregrad_work (edge_step D call sub st ki) =
  if skipped st ki then pressuregrad_work st else
  let r := compute_edge D (riverwall_count st) ki in
  let a := upd (pressuregrad_work st) ki (er_pg_k r) in
  if interior D ki then upd a (partner D ki) (er_pg_n r) else a.
Proof. unfold edge_step, skipped. destruct (_ || _); [reflexivity|]. destruct (Nat.eqb sub 0); reflexivity. Qed.
Lemma step_acf st ki : already_computed_flux (edge_step D call sub st ki) =
  if skipped st ki then already_computed_flux st else
  let a := upd (already_computed_flux st) ki call in
  if interior D ki then upd a (partner D ki) call else a.
Proof. unfold edge_step, skipped. destruct (_ || _); [reflexivity|]. destruct (Nat.eqb sub 0); reflexivity. Qed.

(** What the arrays hold for edge [e] once it is done. *)
Definition efw_value (e : nat) : vec3 :=
  if leader e then vneg (er_flux (final_edge D e)) else er_flux (final_edge D (partner D e)).
Definition pgw_value (e : nat) : R :=
  if leader e then er_pg_k (final_edge D e) else er_pg_n (final_edge D (partner D e)).

Definition inv (j : nat) (st : work) : Prop := forall e, (e < N3)%nat ->
  (already_computed_flux st e = if done_before j e then call else already_computed_flux st0 e) /\
  edge_flux_work st e = (if done_before j e then efw_value e else edge_flux_work st0 e) /\
  pressuregrad_work st e = (if done_before j e then pgw_value e else pressuregrad_work st0 e).

Lemma done_S j e : (e < N3)%nat -> (j < N3)%nat ->
  done_before (S j) e = done_before j e ||
    (Z.eqb (update_next_flux D e) 1 && ((e =? j)%nat || (interior D e && (partner D e =? j)%nat))).
Proof.
  intros. unfold done_before. destruct (update_next_flux D e =? 1)%Z; [cbn [andb]|reflexivity].
  destruct (interior D e); cbn [andb]; rewrite ?orb_false_r.
  - destruct (Nat.ltb_spec e (S j)), (Nat.ltb_spec e j), (Nat.eqb_spec e j),
      (Nat.ltb_spec (partner D e) (S j)), (Nat.ltb_spec (partner D e) j), (Nat.eqb_spec (partner D e) j); cbn; try reflexivity; lia.
  - destruct (Nat.ltb_spec e (S j)), (Nat.ltb_spec e j), (Nat.eqb_spec e j); cbn; try reflexivity; lia.
Qed.

Lemma inv_run j : (j <= N3)%nat -> inv j (run j).
Proof.
  induction j as [|j IH]; intros Hj.
  - intros e He. unfold run; cbn [seq fold_left]. unfold done_before.
    rewrite (proj2 (Nat.ltb_ge e 0)), (proj2 (Nat.ltb_ge (partner D e) 0)) by lia.
    rewrite andb_false_r, andb_false_r. auto.
  - assert (Hj' : (j < N3)%nat) by lia. specialize (IH ltac:(lia)).
    pose proof (rw_run j) as RW. rewrite run_S. set (st := run j) in *. clearbody st.
    intros e He. rewrite step_efw, step_pgw, step_acf. cbv zeta. rewrite RW. fold (final_edge D j).
    destruct (IH e He) as (IA & IF & IP). destruct (IH j Hj') as (JA & _ & _).
    rewrite done_S by assumption.
    (* is edge j skipped? *)
    assert (SK : skipped st j = negb (Z.eqb (update_next_flux D j) 1) || (interior D j && (partner D j <? j)%nat)).
    { unfold skipped. rewrite JA. unfold done_before. rewrite Nat.ltb_irrefl. cbn [orb].
      destruct (update_next_flux D j =? 1)%Z; cbn [negb andb orb]; rewrite ?orb_true_r, ?orb_false_r; [|reflexivity].
      destruct (interior D j && (partner D j <? j)%nat); [apply Z.eqb_refl|].
      apply Z.eqb_neq. apply fresh; auto. }
    rewrite SK.
    destruct (update_next_flux D j =? 1)%Z eqn:UJ; cbn [negb orb].
    2: { (* not updated *)
      assert (X : (Z.eqb (update_next_flux D e) 1 && ((e =? j)%nat || (interior D e && (partner D e =? j)%nat))) = false).
      { destruct (Nat.eqb_spec e j); [subst; rewrite UJ; reflexivity|]. cbn [orb].
        destruct (interior D e) eqn:IE; cbn [andb]; [|apply andb_false_r].
        destruct (Nat.eqb_spec (partner D e) j) as [Q|Q]; [|apply andb_false_r].
        rewrite <- (sym_update e He IE), Q, UJ. reflexivity. }
      rewrite X, orb_false_r. auto. }
    destruct (interior D j) eqn:IJ; cbn [andb].
    + (* interior edge j *)
      destruct (wf_back D wf j Hj' IJ) as (B1 & B2 & B3).
      pose proof (partner_lt j Hj' IJ) as PL.
      pose proof (sym_update j Hj' IJ) as SU.
      destruct (Nat.ltb_spec (partner D j) j) as [Lt|Ge].
      * (* already done by its partner *)
        assert (X : done_before j e || (Z.eqb (update_next_flux D e) 1 && ((e =? j)%nat || (interior D e && (partner D e =? j)%nat))) = done_before j e).
        { destruct (Nat.eqb_spec e j) as [->|NE].
          - unfold done_before. rewrite UJ, IJ. cbn [andb]. rewrite (proj2 (Nat.ltb_lt _ _) Lt). rewrite !orb_true_r. reflexivity.
          - cbn [orb]. destruct (interior D e) eqn:IE; cbn [andb]; [|rewrite andb_false_r, orb_false_r; reflexivity].
            destruct (Nat.eqb_spec (partner D e) j) as [Q|Q]; [|rewrite andb_false_r, orb_false_r; reflexivity].
            destruct (wf_back D wf e He IE) as (_ & C2 & _). rewrite Q in C2.
            unfold done_before. rewrite IE. rewrite (proj2 (Nat.ltb_lt e j)) by congruence. cbn [orb].
            rewrite andb_true_r. destruct (update_next_flux D e =? 1)%Z; reflexivity. }
        rewrite X. auto.
      * assert (Gt : (j < partner D j)%nat) by lia.
        assert (LJ : leader j = true) by (unfold leader; rewrite IJ; cbn; apply Nat.ltb_lt; auto).
        destruct (Nat.eq_dec e (partner D j)) as [->|NP].
        -- rewrite !upd_same. rewrite B2, Nat.eqb_refl, B1, SU, UJ. cbn [andb]. rewrite !orb_true_r.
           unfold efw_value, pgw_value.
           assert (LP : leader (partner D j) = false).
           { unfold leader. rewrite B1, B2. cbn. apply Nat.ltb_ge. lia. }
           rewrite LP, B2. auto.
        -- rewrite !(upd_other _ (partner D j) e) by auto.
           destruct (Nat.eq_dec e j) as [->|NE].
           ++ rewrite !upd_same, Nat.eqb_refl, UJ. cbn [andb orb]. rewrite orb_true_r.
              unfold efw_value, pgw_value. rewrite LJ. auto.
           ++ rewrite !upd_other by auto. rewrite (proj2 (Nat.eqb_neq e j)) by auto. cbn [orb].
              assert (X : interior D e && (partner D e =? j)%nat = false).
              { destruct (interior D e) eqn:IE; [|reflexivity]. cbn.
                apply Nat.eqb_neq. intros Q. destruct (wf_back D wf e He IE) as (_ & C2 & _). congruence. }
              rewrite X, andb_false_r, orb_false_r. auto.
    + (* boundary edge j *)
      destruct (Nat.eq_dec e j) as [->|NE].
      * rewrite !upd_same, Nat.eqb_refl, UJ. cbn [andb orb]. rewrite orb_true_r.
        unfold efw_value, pgw_value, leader. rewrite IJ. cbn. auto.
      * rewrite !upd_other by auto. rewrite (proj2 (Nat.eqb_neq e j)) by auto. cbn [orb].
        assert (X : interior D e && (partner D e =? j)%nat = false).
        { destruct (interior D e) eqn:IE; [|reflexivity]. cbn.
          apply Nat.eqb_neq. intros Q. destruct (wf_back D wf e He IE) as (C1 & _ & _). congruence. }
        rewrite X, andb_false_r, orb_false_r. auto.
Qed.

(** The edge computed in step [j] is exactly a leader with its update flag set. *)
Lemma skipped_run j : (j < N3)%nat ->
  skipped (run j) j = negb (Z.eqb (update_next_flux D j) 1 && leader j).
Proof.
  intros Hj. destruct (inv_run j ltac:(lia) j Hj) as (JA & _ & _).
  unfold skipped. rewrite JA. unfold done_before, leader. rewrite Nat.ltb_irrefl. cbn [orb].
  destruct (update_next_flux D j =? 1)%Z; cbn [negb andb orb]; rewrite ?orb_true_r, ?orb_false_r; [|reflexivity].
  assert (FR : (already_computed_flux st0 j =? call)%Z = false) by (apply Z.eqb_neq, fresh; auto).
  destruct (interior D j) eqn:IJ; cbn [negb andb orb]; [|exact FR].
  destruct (wf_back D wf j Hj IJ) as (_ & _ & B3).
  destruct (Nat.ltb_spec (partner D j) j), (Nat.ltb_spec j (partner D j)); cbn [negb];
    first [lia | exact FR | apply Z.eqb_refl].
Qed.

Lemma loop_is_run : edge_loop D call sub st0 = run N3.
Proof. reflexivity. Qed.

Lemma loop_values e : (e < N3)%nat ->
  let st := edge_loop D call sub st0 in
  let up := Z.eqb (update_next_flux D e) 1 in
  already_computed_flux st e = (if up then call else already_computed_flux st0 e) /\
  edge_flux_work st e = (if up then efw_value e else edge_flux_work st0 e) /\
  pressuregrad_work st e = (if up then pgw_value e else pressuregrad_work st0 e).
Proof.
  intros He. cbv zeta. rewrite loop_is_run.
  pose proof (inv_run N3 (le_n _) e He) as H.
  assert (X : done_before N3 e = Z.eqb (update_next_flux D e) 1).
  { unfold done_before. rewrite (proj2 (Nat.ltb_lt e N3)) by auto. cbn. apply andb_true_r. }
  rewrite X in H. exact H.
Qed.

Lemma efw_value_partner e : (e < N3)%nat -> interior D e = true ->
  c0 (efw_value (partner D e)) = - c0 (efw_value e) /\
  c1 (efw_value (partner D e)) = - c1 (efw_value e) /\
  c2 (efw_value (partner D e)) = - c2 (efw_value e).
Proof using wf.
  clear rw0 fresh sym_update st0.
  intros He Hi. destruct (wf_back D wf e He Hi) as (B1 & B2 & B3).
  unfold efw_value, leader. rewrite Hi, B1, B2. cbn [negb orb].
  destruct (Nat.ltb_spec e (partner D e)), (Nat.ltb_spec (partner D e) e); try lia.
  - unfold vneg; cbn. repeat split; ring.
  - unfold vneg; cbn. repeat split; ring.
Qed.
End Loop.

(** Sum over an involution that changes the sign. *)
Lemma Rsum_involution (f : nat -> R) (s : nat -> nat) (l : list nat) :
  NoDup l -> (forall e, In e l -> In (s e) l /\ s (s e) = e /\ f (s e) = - f e) ->
  Rsum (map f l) = 0.
Proof.
  intros ND H.
  assert (P : Permutation l (map s l)).
  { apply NoDup_Permutation; auto.
    - clear -ND H. assert (K : forall l', (forall e, In e l' -> In e l) -> NoDup l' -> NoDup (map s l')).
      { induction l' as [|a l' IH]; intros I N; cbn; [constructor|]. inversion N; subst. constructor.
        - intros Q. apply in_map_iff in Q as (b & E & Hb).
          assert (a = b). { rewrite <- (proj1 (proj2 (H a (I a (or_introl eq_refl))))), <- E.
            apply (H b). apply I; right; auto. }
          subst; contradiction.
        - apply IH; auto. intros; apply I; right; auto. }
      apply K; auto.
    - intros x. split.
      + intros Hx. apply in_map_iff. exists (s x). split; apply H; auto.
      + intros Hx. apply in_map_iff in Hx as (y & <- & Hy). apply H; auto. }
  assert (E : Rsum (map f l) = Rsum (map f (map s l))).
  { apply Rsum_perm. apply Permutation_map. exact P. }
  rewrite map_map in E.
  assert (E2 : Rsum (map (fun x => f (s x)) l) = Rsum (map (fun x => -1 * f x) l)).
  { apply Rsum_map_ext_in. intros x Hx. rewrite (proj2 (proj2 (H x Hx))). ring. }
  rewrite E2, Rsum_map_scal in E. lra.
Qed.

Lemma fold_cond_sum (p : nat -> bool) (f : nat -> R) l s0 :
  fold_left (fun s e => if p e then s + f e else s) l s0 = s0 + Rsum (map (fun e => if p e then f e else 0) l).
Proof.
  revert s0. induction l as [|a l IH]; intros; cbn; [lra|]. rewrite IH. destruct (p a); lra.
Qed.

Lemma Rsum_triples (F : nat -> R) N :
  Rsum (map F (seq 0 (3 * N))) =
  Rsum (map (fun k => F (3 * k)%nat + F (3 * k + 1)%nat + F (3 * k + 2)%nat) (seq 0 N)).
Proof.
  induction N as [|N IH]; [reflexivity|].
  rewrite seq_S, map_app, Rsum_app, <- IH.
  replace (3 * S N)%nat with (S (S (S (3 * N)))) by lia.
  rewrite !seq_S, !map_app, !Rsum_app. cbn [map Rsum plus].
  replace (3 * N + 1)%nat with (S (3 * N)) by lia. replace (3 * N + 2)%nat with (S (S (3 * N))) by lia. lra.
Qed.

Lemma Rsum_map_filter (p : nat -> bool) (f : nat -> R) l :
  Rsum (map f (filter p l)) = Rsum (map (fun e => if p e then f e else 0) l).
Proof. induction l as [|a l IH]; cbn; [reflexivity|]. destruct (p a); cbn; rewrite IH; lra. Qed.
