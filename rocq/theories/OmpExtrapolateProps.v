(** Property C65: the second order reconstruction of sw_domain_openmp.c in
    every interleaving of its parallel loops. *)
From Coq Require Import Reals List ZArith Arith Bool Lia Lra.
From Verif Require Import RealLib ListLib ArrayLib ParLib FluxModel FluxFunctionProofs ReconModel ReconProofs CentroidModel OmpModel OmpProofs OmpCellProps.
Import ListNotations.
Local Open Scope R_scope.

Section Second.
Variable I : recon.
Notation J := (omp_inputs I).
Notation dry := (surrounded (omp_inputs I)).

(** The velocity of a triangle surrounded by dry cells is removed. *)
Definition zeroed (v : nat -> R) (k : nat) : R := if dry k then 0 else v k.

(** What the reconstruction of triangle [k] can read if the velocities before
    the loop are [v]: its own final velocity; for another triangle that is
    surrounded by dry cells, the velocity before or after its removal. *)
Definition reads_possible (v : nat -> R) (k : nat) (q : nat -> R) : Prop :=
  q k = zeroed v k /\
  forall j, In j (omp_reads I k) -> j <> k -> q j = v j \/ (dry j = true /\ q j = 0).

Definition mom_owner (l : loc) : nat := snd l.
Definition mom_possible (m : loc -> R) (l : loc) (v : R) : Prop :=
  match fst l with
  | XMom | YMom => v = m l \/ (dry (snd l) = true /\ v = 0)
  | _ => True
  end.
Definition second_goal (m0 : loc -> R) (k : nat) (_ : unit) (m : loc -> R) : Prop :=
  (exists q, reads_possible (fun j => m0 (XMom, j)) k q /\
     forall i, (i < 3)%nat -> m (XE i, k) = omp_mom_edge I q (r_beta_uh I) (r_beta_uh_dry I) k i) /\
  (exists q, reads_possible (fun j => m0 (YMom, j)) k q /\
     forall i, (i < 3)%nat -> m (YE i, k) = omp_mom_edge I q (r_beta_vh I) (r_beta_vh_dry I) k i) /\
  m (XMom, k) = zeroed (fun j => m0 (XMom, j)) k /\ m (YMom, k) = zeroed (fun j => m0 (YMom, j)) k /\
  m (XWork, k) = zeroed (fun j => m0 (XWork, j)) k /\ m (YWork, k) = zeroed (fun j => m0 (YWork, j)) k.

Lemma own_read k : In k (omp_reads I k).
Proof.
  unfold omp_reads. destruct (_ =? 3)%Z; cbn [In]; auto. destruct (_ <=? 1)%Z; cbn [In]; auto.
  destruct (internal_neighbour _ _); cbn [In]; auto.
Qed.

Lemma safe_read_all m0 a k : forall js acc p m,
  (forall q, (forall j, In j js -> if Nat.eqb j k then q j = m (a, k) else mom_possible m0 (a, j) (q j)) ->
     (forall j, ~ In j js -> q j = acc j) -> safe loc_eqb mom_owner (mom_possible m0) (second_goal m0) k (p q) m) ->
  safe loc_eqb mom_owner (mom_possible m0) (second_goal m0) k (read_all a js acc p) m.
Proof.
  induction js as [|j js IH]; intros acc p m H; cbn [read_all].
  - apply H; [intros j []|auto].
  - cbn [safe]. unfold mom_owner at 1. cbn [snd].
    assert (G : forall v, (if Nat.eqb j k then v = m (a, k) else mom_possible m0 (a, j) v) ->
      safe loc_eqb mom_owner (mom_possible m0) (second_goal m0) k (read_all a js (upd acc j v) p) m).
    { intros v Hv. apply IH. intros q Q1 Q2. apply H.
      - intros x [<-|Hx]; [|exact (Q1 x Hx)]. destruct (in_dec Nat.eq_dec j js) as [Hj|Hj]; [exact (Q1 j Hj)|].
        rewrite (Q2 j Hj), upd_same. exact Hv.
      - intros x Hx. rewrite Q2 by (cbn [In] in Hx; tauto). apply upd_other. cbn [In] in Hx. intros ->. tauto. }
    destruct (Nat.eqb_spec j k) as [->|N].
    + apply G. reflexivity.
    + intros v Hv. apply G. exact Hv.
Qed.

Lemma second_safe m0 k : safe loc_eqb mom_owner (mom_possible m0) (second_goal m0) k (omp_extrapolate_iteration I k) m0.
Proof.
  assert (Edges : forall m,
    m (XMom, k) = zeroed (fun j => m0 (XMom, j)) k -> m (YMom, k) = zeroed (fun j => m0 (YMom, j)) k ->
    m (XWork, k) = zeroed (fun j => m0 (XWork, j)) k -> m (YWork, k) = zeroed (fun j => m0 (YWork, j)) k ->
    safe loc_eqb mom_owner (mom_possible m0) (second_goal m0) k
      (read_all XMom (omp_reads I k) (fun _ => 0) (fun qx =>
       let ex := omp_mom_edge I qx (r_beta_uh I) (r_beta_uh_dry I) k in
       Wr (XE 0, k) (ex 0%nat) (Wr (XE 1, k) (ex 1%nat) (Wr (XE 2, k) (ex 2%nat)
      (read_all YMom (omp_reads I k) (fun _ => 0) (fun qy =>
       let ey := omp_mom_edge I qy (r_beta_vh I) (r_beta_vh_dry I) k in
       Wr (YE 0, k) (ey 0%nat) (Wr (YE 1, k) (ey 1%nat) (Wr (YE 2, k) (ey 2%nat) (Ret tt)))))))))  m).
  { intros m Ex Ey Ewx Ewy. apply safe_read_all. intros qx Qx _. cbv zeta.
    do 3 (split; [reflexivity|split; [exact Logic.I|]]).
    apply safe_read_all. intros qy Qy _. do 3 (split; [reflexivity|split; [exact Logic.I|]]).
    cbn [safe]. unfold second_goal. putall.
    refine (conj _ (conj _ (conj Ex (conj Ey (conj Ewx Ewy))))).
    - exists qx. split.
      + split.
        * specialize (Qx k (own_read k)). rewrite Nat.eqb_refl in Qx. congruence.
        * intros j Hj N. specialize (Qx j Hj). destruct (Nat.eqb_spec j k); [congruence|]. exact Qx.
      + intros i Hi. destruct i as [|[|[|i]]]; [| | |lia]; putall; reflexivity.
    - exists qy. split.
      + split.
        * specialize (Qy k (own_read k)). rewrite Nat.eqb_refl in Qy. revert Qy. putall. congruence.
        * intros j Hj N. specialize (Qy j Hj). destruct (Nat.eqb_spec j k); [congruence|]. exact Qy.
      + intros i Hi. destruct i as [|[|[|i]]]; [| | |lia]; putall; reflexivity. }
  unfold omp_extrapolate_iteration. cbv zeta. destruct (dry k) eqn:D.
  - split; [reflexivity|split; [exact Logic.I|]]. split; [reflexivity|split; [right; auto|]].
    split; [reflexivity|split; [exact Logic.I|]]. split; [reflexivity|split; [right; auto|]].
    apply Edges; putall; unfold zeroed; rewrite D; reflexivity.
  - apply Edges; unfold zeroed; rewrite D; reflexivity.
Qed.

(** *** The other two loops *)
Lemma restore_local k : local k (omp_restore_iteration I k).
Proof. unfold omp_restore_iteration. destruct (_ =? _)%Z; repeat (constructor; intros). Qed.

Lemma velocity_result K m m' k : (k < K)%nat -> omp_loop K (omp_velocity_iteration I) m m' ->
  let wet := Rltb (r_minimum_allowed_height I) (omp_height I k) in
  let velocity := Z.eqb (r_velocity I) 1 in
  m' (XMom, k) = (if wet then if velocity then m (XMom, k) * (1 / omp_height I k) else m (XMom, k) else 0) /\
  m' (YMom, k) = (if wet then if velocity then m (YMom, k) * (1 / omp_height I k) else m (YMom, k) else 0) /\
  m' (XWork, k) = (if wet && velocity then m (XMom, k) else 0) /\
  m' (YWork, k) = (if wet && velocity then m (YMom, k) else 0).
Proof.
  intros Hk (c & ps' & St & Fi).
  destruct (local_result K _ m c m' ps' (fun i _ => velocity_local I i) St Fi) as (L1 & _ & _). cbv zeta.
  rewrite !L1 by exact Hk. clear. unfold omp_velocity_iteration. cbv zeta. cbn [alone].
  destruct (Rltb_spec (r_minimum_allowed_height I) (omp_height I k)) as [H|H].
  - rewrite (proj2 (Rleb_false (omp_height I k) (r_minimum_allowed_height I))) by lra.
    destruct (_ =? _)%Z; cbn [alone andb]; unfold modify; cbn [alone fst]; putall; auto.
  - rewrite (proj2 (Rleb_true (omp_height I k) (r_minimum_allowed_height I))) by lra.
    destruct (_ =? _)%Z; cbn [alone andb fst]; putall; auto.
Qed.

Lemma restore_result K m m' k : (k < K)%nat -> omp_loop K (omp_restore_iteration I) m m' ->
  let velocity := Z.eqb (r_velocity I) 1 in
  m' (XMom, k) = (if velocity then m (XWork, k) else m (XMom, k)) /\
  m' (YMom, k) = (if velocity then m (YWork, k) else m (YMom, k)) /\
  forall i, m' (XE i, k) = m (XE i, k) /\ m' (YE i, k) = m (YE i, k).
Proof.
  intros Hk (c & ps' & St & Fi).
  destruct (local_result K _ m c m' ps' (fun i _ => restore_local i) St Fi) as (L1 & _ & _). cbv zeta.
  rewrite !L1 by exact Hk.
  assert (E : forall i, m' (XE i, k) = fst (alone loc_eqb (omp_restore_iteration I k) m) (XE i, k) /\
                        m' (YE i, k) = fst (alone loc_eqb (omp_restore_iteration I k) m) (YE i, k)).
  { intros i. rewrite !L1 by exact Hk. auto. }
  clear L1. unfold omp_restore_iteration in *. destruct (_ =? _)%Z; cbn [alone fst] in *.
  - putall. refine (conj eq_refl (conj eq_refl _)). intros i. destruct (E i) as [-> ->]. putall. auto.
  - auto.
Qed.
End Second.

(** The velocities before the second loop. *)
Definition velocity_of (I : recon) (mom : nat -> R) (k : nat) : R :=
  if Rltb (r_minimum_allowed_height I) (omp_height I k)
  then if Z.eqb (r_velocity I) 1 then mom k * (1 / omp_height I k) else mom k else 0.

Lemma second_result I K m m' k : (k < K)%nat -> omp_loop K (omp_extrapolate_iteration I) m m' -> second_goal I m k tt m'.
Proof.
  intros Hk (c & ps' & St & Fi).
  destruct (rely_guarantee _ _ _ loc_eqb loc_eqb_spec mom_owner (mom_possible I m) (second_goal I m) K (omp_extrapolate_iteration I) m c m' ps')
    with (i := k) as ([] & mi & _ & G & O); auto.
  - intros [a i]. unfold mom_possible. destruct a; cbn; auto.
  - intros i _. apply second_safe.
  - unfold second_goal in *. destruct G as ((q & Q1 & Q2) & (r & R1 & R2) & E1 & E2 & E3 & E4).
    rewrite !O by reflexivity. refine (conj _ (conj _ (conj E1 (conj E2 (conj E3 E4))))).
    + exists q. split; auto. intros i Hi. rewrite O by reflexivity. auto.
    + exists r. split; auto. intros i Hi. rewrite O by reflexivity. auto.
Qed.

(** In every interleaving, the new momenta at the edges of a triangle are
    reconstructed from velocities of its neighbours before or after the loop
    removes them; momenta at the centroids do not depend on the interleaving. *)
Theorem C65_any_interleaving_partial :
  forall I m m', omp_extrapolate I m m' ->
  forall k, (k < r_number_of_elements I)%nat ->
  (exists q, (q k = zeroed I (velocity_of I (fun j => m (XMom, j))) k /\
              forall j, In j (omp_reads I k) -> (j < r_number_of_elements I)%nat -> j <> k ->
                q j = velocity_of I (fun j => m (XMom, j)) j \/ (surrounded (omp_inputs I) j = true /\ q j = 0)) /\
     forall i, (i < 3)%nat -> m' (XE i, k) = omp_mom_edge I q (r_beta_uh I) (r_beta_uh_dry I) k i) /\
  (exists q, (q k = zeroed I (velocity_of I (fun j => m (YMom, j))) k /\
              forall j, In j (omp_reads I k) -> (j < r_number_of_elements I)%nat -> j <> k ->
                q j = velocity_of I (fun j => m (YMom, j)) j \/ (surrounded (omp_inputs I) j = true /\ q j = 0)) /\
     forall i, (i < 3)%nat -> m' (YE i, k) = omp_mom_edge I q (r_beta_vh I) (r_beta_vh_dry I) k i) /\
  (let keep := Rltb (r_minimum_allowed_height I) (omp_height I k) && negb (surrounded (omp_inputs I) k) in
   m' (XMom, k) = (if keep then m (XMom, k) else 0) /\ m' (YMom, k) = (if keep then m (YMom, k) else 0)).
Proof.
  intros I m m' (m1 & m2 & H1 & H2 & H3) k Hk. set (K := r_number_of_elements I) in *.
  destruct (second_result I K m1 m2 k Hk H2) as ((q & [Qk Qj] & QE) & (r & [Rk Rj] & RE) & E1 & E2 & E3 & E4).
  destruct (restore_result I K m2 m' k Hk H3) as (F1 & F2 & F3).
  assert (V : forall j, (j < K)%nat -> m1 (XMom, j) = velocity_of I (fun j => m (XMom, j)) j /\
                                      m1 (YMom, j) = velocity_of I (fun j => m (YMom, j)) j).
  { intros j Hj. destruct (velocity_result I K m m1 j Hj H1) as (A & B & _). rewrite A, B. auto. }
  destruct (velocity_result I K m m1 k Hk H1) as (A1 & A2 & A3 & A4). cbv zeta in *.
  refine (conj _ (conj _ _)).
  - exists q. split; [split|].
    + rewrite Qk. unfold zeroed. destruct (surrounded _ _); [reflexivity|]. apply V. exact Hk.
    + intros j Hj Hb N. destruct (V j Hb) as [<- _]. auto.
    + intros i Hi. rewrite (proj1 (F3 i)). auto.
  - exists r. split; [split|].
    + rewrite Rk. unfold zeroed. destruct (surrounded _ _); [reflexivity|]. apply V. exact Hk.
    + intros j Hj Hb N. destruct (V j Hb) as [_ <-]. auto.
    + intros i Hi. rewrite (proj2 (F3 i)). auto.
  - rewrite F1, F2, E1, E2, E3, E4. unfold zeroed. rewrite A1, A2, A3, A4.
    destruct (Rltb _ _), (Z.eqb _ _), (surrounded _ _); cbn [andb negb]; auto.
Qed.
Print Assumptions C65_any_interleaving_partial.

(** *** Comparison with the sequential kernel *)
Record usable (I : recon) : Prop := {
  us_velocity : r_velocity I = 1%Z;
  us_update : forall k, (k < r_number_of_elements I)%nat -> r_update I k <> 0%Z;
  us_cases : forall k, (k < r_number_of_elements I)%nat ->
    r_number_of_boundaries I k = 3%Z \/
    ((r_number_of_boundaries I k <= 1)%Z /\ 0 < area2 I k) \/
    (r_number_of_boundaries I k = 2%Z /\ internal_neighbour I k <> None);
  us_surrogate : forall k i, (k < r_number_of_elements I)%nat -> (i < 3)%nat ->
    (r_surrogate I (3 * k + i) < r_number_of_elements I)%nat }.

Lemma height_same I k : r_velocity I = 1%Z -> height1 I k = omp_height I k.
Proof. intros V. unfold height1. rewrite V. reflexivity. Qed.

Lemma surrounded_same I k : r_velocity I = 1%Z -> surrounded (omp_inputs I) k = surrounded I k.
Proof.
  intros V. unfold surrounded, dry_side. rewrite !(height_same I) by exact V. reflexivity.
Qed.

Lemma hfactor_same I k : r_velocity I = 1%Z -> hfactor (omp_inputs I) k = hfactor I k.
Proof. intros V. unfold hfactor. rewrite !(height_same I) by exact V. reflexivity. Qed.

Lemma omp_edge_ext I q q' b bd k i : (forall j, In j (omp_reads I k) -> q j = q' j) ->
  omp_edge I q b bd k i = omp_edge I q' b bd k i.
Proof.
  intros H. pose proof (H k (own_read I k)) as Hk. unfold omp_edge, omp_cell_jumps, omp_reads in *.
  destruct (_ =? 3)%Z; [congruence|]. destruct (_ <=? 1)%Z.
  - replace (typical_jumps (omp_inputs I) q' (bd + (b - bd) * hfactor (omp_inputs I) k) k) with
      (typical_jumps (omp_inputs I) q (bd + (b - bd) * hfactor (omp_inputs I) k) k); [congruence|].
    unfold typical_jumps. destruct (Rltb _ _); [|reflexivity].
    rewrite Hk, (H (nb0 (omp_inputs I) k)), (H (nb1 (omp_inputs I) k)), (H (nb2 (omp_inputs I) k)) by (cbn [In]; auto).
    reflexivity.
  - destruct (internal_neighbour _ _) as [n|]; [|reflexivity].
    replace (single_jumps (omp_inputs I) q' k n) with (single_jumps (omp_inputs I) q k n); [congruence|].
    unfold single_jumps. rewrite Hk, (H n) by (cbn [In]; auto). reflexivity.
Qed.

Lemma omp_edge_same I q old b bd k i : usable I -> (k < r_number_of_elements I)%nat -> (i < 3)%nat ->
  omp_edge I q b bd k i = extrapolated I q old b bd (3 * k + i).
Proof.
  intros U Hk Hi. unfold omp_edge, extrapolated, omp_cell_jumps, cell_jumps.
  replace ((3 * k + i) / 3)%nat with k by (apply (Nat.div_unique _ 3 k i); lia).
  replace ((3 * k + i) mod 3)%nat with i by (apply (Nat.mod_unique _ 3 k i); lia).
  assert (T : to_update I k = true).
  { unfold to_update. destruct (Z.eqb_spec (r_update I k) 0) as [E|]; [destruct (us_update I U k Hk E)|reflexivity]. }
  rewrite T. rewrite (hfactor_same I k (us_velocity I U)).
  change (r_number_of_boundaries (omp_inputs I) k) with (r_number_of_boundaries I k).
  destruct (us_cases I U k Hk) as [E|[[E A]|[E N]]].
  - rewrite E. reflexivity.
  - destruct (Z.eqb_spec (r_number_of_boundaries I k) 3); [lia|]. destruct (Z.leb_spec (r_number_of_boundaries I k) 1); [|lia].
    rewrite (proj2 (Rleb_false (area2 I k) 0)) by exact A. reflexivity.
  - rewrite E. cbn [Z.eqb Z.leb Z.compare Pos.compare Pos.compare_cont Pos.eqb].
    change (internal_neighbour (omp_inputs I) k) with (internal_neighbour I k).
    destruct (internal_neighbour I k) as [n|]; [reflexivity|congruence].
Qed.

Lemma reads_in_range I k j : usable I -> (k < r_number_of_elements I)%nat -> In j (omp_reads I k) ->
  (j < r_number_of_elements I)%nat /\ (j <> k -> exists i, (i < 3)%nat /\ r_surrogate I (3 * k + i) = j).
Proof.
  intros U Hk. 
  assert (S : forall i, (i < 3)%nat -> j = r_surrogate I (3 * k + i) ->
    (j < r_number_of_elements I)%nat /\ (j <> k -> exists i, (i < 3)%nat /\ r_surrogate I (3 * k + i) = j)).
  { intros i Hi ->. split; [apply (us_surrogate I U); auto|eauto]. }
  assert (O : j = k -> (j < r_number_of_elements I)%nat /\ (j <> k -> exists i, (i < 3)%nat /\ r_surrogate I (3 * k + i) = j)).
  { intros ->. split; [exact Hk|congruence]. }
  assert (E0 : nb0 (omp_inputs I) k = r_surrogate I (3 * k + 0)) by (unfold nb0; rewrite Nat.add_0_r; reflexivity).
  unfold omp_reads. destruct (_ =? 3)%Z; [intros [E|[]]; apply O; auto|]. destruct (_ <=? 1)%Z.
  - intros [E|[E|[E|[E|[]]]]]; [apply O; auto|apply (S 0%nat)|apply (S 1%nat)|apply (S 2%nat)]; try lia; subst j; auto.
  - unfold internal_neighbour. rewrite E0.
    destruct (negb _); [intros [E|[E|[]]]; [apply (S 0%nat); [lia|exact (eq_sym E)]|apply O; auto]|].
    destruct (negb _); [intros [E|[E|[]]]; [apply (S 1%nat); [lia|exact (eq_sym E)]|apply O; auto]|].
    destruct (negb _); [intros [E|[E|[]]]; [apply (S 2%nat); [lia|exact (eq_sym E)]|apply O; auto]|].
    intros [E|[]]. apply O; auto.
Qed.

(** Triangles that lose their velocity in the second loop and are read by
    others have none to lose. *)
Definition no_visible_loss (I : recon) (mom : nat -> R) : Prop :=
  forall k j, (k < r_number_of_elements I)%nat -> In j (omp_reads I k) -> j <> k ->
  surrounded I j = true -> velocity_of I mom j = 0.

Lemma mom2_same I k mom : r_velocity I = 1%Z -> mom2 I mom k = zeroed I (velocity_of I mom) k.
Proof.
  intros V. unfold mom2, zeroed, mom1, velocity_of, wet_cell.
  rewrite (surrounded_same I k V), (height_same I k V), V. reflexivity.
Qed.

Lemma height_edge_same I k i : usable I -> (k < r_number_of_elements I)%nat -> (i < 3)%nat ->
  omp_height_edge I k i = height_edges I (3 * k + i).
Proof.
  intros U Hk Hi. unfold omp_height_edge, height_edges. rewrite (omp_edge_same I _ (r_height_e I) _ _ k i U Hk Hi).
  unfold extrapolated. destruct (to_update _ _); [|reflexivity].
  assert (E : forall q q', (forall j, q j = q' j) -> cell_jumps I q (r_beta_w I) (r_beta_w_dry I) ((3 * k + i) / 3) =
     cell_jumps I q' (r_beta_w I) (r_beta_w_dry I) ((3 * k + i) / 3)).
  { intros q q' H. unfold cell_jumps, typical_jumps, single_jumps. rewrite !H.
    destruct (internal_neighbour _ _) as [n|]; [rewrite !H|]; reflexivity. }
  rewrite (E (omp_height I) (height1 I)) by (intros; symmetry; apply height_same; apply U).
  rewrite (height_same I _ (us_velocity I U)). reflexivity.
Qed.

Lemma mom_edge_same I mom old b bd k i : usable I -> (k < r_number_of_elements I)%nat -> (i < 3)%nat ->
  mom_edges I mom old b bd (3 * k + i) = omp_mom_edge I (zeroed I (velocity_of I mom)) b bd k i.
Proof.
  intros U Hk Hi. unfold mom_edges, omp_mom_edge.
  replace ((3 * k + i) / 3)%nat with k by (apply (Nat.div_unique _ 3 k i); lia).
  assert (T : to_update I k = true).
  { unfold to_update. destruct (Z.eqb_spec (r_update I k) 0) as [E|]; [destruct (us_update I U k Hk E)|reflexivity]. }
  rewrite T, (us_velocity I U). cbn [andb Z.eqb Pos.eqb].
  rewrite (height_edge_same I k i U Hk Hi), (omp_edge_same I _ old b bd k i U Hk Hi). f_equal.
  unfold extrapolated. destruct (to_update I ((3 * k + i) / 3)); [|reflexivity].
  assert (E : forall q q', (forall j, q j = q' j) -> cell_jumps I q b bd ((3 * k + i) / 3) =
     cell_jumps I q' b bd ((3 * k + i) / 3)).
  { intros q q' H. unfold cell_jumps, typical_jumps, single_jumps. rewrite !H.
    destruct (internal_neighbour _ _) as [n|]; [rewrite !H|]; reflexivity. }
  rewrite (E _ _ (fun j => mom2_same I j mom (us_velocity I U))), (mom2_same I _ mom (us_velocity I U)). reflexivity.
Qed.

(** If triangles that lose their velocity in the second loop have none, or
    are read by no other triangle, every interleaving gives the result of the
    sequential kernel. *)
Theorem C65_matches_sequential :
  forall I m m', usable I -> omp_extrapolate I m m' ->
  (forall k, m (XMom, k) = r_xmom I k) -> (forall k, m (YMom, k) = r_ymom I k) ->
  no_visible_loss I (r_xmom I) -> no_visible_loss I (r_ymom I) ->
  forall k, (k < r_number_of_elements I)%nat ->
  (forall i, (i < 3)%nat ->
     m' (XE i, k) = xmom_edges I (3 * k + i) /\ m' (YE i, k) = ymom_edges I (3 * k + i) /\
     omp_stage_edge I k i = stage_edges I (3 * k + i) /\ omp_height_edge I k i = height_edges I (3 * k + i)) /\
  m' (XMom, k) = mom_centroid I (r_xmom I) k /\ m' (YMom, k) = mom_centroid I (r_ymom I) k.
Proof.
  intros I m m' U H Hx Hy Lx Ly k Hk.
  destruct (C65_any_interleaving_partial I m m' H k Hk) as ((q & [Qk Qj] & QE) & (r & [Rk Rj] & RE) & E).
  assert (Vx : forall j, velocity_of I (fun j => m (XMom, j)) j = velocity_of I (r_xmom I) j).
  { intros j. unfold velocity_of. rewrite !Hx. reflexivity. }
  assert (Vy : forall j, velocity_of I (fun j => m (YMom, j)) j = velocity_of I (r_ymom I) j).
  { intros j. unfold velocity_of. rewrite !Hy. reflexivity. }
  assert (G : forall mom x, no_visible_loss I mom -> x k = zeroed I (velocity_of I mom) k ->
     (forall j, In j (omp_reads I k) -> (j < r_number_of_elements I)%nat -> j <> k ->
        x j = velocity_of I mom j \/ surrounded (omp_inputs I) j = true /\ x j = 0) ->
     forall j, In j (omp_reads I k) -> x j = zeroed I (velocity_of I mom) j).
  { intros mom x L Xk Xj j Hj. destruct (Nat.eq_dec j k) as [->|N]; [exact Xk|].
    destruct (reads_in_range I k j U Hk Hj) as [Hb _].
    unfold zeroed. rewrite (surrounded_same I j (us_velocity I U)).
    specialize (Xj j Hj Hb N). rewrite (surrounded_same I j (us_velocity I U)) in Xj.
    destruct (surrounded I j) eqn:D.
    - pose proof (L k j Hk Hj N D). destruct Xj as [X|[_ X]]; congruence.
    - destruct Xj as [X|[X _]]; [exact X|discriminate]. }
  split.
  - intros i Hi. refine (conj _ (conj _ (conj _ (height_edge_same I k i U Hk Hi)))).
    + rewrite (QE i Hi). unfold xmom_edges. rewrite (mom_edge_same I _ _ _ _ k i U Hk Hi). unfold omp_mom_edge.
      rewrite (omp_edge_ext I q (zeroed I (velocity_of I (r_xmom I)))); [reflexivity|].
      apply G; auto.
      * rewrite Qk. unfold zeroed. destruct (surrounded _ _); [reflexivity|apply Vx].
      * intros j Hj Hb N. rewrite <- Vx. auto.
    + rewrite (RE i Hi). unfold ymom_edges. rewrite (mom_edge_same I _ _ _ _ k i U Hk Hi). unfold omp_mom_edge.
      rewrite (omp_edge_ext I r (zeroed I (velocity_of I (r_ymom I)))); [reflexivity|].
      apply G; auto.
      * rewrite Rk. unfold zeroed. destruct (surrounded _ _); [reflexivity|apply Vy].
      * intros j Hj Hb N. rewrite <- Vy. auto.
    + unfold omp_stage_edge, stage_edges. apply omp_edge_same; auto.
  - cbv zeta in E. destruct E as [E1 E2]. rewrite E1, E2, Hx, Hy. unfold mom_centroid, work2, work1, wet_cell.
    rewrite (us_velocity I U), (surrounded_same I k (us_velocity I U)), (height_same I k (us_velocity I U)).
    cbn [Z.eqb Pos.eqb]. destruct (Rltb _ _), (surrounded I k); cbn [andb negb]; auto.
Qed.
Print Assumptions C65_matches_sequential.

(** *** The default limiter parameters *)
(** Meshes: neighbours are mutual, and the edge midpoints of a triangle
    surround its centroid. *)
Record mesh_like (I : recon) : Prop := {
  ml_mutual : forall k i j, (k < r_number_of_elements I)%nat -> (i < 3)%nat ->
    r_surrogate I (3 * k + i) = j -> j <> k -> exists i', (i' < 3)%nat /\ r_surrogate I (3 * j + i') = k;
  ml_x : forall k, dxv I k 0 + dxv I k 1 + dxv I k 2 = 0;
  ml_y : forall k, dyv I k 0 + dyv I k 1 + dyv I k 2 = 0 }.

Lemma single_jumps_small I q k n i : mesh_like I -> 0 <= r_beta_w I -> (i < 3)%nat ->
  Rabs (jump (single_jumps (omp_inputs I) q k n) i) <= 2 * tiny.
Proof.
  intros M Hb Hi. unfold single_jumps. cbv zeta.
  set (a := (q n - q k) * _). set (b := (q n - q k) * _).
  assert (S0 : jump (edge_jumps (omp_inputs I) k a b) 0 + jump (edge_jumps (omp_inputs I) k a b) 1 +
               jump (edge_jumps (omp_inputs I) k a b) 2 = 0).
  { unfold edge_jumps, jump. cbn [fst snd].
    change (dxv (omp_inputs I) k) with (dxv I k). change (dyv (omp_inputs I) k) with (dyv I k).
    pose proof (ml_x I M k). pose proof (ml_y I M k).
    replace (a * dxv I k 0 + b * dyv I k 0 + (a * dxv I k 1 + b * dyv I k 1) + (a * dxv I k 2 + b * dyv I k 2))
      with (a * (dxv I k 0 + dxv I k 1 + dxv I k 2) + b * (dyv I k 0 + dyv I k 1 + dyv I k 2)) by ring.
    rewrite H, H0. ring. }
  set (d := edge_jumps (omp_inputs I) k a b) in *. clearbody d.
  assert (Hbw : 0 <= r_beta_w (omp_inputs I)) by exact Hb. clear a b.
  set (bw := r_beta_w (omp_inputs I)) in *. clearbody bw. pose proof tiny_pos as Ht.
  assert (Sum : forall qmin qmax, jump (limit_gradient d qmin qmax bw) 0 + jump (limit_gradient d qmin qmax bw) 1 +
     jump (limit_gradient d qmin qmax bw) 2 = 0).
  { intros qmin qmax. rewrite !jump_limited by lia.
    transitivity ((jump d 0 + jump d 1 + jump d 2) * limit_phi d qmin qmax bw); [ring|]. rewrite S0. ring. }
  destruct (Rleb_spec 0 (q n - q k)) as [L|L].
  - pose proof (Sum 0 (q n - q k)) as Sm.
    pose proof (fun i => limit_gradient_range 0 (q n - q k) ltac:(lra) L d bw i Hbw) as Rg.
    pose proof (Rg 0%nat ltac:(lia)). pose proof (Rg 1%nat ltac:(lia)). pose proof (Rg 2%nat ltac:(lia)).
    apply Rabs_le. destruct i as [|[|[|i]]]; [lra|lra|lra|lia].
  - pose proof (Sum (q n - q k) 0) as Sm.
    pose proof (fun i => limit_gradient_range (q n - q k) 0 ltac:(lra) ltac:(lra) d bw i Hbw) as Rg.
    pose proof (Rg 0%nat ltac:(lia)). pose proof (Rg 1%nat ltac:(lia)). pose proof (Rg 2%nat ltac:(lia)).
    apply Rabs_le. destruct i as [|[|[|i]]]; [lra|lra|lra|lia].
Qed.

(** With [beta_uh_dry = beta_vh_dry = 0], the default, a velocity removed in
    the second loop is only read by dry triangles, which do not use it: the
    result does not depend on the interleaving and is the one of the
    sequential kernel, up to 4e-100 times the depth in triangles with two
    boundaries. *)
Theorem C65_default_parameters :
  forall I m m', usable I -> mesh_like I -> omp_extrapolate I m m' ->
  0 < r_minimum_allowed_height I -> 0 <= r_beta_w I ->
  (forall k, m (XMom, k) = r_xmom I k) -> (forall k, m (YMom, k) = r_ymom I k) ->
  r_beta_uh_dry I = 0 -> r_beta_vh_dry I = 0 ->
  forall k i, (k < r_number_of_elements I)%nat -> (i < 3)%nat ->
  let tolerance := if Z.eqb (r_number_of_boundaries I k) 2 then 4 * tiny * Rabs (height_edges I (3 * k + i)) else 0 in
  Rabs (m' (XE i, k) - xmom_edges I (3 * k + i)) <= tolerance /\
  Rabs (m' (YE i, k) - ymom_edges I (3 * k + i)) <= tolerance.
Proof.
  intros I m m' U M H Hm Hbw Hx Hy Bx By k i Hk Hi tol.
  destruct (C65_any_interleaving_partial I m m' H k Hk) as ((q & [Qk Qj] & QE) & (r & [Rk Rj] & RE) & _).
  assert (G : forall mom x b, x k = zeroed I (velocity_of I mom) k ->
     (forall j, In j (omp_reads I k) -> (j < r_number_of_elements I)%nat -> j <> k ->
        x j = velocity_of I mom j \/ surrounded (omp_inputs I) j = true /\ x j = 0) ->
     Rabs (omp_mom_edge I x b 0 k i - omp_mom_edge I (zeroed I (velocity_of I mom)) b 0 k i) <= tol).
  { intros mom x b Xk Xj. unfold omp_mom_edge. rewrite (us_velocity I U). cbn [Z.eqb Pos.eqb].
    rewrite (height_edge_same I k i U Hk Hi).
    assert (T0 : 0 <= tol).
    { unfold tol. pose proof tiny_pos. pose proof (Rabs_pos (height_edges I (3 * k + i))). destruct (_ =? _)%Z; [|lra].
      apply Rmult_le_pos; lra. }
    set (v := velocity_of I mom) in *.
    (* do the values read differ? *)
    destruct (forallb (fun j => Nat.eqb j k || negb (surrounded (omp_inputs I) j)) (omp_reads I k)) eqn:E.
    - rewrite (omp_edge_ext I x (zeroed I v)); [rewrite Rminus_diag_eq, Rabs_R0 by reflexivity; exact T0|].
      intros j Hj. destruct (Nat.eq_dec j k) as [->|N]; [exact Xk|].
      rewrite forallb_forall in E. specialize (E j Hj). rewrite (proj2 (Nat.eqb_neq j k) N) in E. cbn [orb] in E. destruct (reads_in_range I k j U Hk Hj) as [Hb _]. specialize (Xj j Hj Hb N). unfold zeroed.
      destruct (surrounded (omp_inputs I) j); [discriminate|]. destruct Xj as [X|[X _]]; [exact X|discriminate].
    - assert (Ex : exists j, In j (omp_reads I k) /\ j <> k /\ surrounded (omp_inputs I) j = true).
      { rewrite <- not_true_iff_false, forallb_forall in E. 
        destruct (existsb (fun j => negb (Nat.eqb j k) && surrounded (omp_inputs I) j) (omp_reads I k)) eqn:F.
        - apply existsb_exists in F as (j & Hj & F). apply andb_true_iff in F as [F1 F2]. exists j.
          destruct (Nat.eqb_spec j k); [discriminate|]. auto.
        - exfalso. apply E. intros j Hj. rewrite <- not_true_iff_false, existsb_exists in F.
          destruct (Nat.eqb j k) eqn:Ej; [reflexivity|]. destruct (surrounded (omp_inputs I) j) eqn:Sj; [|reflexivity].
          exfalso. apply F. exists j. rewrite Ej, Sj. auto. }
      destruct Ex as (j & Hj & N & Sj). destruct (reads_in_range I k j U Hk Hj) as [Hb Hs].
      destruct (Hs N) as (i1 & Hi1 & Ej). destruct (ml_mutual I M k i1 j Hk Hi1 Ej N) as (i2 & Hi2 & Ek).
      assert (Dk : omp_height I k < r_minimum_allowed_height I).
      { unfold surrounded in Sj. apply andb_true_iff in Sj as [Sj S2]. apply andb_true_iff in Sj as [S0 S1].
        assert (D : dry_side (omp_inputs I) j i2 = true) by (destruct i2 as [|[|[|i2]]]; [exact S0|exact S1|exact S2|lia]).
        unfold dry_side in D. change (r_surrogate (omp_inputs I)) with (r_surrogate I) in D. rewrite Ek in D.
        destruct (Nat.eqb_spec k j); [congruence|]. rewrite orb_false_r in D. apply Rltb_true in D. exact D. }
      assert (Zk : zeroed I v k = 0).
      { unfold zeroed, v, velocity_of. rewrite (proj2 (Rltb_false (r_minimum_allowed_height I) (omp_height I k))) by lra.
        destruct (surrounded (omp_inputs I) k); reflexivity. }
      assert (Sml : forall y, y k = 0 -> r_number_of_boundaries I k <> 2%Z -> omp_edge I y b 0 k i = 0).
      { intros y Yk Nb. unfold omp_edge, omp_cell_jumps.
        change (r_number_of_boundaries (omp_inputs I) k) with (r_number_of_boundaries I k).
        destruct (us_cases I U k Hk) as [C|[[C A]|[C _]]]; [rewrite C; cbn [Z.eqb Pos.eqb]| |congruence].
        - rewrite Yk. destruct i as [|[|[|i']]]; unfold jump, flat; cbn [fst snd]; lra.
        - destruct (Z.eqb_spec (r_number_of_boundaries I k) 3); [lia|].
          destruct (Z.leb_spec (r_number_of_boundaries I k) 1); [|lia].
          rewrite (hfactor_dry (omp_inputs I) k Hm).
          + unfold typical_jumps. rewrite (proj2 (Rltb_false 0 (0 + (b - 0) * 0))) by lra.
            rewrite Yk. destruct i as [|[|[|i']]]; unfold jump, flat; cbn [fst snd]; lra.
          + eapply Rle_trans; [apply Rmin_r|]. change (height1 (omp_inputs I) k) with (omp_height I k).
            change (r_minimum_allowed_height (omp_inputs I)) with (r_minimum_allowed_height I). lra. }
      unfold tol. destruct (Z.eqb_spec (r_number_of_boundaries I k) 2) as [B2|B2].
      + assert (Two : forall y, y k = 0 -> Rabs (omp_edge I y b 0 k i) <= 2 * tiny).
        { intros y Yk. unfold omp_edge, omp_cell_jumps.
          change (r_number_of_boundaries (omp_inputs I) k) with (r_number_of_boundaries I k). rewrite B2.
          cbn [Z.eqb Pos.eqb Z.leb Z.compare Pos.compare Pos.compare_cont].
          pose proof tiny_pos. destruct (internal_neighbour _ _) as [n|]; [|rewrite Rabs_R0; lra].
          rewrite Yk, Rplus_0_l. apply single_jumps_small; auto. }
        rewrite <- Rmult_minus_distr_r, Rabs_mult. apply Rmult_le_compat_r; [apply Rabs_pos|].
        eapply Rle_trans; [apply Rabs_triang|]. rewrite Rabs_Ropp.
        pose proof (Two x ltac:(congruence)). pose proof (Two (zeroed I v) Zk). lra.
      + rewrite (Sml x) by (auto; congruence). rewrite (Sml (zeroed I v)) by auto.
        rewrite Rmult_0_l, Rminus_0_r, Rabs_R0. lra. }
  split.
  - rewrite (QE i Hi). unfold xmom_edges. rewrite (mom_edge_same I _ _ _ _ k i U Hk Hi), Bx.
    apply G; [|].
    + rewrite Qk. unfold zeroed, velocity_of. rewrite Hx. reflexivity.
    + intros j Hj Hb N. specialize (Qj j Hj Hb N). unfold velocity_of in *. rewrite Hx in Qj. exact Qj.
  - rewrite (RE i Hi). unfold ymom_edges. rewrite (mom_edge_same I _ _ _ _ k i U Hk Hi), By.
    apply G.
    + rewrite Rk. unfold zeroed, velocity_of. rewrite Hy. reflexivity.
    + intros j Hj Hb N. specialize (Rj j Hj Hb N). unfold velocity_of in *. rewrite Hy in Rj. exact Rj.
Qed.
Print Assumptions C65_default_parameters.

(** *** A velocity that is removed while a neighbour reads it *)

(** Triangle 0 is dry and lies between three wet triangles, each of which has
    two boundaries; triangles 1 and 2 have opposite velocities. *)
Definition star_dry (b : R) : recon :=
  let pick4 (a b c d : R) (k : nat) := match k with 0%nat => a | 1%nat => b | 2%nat => c | 3%nat => d | _ => 0 end in
  {| r_number_of_elements := 4; r_update := fun _ => 1%Z;
     r_number_of_boundaries := fun k => if Nat.eqb k 0 then 0%Z else 2%Z;
     r_surrogate := fun e => nth e [1; 2; 3; 0; 1; 1; 0; 2; 2; 0; 3; 3]%nat 0%nat;
     r_ex := fun e => nth e [1 / 2; 0; - (1 / 2); 1 / 2; 5 / 4; 5 / 4; 0; 0; 0; - (1 / 2); - (5 / 4); - (5 / 4)] 0;
     r_ey := fun e => nth e [0; 1 / 2; - (1 / 2); 0; 0; 0; 1 / 2; 5 / 4; 5 / 4; - (1 / 2); - (5 / 4); - (5 / 4)] 0;
     r_cx := pick4 0 1 0 (-1); r_cy := pick4 0 0 1 (-1);
     r_beta_w := 1; r_beta_w_dry := 0; r_beta_uh := 1; r_beta_uh_dry := b; r_beta_vh := 1; r_beta_vh_dry := b;
     r_minimum_allowed_height := 1 / 2; r_velocity := 1%Z;
     r_stage := fun k => match k with 0%nat => 1 / 4 | _ => 1 end; r_bed := fun _ => 0; r_height := fun _ => 0;
     r_xmom := pick4 0 1 (-1) 0; r_ymom := fun _ => 0;
     r_stage_e := fun _ => 0; r_height_e := fun _ => 0; r_xmom_e := fun _ => 0; r_ymom_e := fun _ => 0; r_bed_e := fun _ => 0;
     r_stage_v := fun _ => 0; r_height_v := fun _ => 0; r_xmom_v := fun _ => 0; r_ymom_v := fun _ => 0; r_bed_v := fun _ => 0 |}.
Definition star : recon := star_dry (1 / 10).
Definition star_memory (l : loc) : R := match fst l with XMom => r_xmom star (snd l) | _ => 0 end.

Lemma star_height k : omp_height star k = match k with O => 1 / 4 | S _ => 1 end.
Proof.
  unfold omp_height, star, star_dry. cbn [r_stage r_bed]. destruct k as [|[|[|k]]]; apply Rmax_left || (rewrite Rmax_left); lra.
Qed.

Lemma star_surrounded k : (1 <= k < 4)%nat -> surrounded (omp_inputs star) k = true.
Proof.
  intros Hk. unfold surrounded, dry_side. 
  change (height1 (omp_inputs star)) with (omp_height star). change (r_surrogate (omp_inputs star)) with (r_surrogate star).
  change (r_minimum_allowed_height (omp_inputs star)) with (1 / 2).
  assert (D : Rltb (1 / 4) (1 / 2) = true) by (apply Rltb_true; lra).
  destruct k as [|[|[|[|k]]]]; try lia; cbn [star star_dry r_surrogate nth Nat.mul Nat.add Nat.eqb]; rewrite !star_height, D;
    rewrite ?orb_true_r; reflexivity.
Qed.
Lemma star_not_surrounded : surrounded (omp_inputs star) 0 = false.
Proof.
  unfold surrounded, dry_side. 
  change (height1 (omp_inputs star)) with (omp_height star). change (r_surrogate (omp_inputs star)) with (r_surrogate star).
  change (r_minimum_allowed_height (omp_inputs star)) with (1 / 2).
  cbn [star star_dry r_surrogate nth Nat.mul Nat.add Nat.eqb]. rewrite !star_height.
  rewrite (proj2 (Rltb_false 1 (1 / 2))) by lra. reflexivity.
Qed.

Lemma star_hfactor : hfactor (omp_inputs star) 0 = 0.
Proof.
  apply hfactor_dry.
  - change (r_minimum_allowed_height (omp_inputs star)) with (1 / 2). lra.
  - eapply Rle_trans; [apply Rmin_r|]. change (height1 (omp_inputs star) 0) with (omp_height star 0).
    rewrite star_height. change (r_minimum_allowed_height (omp_inputs star)) with (1 / 2). lra.
Qed.

Lemma star_height_edge i : omp_height_edge star 0 i = 1 / 4.
Proof.
  unfold omp_height_edge, omp_edge, omp_cell_jumps.
  change (r_number_of_boundaries (omp_inputs star) 0) with 0%Z. cbn [Z.eqb Z.leb Z.compare].
  rewrite star_hfactor. change (r_beta_w_dry star) with 0. unfold typical_jumps.
  rewrite (proj2 (Rltb_false 0 _)) by lra. rewrite star_height.
  destruct i as [|[|i]]; unfold jump, flat; cbn [fst snd]; lra.
Qed.

Lemma star_edge q : q 0%nat = 0 -> q 3%nat = 0 ->
  (q 1%nat = 1 -> q 2%nat = -1 -> omp_mom_edge star q (r_beta_uh star) (r_beta_uh_dry star) 0 0 = 1 / 40) /\
  (q 1%nat = 0 -> q 2%nat = 0 -> omp_mom_edge star q (r_beta_uh star) (r_beta_uh_dry star) 0 0 = 0).
Proof.
  intros Q0 Q3. pose proof tiny_pos as Ht. assert (T1 : tiny < 1 / 4).
  { unfold tiny. apply Rlt_le_trans with (/ 10 ^ 1); [|lra]. apply Rinv_lt_contravar.
    - apply Rmult_lt_0_compat; apply pow_lt; lra.
    - apply Rlt_pow; [lra|lia]. }
  unfold omp_mom_edge, omp_edge, omp_cell_jumps. change (r_velocity star =? 1)%Z with true. cbv iota.
  rewrite star_height_edge.
  change (r_number_of_boundaries (omp_inputs star) 0) with 0%Z. cbn [Z.eqb Z.leb Z.compare].
  rewrite star_hfactor. change (r_beta_uh_dry star) with (1 / 10). change (r_beta_uh star) with 1.
  replace (1 / 10 + (1 - 1 / 10) * 0) with (1 / 10) by lra. unfold typical_jumps.
  rewrite (proj2 (Rltb_true 0 (1 / 10))) by lra. rewrite jump_limited by lia.
  change (nb0 (omp_inputs star) 0) with 1%nat. change (nb1 (omp_inputs star) 0) with 2%nat.
  change (nb2 (omp_inputs star) 0) with 3%nat. rewrite Q0, Q3.
  assert (Ge : dx1 (omp_inputs star) 0 = -1 /\ dx2 (omp_inputs star) 0 = -2 /\ dy1 (omp_inputs star) 0 = 1 /\
               dy2 (omp_inputs star) 0 = -1).
  { unfold dx1, dx2, dy1, dy2, nb0, nb1, nb2. cbn. lra. }
  destruct Ge as (G1 & G2 & G3 & G4).
  assert (Ar : area2 (omp_inputs star) 0 = 3) by (unfold area2; rewrite G1, G2, G3, G4; lra).
  rewrite G1, G2, G3, G4, Ar.
  assert (Dv : dxv (omp_inputs star) 0 0 = 1 / 2 /\ dxv (omp_inputs star) 0 1 = 0 /\ dxv (omp_inputs star) 0 2 = - (1 / 2) /\
               dyv (omp_inputs star) 0 0 = 0 /\ dyv (omp_inputs star) 0 1 = 1 / 2 /\ dyv (omp_inputs star) 0 2 = - (1 / 2)).
  { unfold dxv, dyv. cbn. lra. }
  destruct Dv as (D1 & D2 & D3 & D4 & D5 & D6). split.
  - intros Q1 Q2. rewrite Q1, Q2.
    replace ((-1 * (-1 - 1) - 1 * (0 - 1)) * (1 / 3)) with 1 by field.
    replace ((-1 * (0 - 1) - -2 * (-1 - 1)) * (1 / 3)) with (-1) by field.
    unfold edge_jumps. rewrite D1, D2, D3, D4, D5, D6.
    unfold limit_phi, limit_step, jump. cbn [fst snd].
    replace (1 * (1 / 2) + -1 * 0) with (1 / 2) by field. replace (1 * 0 + -1 * (1 / 2)) with (- (1 / 2)) by field.
    replace (1 * - (1 / 2) + -1 * - (1 / 2)) with 0 by field.
    rewrite (proj2 (Rltb_false (1 / 2) (- tiny))), (proj2 (Rltb_true tiny (1 / 2))) by lra.
    rewrite (proj2 (Rltb_true (- (1 / 2)) (- tiny))), (proj2 (Rltb_false tiny (- (1 / 2)))) by lra.
    rewrite (proj2 (Rltb_false 0 (- tiny))), (proj2 (Rltb_false tiny 0)) by lra. cbn [fst snd].
    assert (M1 : find_qmax (1 - 0) (-1 - 1) (0 - 1) = 1) by (unfold find_qmax, Rmax; repeat destruct (Rle_dec _ _); lra).
    assert (M2 : find_qmin (1 - 0) (-1 - 1) (0 - 1) = -1) by (unfold find_qmin, Rmin; repeat destruct (Rle_dec _ _); lra).
    rewrite M1, M2. replace (1 / (1 / 2)) with 2 by field. replace (-1 / - (1 / 2)) with 2 by field.
    rewrite (Rmin_left 2 1000) by lra. rewrite !(Rmin_left 2 2) by lra. rewrite (Rmin_left (2 * (1 / 10)) 1) by lra. field.
  - intros Q1 Q2. rewrite Q1, Q2.
    replace ((-1 * (0 - 0) - 1 * (0 - 0)) * (1 / 3)) with 0 by field.
    replace ((-1 * (0 - 0) - -2 * (0 - 0)) * (1 / 3)) with 0 by field.
    unfold edge_jumps, jump at 1. cbn [fst snd]. ring.
Qed.

(** Iterations write only locations of their own triangle. *)
Lemma alone_other I k m a j : j <> k -> fst (alone loc_eqb (omp_extrapolate_iteration I k) m) (a, j) = m (a, j).
Proof.
  intros N.
  assert (RA : forall b js acc p m, (forall q, fst (alone loc_eqb (p q) m) (a, j) = m (a, j)) ->
    fst (@alone loc R unit loc_eqb (read_all b js acc p) m) (a, j) = m (a, j)).
  { intros b js. induction js as [|x js IH]; intros acc p mm H; cbn [read_all alone]; auto. }
  unfold omp_extrapolate_iteration. cbv zeta.
  assert (Ed : forall m, fst (alone loc_eqb (read_all XMom (omp_reads I k) (fun _ => 0) (fun qx =>
       Wr (XE 0, k) (omp_mom_edge I qx (r_beta_uh I) (r_beta_uh_dry I) k 0%nat) (Wr (XE 1, k) (omp_mom_edge I qx (r_beta_uh I) (r_beta_uh_dry I) k 1%nat) (Wr (XE 2, k) (omp_mom_edge I qx (r_beta_uh I) (r_beta_uh_dry I) k 2%nat)
      (read_all YMom (omp_reads I k) (fun _ => 0) (fun qy =>
       Wr (YE 0, k) (omp_mom_edge I qy (r_beta_vh I) (r_beta_vh_dry I) k 0%nat) (Wr (YE 1, k) (omp_mom_edge I qy (r_beta_vh I) (r_beta_vh_dry I) k 1%nat) (Wr (YE 2, k) (omp_mom_edge I qy (r_beta_vh I) (r_beta_vh_dry I) k 2%nat) (Ret tt))))))))) m) (a, j) = m (a, j)).
  { intros mm. apply RA. intros q. cbn [alone]. rewrite RA; [rewrite !put_index by auto; reflexivity|].
    intros r. cbn [alone fst]. rewrite !put_index by auto. reflexivity. }
  destruct (surrounded (omp_inputs I) k); cbn [alone]; rewrite Ed; rewrite ?put_index by auto; reflexivity.
Qed.

Lemma alone_read_all {A} a js (p : (nat -> R) -> prog loc R A) m : forall acc,
  exists q, alone loc_eqb (read_all a js acc p) m = alone loc_eqb (p q) m /\
    (forall j, In j js -> q j = m (a, j)) /\ (forall j, ~ In j js -> q j = acc j).
Proof.
  induction js as [|j js IH]; intros acc; cbn [read_all alone].
  - exists acc. split; [reflexivity|split; [intros j []|auto]].
  - destruct (IH (upd acc j (m (a, j)))) as (q & E & Q1 & Q2). exists q. split; [exact E|]. split.
    + intros x Hx. destruct (in_dec Nat.eq_dec x js) as [Hj|Hj]; [auto|]. destruct Hx as [<-|Hx]; [|contradiction].
      rewrite Q2 by exact Hj. apply upd_same.
    + intros x Hx. cbn [In] in Hx. rewrite Q2 by tauto. apply upd_other. intros ->. tauto.
Qed.

Lemma star_first m : m (XMom, 0%nat) = 0 -> m (XMom, 3%nat) = 0 ->
  (m (XMom, 1%nat) = 1 -> m (XMom, 2%nat) = -1 ->
     fst (alone loc_eqb (omp_extrapolate_iteration star 0) m) (XE 0, 0%nat) = 1 / 40) /\
  (m (XMom, 1%nat) = 0 -> m (XMom, 2%nat) = 0 ->
     fst (alone loc_eqb (omp_extrapolate_iteration star 0) m) (XE 0, 0%nat) = 0).
Proof.
  intros M0 M3. unfold omp_extrapolate_iteration. cbv zeta. rewrite star_not_surrounded.
  match goal with |- context [alone _ (read_all XMom ?js ?acc ?p) ?mm] =>
    destruct (alone_read_all XMom js p mm acc) as (q & E & Q1 & _) end.
  rewrite E. clear E. cbn [alone].
  match goal with |- context [alone _ (read_all YMom ?js ?acc ?p) ?mm] =>
    destruct (alone_read_all YMom js p mm acc) as (r & E & _ & _) end.
  rewrite E. clear E. cbn [alone fst]. putall.
  change (omp_reads star 0) with [0; 1; 2; 3]%nat in Q1.
  pose proof (Q1 0%nat ltac:(cbn [In]; auto)) as q0. pose proof (Q1 1%nat ltac:(cbn [In]; auto)) as q1.
  pose proof (Q1 2%nat ltac:(cbn [In]; auto)) as q2. pose proof (Q1 3%nat ltac:(cbn [In]; auto)) as q3.
  destruct (star_edge q ltac:(congruence) ltac:(congruence)) as [A B].
  split; intros H1 H2; [apply A|apply B]; congruence.
Qed.

Lemma star_zeroes k m : (1 <= k < 4)%nat -> fst (alone loc_eqb (omp_extrapolate_iteration star k) m) (XMom, k) = 0.
Proof.
  intros Hk. unfold omp_extrapolate_iteration. cbv zeta. rewrite star_surrounded by exact Hk. cbn [alone].
  match goal with |- context [alone _ (read_all XMom ?js ?acc ?p) ?mm] =>
    destruct (alone_read_all XMom js p mm acc) as (q & -> & _ & _) end. cbn [alone].
  match goal with |- context [alone _ (read_all YMom ?js ?acc ?p) ?mm] =>
    destruct (alone_read_all YMom js p mm acc) as (r & -> & _ & _) end. cbn [alone fst].
  putall. reflexivity.
Qed.

Lemma star_usable b : usable (star_dry b) /\ mesh_like (star_dry b).
Proof.
  split.
  - constructor.
    + reflexivity.
    + intros k _. discriminate.
    + intros k Hk. change (r_number_of_elements (star_dry b)) with 4%nat in Hk. destruct k as [|k].
      * right. left. split; [cbn; lia|]. unfold area2, dx1, dx2, dy1, dy2, nb0, nb1, nb2. cbn. lra.
      * right. right. destruct k as [|[|[|k]]]; [| | |lia]; (split; [reflexivity|discriminate]).
    + intros k i Hk Hi. change (r_number_of_elements (star_dry b)) with 4%nat in *.
      destruct k as [|[|[|[|k]]]]; try lia; destruct i as [|[|[|i]]]; try lia; cbn; lia.
  - constructor.
    + intros k i j Hk Hi E N. change (r_number_of_elements (star_dry b)) with 4%nat in *. subst j.
      destruct k as [|[|[|[|k]]]]; try lia; destruct i as [|[|[|i]]]; try lia; cbn in N |- *; try congruence;
        exists 0%nat + exists 1%nat + exists 2%nat; (split; [lia|reflexivity]).
    + intros k. unfold dxv, star_dry. cbn [r_ex r_cx]. destruct (le_lt_dec 4 k) as [L|L].
      * rewrite !nth_overflow by (cbn [length]; lia). destruct k as [|[|[|[|k]]]]; try lia. lra.
      * destruct k as [|[|[|[|k]]]]; try lia; cbn [nth Nat.mul Nat.add]; lra.
    + intros k. unfold dyv, star_dry. cbn [r_ey r_cy]. destruct (le_lt_dec 4 k) as [L|L].
      * rewrite !nth_overflow by (cbn [length]; lia). destruct k as [|[|[|[|k]]]]; try lia. lra.
      * destruct k as [|[|[|[|k]]]]; try lia; cbn [nth Nat.mul Nat.add]; lra.
Qed.

(** The hypotheses of [C65_default_parameters] can be met. *)
Example C65_default_parameters_example : exists I m m', usable I /\ mesh_like I /\
  r_beta_uh_dry I = 0 /\ r_beta_vh_dry I = 0 /\ omp_extrapolate I m m'.
Proof.
  destruct (star_usable 0) as [U M].
  destruct (proj2 (proj2 (C63_calls_end 0 (fun _ => 0) (fun _ => 0) (fun _ => 0%Z) 4 star_memory)) (omp_velocity_iteration (star_dry 0))) as (m1 & V).
  destruct (proj2 (proj2 (C63_calls_end 0 (fun _ => 0) (fun _ => 0) (fun _ => 0%Z) 4 m1)) (omp_extrapolate_iteration (star_dry 0))) as (m2 & W).
  destruct (proj2 (proj2 (C63_calls_end 0 (fun _ => 0) (fun _ => 0) (fun _ => 0%Z) 4 m2)) (omp_restore_iteration (star_dry 0))) as (m3 & X).
  exists (star_dry 0), star_memory, m3. refine (conj U (conj M (conj eq_refl (conj eq_refl _)))). exists m1, m2. auto.
Qed.

Theorem C65_interleaving_refuted :
  exists I m m1 m2, usable I /\ mesh_like I /\ (forall k, m (XMom, k) = r_xmom I k) /\
  omp_extrapolate I m m1 /\ omp_extrapolate I m m2 /\
  m1 (XE 0, 0%nat) = 1 / 40 /\ m2 (XE 0, 0%nat) = 0.
Proof.
  set (it := omp_extrapolate_iteration star).
  destruct (proj2 (proj2 (C63_calls_end 0 (fun _ => 0) (fun _ => 0) (fun _ => 0%Z) 4 star_memory)) (omp_velocity_iteration star))
    as (m1 & V).
  assert (X : m1 (XMom, 0%nat) = 0 /\ m1 (XMom, 1%nat) = 1 /\ m1 (XMom, 2%nat) = -1 /\ m1 (XMom, 3%nat) = 0).
  { pose proof (fun k Hk => proj1 (velocity_result star 4 star_memory m1 k Hk V)) as A.
    pose proof (A 0%nat ltac:(lia)) as A0. pose proof (A 1%nat ltac:(lia)) as A1.
    pose proof (A 2%nat ltac:(lia)) as A2. pose proof (A 3%nat ltac:(lia)) as A3. cbv zeta in A0, A1, A2, A3.
    rewrite star_height in A0, A1, A2, A3. change (r_velocity star =? 1)%Z with true in *.
    change (r_minimum_allowed_height star) with (1 / 2) in *.
    rewrite (proj2 (Rltb_false (1 / 2) (1 / 4))) in A0 by lra.
    rewrite (proj2 (Rltb_true (1 / 2) 1)) in A1, A2, A3 by lra.
    change (star_memory (XMom, 1%nat)) with 1 in A1. change (star_memory (XMom, 2%nat)) with (-1) in A2.
    change (star_memory (XMom, 3%nat)) with 0 in A3. lra. }
  destruct X as (X0 & X1 & X2 & X3).
  (* triangle 0 first *)
  set (ma := fst (sequential loc_eqb (map it (seq 0 4)) m1)).
  assert (Ha : omp_loop 4 it m1 ma) by (apply (resume 4 0 _ it _ it); constructor).
  (* triangles 1 and 2 first *)
  set (n1 := fst (alone loc_eqb (it 1%nat) m1)). set (n2 := fst (alone loc_eqb (it 2%nat) n1)).
  destruct (run_alone _ _ _ loc_eqb 4 1 (it 1%nat) m1 it ltac:(lia) eq_refl) as (c1 & ps1 & S1 & R1 & O1).
  destruct (run_alone _ _ _ loc_eqb 4 2 (it 2%nat) n1 ps1 ltac:(lia) ltac:(apply O1; lia)) as (c2 & ps2 & S2 & R2 & O2).
  set (mb := fst (sequential loc_eqb (map ps2 (seq 0 4)) n2)).
  assert (Hb : omp_loop 4 it m1 mb).
  { apply (resume 4 (c1 + c2)). eapply steps_trans; [exact S1|exact S2]. }
  destruct (proj2 (proj2 (C63_calls_end 0 (fun _ => 0) (fun _ => 0) (fun _ => 0%Z) 4 ma)) (omp_restore_iteration star)) as (ma' & Wa).
  destruct (proj2 (proj2 (C63_calls_end 0 (fun _ => 0) (fun _ => 0) (fun _ => 0%Z) 4 mb)) (omp_restore_iteration star)) as (mb' & Wb).
  exists star, star_memory, ma', mb'.
  refine (conj _ (conj _ (conj _ (conj _ (conj _ (conj _ _)))))).
  - apply star_usable.
  - apply star_usable.
  - reflexivity.
  - exists m1, ma. auto.
  - exists m1, mb. auto.
  - rewrite (proj1 (proj2 (proj2 (restore_result star 4 ma ma' 0 ltac:(lia) Wa)) 0%nat)).
    unfold ma. cbn [seq map sequential].
    destruct (star_first m1 X0 X3) as [A _]. specialize (A X1 X2). fold it in A.
    pose proof (alone_other star 1) as B1. pose proof (alone_other star 2) as B2. pose proof (alone_other star 3) as B3. fold it in B1, B2, B3.
    destruct (alone loc_eqb (it 0%nat) m1) as [u0 r0]. cbn [fst] in A.
    specialize (B1 u0 (XE 0) 0%nat ltac:(lia)). destruct (alone loc_eqb (it 1%nat) u0) as [u1 r1]. cbn [fst] in B1.
    specialize (B2 u1 (XE 0) 0%nat ltac:(lia)). destruct (alone loc_eqb (it 2%nat) u1) as [u2 r2]. cbn [fst] in B2.
    specialize (B3 u2 (XE 0) 0%nat ltac:(lia)). destruct (alone loc_eqb (it 3%nat) u2) as [u3 r3]. cbn [fst] in *. congruence.
  - rewrite (proj1 (proj2 (proj2 (restore_result star 4 mb mb' 0 ltac:(lia) Wb)) 0%nat)).
    unfold mb. cbn [seq map sequential]. rewrite (O2 0%nat), (O1 0%nat) by lia. rewrite (O2 1%nat), R1 by lia. rewrite R2.
    rewrite (O2 3%nat), (O1 3%nat) by lia.
    assert (Y : n2 (XMom, 0%nat) = 0 /\ n2 (XMom, 3%nat) = 0 /\ n2 (XMom, 1%nat) = 0 /\ n2 (XMom, 2%nat) = 0).
    { unfold n2, n1, it. rewrite (alone_other star 2 _ XMom 0), (alone_other star 2 _ XMom 1), (alone_other star 2 _ XMom 3) by lia.
      rewrite (alone_other star 1 _ XMom 0), (alone_other star 1 _ XMom 3) by lia. rewrite !star_zeroes by lia. auto. }
    destruct Y as (Y0 & Y3 & Y1 & Y2). destruct (star_first n2 Y0 Y3) as [_ A]. specialize (A Y1 Y2). fold it in A.
    pose proof (alone_other star 3) as B3. fold it in B3.
    destruct (alone loc_eqb (it 0%nat) n2) as [u0 r0]. cbn [fst alone] in *.
    specialize (B3 u0 (XE 0) 0%nat ltac:(lia)). destruct (alone loc_eqb (it 3%nat) u0) as [u3 r3]. cbn [fst] in *. congruence.
Qed.
Print Assumptions C65_interleaving_refuted.
