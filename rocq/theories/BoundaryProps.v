(** C30, C59-C61: boundary conditions of the shallow water domain. *)
From Coq Require Import Reals List Arith Bool Lra Lia String.
From Verif Require Import RealLib ArrayLib BoundaryModel.
Import ListNotations.
Local Open Scope R_scope.

Lemma assign_get ids (f : nat -> R) : forall a j,
  assign ids f a j = if in_dec Nat.eq_dec j ids then f j else a j.
Proof.
  unfold assign. induction ids as [|i ids IH]; intros a j; [reflexivity|].
  cbn [fold_left]. rewrite IH.
  destruct (in_dec Nat.eq_dec j ids) as [h|h], (in_dec Nat.eq_dec j (i :: ids)) as [k|k];
    simpl in k; try reflexivity; try tauto.
  - destruct k as [->|]; [apply upd_same|tauto].
  - apply upd_other. intros ->. tauto.
Qed.

Lemma bv_assign_q q ids f d q' j :
  bv (assign_q q ids f d) q' j =
  if qty_eqb q' q then (if in_dec Nat.eq_dec j ids then f j else bv d q' j) else bv d q' j.
Proof.
  unfold assign_q, set_bv; cbn [bv]. destruct (qty_eqb q' q); [apply assign_get|reflexivity].
Qed.

(** The inputs of a boundary condition. *)
Definition same_inputs (d d' : bdom) : Prop :=
  cells d' = cells d /\ edges d' = edges d /\ normals d' = normals d /\ ev d' = ev d /\ cv d' = cv d.
Definition unit_normal (d : bdom) (j : nat) : Prop := n1_of d j ^ 2 + n2_of d j ^ 2 = 1.

(** Normal and tangential components at boundary edge [j] of a vector. *)
Definition normal_part (d : bdom) (j : nat) (x y : R) : R := n1_of d j * x + n2_of d j * y.
Definition tangential_part (d : bdom) (j : nat) (x y : R) : R := - n2_of d j * x + n1_of d j * y.

Ltac bsimp := repeat rewrite bv_assign_q; cbn [qty_eqb].
Ltac inids H := destruct (in_dec Nat.eq_dec _ _) as [_|n]; [|exfalso; exact (n H)].

(** ** C30 *)

(** Stage, bed and height are copied; the normal momentum changes sign and the
    tangential momentum is kept. *)
Theorem C30_reflects_momentum : forall d ids j, In j ids -> unit_normal d j ->
  let d' := reflective_segment d ids in
  bv d' Stage j = at_edge d Stage j /\ bv d' Elev j = at_edge d Elev j /\
  bv d' Height j = at_edge d Height j /\
  normal_part d j (bv d' Xmom j) (bv d' Ymom j)
    = - normal_part d j (at_edge d Xmom j) (at_edge d Ymom j) /\
  tangential_part d j (bv d' Xmom j) (bv d' Ymom j)
    = tangential_part d j (at_edge d Xmom j) (at_edge d Ymom j).
Proof.
  intros d ids j Hj U d'. unfold unit_normal in U.
  unfold d', reflective_segment, normal_part, tangential_part. bsimp.
  inids Hj. refine (conj eq_refl (conj eq_refl (conj eq_refl _))).
  set (a := n1_of d j) in *. set (b := n2_of d j) in *.
  set (x := at_edge d Xmom j). set (y := at_edge d Ymom j).
  assert (E : b^2 = 1 - a^2) by lra. split; ring_simplify.
  - replace (a ^ 2 * (- x * a - y * b)) with (- (a^2) * (x * a + y * b)) by ring.
    transitivity (- (a^2 + b^2) * (a * x + b * y)); [ring|]. rewrite U. ring.
  - transitivity ((a^2 + b^2) * (- b * x + a * y)); [ring|]. rewrite U. ring.
Qed.
Print Assumptions C30_reflects_momentum.

(** Nothing else changes. *)
Theorem C30_changes_only_the_segment : forall d ids,
  let d' := reflective_segment d ids in
  same_inputs d d' /\ forall q j, ~ In j ids -> bv d' q j = bv d q j.
Proof.
  intros d ids d'. split; [repeat split|]. intros q j Hj. unfold d', reflective_segment. bsimp.
  destruct (in_dec Nat.eq_dec j ids); [tauto|]. destruct q; reflexivity.
Qed.
Print Assumptions C30_changes_only_the_segment.

(** [evaluate] on the edge and [evaluate_segment] give the same conserved
    quantities. *)
Theorem C30_evaluate_agrees_with_segment : forall d ids j, In j ids ->
  let q := reflective_evaluate d (cells d j) (edges d j) in
  let d' := reflective_segment d ids in
  bv d' Stage j = c0 q /\ bv d' Xmom j = c1 q /\ bv d' Ymom j = c2 q.
Proof.
  intros d ids j Hj q d'. unfold d', reflective_segment, q, reflective_evaluate. bsimp.
  inids Hj. unfold rotate, rotate_c, conserved_at_edge, at_edge, n1_of, n2_of. cbn [c0 c1 c2].
  refine (conj eq_refl (conj _ _)); ring.
Qed.
Print Assumptions C30_evaluate_agrees_with_segment.

(** Reflecting a reflected state gives the original state back: if the edge
    values of [e] are what the boundary of [d] returned, then the boundary of
    [e] returns the edge values of [d]. *)
Theorem C30_twice_is_identity : forall d e ids ids' j, In j ids -> In j ids' ->
  unit_normal d j -> n1_of e j = n1_of d j -> n2_of e j = n2_of d j ->
  let d' := reflective_segment d ids in
  (forall q, In q [Stage; Elev; Height; Xmom; Ymom] -> at_edge e q j = bv d' q j) ->
  forall q, In q [Stage; Elev; Height; Xmom; Ymom] -> bv (reflective_segment e ids') q j = at_edge d q j.
Proof.
  intros d e ids ids' j Hj Hj' U N1 N2 d' He q Hq. unfold unit_normal in U.
  assert (H5 : forall q, In q [Stage; Elev; Height; Xmom; Ymom] -> bv (reflective_segment e ids') q j =
    match q with
    | Xmom => n1_of d j * (- at_edge e Xmom j * n1_of d j - at_edge e Ymom j * n2_of d j)
              - n2_of d j * (- at_edge e Xmom j * n2_of d j + at_edge e Ymom j * n1_of d j)
    | Ymom => n2_of d j * (- at_edge e Xmom j * n1_of d j - at_edge e Ymom j * n2_of d j)
              + n1_of d j * (- at_edge e Xmom j * n2_of d j + at_edge e Ymom j * n1_of d j)
    | q => at_edge e q j
    end).
  { intros p Hp. unfold reflective_segment. bsimp. inids Hj'. rewrite N1, N2.
    simpl in Hp. destruct Hp as [<-|[<-|[<-|[<-|[<-|[]]]]]]; reflexivity. }
  rewrite H5 by exact Hq. clear H5.
  rewrite (He Xmom), (He Ymom) by (simpl; tauto).
  unfold d', reflective_segment. bsimp. inids Hj.
  set (a := n1_of d j) in *. set (b := n2_of d j) in *.
  set (x := at_edge d Xmom j). set (y := at_edge d Ymom j).
  simpl in Hq. destruct Hq as [<-|[<-|[<-|[<-|[<-|[]]]]]].
  1-3: rewrite He by (simpl; tauto); unfold d', reflective_segment; bsimp; inids Hj; reflexivity.
  - transitivity ((a^2 + b^2)^2 * x); [ring|]. rewrite U. unfold x. ring.
  - transitivity ((a^2 + b^2)^2 * y); [ring|]. rewrite U. unfold y. ring.
Qed.
Print Assumptions C30_twice_is_identity.

(** Velocities are not reflected the same way: the signs are the opposite
    ones, the normal velocity is kept and the tangential one is reversed. *)
Theorem C30_velocity_has_opposite_sign : forall d ids j, In j ids -> unit_normal d j ->
  let d' := reflective_segment d ids in
  normal_part d j (bv d' Xvel j) (bv d' Yvel j)
    = normal_part d j (at_edge d Xvel j) (at_edge d Yvel j) /\
  tangential_part d j (bv d' Xvel j) (bv d' Yvel j)
    = - tangential_part d j (at_edge d Xvel j) (at_edge d Yvel j).
Proof.
  intros d ids j Hj U d'. unfold unit_normal in U.
  unfold d', reflective_segment, normal_part, tangential_part. bsimp. inids Hj.
  set (a := n1_of d j) in *. set (b := n2_of d j) in *.
  set (x := at_edge d Xvel j). set (y := at_edge d Yvel j). split.
  - transitivity ((a^2 + b^2) * (a * x + b * y)); [ring|]. rewrite U. ring.
  - transitivity (- (a^2 + b^2) * (- b * x + a * y)); [ring|]. rewrite U. ring.
Qed.
Print Assumptions C30_velocity_has_opposite_sign.

(** One triangle, one boundary edge with outward normal (1, 0). *)
Definition one_edge (e : qty -> R) (bed : R) : bdom :=
  {| cells := fun _ => 0%nat; edges := fun _ => 0%nat;
     normals := fun _ c => if Nat.even c then 1 else 0;
     ev := fun q _ _ => e q; cv := fun _ _ => bed; bv := fun _ _ => 0 |}.
(** Depth 2, momentum (4, 6), hence velocity (2, 3). *)
Definition flowing (q : qty) : R :=
  match q with Stage => 2 | Elev => 0 | Height => 2 | Xmom => 4 | Ymom => 6 | Xvel => 2 | Yvel => 3 end.

Theorem C30_velocity_refuted : exists d ids j, In j ids /\ unit_normal d j /\
  at_edge d Xmom j = at_edge d Height j * at_edge d Xvel j /\
  at_edge d Ymom j = at_edge d Height j * at_edge d Yvel j /\
  let d' := reflective_segment d ids in
  normal_part d j (bv d' Xvel j) (bv d' Yvel j)
    <> - normal_part d j (at_edge d Xvel j) (at_edge d Yvel j) /\
  bv d' Xmom j <> bv d' Height j * bv d' Xvel j.
Proof.
  exists (one_edge flowing 0), [0%nat], 0%nat.
  assert (U : unit_normal (one_edge flowing 0) 0%nat).
  { unfold unit_normal, n1_of, n2_of. simpl. lra. }
  refine (conj (or_introl eq_refl) (conj U (conj _ (conj _ _)))); try (cbn; lra).
  unfold reflective_segment, normal_part. cbn zeta. bsimp.
  destruct (in_dec Nat.eq_dec 0%nat [0%nat]) as [_|n]; [|exfalso; apply n; left; reflexivity].
  unfold at_edge, n1_of, n2_of. cbn. split; lra.
Qed.
Print Assumptions C30_velocity_refuted.

Example C30_example :
  let d' := reflective_segment (one_edge flowing 0) [0%nat] in
  bv d' Stage 0%nat = 2 /\ bv d' Xmom 0%nat = -4 /\ bv d' Ymom 0%nat = 6 /\ bv d' Xvel 0%nat = 2.
Proof.
  cbn zeta. unfold reflective_segment. bsimp.
  destruct (in_dec Nat.eq_dec 0%nat [0%nat]) as [_|n]; [|exfalso; apply n; left; reflexivity].
  unfold at_edge, n1_of, n2_of. cbn. repeat split; lra.
Qed.

(** ** C59: single-edge and segment evaluation *)

(** The conserved boundary values at [j]. *)
Definition conserved_bv (d : bdom) (j : nat) : cons :=
  {| c0 := bv d Stage j; c1 := bv d Xmom j; c2 := bv d Ymom j |}.

(** [evaluate] depends on the inputs only, so the base class loop sets each
    listed edge to what [evaluate] returns and leaves the others alone. *)
Theorem C59_base_segment : forall f d ids j,
  conserved_bv (base_segment f d ids) j =
  (if in_dec Nat.eq_dec j ids then f (cells d j) (edges d j) else conserved_bv d j) /\
  (forall q, In q [Elev; Height; Xvel; Yvel] -> bv (base_segment f d ids) q j = bv d q j) /\
  same_inputs d (base_segment f d ids).
Proof.
  intros f d ids. unfold base_segment. revert d.
  induction ids as [|i ids IH]; intros d j.
  - simpl. refine (conj eq_refl (conj _ _)); [reflexivity|repeat split].
  - cbn [fold_left]. cbn zeta.
    match goal with |- context [fold_left _ ids ?x] => set (d1 := x) end.
    destruct (IH d1 j) as (A & B & C).
    assert (I : same_inputs d d1) by (repeat split).
    destruct I as (I1 & I2 & I3 & I4 & I5). destruct C as (C1 & C2 & C3 & C4 & C5).
    refine (conj _ (conj _ _)).
    + rewrite A. rewrite I1, I2.
      destruct (in_dec Nat.eq_dec j ids) as [h|h], (in_dec Nat.eq_dec j (i :: ids)) as [k|k];
        simpl in k; try reflexivity; try tauto.
      * destruct k as [->|]; [|tauto]. unfold conserved_bv, d1. bsimp.
        destruct (in_dec Nat.eq_dec j [j]) as [_|n]; [|exfalso; apply n; left; reflexivity].
        destruct (f (cells d j) (edges d j)); reflexivity.
      * unfold conserved_bv, d1. bsimp.
        destruct (in_dec Nat.eq_dec j [i]) as [n|_]; [|reflexivity].
        destruct n as [->|[]]; tauto.
    + intros q Hq. rewrite B by exact Hq. unfold d1. bsimp.
      simpl in Hq. destruct Hq as [<-|[<-|[<-|[<-|[]]]]]; reflexivity.
    + repeat split; congruence.
Qed.
Print Assumptions C59_base_segment.

Theorem C59_transmissive : forall b d ids j, In j ids ->
  conserved_bv (transmissive_segment b d ids) j = transmissive_evaluate b d (cells d j) (edges d j).
Proof.
  intros b d ids j Hj. unfold transmissive_segment, transmissive_evaluate, conserved_bv. bsimp.
  inids Hj. destruct b; reflexivity.
Qed.
Print Assumptions C59_transmissive.

Theorem C59_dirichlet : forall q d ids j, In j ids ->
  conserved_bv (dirichlet_segment q d ids) j = dirichlet_evaluate q (cells d j) (edges d j).
Proof.
  intros q d ids j Hj. unfold dirichlet_segment, dirichlet_evaluate, conserved_bv. bsimp.
  inids Hj. destruct q; reflexivity.
Qed.
Print Assumptions C59_dirichlet.

(** Stage set, normal momentum kept, tangential momentum removed. *)
Theorem C59_transmissive_normal_momentum : forall x d ids j, In j ids ->
  let d' := trans_n_segment x d ids in
  conserved_bv d' j = trans_n_evaluate x d (cells d j) (edges d j) /\
  (unit_normal d j ->
   bv d' Stage j = x /\
   normal_part d j (bv d' Xmom j) (bv d' Ymom j)
     = normal_part d j (at_edge d Xmom j) (at_edge d Ymom j) /\
   tangential_part d j (bv d' Xmom j) (bv d' Ymom j) = 0).
Proof.
  intros x d ids j Hj d'. unfold d', trans_n_segment, conserved_bv, trans_n_evaluate, conserved_at_edge.
  bsimp. inids Hj. split.
  - cbn [c0 c1 c2]. unfold n1_of, n2_of, at_edge. f_equal; ring.
  - intros U. unfold unit_normal in U. unfold normal_part, tangential_part.
    set (a := n1_of d j) in *. set (b := n2_of d j) in *.
    set (p := at_edge d Xmom j). set (q := at_edge d Ymom j).
    refine (conj eq_refl (conj _ _)); [|ring].
    transitivity ((a^2 + b^2) * (a * p + b * q)); [ring|]. rewrite U. ring.
Qed.
Print Assumptions C59_transmissive_normal_momentum.

Lemma Rmax_pos_eq a : 0 < Rmax a 0 -> Rmax a 0 = a.
Proof. intros H. apply Rmax_left. destruct (Rle_dec 0 a); [lra|]. rewrite Rmax_right in H; lra. Qed.

(** What the vectorised Flather boundary does: on every edge whose outside
    stage is above the bed it imposes that stage and no momentum at all; it
    agrees with [evaluate] exactly on the other edges that are wet. *)
Theorem C59_flather_segment : forall g w d ids j, In j ids ->
  let d' := flather_segment g w d ids in
  let bed := cv d Elev (cells d j) in
  (bed < w -> conserved_bv d' j = {| c0 := w; c1 := 0; c2 := 0 |}) /\
  (w <= bed -> bed < at_edge d Stage j ->
     conserved_bv d' j = flather_evaluate g w d (cells d j) (edges d j)) /\
  (w = bed -> conserved_bv d' j = flather_evaluate g w d (cells d j) (edges d j)) /\
  (w < bed -> at_edge d Stage j <= bed ->
     conserved_bv d' j = {| c0 := at_edge d Elev j; c1 := 0; c2 := 0 |}).
Proof.
  intros g w d ids j Hj d' bed.
  assert (E : conserved_bv d' j =
    let v := flather_values g (n1_of d j) (n2_of d j) (at_edge d Stage j) (at_edge d Xmom j)
               (at_edge d Ymom j) (at_edge d Elev j) bed w in
    {| c0 := fst (fst v); c1 := snd (fst v); c2 := snd v |}).
  { unfold conserved_bv, d', flather_segment. cbn zeta. bsimp. inids Hj.
    reflexivity. }
  rewrite E. clear E d'. unfold flather_values. cbn zeta. cbn [fst snd].
  unfold flather_evaluate, conserved_at_edge. cbn [c0 c1 c2]. fold bed.
  change (ev d Stage (cells d j) (edges d j)) with (at_edge d Stage j).
  change (ev d Xmom (cells d j) (edges d j)) with (at_edge d Xmom j).
  change (ev d Ymom (cells d j) (edges d j)) with (at_edge d Ymom j).
  change (normals d (cells d j) (2 * edges d j)%nat) with (n1_of d j).
  change (normals d (cells d j) (2 * edges d j + 1)%nat) with (n2_of d j).
  replace (0 * at_edge d Stage j + w) with w by ring.
  refine (conj _ (conj _ (conj _ _))).
  - intros H. rewrite (proj2 (Rltb_true bed w) H), orb_true_r.
    rewrite (proj2 (Rleb_true bed w)) by lra. f_equal; ring.
  - intros H H1.
    assert (L : Rltb bed w = false) by (apply Rltb_false; lra).
    assert (P : Reqb (Rmax (at_edge d Stage j - bed) 0) 0 = false).
    { destruct (Reqb_spec (Rmax (at_edge d Stage j - bed) 0) 0); [|reflexivity].
      rewrite Rmax_left in e; lra. }
    rewrite L, P. cbn [orb].
    replace (0 * (n1_of d j * at_edge d Xmom j + n2_of d j * at_edge d Ymom j)) with 0 by ring.
    reflexivity.
  - intros ->. rewrite (proj2 (Rltb_false bed bed)) by lra.
    rewrite (proj2 (Rleb_true bed bed)) by lra. rewrite orb_false_r.
    replace (0 * (n1_of d j * at_edge d Xmom j + n2_of d j * at_edge d Ymom j)) with 0 by ring.
    destruct (Reqb _ 0); [f_equal; ring|reflexivity].
  - intros H H1. rewrite (Rmax_right (at_edge d Stage j - bed) 0) by lra.
    assert (P : Reqb 0 0 = true) by (destruct (Reqb_spec 0 0); congruence).
    rewrite P. cbn [orb].
    assert (L : Rleb bed w = false) by (apply Rleb_false; lra).
    rewrite L. f_equal; ring.
Qed.
Print Assumptions C59_flather_segment.

(** ** C60: radiation boundaries *)

(** The Flather ghost state keeps the outgoing (linearised) characteristic of
    the inside state and takes the incoming one from the outside stage; the
    tangential momentum is the inside one on outflow and zero on inflow. *)
Theorem C60_flather_characteristics : forall g w d j, 0 < g -> unit_normal d j ->
  let bed := cv d Elev (cells d j) in
  let h := at_edge d Stage j - bed in
  let c := sqrt (g / h) in
  let q := flather_evaluate g w d (cells d j) (edges d j) in
  let inside := normal_part d j (at_edge d Xmom j) (at_edge d Ymom j) in
  0 < h ->
  normal_part d j (c1 q) (c2 q) / h + c * c0 q = inside / h + c * at_edge d Stage j /\
  normal_part d j (c1 q) (c2 q) / h - c * c0 q = 0 - c * w /\
  tangential_part d j (c1 q) (c2 q) =
    if Rltb 0 inside then tangential_part d j (at_edge d Xmom j) (at_edge d Ymom j) else 0.
Proof.
  intros g w d j Hg U bed h c q inside Hh. unfold unit_normal in U.
  assert (Hc : 0 < c) by (apply sqrt_lt_R0, Rdiv_lt_0_compat; auto).
  assert (Hm : Rmax h 0 = h) by (apply Rmax_left; lra).
  unfold q, flather_evaluate, conserved_at_edge. cbn [c0 c1 c2].
  change (ev d Stage (cells d j) (edges d j)) with (at_edge d Stage j).
  change (ev d Xmom (cells d j) (edges d j)) with (at_edge d Xmom j).
  change (ev d Ymom (cells d j) (edges d j)) with (at_edge d Ymom j).
  change (normals d (cells d j) (2 * edges d j)%nat) with (n1_of d j).
  change (normals d (cells d j) (2 * edges d j + 1)%nat) with (n2_of d j).
  fold bed h. rewrite Hm. destruct (Reqb_spec h 0); [lra|]. fold c. cbn [c0 c1 c2].
  unfold inside, normal_part, tangential_part in *.
  generalize dependent c. intros c Hc.
  set (a := n1_of d j) in *. set (b := n2_of d j) in *.
  set (x := at_edge d Xmom j) in *. set (y := at_edge d Ymom j) in *.
  set (s := at_edge d Stage j) in *.
  set (t := if Rltb 0 (a * x + b * y) then (b * x - a * y) / h else 0).
  set (p := (a * x + b * y) / h + c * s + (0 - c * w)).
  assert (N : forall r z, a * (r * a + z * b) + b * (r * b - z * a) = r).
  { intros r z. transitivity ((a^2 + b^2) * r); [ring|]. rewrite U; ring. }
  assert (T : forall r z, - b * (r * a + z * b) + a * (r * b - z * a) = - z).
  { intros r z. transitivity (- (a^2 + b^2) * z); [ring|]. rewrite U; ring. }
  rewrite !N, T. refine (conj _ (conj _ _)).
  - unfold p. field. split; lra.
  - unfold p. field. split; lra.
  - unfold t. destruct (Rltb 0 (a * x + b * y)); field; lra.
Qed.
Print Assumptions C60_flather_characteristics.

(** Water at rest at the outside level is a fixed point of both radiation
    boundaries. *)
Theorem C60_lake_at_rest_flather : forall g d j, 0 < g ->
  cv d Elev (cells d j) < at_edge d Stage j ->
  at_edge d Xmom j = 0 -> at_edge d Ymom j = 0 ->
  flather_evaluate g (at_edge d Stage j) d (cells d j) (edges d j)
    = {| c0 := at_edge d Stage j; c1 := 0; c2 := 0 |}.
Proof.
  intros g d j Hg Hw Hx Hy. unfold flather_evaluate, conserved_at_edge. cbn [c0 c1 c2].
  change (ev d Stage (cells d j) (edges d j)) with (at_edge d Stage j).
  change (ev d Xmom (cells d j) (edges d j)) with (at_edge d Xmom j).
  change (ev d Ymom (cells d j) (edges d j)) with (at_edge d Ymom j).
  rewrite Hx, Hy. set (h := at_edge d Stage j - cv d Elev (cells d j)).
  assert (Hh : 0 < h) by (unfold h; lra). rewrite (Rmax_left h 0) by lra.
  destruct (Reqb_spec h 0); [lra|].
  assert (Hc : 0 < sqrt (g / h)) by (apply sqrt_lt_R0, Rdiv_lt_0_compat; auto).
  set (c := sqrt (g / h)) in *.
  rewrite (proj2 (Rltb_false 0 _)) by lra. f_equal; field; lra.
Qed.
Print Assumptions C60_lake_at_rest_flather.

Lemma char_segment_values g w d ids j : In j ids ->
  let v := char_values g (n1_of d j) (n2_of d j) (at_edge d Stage j) (at_edge d Xmom j)
             (at_edge d Ymom j) (at_edge d Elev j) w in
  conserved_bv (char_segment g w d ids) j = {| c0 := fst (fst v); c1 := snd (fst v); c2 := snd v |} /\
  bv (char_segment g w d ids) Elev j = at_edge d Elev j.
Proof.
  intros Hj v. unfold conserved_bv, char_segment, v. cbn zeta. bsimp. inids Hj.
  split; reflexivity.
Qed.

(** In the wet case the Characteristic boundary builds the state with the
    outgoing Riemann invariant u + 2 sqrt(g h) of the inside and the incoming
    invariant u - 2 sqrt(g h) of still water at the outside level, provided
    the flow is subcritical enough for the square root to be the base. *)
Theorem C60_characteristic_riemann_invariants : forall g w d ids j, 0 < g -> In j ids ->
  unit_normal d j ->
  let el := at_edge d Elev j in
  let h := at_edge d Stage j - el in
  let ho := w - el in
  let inside := normal_part d j (at_edge d Xmom j) (at_edge d Ymom j) in
  let d' := char_segment g w d ids in
  let hm := bv d' Stage j - el in
  let um := normal_part d j (bv d' Xmom j) (bv d' Ymom j) / hm in
  0 < h -> 0 < ho -> - (2 * sqrt g * (sqrt h + sqrt ho)) < inside / h ->
  0 < hm /\
  um + 2 * sqrt g * sqrt hm = inside / h + 2 * sqrt g * sqrt h /\
  um - 2 * sqrt g * sqrt hm = - (2 * sqrt g * sqrt ho) /\
  tangential_part d j (bv d' Xmom j) (bv d' Ymom j) =
    if Rltb 0 inside then tangential_part d j (at_edge d Xmom j) (at_edge d Ymom j) else 0.
Proof.
  intros g w d ids j Hg Hj U el h ho inside d' hm um Hh Hho Hsub. unfold unit_normal in U.
  destruct (char_segment_values g w d ids j Hj) as (E & _). fold d' in E.
  pose proof (f_equal c0 E) as E0. pose proof (f_equal c1 E) as E1. pose proof (f_equal c2 E) as E2.
  unfold conserved_bv in E0, E1, E2. cbn [c0 c1 c2] in E0, E1, E2. clear E.
  unfold char_values in E0, E1, E2. cbn [fst snd] in E0, E1, E2.
  fold el in E0, E1, E2. fold h in E0, E1, E2.
  replace (0 * at_edge d Stage j + w - el) with ho in E0, E1, E2 by (unfold ho; ring).
  rewrite (Rmax_left h 0), (Rmax_left ho 0) in E0, E1, E2 by lra.
  assert (Z1 : Reqb h 0 = false) by (destruct (Reqb_spec h 0); [lra|reflexivity]).
  assert (Z2 : Reqb ho 0 = false) by (destruct (Reqb_spec ho 0); [lra|reflexivity]).
  rewrite Z1, Z2 in E0, E1, E2. cbn [orb] in E0, E1, E2.
  rewrite (proj2 (Rltb_true 0 h) Hh) in E0, E1, E2.
  fold (normal_part d j (at_edge d Xmom j) (at_edge d Ymom j)) in E0, E1, E2. fold inside in E0, E1, E2.
  assert (Hs : 0 < sqrt g) by (apply sqrt_lt_R0; auto).
  assert (Hi : 0 < sqrt h) by (apply sqrt_lt_R0; auto).
  assert (Ho : 0 < sqrt ho) by (apply sqrt_lt_R0; auto).
  set (u := inside / h) in *. set (sg := sqrt g) in *. set (si := sqrt h) in *. set (so := sqrt ho) in *.
  set (base := 1/2 * (si + so) + u / 4 / sg) in *.
  assert (Hb : 0 < base).
  { unfold base. apply Rmult_lt_reg_l with (4 * sg); [lra|]. rewrite Rmult_0_r.
    replace (4 * sg * (1/2 * (si + so) + u / 4 / sg)) with (2 * sg * (si + so) + u) by (field; lra). lra. }
  assert (Hhm : hm = base ^ 2) by (unfold hm; rewrite E0; ring).
  assert (Hp : 0 < hm) by (rewrite Hhm; apply pow_lt; auto).
  assert (Hsq : sqrt hm = base) by (rewrite Hhm; apply sqrt_pow2; lra).
  set (a := n1_of d j) in *. set (b := n2_of d j) in *.
  assert (Hum : um = 1/2 * u + sg * (si - so)).
  { unfold um, normal_part. fold a b. rewrite E1, E2, <- Hhm.
    set (r := 1/2 * u + sg * (si - so)).
    match goal with |- context [if Rltb 0 inside then ?v else 0] =>
      set (z := if Rltb 0 inside then v else 0) end.
    replace (a * (hm * r * a + z * b) + b * (hm * r * b - z * a)) with ((a^2 + b^2) * (hm * r)) by ring.
    rewrite U. field. lra. }
  rewrite Hsq, Hum. refine (conj Hp (conj _ (conj _ _))).
  - unfold base. field. lra.
  - unfold base. field. lra.
  - unfold tangential_part. fold a b. rewrite E1, E2. destruct (Rltb 0 inside).
    + set (x := at_edge d Xmom j). set (y := at_edge d Ymom j).
      transitivity (- (a^2 + b^2) * (b * x - a * y)); [ring|]. rewrite U. ring.
    + ring.
Qed.
Print Assumptions C60_characteristic_riemann_invariants.

Theorem C60_lake_at_rest_characteristic : forall g d ids j, 0 < g -> In j ids ->
  at_edge d Elev j < at_edge d Stage j -> at_edge d Xmom j = 0 -> at_edge d Ymom j = 0 ->
  conserved_bv (char_segment g (at_edge d Stage j) d ids) j
    = {| c0 := at_edge d Stage j; c1 := 0; c2 := 0 |}.
Proof.
  intros g d ids j Hg Hj Hw Hx Hy.
  destruct (char_segment_values g (at_edge d Stage j) d ids j Hj) as (-> & _).
  unfold char_values. cbn [fst snd]. rewrite Hx, Hy.
  replace (0 * at_edge d Stage j + at_edge d Stage j) with (at_edge d Stage j) by ring.
  set (h := at_edge d Stage j - at_edge d Elev j). assert (Hh : 0 < h) by (unfold h; lra).
  rewrite (Rmax_left h 0) by lra. destruct (Reqb_spec h 0); [lra|]. cbn [orb].
  rewrite (proj2 (Rltb_true 0 h) Hh), (proj2 (Rltb_false 0 (n1_of d j * 0 + n2_of d j * 0))) by lra.
  assert (Q : sqrt h ^ 2 = h) by (apply pow2_sqrt; lra).
  assert (Hs : 0 < sqrt g) by (apply sqrt_lt_R0; auto).
  replace (1 / 2 * (sqrt h + sqrt h) + (n1_of d j * 0 + n2_of d j * 0) / h / 4 / sqrt g) with (sqrt h)
    by (field; split; lra).
  rewrite Q. f_equal; try (field; lra). unfold h; ring.
Qed.
Print Assumptions C60_lake_at_rest_characteristic.

(** The stage returned is above the bed when the outside stage is, and it is
    below the bed whenever the outside stage is (the corrected dry value
    [q0_dry] is computed and not used). *)
Theorem C60_characteristic_stage_and_bed : forall g w d ids j, 0 < g -> In j ids ->
  let d' := char_segment g w d ids in
  (bv d' Elev j <= w -> bv d' Elev j <= bv d' Stage j) /\
  (w < bv d' Elev j -> bv d' Stage j = w /\ bv d' Xmom j = 0 /\ bv d' Ymom j = 0).
Proof.
  intros g w d ids j Hg Hj d'.
  destruct (char_segment_values g w d ids j Hj) as (E & F). fold d' in E, F.
  pose proof (f_equal c0 E) as E0. pose proof (f_equal c1 E) as E1. pose proof (f_equal c2 E) as E2.
  unfold conserved_bv in E0, E1, E2. cbn [c0 c1 c2] in E0, E1, E2. clear E. rewrite F.
  unfold char_values in E0, E1, E2. cbn [fst snd] in E0, E1, E2.
  replace (0 * at_edge d Stage j + w) with w in E0, E1, E2 by ring.
  split; intros H.
  - rewrite E0. destruct (_ || _); [exact H|].
    match goal with |- context [?b ^ 2 + _] => pose proof (pow2_ge_0 b) end. lra.
  - rewrite (Rmax_right (w - at_edge d Elev j) 0) in E0, E1, E2 by lra.
    assert (P : Reqb 0 0 = true) by (destruct (Reqb_spec 0 0); congruence).
    rewrite P, orb_true_r in E0, E1, E2. auto.
Qed.
Print Assumptions C60_characteristic_stage_and_bed.

(** Both radiation boundaries can return a stage below the bed, and the
    vectorised Flather boundary stops water at rest conditions from
    radiating: a wave running out through the edge is met by the outside
    stage with zero momentum. *)
Theorem C60_stage_below_bed_refuted :
  (exists g w d ids j, 0 < g /\ In j ids /\ unit_normal d j /\
     at_edge d Elev j < at_edge d Stage j /\
     bv (char_segment g w d ids) Stage j < bv (char_segment g w d ids) Elev j).
Proof.
  exists 10, (-1), (one_edge flowing 0), [0%nat], 0%nat.
  assert (L : 0 < 10) by lra.
  refine (conj L (conj (or_introl eq_refl) (conj _ (conj _ _)))).
  - unfold unit_normal, n1_of, n2_of. simpl. lra.
  - cbn. lra.
  - destruct (char_segment_values 10 (-1) (one_edge flowing 0) [0%nat] 0%nat (or_introl eq_refl)) as (_ & F).
    destruct (C60_characteristic_stage_and_bed 10 (-1) (one_edge flowing 0) [0%nat] 0%nat L
                (or_introl eq_refl)) as (_ & H).
    rewrite F in *. unfold at_edge in *. cbn [ev one_edge flowing] in *.
    destruct H as (-> & _); lra.
Qed.
Print Assumptions C60_stage_below_bed_refuted.

(** The two evaluations of the Flather boundary disagree on an ordinary wet
    edge. *)
Theorem C59_flather_refuted : exists g w d ids j,
  0 < g /\ In j ids /\ unit_normal d j /\ cv d Elev (cells d j) < w /\
  cv d Elev (cells d j) < at_edge d Stage j /\
  c1 (conserved_bv (flather_segment g w d ids) j)
    <> c1 (flather_evaluate g w d (cells d j) (edges d j)).
Proof.
  exists 2, 2, (one_edge flowing 0), [0%nat], 0%nat.
  refine (conj _ (conj (or_introl eq_refl) (conj _ (conj _ (conj _ _))))); try (cbn; lra).
  - unfold unit_normal, n1_of, n2_of. simpl. lra.
  - destruct (C59_flather_segment 2 2 (one_edge flowing 0) [0%nat] 0%nat (or_introl eq_refl)) as (H & _).
    rewrite H by (cbn; lra). cbn [c1].
    unfold flather_evaluate, conserved_at_edge. cbn -[sqrt Rmax Rltb Reqb Rmult Rplus Rdiv Rminus].
    rewrite (Rmax_left (2 - 0) 0) by lra. destruct (Reqb_spec (2 - 0) 0); [lra|].
    assert (E : sqrt (2 / (2 - 0)) = 1).
    { replace (2 / (2 - 0)) with 1 by lra. apply sqrt_1. }
    cbn [c1]. rewrite E. lra.
Qed.
Print Assumptions C59_flather_refuted.

Example C59_example : forall j, In j [0%nat] ->
  conserved_bv (trans_n_segment 7 (one_edge flowing 0) [0%nat]) j = {| c0 := 7; c1 := 4; c2 := 0 |}.
Proof.
  intros j Hj. destruct (C59_transmissive_normal_momentum 7 (one_edge flowing 0) [0%nat] j Hj) as (-> & _).
  unfold trans_n_evaluate, conserved_at_edge. cbn. f_equal; ring.
Qed.

(** A still lake of depth 2 seen by both radiation boundaries. *)
Definition still (q : qty) : R :=
  match q with Stage => 2 | Height => 2 | _ => 0 end.
Example C60_example :
  flather_evaluate 10 2 (one_edge still 0) 0 0 = {| c0 := 2; c1 := 0; c2 := 0 |} /\
  conserved_bv (char_segment 10 2 (one_edge still 0) [0%nat]) 0 = {| c0 := 2; c1 := 0; c2 := 0 |}.
Proof.
  split.
  - apply (C60_lake_at_rest_flather 10 (one_edge still 0) 0); cbn; lra.
  - apply (C60_lake_at_rest_characteristic 10 (one_edge still 0) [0%nat] 0); cbn; try lra; auto.
Qed.

(** ** C61: values of time dependent boundaries *)

(** A constructed Time_boundary can be evaluated at every time; a constructed
    Time_stage_zero_momentum_boundary raises at every time. *)
Theorem C61_time_boundary_evaluates : forall f t,
  get_boundary_values (time_boundary_init f) t = Some (f t) /\
  get_boundary_values (trans_n_init f) t = Some (f t).
Proof. split; reflexivity. Qed.
Print Assumptions C61_time_boundary_evaluates.

Theorem C61_time_stage_zero_momentum_refuted : forall f t d ids,
  time_stage_zero_segment (time_stage_zero_momentum_init f) t d ids = None.
Proof. reflexivity. Qed.
Print Assumptions C61_time_stage_zero_momentum_refuted.

(** A default is used exactly after the end of the function's time range; too
    early times are never covered. *)
Theorem C61_default_boundary : forall f default t,
  (forall x, boundary_value f default t = Some x <->
     f t = Value x \/ (f t = TooLate /\ default = Some x)) /\
  (f t = TooEarly -> boundary_value f default t = None).
Proof.
  intros f default t. unfold boundary_value. split.
  - intros x. destruct (f t); split; intros H; try discriminate; try (destruct H as [H|(H & K)]; congruence).
    + injection H as ->. auto.
    + auto.
  - intros ->. reflexivity.
Qed.
Print Assumptions C61_default_boundary.

(** The time rolled over the end of the function is the original time reduced
    by whole periods, into the interval (0, tlast]. *)
Theorem C61_roll_over : forall tlast t, 0 < tlast ->
  exists fuel t' k, roll_over fuel tlast t = Some t' /\ t' = t - INR k * tlast /\ t' <= tlast /\
    (t <= tlast -> t' = t) /\ (tlast < t -> 0 < t').
Proof.
  intros T t HT.
  assert (G : forall n t, t <= INR n * T + T ->
    exists t' k, roll_over (S n) T t = Some t' /\ t' = t - INR k * T /\ t' <= T /\
      (t <= T -> t' = t) /\ (T < t -> 0 < t')).
  { induction n as [|n IH]; intros s Hs.
    - simpl in Hs. exists s, 0%nat. cbn [roll_over].
      rewrite (proj2 (Rltb_false T s)) by lra. simpl. repeat split; lra.
    - rewrite S_INR in Hs. cbn [roll_over]. destruct (Rltb_spec T s).
      + destruct (IH (s - T)) as (t' & k & A & B & C & D & E); [lra|].
        exists t', (S k). cbn [roll_over] in A. rewrite A, S_INR. repeat split; try lra.
      + exists s, 0%nat. simpl. repeat split; lra. }
  assert (Hn : exists n, t / T < INR n).
  { destruct (archimed (t / T)) as (A & _). exists (Z.to_nat (Z.max 0 (up (t / T)))).
    rewrite INR_IZR_INZ, Z2Nat.id by lia. eapply Rlt_le_trans; [apply A|]. apply IZR_le. lia. }
  destruct Hn as (n & Hn).
  destruct (G n t) as (t' & k & H).
  - assert (t < INR n * T); [|lra]. apply Rmult_lt_reg_r with (/ T); [apply Rinv_0_lt_compat; auto|].
    replace (INR n * T * / T) with (INR n) by (field; lra). exact Hn.
  - exists (S n), t', k. exact H.
Qed.
Print Assumptions C61_roll_over.

(** With a last time at or before zero the loop does not end. *)
Theorem C61_roll_over_diverges : forall tlast t, tlast <= 0 -> tlast < t ->
  forall fuel, roll_over fuel tlast t = None.
Proof.
  intros T t HT Ht fuel. revert t Ht. induction fuel as [|n IH]; intros t Ht; [reflexivity|].
  cbn [roll_over]. rewrite (proj2 (Rltb_true T t) Ht). apply IH. lra.
Qed.
Print Assumptions C61_roll_over_diverges.

Example C61_example : roll_over 5 10 23 = Some 3.
Proof.
  cbn [roll_over]. repeat (rewrite (proj2 (Rltb_true _ _)) by lra).
  rewrite (proj2 (Rltb_false _ _)) by lra. f_equal. lra.
Qed.
