(** C108: the report of boundary flows, and the inflow boundary *)
From Coq Require Import String Reals List Arith Bool Lia Lra Permutation.
From Verif Require Import RealLib PolygonModel FlowReportModel FlowReportProofs.
Import ListNotations.
Local Open Scope R_scope.

(** Every tag gets the flow through its own edges, the tags together give the
    net flow, and inflow and outflow are its positive and negative parts. *)
Theorem C108_report d b flows inflow outflow : compute_boundary_flows d b = (flows, inflow, outflow) ->
  NoDup (map fst flows) /\ (forall tag, In tag (map fst flows) <-> In tag (map snd b)) /\
  (forall tag, value_of tag flows = Rsum (map (fun x => edge_flow d (fst (fst x)) (snd (fst x))) (filter (fun x => String.eqb (snd x) tag) b))) /\
  inflow = Rsum (map (fun x => Rmax 0 (edge_flow d (fst (fst x)) (snd (fst x)))) b) /\
  outflow = Rsum (map (fun x => Rmin 0 (edge_flow d (fst (fst x)) (snd (fst x)))) b) /\
  inflow + outflow = Rsum (map snd flows) /\
  inflow + outflow = - Rsum (map (fun x => let '(v, e, _) := x in (uh d v e * px (normal d v e) + vh d v e * py (normal d v e)) * edgelength d v e) b).
Proof.
  intros E. apply report_from in E as (A & B & C & D & F & G).
  split; [apply D; constructor|]. split; [intros tag; rewrite C; cbn; tauto|].
  split; [intros tag; rewrite A; cbn [value_of]; rewrite Rplus_0_l; reflexivity|].
  split; [rewrite F; unfold flow_at; lra|]. split; [rewrite G; unfold flow_at; lra|].
  assert (S1 : inflow + outflow = Rsum (map (flow_at d) b)).
  { rewrite F, G, !Rplus_0_l, <- Rsum_map_plus. apply Rsum_map_ext_in. intros x _.
    unfold Rmax, Rmin. destruct (Rle_dec 0 (flow_at d x)); lra. }
  split; [rewrite B; cbn [map Rsum]; lra|]. rewrite S1.
  clear. induction b as [|[[v e] t] b IH]; cbn [map Rsum]; [lra|]. rewrite IH. unfold flow_at at 1, edge_flow. cbn [fst snd]. lra.
Qed.
Print Assumptions C108_report.

(** A boundary object that is used for one tag lets its rate in, whatever the
    order of the edges. *)
Theorem C108_inflow_partial rate d b t own : NoDup (map fst b) -> Permutation own (edges_of b t) -> own <> [] ->
  unit_normals d own -> (forall v e, In (v, e) own -> 0 < edgelength d v e) ->
  exists m, inflow_step rate d b None own = Some (m, rate).
Proof.
  intros N P Ne U L. destruct own as [|[v e] own]; [congruence|].
  assert (I : In (v, e, t) b).
  { assert (K : In (v, e) (edges_of b t)) by (apply (Permutation_in _ P); left; reflexivity).
    unfold edges_of in K. apply in_map_iff in K as [[[v' e'] t'] [E K]]. apply filter_In in K as [K T]. unfold with_tag in T. cbn [snd] in T. apply String.eqb_eq in T.
    cbn [fst] in E. injection E; intros; subst. exact K. }
  exists (Some (t, rate / tag_length d b t)). rewrite (step_first d rate b v e t own N I U). f_equal. f_equal.
  rewrite tag_length_sum, <- (Rsum_perm _ _ (Permutation_map (fun e => edgelength d (fst e) (snd e)) P)).
  assert (Pos : 0 < Rsum (map (fun e => edgelength d (fst e) (snd e)) ((v, e) :: own))).
  { apply Rsum_pos; [discriminate|]. intros x K. apply in_map_iff in K as [[v' e'] [<- K]]. exact (L v' e' K). }
  field. lra.
Qed.
Print Assumptions C108_inflow_partial.

(** A case: three edges, two of them of the inflow tag *)
Definition square : edges :=
  {| uh := fun _ _ => 2; vh := fun _ _ => 0; normal := fun v _ => if (v =? 0)%nat then (-1, 0) else (1, 0);
     edgelength := fun v _ => INR (S v); elevation := fun _ _ => 5; friction := fun _ _ => 1 |}.
Definition sides : boundary := [(0, 0, "in"); (1, 0, "out"); (2, 1, "in")]%nat%string.
Example C108_case : exists flows, compute_boundary_flows square sides = (flows, 2, -10) /\ value_of "in" flows = -4 /\ value_of "out" flows = -4.
Proof.
  destruct (compute_boundary_flows square sides) as [[flows i] o] eqn:E. exists flows.
  apply C108_report in E as (_ & _ & V & I & O & _).
  unfold sides, edge_flow, square, px, py in I, O. cbn [map fst snd uh vh normal edgelength Nat.eqb Rsum INR] in I, O.
  rewrite Rmax_right, Rmax_left, Rmax_left in I by lra. rewrite Rmin_left, Rmin_right, Rmin_right in O by lra.
  split; [f_equal; [f_equal; lra|lra]|]. rewrite !V. unfold sides, edge_flow, square, px, py. cbn [filter snd String.eqb Ascii.eqb Bool.eqb map fst uh vh normal edgelength Nat.eqb Rsum INR].
  split; lra.
Qed.
Example C108_inflow_case : exists m, inflow_step 12 square sides None [(2, 1); (0, 0)]%nat = Some (m, 12).
Proof.
  apply (C108_inflow_partial 12 square sides "in"%string).
  - repeat constructor; cbn; intuition discriminate.
  - apply perm_swap.
  - discriminate.
  - intros v e [E|[E|[]]]; injection E; intros <- <-; unfold square, px, py; cbn; lra.
  - intros v e _. unfold square. cbn [edgelength]. rewrite S_INR. pose proof (pos_INR v). lra.
Qed.

(** One object for two tags: the length of the first tag only is used, so that
    more than the rate comes in. *)
Theorem C108_two_tags_refuted rate d b t1 t2 own1 own2 v e : NoDup (map fst b) -> In (v, e, t1) b ->
  Permutation ((v, e) :: own1) (edges_of b t1) -> Permutation own2 (edges_of b t2) -> own2 <> [] ->
  unit_normals d ((v, e) :: own1 ++ own2) -> (forall v' e', In (v', e') ((v, e) :: own1 ++ own2) -> 0 < edgelength d v' e') -> 0 < rate ->
  exists m total, inflow_step rate d b None ((v, e) :: own1 ++ own2) = Some (m, total) /\ rate < total.
Proof.
  intros N I P1 P2 Ne U L Rp. rewrite (step_first d rate b v e t1 (own1 ++ own2) N I U).
  eexists. eexists. split; [reflexivity|].
  change ((v, e) :: own1 ++ own2) with (((v, e) :: own1) ++ own2). rewrite map_app, Rsum_app.
  rewrite tag_length_sum, <- (Rsum_perm _ _ (Permutation_map (fun e => edgelength d (fst e) (snd e)) P1)).
  assert (Pos1 : 0 < Rsum (map (fun e => edgelength d (fst e) (snd e)) ((v, e) :: own1))).
  { apply Rsum_pos; [discriminate|]. intros x K. apply in_map_iff in K as [[v' e'] [<- K]]. apply L. change ((v, e) :: own1 ++ own2) with (((v, e) :: own1) ++ own2). apply in_app_iff. left; exact K. }
  assert (Pos2 : 0 < Rsum (map (fun e => edgelength d (fst e) (snd e)) own2)).
  { apply Rsum_pos; [destruct own2; [congruence|discriminate]|]. intros x K. apply in_map_iff in K as [[v' e'] [<- K]]. apply L. right. apply in_app_iff. right; exact K. }
  assert (G : forall l1 l2, 0 < l1 -> 0 < l2 -> rate < rate / l1 * (l1 + l2)).
  { intros l1 l2 H1 H2. replace (rate / l1 * (l1 + l2)) with (rate + rate * l2 * / l1) by (field; lra).
    assert (0 < rate * l2 * / l1) by (apply Rmult_lt_0_compat; [apply Rmult_lt_0_compat; lra|apply Rinv_0_lt_compat; lra]). lra. }
  apply G; assumption.
Qed.
Print Assumptions C108_two_tags_refuted.
Example C108_two_tags_case : exists m total, inflow_step 12 square sides None [(0, 0); (2, 1); (1, 0)]%nat = Some (m, total) /\ 12 < total.
Proof.
  apply (C108_two_tags_refuted 12 square sides "in"%string "out"%string [(2, 1)%nat] [(1, 0)%nat] 0 0).
  - repeat constructor; cbn; intuition discriminate.
  - left; reflexivity.
  - apply Permutation_refl.
  - apply Permutation_refl.
  - discriminate.
  - intros v e [E|[E|[E|[]]]]; injection E; intros <- <-; unfold square, px, py; cbn; lra.
  - intros v e _. unfold square. cbn [edgelength]. rewrite S_INR. pose proof (pos_INR v). lra.
  - lra.
Qed.

(** In a parallel run each process that holds edges of the tag lets in the
    whole rate. *)
Theorem C108_parallel_refuted rate d1 b1 own1 d2 b2 own2 t : NoDup (map fst b1) -> NoDup (map fst b2) ->
  Permutation own1 (edges_of b1 t) -> Permutation own2 (edges_of b2 t) -> own1 <> [] -> own2 <> [] ->
  unit_normals d1 own1 -> unit_normals d2 own2 ->
  (forall v e, In (v, e) own1 -> 0 < edgelength d1 v e) -> (forall v e, In (v, e) own2 -> 0 < edgelength d2 v e) ->
  exists m1 m2 total1 total2, inflow_step rate d1 b1 None own1 = Some (m1, total1) /\ inflow_step rate d2 b2 None own2 = Some (m2, total2) /\
    total1 + total2 = 2 * rate.
Proof.
  intros N1 N2 P1 P2 E1 E2 U1 U2 L1 L2.
  destruct (C108_inflow_partial rate d1 b1 t own1 N1 P1 E1 U1 L1) as [m1 H1].
  destruct (C108_inflow_partial rate d2 b2 t own2 N2 P2 E2 U2 L2) as [m2 H2].
  exists m1, m2, rate, rate. split; [exact H1|]. split; [exact H2|]. lra.
Qed.
Print Assumptions C108_parallel_refuted.
Example C108_parallel_case : exists m1 m2 total1 total2,
  inflow_step 12 square [(0, 0, "in"%string)]%nat None [(0, 0)]%nat = Some (m1, total1) /\
  inflow_step 12 square [(2, 1, "in"%string)]%nat None [(2, 1)]%nat = Some (m2, total2) /\ total1 + total2 = 2 * 12.
Proof.
  apply (C108_parallel_refuted 12 square [(0, 0, "in"%string)]%nat [(0, 0)]%nat square [(2, 1, "in"%string)]%nat [(2, 1)]%nat "in"%string);
    try apply Permutation_refl; try discriminate; try (repeat constructor; cbn; intuition discriminate);
    try (intros v e _; unfold square; cbn [edgelength]; rewrite S_INR; pose proof (pos_INR v); lra);
    intros v e [E|[]]; injection E; intros <- <-; unfold square, px, py; cbn; lra.
Qed.

(** The depth is 1 for every rate and friction; Manning's formula is never
    used. *)
Theorem C108_depth_refuted rate d b m vol edge m' w x y : inflow_evaluate rate d b m vol edge = Some (m', (w, x, y)) -> w = elevation d vol edge + 1.
Proof.
  unfold inflow_evaluate. destruct (match m with Some s => Some s | None => _ end) as [[t a]|]; [|discriminate].
  intros E. injection E; intros _ _ <- _. f_equal. unfold inflow_depth. cbv zeta.
  assert (P : 0 < / 10 ^ 12) by (apply Rinv_0_lt_compat, pow_lt; lra).
  rewrite (proj2 (Rltb_false (/ 10 ^ 12) 0)) by lra. reflexivity.
Qed.
Print Assumptions C108_depth_refuted.
Example C108_depth_case : exists m x y, inflow_evaluate 12 square sides None 0 0 = Some (m, (5 + inflow_depth (12 / tag_length square sides "in") 1, x, y)).
Proof. eexists. eexists. eexists. reflexivity. Qed.

(** At each edge the momentum is the average momentum along the inward normal,
    with no part along the edge; with a positive rate it points inwards. *)
Theorem C108_direction rate d b vol edge m' w x y : inflow_evaluate rate d b None vol edge = Some (m', (w, x, y)) ->
  px (normal d vol edge) * px (normal d vol edge) + py (normal d vol edge) * py (normal d vol edge) = 1 ->
  exists t, tag_of b vol edge = Some t /\ m' = Some (t, rate / tag_length d b t) /\
    x * px (normal d vol edge) + y * py (normal d vol edge) = - (rate / tag_length d b t) /\
    x * py (normal d vol edge) - y * px (normal d vol edge) = 0 /\
    (0 < rate -> 0 < tag_length d b t -> x * px (normal d vol edge) + y * py (normal d vol edge) < 0).
Proof.
  unfold inflow_evaluate. destruct (tag_of b vol edge) as [t|]; [|discriminate]. intros E U. exists t.
  remember (rate / tag_length d b t) as a eqn:Ea. injection E; intros <- <- _ <-.
  split; [reflexivity|]. split; [reflexivity|].
  assert (K : a * - px (normal d vol edge) * px (normal d vol edge) + a * - py (normal d vol edge) * py (normal d vol edge) = - a).
  { transitivity (- a * (px (normal d vol edge) * px (normal d vol edge) + py (normal d vol edge) * py (normal d vol edge))); [ring|rewrite U; ring]. }
  split; [exact K|]. split; [ring|]. intros Hr Hl. rewrite K. assert (0 < a) by (rewrite Ea; apply Rdiv_lt_0_compat; assumption). lra.
Qed.
Print Assumptions C108_direction.
Example C108_direction_case : exists m w x y, inflow_evaluate 12 square sides None 0 0 = Some (m, (w, x, y)) /\ x * -1 + y * 0 < 0.
Proof.
  eexists. eexists. eexists. eexists. split; [reflexivity|].
  unfold tag_length, sides, square, px, py. cbn [fold_left String.eqb Ascii.eqb Bool.eqb edgelength normal Nat.eqb fst snd INR].
  assert (0 < 12 / (0 + 1 + (1 + 1 + 1))) by (apply Rdiv_lt_0_compat; lra). lra.
Qed.
