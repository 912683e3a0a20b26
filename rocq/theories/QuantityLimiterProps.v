(** C82: the slope limiters of the quantities. *)
From Coq Require Import Reals String List ZArith Arith Bool Lia Lra Psatz.
From Verif Require Import RealLib ArrayLib CentroidModel GradientModel QuantityLimiterModel QuantityLimiterProofs.
Import ListNotations.
Local Open Scope R_scope.

Ltac list_eq tac :=
  repeat match goal with
  | |- _ :: _ = _ :: _ => apply (f_equal2 cons)
  | |- [] = [] => reflexivity
  end; cbv beta; tac.

Lemma list3_inj (a b c x y z : R) : [a; b; c] = [x; y; z] -> a = x /\ b = y /\ c = z.
Proof. intros H. now injection H. Qed.

Definition edges (c : cell) : list R := [c_e0 c; c_e1 c; c_e2 c].
Definition vertices (c : cell) : list R := [c_v0 c; c_v1 c; c_v2 c].

(** [c'] is [c] with every deviation from [qc] multiplied by [phi]. *)
Definition scaled_edges (phi qc : R) (c c' : cell) : Prop :=
  edges c' = map (fun e => qc + phi * (e - qc)) (edges c).
Definition scaled_vertices (phi qc : R) (c c' : cell) : Prop :=
  vertices c' = map (fun v => qc + phi * (v - qc)) (vertices c).
Definition scaled_gradient (phi : R) (c c' : cell) : Prop :=
  c_gx c' = phi * c_gx c /\ c_gy c' = phi * c_gy c.

(** The values are those of a linear function with the stored gradient and
    value [qc] at the centroid. *)
Definition linear (M : gmesh) (k : nat) (qc : R) (c : cell) : Prop :=
  let v i := qc + c_gx c * (g_vx M (3 * k + i) - g_cx M k) + c_gy c * (g_vy M (3 * k + i) - g_cy M k) in
  vertices c = [v 0%nat; v 1%nat; v 2%nat] /\
  edges c = [(v 1%nat + v 2%nat) / 2; (v 2%nat + v 0%nat) / 2; (v 0%nat + v 1%nat) / 2].
Definition centroid_is_mean (M : gmesh) (k : nat) : Prop :=
  g_vx M (3 * k + 0) + g_vx M (3 * k + 1) + g_vx M (3 * k + 2) = 3 * g_cx M k /\
  g_vy M (3 * k + 0) + g_vy M (3 * k + 1) + g_vy M (3 * k + 2) = 3 * g_cy M k.

(** Every value of [l] lies in the range of the centroid values of [k] and
    its neighbours. *)
Definition within (q : nat -> R) (nb : nat -> Z) (k : nat) (l : list R) : Prop :=
  forall x, In x l -> forall m M, below q nb k m -> above q nb k M -> m <= x <= M.
(** The same with the range stretched about [q k] by the factor [beta]. *)
Definition within_factor (beta : R) (q : nat -> R) (nb : nat -> Z) (k : nat) (l : list R) : Prop :=
  forall x, In x l -> forall m M, below q nb k m -> above q nb k M ->
  q k + beta * (m - q k) <= x <= q k + beta * (M - q k).

Lemma scaled_within beta q nb k phi l :
  0 <= beta ->
  (forall d, In d (map (fun e => e - q k) l) ->
     beta * (nb_min q nb k - q k) <= phi * d <= beta * (nb_max q nb k - q k)) ->
  within_factor beta q nb k (map (fun e => q k + phi * (e - q k)) l).
Proof.
  intros Hb H x Hx m M Hm HM. apply in_map_iff in Hx as (e & <- & He).
  assert (Hd : In (e - q k) (map (fun e => e - q k) l)) by (now apply (in_map (fun e => e - q k))).
  apply H in Hd. apply nb_min_spec in Hm. apply nb_max_spec in HM. split; nra.
Qed.

Lemma factor_one beta q nb k l : 0 <= beta <= 1 -> within_factor beta q nb k l -> within q nb k l.
Proof.
  intros Hb H x Hx m M Hm HM. specialize (H x Hx m M Hm HM).
  destruct Hm as [Hm _], HM as [HM _]. nra.
Qed.

Lemma phi_of q nb beta k l0 l1 l2 : 0 <= beta ->
  let phi := limit_phi3 beta (nb_min q nb k) (nb_max q nb k) (q k) (l0 - q k) (l1 - q k) (l2 - q k) in
  0 <= phi <= 1 /\
  within_factor beta q nb k (map (fun e => q k + phi * (e - q k)) [l0; l1; l2]).
Proof.
  intros Hb. cbn zeta.
  destruct (limit_phi3_spec beta (nb_min q nb k) (nb_max q nb k) (q k) Hb
             (proj1 (nb_min_spec q nb k)) (proj1 (nb_max_spec q nb k)) (l0 - q k) (l1 - q k) (l2 - q k)) as [H1 H2].
  split; [exact H1 |]. apply scaled_within; [assumption |]. exact H2.
Qed.

(** [_limit_edges_by_all_neighbours]: one factor between 0 and 1 for the edge
    values and the gradient of a triangle; the edge values end in the range
    of the neighbouring centroids stretched by [beta], in the range itself
    if beta <= 1. *)
Theorem C82_edge_limiter :
  forall beta q nb N st k, 0 <= beta -> (k < N)%nat ->
  let c := read_cell st k in
  let c' := read_cell (limit_edges_by_all_neighbours beta q nb N st) k in
  (exists phi, 0 <= phi <= 1 /\ scaled_edges phi (q k) c c' /\ scaled_gradient phi c c') /\
  within_factor beta q nb k (edges c') /\
  (beta <= 1 -> within q nb k (edges c')) /\
  vertices c' = [c_e1 c' + c_e2 c' - c_e0 c'; c_e2 c' + c_e0 c' - c_e1 c'; c_e0 c' + c_e1 c' - c_e2 c'].
Proof.
  intros beta q nb N st k Hb Hk c c'.
  assert (E : c' = limit_edges_cell beta q nb k c) by (apply cell_loop_read; assumption).
  clearbody c'. subst c'. unfold limit_edges_cell.
  destruct (phi_of q nb beta k (c_e0 c) (c_e1 c) (c_e2 c) Hb) as [H1 H2].
  set (phi := limit_phi3 _ _ _ _ _ _ _) in *. cbn [cell_from_edges].
  assert (W : within_factor beta q nb k (edges (cell_from_edges (q k) phi (c_e0 c - q k) (c_e1 c - q k) (c_e2 c - q k) (c_gx c * phi) (c_gy c * phi))))
    by exact H2.
  split; [| split; [exact W | split; [| reflexivity]]].
  - exists phi. split; [exact H1 |]. split; [reflexivity |]. split; cbn; ring.
  - intros. apply (factor_one beta); [lra | exact W].
Qed.
Print Assumptions C82_edge_limiter.

(** [_limit_vertices_by_all_neighbours]: the same for the vertex values; the
    edge values are the midpoints and obey the same bounds. *)
Theorem C82_vertex_limiter :
  forall beta q nb N st k, 0 <= beta -> (k < N)%nat ->
  let c := read_cell st k in
  let c' := read_cell (limit_vertices_by_all_neighbours beta q nb N st) k in
  (exists phi, 0 <= phi <= 1 /\ scaled_vertices phi (q k) c c' /\ scaled_gradient phi c c') /\
  within_factor beta q nb k (vertices c' ++ edges c') /\
  (beta <= 1 -> within q nb k (vertices c' ++ edges c')) /\
  edges c' = [(c_v1 c' + c_v2 c') / 2; (c_v2 c' + c_v0 c') / 2; (c_v0 c' + c_v1 c') / 2].
Proof.
  intros beta q nb N st k Hb Hk c c'.
  assert (E : c' = limit_vertices_cell beta q nb k c) by (apply cell_loop_read; assumption).
  clearbody c'. subst c'. unfold limit_vertices_cell.
  destruct (phi_of q nb beta k (c_v0 c) (c_v1 c) (c_v2 c) Hb) as [H1 H2].
  set (phi := limit_phi3 _ _ _ _ _ _ _) in *.
  set (c' := cell_from_vertices _ _ _ _ _ _ _).
  assert (W : within_factor beta q nb k (vertices c' ++ edges c')).
  { intros x Hx m M Hm HM.
    assert (HV : forall v, In v (vertices c') -> q k + beta * (m - q k) <= v <= q k + beta * (M - q k))
      by (intros v Hv; exact (H2 v Hv m M Hm HM)).
    pose proof (HV (c_v0 c') (or_introl eq_refl)) as V0.
    pose proof (HV (c_v1 c') (or_intror (or_introl eq_refl))) as V1.
    pose proof (HV (c_v2 c') (or_intror (or_intror (or_introl eq_refl)))) as V2.
    apply in_app_or in Hx as [Hx | Hx]; [now apply HV |].
    assert (E0 : c_e0 c' = (c_v1 c' + c_v2 c') / 2) by (cbn; field).
    assert (E1 : c_e1 c' = (c_v2 c' + c_v0 c') / 2) by (cbn; field).
    assert (E2 : c_e2 c' = (c_v0 c' + c_v1 c') / 2) by (cbn; field).
    clearbody c'. destruct Hx as [<- | [<- | [<- | []]]]; rewrite ?E0, ?E1, ?E2; lra. }
  split; [| split; [exact W | split]].
  - exists phi. split; [exact H1 |]. split; [reflexivity |]. split; cbn; ring.
  - intros. apply (factor_one beta); [lra | exact W].
  - unfold edges, c'. cbn. list_eq ltac:(field).
Qed.
Print Assumptions C82_vertex_limiter.

(** A linear reconstruction stays one, with the new gradient; its mean is the
    centroid value. *)
Lemma linear_scaled_edges M k qc phi c c' : centroid_is_mean M k -> linear M k qc c ->
  scaled_edges phi qc c c' -> scaled_gradient phi c c' ->
  vertices c' = [c_e1 c' + c_e2 c' - c_e0 c'; c_e2 c' + c_e0 c' - c_e1 c'; c_e0 c' + c_e1 c' - c_e2 c'] ->
  linear M k qc c'.
Proof.
  intros [Mx My] [_ HE] Hs [Gx Gy] HV. unfold scaled_edges in Hs. rewrite HE in Hs. cbn [map] in Hs. cbv zeta beta in Hs.
  unfold edges in Hs. apply list3_inj in Hs as (E0 & E1 & E2).
  unfold linear. cbv zeta beta. rewrite HV. unfold edges. rewrite Gx, Gy, E0, E1, E2.
  assert (X0 : g_vx M (3 * k + 0) = 3 * g_cx M k - g_vx M (3 * k + 1) - g_vx M (3 * k + 2)) by lra.
  assert (Y0 : g_vy M (3 * k + 0) = 3 * g_cy M k - g_vy M (3 * k + 1) - g_vy M (3 * k + 2)) by lra.
  rewrite X0, Y0. split; list_eq ltac:(field).
Qed.
Lemma linear_scaled_vertices M k qc phi c c' : linear M k qc c ->
  scaled_vertices phi qc c c' -> scaled_gradient phi c c' ->
  edges c' = [(c_v1 c' + c_v2 c') / 2; (c_v2 c' + c_v0 c') / 2; (c_v0 c' + c_v1 c') / 2] ->
  linear M k qc c'.
Proof.
  intros [HV _] Hs [Gx Gy] HE. unfold scaled_vertices in Hs. rewrite HV in Hs. cbn [map] in Hs. cbv zeta beta in Hs.
  unfold vertices in Hs. apply list3_inj in Hs as (V0 & V1 & V2).
  unfold linear. cbv zeta beta. rewrite HE. unfold vertices. rewrite Gx, Gy, V0, V1, V2.
  split; list_eq ltac:(field).
Qed.

Theorem C82_linear_stays_linear :
  forall M beta q nb N st k, 0 <= beta -> (k < N)%nat ->
  centroid_is_mean M k -> linear M k (q k) (read_cell st k) ->
  linear M k (q k) (read_cell (limit_edges_by_all_neighbours beta q nb N st) k) /\
  linear M k (q k) (read_cell (limit_vertices_by_all_neighbours beta q nb N st) k).
Proof.
  intros M beta q nb N st k Hb Hk HM HL. split.
  - destruct (C82_edge_limiter beta q nb N st k Hb Hk) as ((phi & _ & H1 & H2) & _ & _ & H3).
    apply (linear_scaled_edges M k (q k) phi (read_cell st k)); assumption.
  - destruct (C82_vertex_limiter beta q nb N st k Hb Hk) as ((phi & _ & H1 & H2) & _ & _ & H3).
    apply (linear_scaled_vertices M k (q k) phi (read_cell st k)); assumption.
Qed.
Print Assumptions C82_linear_stays_linear.

(** A linear function has the centroid value as mean of the vertex values and
    of the edge values. *)
Theorem C82_mean_is_centroid :
  forall M k qc c, centroid_is_mean M k -> linear M k qc c ->
  (c_v0 c + c_v1 c + c_v2 c) / 3 = qc /\ (c_e0 c + c_e1 c + c_e2 c) / 3 = qc.
Proof.
  intros M k qc c [Mx My] [HV HE]. unfold vertices, edges in *. apply list3_inj in HV as (V0 & V1 & V2). apply list3_inj in HE as (E0 & E1 & E2).
  rewrite V0, V1, V2, E0, E1, E2.
  assert (X0 : g_vx M (3 * k + 0) = 3 * g_cx M k - g_vx M (3 * k + 1) - g_vx M (3 * k + 2)) by lra.
  assert (Y0 : g_vy M (3 * k + 0) = 3 * g_cy M k - g_vy M (3 * k + 1) - g_vy M (3 * k + 2)) by lra.
  rewrite X0, Y0. split; field.
Qed.
Print Assumptions C82_mean_is_centroid.

(** Values already in range are left alone when 1 <= beta. *)
Theorem C82_inactive_in_range :
  forall beta q nb N st k, 1 <= beta -> (k < N)%nat ->
  let c := read_cell st k in
  (within q nb k (edges c) ->
   edges (read_cell (limit_edges_by_all_neighbours beta q nb N st) k) = edges c) /\
  (within q nb k (vertices c) ->
   vertices (read_cell (limit_vertices_by_all_neighbours beta q nb N st) k) = vertices c).
Proof.
  intros beta q nb N st k Hb Hk c.
  assert (W : forall l, within q nb k l -> forall d, In d (map (fun e => e - q k) l) ->
            nb_min q nb k - q k <= d <= nb_max q nb k - q k).
  { intros l H d Hd. apply in_map_iff in Hd as (e & <- & He).
    specialize (H e He _ _ (nb_min_attained q nb k) (nb_max_attained q nb k)). lra. }
  split; intros H; unfold limit_edges_by_all_neighbours, limit_vertices_by_all_neighbours;
    rewrite cell_loop_read by assumption; fold c; unfold limit_edges_cell, limit_vertices_cell;
    rewrite limit_phi3_inside; try assumption; try apply nb_min_spec; try apply nb_max_spec; try exact (W _ H);
    unfold edges, vertices; cbn; list_eq ltac:(ring).
Qed.
Print Assumptions C82_inactive_in_range.

(** With beta = 1 a second pass changes no edge value. *)
Theorem C82_idempotent :
  forall q nb N st k, (k < N)%nat ->
  let st1 := limit_edges_by_all_neighbours 1 q nb N st in
  edges (read_cell (limit_edges_by_all_neighbours 1 q nb N st1) k) = edges (read_cell st1 k).
Proof.
  intros q nb N st k Hk st1. apply C82_inactive_in_range; [lra | assumption |].
  destruct (C82_edge_limiter 1 q nb N st k) as (_ & _ & H & _); [lra | assumption |]. apply H. lra.
Qed.
Print Assumptions C82_idempotent.

(** [_extrapolate_and_limit_from_gradient] does what
    [_extrapolate_from_gradient] followed by [_limit_edges_by_all_neighbours]
    does. *)
Theorem C82_fused_routine :
  forall M beta q nb N st k,
  read_cell (extrapolate_and_limit_from_gradient beta q nb M N st) k =
  read_cell (limit_edges_by_all_neighbours beta q nb N (extrapolate_from_gradient q M N st)) k.
Proof.
  intros. unfold extrapolate_and_limit_from_gradient, limit_edges_by_all_neighbours.
  destruct (lt_dec k N).
  - rewrite !cell_loop_read by assumption. unfold limit_second_cell, limit_phi_cell, limit_edges_cell.
    now rewrite nb3_min, nb3_max.
  - now rewrite !cell_loop_other by lia.
Qed.
Print Assumptions C82_fused_routine.

(** Gradient, extrapolation and limiting together: linear with the centroid
    value as mean, edges in range (0 <= beta <= 1). *)
Theorem C82_second_order_reconstruction :
  forall M beta q nb N st k, 0 <= beta <= 1 -> (k < N)%nat -> centroid_is_mean M k ->
  let c' := read_cell (extrapolate_and_limit_from_gradient beta q nb M N st) k in
  linear M k (q k) c' /\ within q nb k (edges c').
Proof.
  intros M beta q nb N st k Hb Hk HM c'.
  assert (E : c' = read_cell (limit_edges_by_all_neighbours beta q nb N (extrapolate_from_gradient q M N st)) k)
    by apply C82_fused_routine.
  rewrite E. clear c' E. set (st1 := extrapolate_from_gradient q M N st).
  assert (L : linear M k (q k) (read_cell st1 k)).
  { unfold st1, extrapolate_from_gradient. rewrite cell_loop_read by assumption.
    split; unfold vertices, edges, extrapolate_cell; cbn [c_v0 c_v1 c_v2 c_e0 c_e1 c_e2 c_gx c_gy];
      list_eq ltac:(field). }
  destruct Hb as [Hb Hb1]. split.
  - now apply C82_linear_stays_linear.
  - now apply C82_edge_limiter.
Qed.
Print Assumptions C82_second_order_reconstruction.

Definition between (a b x : R) : Prop := Rmin a b <= x <= Rmax a b.
Definition edge_of (c : cell) (i : nat) : R :=
  match i with 0%nat => c_e0 c | 1%nat => c_e1 c | _ => c_e2 c end.

Lemma by_neighbour_bound beta (q : nat -> R) k qn dq phi psi : 0 <= beta <= 1 -> 0 <= psi ->
  psi <= limit_phi beta (Rmin (q k) qn) (Rmax (q k) qn) (q k) dq phi -> phi <= 1 ->
  between (q k) qn (q k + psi * dq).
Proof.
  intros Hb Hp Hl Hphi.
  assert (A : Rmin (q k) qn <= q k) by apply Rmin_l.
  assert (B : q k <= Rmax (q k) qn) by apply Rmax_l.
  pose proof (phi_bounds_delta beta (Rmin (q k) qn) (Rmax (q k) qn) (q k)) as P.
  specialize (P (proj1 Hb) A B dq psi Hp).
  assert (psi <= limit_phi beta (Rmin (q k) qn) (Rmax (q k) qn) (q k) dq 1).
  { eapply Rle_trans; [exact Hl |]. now apply limit_phi_mono. }
  specialize (P H). unfold between. nra.
Qed.

Lemma phi_by_neighbour_range beta q k n dq phi : 0 <= beta -> 0 <= phi ->
  0 <= phi_by_neighbour beta q k n dq phi <= phi.
Proof.
  intros. unfold phi_by_neighbour. split; [| apply limit_phi_le].
  apply limit_phi_nonneg; try assumption; [apply Rmin_l | apply Rmax_l].
Qed.
Lemma phi_by_true_neighbour_range beta q k n dq phi : 0 <= beta -> 0 <= phi ->
  0 <= phi_by_true_neighbour beta q k n dq phi <= phi.
Proof.
  intros. unfold phi_by_true_neighbour. destruct (Z.leb 0 n); [| lra]. split; [| apply limit_phi_le].
  apply limit_phi_nonneg; try assumption; [apply Rmin_l | apply Rmax_l].
Qed.

(** [_limit_edges_by_neighbour]: every edge value ends between the two
    centroid values next to that edge; on a boundary edge it is the centroid
    value. *)
Theorem C82_limit_by_own_neighbour :
  forall beta q nb N st k, 0 <= beta <= 1 -> (k < N)%nat ->
  let c := read_cell st k in
  let c' := read_cell (limit_edges_by_neighbour beta q nb N st) k in
  (exists phi, 0 <= phi <= 1 /\ scaled_edges phi (q k) c c') /\
  forall i, (i < 3)%nat ->
    ((0 <= nb (3 * k + i)%nat)%Z -> between (q k) (q (Z.to_nat (nb (3 * k + i)%nat))) (edge_of c' i)) /\
    ((nb (3 * k + i)%nat < 0)%Z -> edge_of c' i = q k).
Proof.
  intros beta q nb N st k Hb Hk c c'.
  assert (E : c' = limit_edges_by_neighbour_cell beta q nb k c) by (apply cell_loop_read; assumption).
  clearbody c'. subst c'. unfold limit_edges_by_neighbour_cell.
  set (d0 := c_e0 c - q k). set (d1 := c_e1 c - q k). set (d2 := c_e2 c - q k).
  set (p0 := phi_by_neighbour beta q k (nb (3 * k)%nat) d0 1).
  set (p1 := phi_by_neighbour beta q k (nb (3 * k + 1)%nat) d1 p0).
  set (p2 := phi_by_neighbour beta q k (nb (3 * k + 2)%nat) d2 p1).
  assert (R0 : 0 <= p0 <= 1) by (apply phi_by_neighbour_range; lra).
  assert (R1 : 0 <= p1 <= p0) by (apply phi_by_neighbour_range; lra).
  assert (R2 : 0 <= p2 <= p1) by (apply phi_by_neighbour_range; lra).
  split; [exists p2; split; [lra | reflexivity] |].
  assert (K : forall n dq phi, phi <= 1 -> p2 <= phi_by_neighbour beta q k n dq phi ->
            ((0 <= n)%Z -> between (q k) (q (Z.to_nat n)) (q k + p2 * dq)) /\
            ((n < 0)%Z -> q k + p2 * dq = q k)).
  { intros n dq phi H1 H. unfold phi_by_neighbour in H. destruct (Z.leb_spec 0 n) as [Hn | Hn].
    - split; [intros _ | lia]. eapply by_neighbour_bound; try exact H; try assumption; lra.
    - split; [lia | intros _].
      pose proof (by_neighbour_bound beta q k (q k) dq phi p2 Hb (proj1 R2) H H1) as [A B].
      rewrite Rmin_left in A by lra. rewrite Rmax_left in B by lra. lra. }
  intros i Hi. destruct i as [| [| [| i]]]; [| | | lia]; cbn [edge_of cell_from_edges c_e0 c_e1 c_e2].
  - rewrite Nat.add_0_r. apply (K _ _ 1); [lra |]. fold p0. lra.
  - apply (K _ _ p0); [lra |]. fold p1. lra.
  - apply (K _ _ p1); [lra |]. fold p2. lra.
Qed.
Print Assumptions C82_limit_by_own_neighbour.

(** [_limit_gradient_by_neighbour]: the same for interior edges, boundary
    edges do not limit. *)
Theorem C82_limit_by_true_neighbour :
  forall beta q nb N st k, 0 <= beta <= 1 -> (k < N)%nat ->
  let c := read_cell st k in
  let c' := read_cell (limit_gradient_by_neighbour beta q nb N st) k in
  (exists phi, 0 <= phi <= 1 /\ scaled_edges phi (q k) c c') /\
  (forall i, (i < 3)%nat -> (0 <= nb (3 * k + i)%nat)%Z ->
    between (q k) (q (Z.to_nat (nb (3 * k + i)%nat))) (edge_of c' i)) /\
  ((forall i, (i < 3)%nat -> (nb (3 * k + i)%nat < 0)%Z) -> edges c' = edges c).
Proof.
  intros beta q nb N st k Hb Hk c c'.
  assert (E : c' = limit_gradient_by_neighbour_cell beta q nb k c) by (apply cell_loop_read; assumption).
  clearbody c'. subst c'. unfold limit_gradient_by_neighbour_cell.
  set (d0 := c_e0 c - q k). set (d1 := c_e1 c - q k). set (d2 := c_e2 c - q k).
  set (p0 := phi_by_true_neighbour beta q k (nb (3 * k)%nat) d0 1).
  set (p1 := phi_by_true_neighbour beta q k (nb (3 * k + 1)%nat) d1 p0).
  set (p2 := phi_by_true_neighbour beta q k (nb (3 * k + 2)%nat) d2 p1).
  assert (R0 : 0 <= p0 <= 1) by (apply phi_by_true_neighbour_range; lra).
  assert (R1 : 0 <= p1 <= p0) by (apply phi_by_true_neighbour_range; lra).
  assert (R2 : 0 <= p2 <= p1) by (apply phi_by_true_neighbour_range; lra).
  split; [exists p2; split; [lra | reflexivity] |].
  assert (K : forall n dq phi, phi <= 1 -> p2 <= phi_by_true_neighbour beta q k n dq phi ->
            (0 <= n)%Z -> between (q k) (q (Z.to_nat n)) (q k + p2 * dq)).
  { intros n dq phi H1 H Hn. unfold phi_by_true_neighbour in H.
    rewrite (proj2 (Z.leb_le 0 n) Hn) in H. eapply by_neighbour_bound; try exact H; try assumption; lra. }
  split.
  - intros i Hi Hn. destruct i as [| [| [| i]]]; [| | | lia]; cbn [edge_of cell_from_edges c_e0 c_e1 c_e2].
    + rewrite Nat.add_0_r in *. apply (K _ _ 1); [lra | fold p0; lra | assumption].
    + apply (K _ _ p0); [lra | fold p1; lra | assumption].
    + apply (K _ _ p1); [lra | fold p2; lra | assumption].
  - intros H.
    assert (E : p2 = 1).
    { unfold p2, p1, p0, phi_by_true_neighbour.
      assert (H0 := H 0%nat ltac:(lia)). assert (H1 := H 1%nat ltac:(lia)). assert (H2 := H 2%nat ltac:(lia)).
      rewrite Nat.add_0_r in H0.
      now rewrite (proj2 (Z.leb_gt _ _) H0), (proj2 (Z.leb_gt _ _) H1), (proj2 (Z.leb_gt _ _) H2). }
    rewrite E. unfold edges, cell_from_edges, d0, d1, d2. cbn. list_eq ltac:(ring).
Qed.
Print Assumptions C82_limit_by_true_neighbour.

(** [_limit_old] limits the vertex values and leaves edges and gradients. *)
Theorem C82_old_limiter :
  forall beta q nb N st k, 0 <= beta -> (k < N)%nat ->
  let c := read_cell st k in
  let c' := read_cell (limit_old beta q nb N st) k in
  (exists phi, 0 <= phi <= 1 /\ scaled_vertices phi (q k) c c') /\
  within_factor beta q nb k (vertices c') /\ (beta <= 1 -> within q nb k (vertices c')) /\
  edges c' = edges c /\ c_gx c' = c_gx c /\ c_gy c' = c_gy c.
Proof.
  intros beta q nb N st k Hb Hk c c'.
  assert (E : c' = limit_old_cell beta q nb k c) by (apply cell_loop_read; assumption).
  clearbody c'. subst c'. unfold limit_old_cell.
  destruct (phi_of q nb beta k (c_v0 c) (c_v1 c) (c_v2 c) Hb) as [H1 H2].
  set (phi := limit_phi3 _ _ _ _ _ _ _) in *.
  split; [| split; [exact H2 | split; [| now repeat split]]].
  - exists phi. split; [exact H1 | reflexivity].
  - intros. apply (factor_one beta); [lra | exact H2].
Qed.
Print Assumptions C82_old_limiter.

(** The bounds from below hold whenever the centroid value itself respects
    every bound of its triangle. *)
Theorem C82_bound_below :
  forall bound q N st k, (k < N)%nat ->
  (forall i, (i < 3)%nat -> bound (3 * k + i)%nat <= q k) ->
  let c := read_cell st k in
  let c' := read_cell (bound_vertices_below_by_quantity bound q N st) k in
  (exists phi, 0 <= phi <= 1 /\ scaled_vertices phi (q k) c c' /\ scaled_gradient phi c c') /\
  bound (3 * k)%nat <= c_v0 c' /\ bound (3 * k + 1)%nat <= c_v1 c' /\ bound (3 * k + 2)%nat <= c_v2 c'.
Proof.
  intros bound q N st k Hk HB c c'.
  assert (E : c' = bound_below_cell bound q k c) by (apply cell_loop_read; assumption).
  clearbody c'. subst c'. unfold bound_below_cell.
  assert (B0 : bound (3 * k)%nat <= q k) by (specialize (HB 0%nat ltac:(lia)); now rewrite Nat.add_0_r in HB).
  assert (B1 : bound (3 * k + 1)%nat <= q k) by (apply HB; lia).
  assert (B2 : bound (3 * k + 2)%nat <= q k) by (apply HB; lia).
  set (d0 := c_v0 c - q k). set (d1 := c_v1 c - q k). set (d2 := c_v2 c - q k).
  set (p0 := phi_below (bound (3 * k)%nat) (q k) d0 1).
  set (p1 := phi_below (bound (3 * k + 1)%nat) (q k) d1 p0).
  set (p2 := phi_below (bound (3 * k + 2)%nat) (q k) d2 p1).
  assert (R0 : 0 <= p0 <= 1) by (apply phi_below_spec; lra).
  assert (R1 : 0 <= p1 <= p0) by (apply phi_below_spec; lra).
  assert (R2 : 0 <= p2 <= p1) by (apply phi_below_spec; lra).
  split; [exists p2; split; [lra | split; [reflexivity | split; cbn; ring]] |].
  cbn [cell_from_vertices c_v0 c_v1 c_v2]. repeat split.
  - apply (phi_below_bound _ _ _ 1); [assumption | lra | fold p0; lra].
  - apply (phi_below_bound _ _ _ p0); [assumption | lra | fold p1; lra].
  - apply (phi_below_bound _ _ _ p1); [assumption | lra | fold p2; lra].
Qed.
Print Assumptions C82_bound_below.

Theorem C82_bound_below_constant :
  forall bound q N st k, (k < N)%nat -> bound <= q k ->
  let c := read_cell st k in
  let c' := read_cell (bound_vertices_below_by_constant bound q N st) k in
  (exists phi, 0 <= phi <= 1 /\ scaled_vertices phi (q k) c c' /\ scaled_gradient phi c c') /\
  (forall v, In v (vertices c') -> bound <= v).
Proof.
  intros bound q N st k Hk HB c c'.
  destruct (C82_bound_below (fun _ => bound) q N st k Hk (fun _ _ => HB)) as (H1 & H2 & H3 & H4).
  assert (E : c' = read_cell (bound_vertices_below_by_quantity (fun _ => bound) q N st) k).
  { unfold c', bound_vertices_below_by_constant, bound_vertices_below_by_quantity.
    now rewrite !cell_loop_read by assumption. }
  rewrite E. split; [exact H1 |]. intros v [<- | [<- | [<- | []]]]; assumption.
Qed.
Print Assumptions C82_bound_below_constant.

(** No other triangle is touched by any of the routines. *)
Theorem C82_frame :
  forall beta bound bc q nb M N st k, (N <= k)%nat ->
  read_cell (limit_edges_by_all_neighbours beta q nb N st) k = read_cell st k /\
  read_cell (limit_vertices_by_all_neighbours beta q nb N st) k = read_cell st k /\
  read_cell (limit_edges_by_neighbour beta q nb N st) k = read_cell st k /\
  read_cell (limit_gradient_by_neighbour beta q nb N st) k = read_cell st k /\
  read_cell (limit_old beta q nb N st) k = read_cell st k /\
  read_cell (extrapolate_and_limit_from_gradient beta q nb M N st) k = read_cell st k /\
  read_cell (bound_vertices_below_by_quantity bound q N st) k = read_cell st k /\
  read_cell (bound_vertices_below_by_constant bc q N st) k = read_cell st k.
Proof.
  intros. repeat split; try (now apply cell_loop_other).
  unfold extrapolate_and_limit_from_gradient. rewrite cell_loop_other by assumption. now apply cell_loop_other.
Qed.
Print Assumptions C82_frame.

(** *** Examples and violations *)

(** Triangle 0 with value 1 and two neighbours with values 0 and 3. *)
Definition exq (k : nat) : R := match k with 0%nat => 1 | 1%nat => 0 | _ => 3 end.
Definition exnb (j : nat) : Z := match j with 0%nat => 1 | 1%nat => 2 | _ => -1 end%Z.
Definition exst (v0 v1 v2 e0 e1 e2 : R) : qarrays :=
  QArrays (fun j => match j with 0%nat => v0 | 1%nat => v1 | _ => v2 end)
          (fun j => match j with 0%nat => e0 | 1%nat => e1 | _ => e2 end)
          (fun _ => 1) (fun _ => 0).

Lemma exnb_min : nb_min exq exnb 0 = 0.
Proof. unfold nb_min, nb_fold, fold_neighbour. change (Rmin (Rmin 1 0) 3 = 0). unfold Rmin. repeat destruct (Rle_dec _ _); lra. Qed.
Lemma exnb_max : nb_max exq exnb 0 = 3.
Proof. unfold nb_max, nb_fold, fold_neighbour. change (Rmax (Rmax 1 0) 3 = 3). unfold Rmax. repeat destruct (Rle_dec _ _); lra. Qed.

Ltac ratio_eval := unfold limit_phi3, limit_phi, ratio;
  repeat match goal with
  | |- context [Rltb ?a ?b] => first [rewrite (proj2 (Rltb_true a b)) by lra | rewrite (proj2 (Rltb_false a b)) by lra]
  end; cbn zeta iota.

(** Edge values -1, 2, 2 (vertices 5, -1, -1) are scaled by 1/2: edges 0, 3/2, 3/2. *)
Example C82_edge_limiter_example :
  edges (read_cell (limit_edges_by_all_neighbours 1 exq exnb 1 (exst 5 (-1) (-1) (-1) 2 2)) 0) =
  [0; 3/2; 3/2].
Proof.
  unfold limit_edges_by_all_neighbours. rewrite cell_loop_read by lia.
  unfold limit_edges_cell. rewrite exnb_min, exnb_max.
  assert (P : limit_phi3 1 0 3 (exq 0) (c_e0 (read_cell (exst 5 (-1) (-1) (-1) 2 2) 0) - exq 0)
     (c_e1 (read_cell (exst 5 (-1) (-1) (-1) 2 2) 0) - exq 0)
     (c_e2 (read_cell (exst 5 (-1) (-1) (-1) 2 2) 0) - exq 0) = 1/2).
  { cbn. ratio_eval. unfold Rmin. repeat destruct (Rle_dec _ _); lra. }
  rewrite P. unfold edges. cbn. list_eq ltac:(lra).
Qed.

(** The edge limiter does not bound the vertex values: edges 0, 0, 3 around 1
    are in the range 0..3 of the neighbouring centroids and are left alone,
    the vertices are 3, 3, -3. *)
Theorem C82_vertices_leave_range_refuted :
  exists q nb N st k, (k < N)%nat /\
  let c := read_cell (limit_edges_by_all_neighbours 1 q nb N st) k in
  within q nb k (edges c) /\ ~ within q nb k (vertices c) /\ exists v, In v (vertices c) /\ v < 0 /\ below q nb k 0.
Proof.
  exists exq, exnb, 1%nat, (exst 3 3 (-3) 0 0 3), 0%nat. split; [lia |].
  set (st := exst 3 3 (-3) 0 0 3).
  destruct (C82_edge_limiter 1 exq exnb 1 st 0) as (_ & _ & W & _); [lra | lia |].
  assert (V : vertices (read_cell (limit_edges_by_all_neighbours 1 exq exnb 1 st) 0) = [3; 3; -3]).
  { unfold limit_edges_by_all_neighbours. rewrite cell_loop_read by lia.
    unfold limit_edges_cell. rewrite exnb_min, exnb_max.
    assert (P : limit_phi3 1 0 3 (exq 0) (c_e0 (read_cell st 0) - exq 0)
       (c_e1 (read_cell st 0) - exq 0) (c_e2 (read_cell st 0) - exq 0) = 1).
    { cbn. ratio_eval. unfold Rmin. repeat destruct (Rle_dec _ _); lra. }
    rewrite P. unfold vertices. cbn. list_eq ltac:(lra). }
  cbn zeta. rewrite V. assert (B : below exq exnb 0 0) by (rewrite <- exnb_min; apply nb_min_attained).
  split; [apply W; lra | split].
  - intros H. specialize (H (-3) ltac:(cbn; auto) 0 (nb_max exq exnb 0) B (nb_max_attained _ _ _)). lra.
  - exists (-3). split; [cbn; auto | split; [lra | assumption]].
Qed.
Print Assumptions C82_vertices_leave_range_refuted.

(** With beta > 1 (the documented values go up to 2) even the limited edge
    values leave the range: beta = 3/2 gives the edge value -1/2 between
    centroids with values 0 or more. *)
Theorem C82_beta_above_one_refuted :
  exists beta q nb N st k, 1 < beta <= 2 /\ (k < N)%nat /\
  let c := read_cell (limit_edges_by_all_neighbours beta q nb N st) k in
  exists e, In e (edges c) /\ e < 0 /\ below q nb k 0.
Proof.
  exists (3/2), exq, exnb, 1%nat, (exst 5 (-1) (-1) (-1) 2 2), 0%nat. split; [lra | split; [lia |]].
  set (st := exst 5 (-1) (-1) (-1) 2 2).
  exists (-1/2). split; [| split; [lra | rewrite <- exnb_min; apply nb_min_attained]].
  unfold limit_edges_by_all_neighbours. rewrite cell_loop_read by lia.
  unfold limit_edges_cell. rewrite exnb_min, exnb_max.
  assert (P : limit_phi3 (3/2) 0 3 (exq 0) (c_e0 (read_cell st 0) - exq 0)
     (c_e1 (read_cell st 0) - exq 0) (c_e2 (read_cell st 0) - exq 0) = 3/4).
  { cbn. ratio_eval. unfold Rmin. repeat destruct (Rle_dec _ _); lra. }
  rewrite P. left. cbn. lra.
Qed.
Print Assumptions C82_beta_above_one_refuted.

(** [_limit_edges_by_neighbour] and [_limit_gradient_by_neighbour] leave the
    gradient arrays alone, so that values and gradient disagree. *)
Theorem C82_gradient_left_alone_refuted :
  (forall beta q nb N st k, c_gx (read_cell (limit_edges_by_neighbour beta q nb N st) k) = c_gx (read_cell st k) /\
     c_gx (read_cell (limit_gradient_by_neighbour beta q nb N st) k) = c_gx (read_cell st k)) /\
  exists M q nb N st k, (k < N)%nat /\ centroid_is_mean M k /\ linear M k (q k) (read_cell st k) /\
    ~ linear M k (q k) (read_cell (limit_edges_by_neighbour 1 q nb N st) k).
Proof.
  split.
  - intros. unfold limit_edges_by_neighbour, limit_gradient_by_neighbour.
    destruct (lt_dec k N); [now rewrite !cell_loop_read by assumption | now rewrite !cell_loop_other by lia].
  - set (M := GMesh 1 (fun _ => 0) (fun _ => 0)
                (fun j => match j with 0%nat => 2 | 1%nat => -1 | _ => -1 end)
                (fun j => match j with 0%nat => 0 | 1%nat => 1 | _ => -1 end) (fun _ => 3%Z) (fun _ => 0%nat)).
    set (st := exst 3 0 0 0 (3/2) (3/2)).
    exists M, exq, (fun _ => -1)%Z, 1%nat, st, 0%nat.
    split; [lia | split; [split; cbn; lra | split]].
    + split; unfold vertices, edges; cbn; list_eq ltac:(lra).
    + intros [H _].
      destruct (C82_limit_by_own_neighbour 1 exq (fun _ => -1)%Z 1 st 0) as [(phi & Hphi & Hs) H']; [lra | lia |].
      assert (G : c_gx (read_cell (limit_edges_by_neighbour 1 exq (fun _ => (-1)%Z) 1 st) 0) = 1 /\
                  c_gy (read_cell (limit_edges_by_neighbour 1 exq (fun _ => (-1)%Z) 1 st) 0) = 0).
      { unfold limit_edges_by_neighbour. rewrite cell_loop_read by lia. split; reflexivity. }
      destruct G as [G1 G2].
      pose proof (proj2 (H' 0%nat ltac:(lia)) ltac:(cbn; lia)) as E0.
      pose proof (proj2 (H' 1%nat ltac:(lia)) ltac:(cbn; lia)) as E1.
      pose proof (proj2 (H' 2%nat ltac:(lia)) ltac:(cbn; lia)) as E2.
      cbn [edge_of] in E0, E1, E2.
      assert (V : c_v0 (read_cell (limit_edges_by_neighbour 1 exq (fun _ => (-1)%Z) 1 st) 0) = 1).
      { assert (X : forall c, (exists phi d0 d1 d2 gx gy, c = cell_from_edges (exq 0) phi d0 d1 d2 gx gy) ->
                 c_e0 c = exq 0 -> c_e1 c = exq 0 -> c_e2 c = exq 0 -> c_v0 c = 1).
        { intros c (p & a & b & d & g & h & ->) A B D. cbn [cell_from_edges c_v0 c_e0 c_e1 c_e2 exq] in *. lra. }
        apply X; try assumption.
        unfold limit_edges_by_neighbour. rewrite cell_loop_read by lia. unfold limit_edges_by_neighbour_cell.
        do 6 eexists. reflexivity. }
      unfold vertices in H. rewrite G1, G2, V in H.
      match type of H with ?a :: _ = ?b :: _ => assert (K : a = b) by congruence end.
      cbn in K. lra.
Qed.
Print Assumptions C82_gradient_left_alone_refuted.

(** Bounding from below by a quantity: a centroid value above the mean of the
    three bounds is not enough; a vertex that respected its bound ends below
    it.  (stage 3, 0, 0 over bed 12/5, 3/5, 0; both mean 1.) *)
Theorem C82_bound_below_breaks_vertex_refuted :
  exists bound q N st k, (k < N)%nat /\
  (bound 0%nat + bound 1%nat + bound 2%nat) / 3 <= q k /\
  (c_v0 (read_cell st k) + c_v1 (read_cell st k) + c_v2 (read_cell st k)) / 3 = q k /\
  bound 0%nat <= c_v0 (read_cell st k) /\
  k = 0%nat /\ c_v0 (read_cell (bound_vertices_below_by_quantity bound q N st) k) < bound 0%nat.
Proof.
  exists (fun j => match j with 0%nat => 12/5 | 1%nat => 3/5 | _ => 0 end), exq, 1%nat, (exst 3 0 0 0 (3/2) (3/2)), 0%nat.
  split; [lia |]. split; [cbn; lra |]. split; [cbn; lra |]. split; [cbn; lra |]. split; [reflexivity |].
  unfold bound_vertices_below_by_quantity. rewrite cell_loop_read by lia. unfold bound_below_cell.
  set (phi := phi_below _ _ _ _). cbn [cell_from_vertices c_v0].
  assert (P : phi <= 2/5).
  { unfold phi. eapply Rle_trans; [unfold phi_below at 1; apply Rmin_r |].
    unfold phi_below at 1. cbn. rewrite (proj2 (Rltb_true (0 - 1) 0)) by lra.
    eapply Rle_trans; [apply Rmin_l |]. eapply Rle_trans; [apply Rmin_l |]. lra. }
  cbn. lra.
Qed.
Print Assumptions C82_bound_below_breaks_vertex_refuted.

(** A centroid value below the bound turns the slope round: vertices 2, 2, -1
    around 1 with the bound 3/2 become 3/4, 3/4, 3/2 (factor -1/4); vertices
    that respected the bound no longer do. *)
Theorem C82_bound_above_centroid_refuted :
  exists bound q N st k, (k < N)%nat /\
  let c := read_cell st k in
  let c' := read_cell (bound_vertices_below_by_constant bound q N st) k in
  scaled_vertices (-1/4) (q k) c c' /\ c_v0 c > q k /\ c_v0 c' < q k /\ c_v0 c' < bound /\ bound <= c_v0 c.
Proof.
  exists (3/2), exq, 1%nat, (exst 2 2 (-1) 0 0 0), 0%nat. split; [lia |].
  unfold bound_vertices_below_by_constant. cbn zeta. rewrite cell_loop_read by lia. unfold bound_below_constant_cell.
  set (st := exst 2 2 (-1) 0 0 0).
  assert (P : phi_below (3/2) (exq 0) (c_v2 (read_cell st 0) - exq 0)
    (phi_below (3/2) (exq 0) (c_v1 (read_cell st 0) - exq 0)
      (phi_below (3/2) (exq 0) (c_v0 (read_cell st 0) - exq 0) 1)) = -1/4).
  { cbn. unfold phi_below.
    rewrite (proj2 (Rltb_false (2 - 1) 0)) by lra. rewrite (proj2 (Rltb_true (-1 - 1) 0)) by lra.
    unfold Rmin. repeat destruct (Rle_dec _ _); lra. }
  rewrite P. repeat split; cbn; lra.
Qed.
Print Assumptions C82_bound_above_centroid_refuted.

(** The two combined routines of the extension look up an attribute [object]
    that a quantity does not have and raise on every call; with the attribute
    [domain], which the other wrappers use, the edge version computes the
    fused routine on the new gradients. *)
Theorem C82_combined_routines_raise_refuted :
  (forall M beta q nb st, extrapolate_second_order_and_limit_by_edge M beta q nb st = None /\
     extrapolate_second_order_and_limit_by_vertex M beta q nb st = None) /\
  (forall M beta q nb st a b, GradientModel.compute_gradients M q (x_gradient st) (y_gradient st) = (a, b, 0%Z) ->
     exists st', second_order (limit_edges_by_all_neighbours beta q nb) M q "domain"%string st = Some st' /\
     forall k, read_cell st' k =
       read_cell (extrapolate_and_limit_from_gradient beta q nb M (g_n M) (QArrays (vertex_values st) (edge_values st) a b)) k).
Proof.
  split; [now split |].
  intros M beta q nb st a b H. unfold second_order. rewrite H. cbn [has_attribute quantity_attributes existsb negb orb Z.eqb].
  eexists. split; [reflexivity |]. intros k. symmetry. apply C82_fused_routine.
Qed.
Print Assumptions C82_combined_routines_raise_refuted.
