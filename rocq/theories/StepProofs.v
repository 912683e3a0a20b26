(** Invariants of the time stepping schemes, and facts about the kernels as
    they are plugged together in StepModel. *)
From Coq Require Import Reals List ZArith Arith Bool Lia Lra.
From Verif Require Import RealLib ArrayLib CentroidModel CentroidProofs BoundaryModel BoundaryProps FluxModel FluxFunctionProofs
  FluxProofs FluxProps ReconModel ReconProofs ReconProps RKModel RKProofs StepModel.
Import ListNotations.
Local Open Scope R_scope.

(** * Predicates kept by Euler parts and by the combinations *)
Section Invariant.
Variable X : Type.
Variables (protect : (nat -> R) -> X -> (nat -> R) * X) (dom : (nat -> R) -> X -> domain)
  (forcing : flux_output -> X -> X) (choose_dt : R -> X -> R) (finish_update : R -> (nat -> R) -> X -> (nat -> R) * X)
  (ghosts : (nat -> R) -> X -> (nat -> R) * X)
  (combine : nat -> R -> X -> X -> X) (operators : R -> (nat -> R) -> X -> (nat -> R) * X * R).
Variable m : scheme.
Variable P : state X -> Prop.

(** Distribute, compute, update with time step [d]. *)
Definition euler (d : R) (s : state X) : state X :=
  let '(s1, e) := compute X dom forcing (distribute X protect s) in
  update_conserved X finish_update
    (State X (q X s1) (RKModel.rest X s1) (sta X s1) (wk X s1) (bfs X s1) (flux_dt X s1) d (bfi X s1) (fsvi X s1)) e.

(** Time steps that can occur. *)
Variable okd : R -> Prop.
Hypothesis okd_chosen : forall f x, okd (choose_dt f x).
Hypothesis P_euler : forall s d, okd d -> P s -> P (euler d s).
Hypothesis P_ghosts : forall s, P s -> P (update_ghosts X ghosts s).
Hypothesis P_rk2 : forall s0 s, m = RK2 -> P s0 -> P s -> P (saxpy X combine 0 (1/2) (1/2) s0 s).
Hypothesis P_rk3 : forall s0 s, m = RK3 -> P s0 -> P s -> P (saxpy X combine 0 (1/4) (3/4) s0 s).
Hypothesis P_rk3' : forall s0 s, m = RK3 -> P s0 -> P s -> P (thirds X (saxpy X combine 1 2 1 s0 s)).
Hypothesis P_end : forall s, P s -> P (other_operators X operators (boundary_flux_integral_op X m s)).

Lemma euler_here s : let '(s1, e) := compute X dom forcing (distribute X protect s) in
  update_conserved X finish_update s1 e = euler (dt X s1) s.
Proof. unfold euler. destruct (compute _ _ _ _) as [s1 e]. destruct s1; reflexivity. Qed.

Lemma euler_chosen s : let '(s1, e) := compute X dom forcing (distribute X protect s) in
  update_conserved X finish_update (update_timestep X choose_dt s1) e = euler (choose_dt (flux_dt X s1) (RKModel.rest X s1)) s.
Proof. unfold euler. destruct (compute _ _ _ _) as [s1 e]. destruct s1; reflexivity. Qed.

Lemma compute_dt s : dt X (fst (compute X dom forcing s)) = dt X s.
Proof. reflexivity. Qed.

Lemma euler_dt d s : dt X (euler d s) = d.
Proof. unfold euler. destruct (compute _ _ _ _) as [s1 e]. reflexivity. Qed.

(** A later Euler part, with the time step of the state. *)
Lemma P_later s : okd (dt X s) -> P s ->
  let '(s1, e) := compute X dom forcing (distribute X protect s) in
  P (update_conserved X finish_update s1 e) /\ dt X (update_conserved X finish_update s1 e) = dt X s.
Proof.
  intros Hd Hs. pose proof (euler_here s) as E. pose proof (compute_dt (distribute X protect s)) as F.
  destruct (compute X dom forcing (distribute X protect s)) as [s1 e]. cbn [fst] in F.
  change (dt X (distribute X protect s)) with (dt X s) in F.
  rewrite E, F. split; [apply P_euler; auto|apply euler_dt].
Qed.

Lemma P_step s : P s -> P (step X protect dom forcing choose_dt finish_update ghosts combine operators m s).
Proof.
  intros H. unfold step. apply P_ghosts, P_end. unfold evolve_one_step.
  case_eq m; intros Em.
  - unfold evolve_one_euler_step. pose proof (euler_chosen s) as E.
    destruct (compute X dom forcing (distribute X protect s)) as [s1 e]. rewrite E. auto.
  - unfold evolve_one_rk2_step. pose proof (euler_chosen s) as E.
    destruct (compute X dom forcing (distribute X protect s)) as [s1 e]. rewrite E.
    match goal with |- context [euler ?a s] => set (d := a) end. assert (Hd : okd d) by apply okd_chosen. clearbody d.
    set (s2 := update_ghosts X ghosts _).
    assert (H2 : P s2) by (apply P_ghosts; auto).
    assert (D2 : dt X s2 = d) by apply euler_dt. clearbody s2.
    pose proof (P_later s2) as F. rewrite D2 in F. specialize (F Hd H2).
    destruct (compute X dom forcing (distribute X protect s2)) as [s3 e3]. destruct F as (F & _).
    apply P_rk2; auto.
  - unfold evolve_one_rk3_step. pose proof (euler_chosen s) as E.
    destruct (compute X dom forcing (distribute X protect s)) as [s1 e]. rewrite E.
    match goal with |- context [euler ?a s] => set (d := a) end. assert (Hd : okd d) by apply okd_chosen. clearbody d.
    set (s2 := update_ghosts X ghosts _).
    assert (H2 : P s2) by (apply P_ghosts; auto).
    assert (D2 : dt X s2 = d) by apply euler_dt. clearbody s2.
    pose proof (P_later s2) as F. rewrite D2 in F. specialize (F Hd H2).
    destruct (compute X dom forcing (distribute X protect s2)) as [s3 e3]. destruct F as (F & F').
    set (s4 := update_ghosts X ghosts _).
    assert (H4 : P s4) by (apply P_ghosts, P_rk3; auto).
    assert (D4 : dt X s4 = d) by exact F'. clearbody s4.
    pose proof (P_later s4) as G. rewrite D4 in G. specialize (G Hd H4).
    destruct (compute X dom forcing (distribute X protect s4)) as [s5 e5]. destruct G as (G & _).
    apply P_rk3'; auto.
Qed.

Lemma P_steps n : forall s, P s -> P (steps X protect dom forcing choose_dt finish_update ghosts combine operators m n s).
Proof.
  induction n as [|n IH]; intros s H; cbn [steps]; auto. apply IH, P_step, H.
Qed.
End Invariant.

(** * Reflective edges pass no mass *)

Lemma smax_mirror u c : 0 <= c -> smax u (- u) c c = Rabs u + c.
Proof.
  intros Hc. unfold smax. cbv zeta. unfold Rmax, Rabs.
  destruct (Rcase_abs u); destruct (Rle_dec _ _); rdestruct; lra.
Qed.
Lemma smin_mirror u c : 0 <= c -> smin u (- u) c c = - (Rabs u + c).
Proof.
  intros Hc. unfold smin. cbv zeta. unfold Rmin, Rabs.
  destruct (Rcase_abs u); destruct (Rle_dec _ _); rdestruct; lra.
Qed.

Lemma mirror_flux w xm ym xb yb h hle hre n1 n2 eps ze g lf :
  0 <= h -> n1 * xb + n2 * yb = - (n1 * xm + n2 * ym) -> (0 < h -> hle = hre) ->
  c0 (f_edge (flux_function_central (V3 w xm ym) (V3 w xb yb) h h hle hre n1 n2 eps ze g lf)) = 0.
Proof.
  intros Hh Hm He. rewrite flux_function_unfold. cbv zeta.
  destruct (Reqb_spec h 0) as [->|Hn]; cbn [andb]; [reflexivity|].
  rewrite (He ltac:(lra)). unfold flux_body. cbv zeta.
  set (l := side_state (rotate (V3 w xm ym) n1 n2) h hre).
  set (r := side_state (rotate (V3 w xb yb) n1 n2) h hre).
  assert (E : s_u r = - s_u l).
  { unfold l, r, side_state, rotate; cbn [c0 c1 c2]. destruct (Rltb 0 hre); cbn [s_u]; [|ring].
    rewrite Hm. ring. }
  rewrite E. pose proof (sqrt_pos (g * h)) as Hc. rewrite smax_mirror, smin_mirror by auto.
  match goal with |- context [Rltb ?a ?b] => destruct (Rltb a b) end; cbn [f_edge c0]; [reflexivity|].
  unfold rotate; cbn [c0 c1 c2]. ring.
Qed.

(** A boundary edge that is not a riverwall, with the reflected state outside. *)
Lemma reflective_edge D rw e :
  interior D e = false -> edge_flux_type D e <> 1%Z ->
  stage_edge D e = bed_edge D e + height_edge D e ->
  let b := Z.to_nat (- neighbours D e - 1) in
  stage_boundary D b = stage_edge D e ->
  normal_x D e * xmom_boundary D b + normal_y D e * ymom_boundary D b
    = - (normal_x D e * xmom_edge D e + normal_y D e * ymom_edge D e) ->
  c0 (er_flux (compute_edge D rw e)) = 0.
Proof.
  intros Hi Ht Hs b Hb Hm. unfold compute_edge. cbv zeta. fold b. rewrite Hi, (proj2 (Z.eqb_neq _ _) Ht). cbn [c0].
  rewrite Hb, Hs. rewrite (Rmax_left (bed_edge D e) (bed_edge D e)) by lra.
  set (z := bed_edge D e). set (h := height_edge D e).
  replace (h + z - z) with h by ring. replace (z + h - z) with h by ring.
  replace (Rmax h 0 + z - z) with (Rmax h 0) by ring.
  rewrite (Rmax_left (Rmax h 0) 0) by apply Rmax_r.
  cbn [er_flux c0 fst]. rewrite mirror_flux; [ring|apply Rmax_r|exact Hm|].
  intros H. unfold Rmax in *. destruct (Rle_dec h 0); lra.
Qed.

(** * The boundary arrays *)
Lemma apply_boundary_inputs b d ids : same_inputs d (apply_boundary b d ids).
Proof. destruct b; cbn [apply_boundary]; repeat split; reflexivity. Qed.

Lemma segments_inputs segs : forall d, same_inputs d (fold_left (fun d s => apply_boundary (fst s) d (snd s)) segs d).
Proof.
  induction segs as [|s segs IH]; intros d; cbn [fold_left]; [repeat split; reflexivity|].
  destruct (IH (apply_boundary (fst s) d (snd s))) as (A & B & C & D & E).
  destruct (apply_boundary_inputs (fst s) d (snd s)) as (A' & B' & C' & D' & E').
  unfold same_inputs. rewrite A, B, C, D, E. auto.
Qed.

(** A property of the boundary values of [j] that every segment containing [j]
    establishes, and no other destroys, holds after [update_boundary]. *)
Lemma segments_establish (Q : bdom -> Prop) j segs d0 :
  (forall d ids b, same_inputs d0 d -> In (b, ids) segs -> In j ids -> Q (apply_boundary b d ids)) ->
  (forall d ids b, same_inputs d0 d -> In (b, ids) segs -> ~ In j ids -> Q d -> Q (apply_boundary b d ids)) ->
  (exists b ids, In (b, ids) segs /\ In j ids) ->
  Q (fold_left (fun d s => apply_boundary (fst s) d (snd s)) segs d0).
Proof.
  intros H K (b & ids & Hin & Hj).
  assert (G : forall segs' d, same_inputs d0 d -> (forall s, In s segs' -> In s segs) ->
     (Q d \/ exists b ids, In (b, ids) segs' /\ In j ids) ->
     Q (fold_left (fun d s => apply_boundary (fst s) d (snd s)) segs' d)).
  { induction segs' as [|[b' i'] segs' IH]; intros d Sd Sub Or; cbn [fold_left fst snd].
    - destruct Or as [Or|(? & ? & [] & _)]. exact Or.
    - apply IH; [|intros s Hs; apply Sub; right; exact Hs|].
      + destruct Sd as (S1 & S2 & S3 & S4 & S5). destruct (apply_boundary_inputs b' d i') as (T1 & T2 & T3 & T4 & T5).
        unfold same_inputs. rewrite T1, T2, T3, T4, T5. auto.
      + destruct (in_dec Nat.eq_dec j i') as [J|J].
        * left. apply H; auto. apply Sub. left. reflexivity.
        * destruct Or as [Or|(b2 & i2 & [E|I2] & J2)].
          -- left. apply K; auto. apply Sub. left. reflexivity.
          -- injection E as <- <-. tauto.
          -- right. eauto. }
  apply G; [repeat split; reflexivity|auto|]. right. eauto.
Qed.

Lemma closed_flux D s w b t :
  wf_mesh D -> (forall e, update_next_flux D e = 1%Z) -> flux_invariant D s w -> (forall k, tri_full_flag D k = 1%Z) ->
  (forall e rw, (e < 3 * number_of_elements D)%nat -> interior D e = false -> c0 (er_flux (compute_edge D rw e)) = 0) ->
  forall i, out_boundary_flux_sum (compute_fluxes D s w b t) i = b i.
Proof.
  intros W Hu F Hf Hz i.
  assert (U : update_flags_symmetric D) by (intros e _ _; rewrite !Hu; reflexivity).
  unfold compute_fluxes; cbv zeta; cbn [out_boundary_flux_sum].
  match goal with |- context [edge_loop D _ ?sub (Work _ _ _ _ _ ?lt _)] =>
    pose proof (fun e He => flux_loop_values D s w e sub lt W U F He) as V end.
  cbv zeta in V.
  match goal with |- context [boundary_flux D ?x] => set (w' := x) in * end. clearbody w'.
  set (j := next_substep D s). destruct (Nat.eq_dec i j) as [->|Hn]; [|apply upd_other; auto].
  rewrite upd_same. unfold boundary_flux. rewrite (fold_cond_sum (counts_as_boundary D) (fun e => c0 (edge_flux_work w' e))).
  enough (E : Rsum (map (fun e => if counts_as_boundary D e then c0 (edge_flux_work w' e) else 0) (seq 0 (3 * number_of_elements D))) = 0)
    by (rewrite E; ring).
  apply Rsum_map_zero. intros e He. apply in_seq in He. cbn beta.
  unfold counts_as_boundary. rewrite !Hf. cbn [Z.eqb Pos.eqb andb]. rewrite andb_false_r, orb_false_r, andb_true_r.
  destruct (interior D e) eqn:Hi; cbn [negb]; [reflexivity|].
  destruct (V e ltac:(lia)) as (_ & A & _). rewrite Hu in A. cbn [Z.eqb Pos.eqb] in A. rewrite A.
  unfold efw_value, leader. rewrite Hi. cbn [negb orb]. unfold vneg; cbn [c0]. unfold final_edge. rewrite Hz by (auto; lia). ring.
Qed.

(** * The protection kernels on the arrays *)
Lemma back_map {A} (f : A -> R) (F : nat -> A) n old k :
  back f (map F (seq 0 n)) old k = if (k <? n)%nat then f (F k) else old k.
Proof.
  unfold back. rewrite nth_error_map. destruct (Nat.ltb_spec k n) as [H|H].
  - rewrite (nth_error_nth' (seq 0 n) 0%nat) by (rewrite seq_length; exact H). cbn [option_map]. rewrite seq_nth by exact H. reflexivity.
  - rewrite (proj2 (nth_error_None (seq 0 n) k)) by (rewrite seq_length; exact H). reflexivity.
Qed.

Section Kernels.
Variable C : config.
Notation D0 := (cf_dom C).
Hypothesis full : forall k, tri_full_flag D0 k = 1%Z.
Hypothesis mah_pos : 0 <= mah C.

Lemma total_full f : total D0 f = Rsum (map (fun k => areas D0 k * f k) (seq 0 (N C))).
Proof. unfold total, N. apply Rsum_map_ext_in. intros k _. rewrite full. reflexivity. Qed.

Lemma total_ext f h : (forall k, (k < N C)%nat -> f k = h k) -> total D0 f = total D0 h.
Proof. intros E. rewrite !total_full. apply Rsum_map_ext_in. intros k Hk. apply in_seq in Hk. rewrite E by lia. reflexivity. Qed.

Lemma total_cells q xm ym : Rsum (map (fun c => c_area c * c_stage c) (cells_of C q xm ym)) = total D0 q.
Proof. rewrite total_full. unfold cells_of. rewrite map_map. reflexivity. Qed.

Lemma protect_step_spec q x : let q' := fst (protect_step C q x) in let x' := snd (protect_step C q x) in
  (forall k, (k < N C)%nat -> q' k = Rmax (q k) (bed C k)) /\
  x_made x' = x_made x + (total D0 q' - total D0 q) /\
  (forall k, (k < N C)%nat -> q k - bed C k < mah C -> x_xmom x' k = 0 /\ x_ymom x' k = 0) /\
  (forall k, (k < N C)%nat -> mah C <= q k - bed C k -> x_xmom x' k = x_xmom x k /\ x_ymom x' k = x_ymom x k) /\
  x_su x' = x_su x /\ x_sv x' = x_sv x /\ x_step x' = x_step x /\ x_stage x' = q'.
Proof.
  unfold protect_step, protect_new. rewrite protect_loop_eq. cbv zeta. cbn [fst snd x_made x_xmom x_ymom x_su x_sv x_step x_stage].
  set (cs := cells_of C q (x_xmom x) (x_ymom x)).
  assert (E : forall f k old, (k < N C)%nat -> back f (map (protected (mah C)) cs) old k = f (protected (mah C) (cell_of C q (x_xmom x) (x_ymom x) k))).
  { intros f k old Hk. unfold cs, cells_of. rewrite map_map, back_map, (proj2 (Nat.ltb_lt _ _) Hk). reflexivity. }
  assert (St : forall k, (k < N C)%nat -> back c_stage (map (protected (mah C)) cs) q k = Rmax (q k) (bed C k)).
  { intros k Hk. rewrite E by exact Hk. apply (protect_cell_spec (mah C) (cell_of C q (x_xmom x) (x_ymom x) k) mah_pos). }
  split; [exact St|]. split; [|split; [|split; [|auto]]].
  - rewrite Rsum_added by exact mah_pos. unfold cs at 2. rewrite total_cells. rewrite Rplus_0_l. f_equal. f_equal.
    rewrite total_full. unfold cs, cells_of. rewrite !map_map. apply Rsum_map_ext_in. intros k Hk. apply in_seq in Hk.
    rewrite back_map, (proj2 (Nat.ltb_lt k (N C)) ltac:(lia)).
    destruct (protect_cell_spec (mah C) (cell_of C q (x_xmom x) (x_ymom x) k) mah_pos) as (_ & A & _). rewrite A. reflexivity.
  - intros k Hk H. rewrite !E by exact Hk.
    apply (protect_cell_spec (mah C) (cell_of C q (x_xmom x) (x_ymom x) k) mah_pos). exact H.
  - intros k Hk H. rewrite !E by exact Hk.
    destruct (protect_cell_spec (mah C) (cell_of C q (x_xmom x) (x_ymom x) k) mah_pos) as (_ & _ & _ & _ & _ & A & _).
    rewrite (A H). split; reflexivity.
Qed.

Lemma fixed_stage c : c_full c = 1%Z -> c_stage (fixed c) = Rmax (c_stage c) (c_bed c) /\ c_area (fixed c) = c_area c /\
  (c_bed c <= c_stage c -> fixed c = c).
Proof.
  intros F. destruct (fixed_spec c) as (A & B). unfold is_negative in *. rewrite F in *. cbn [Z.ltb Z.compare Pos.compare Pos.compare_cont] in *.
  rewrite andb_true_r in *. destruct (Rltb_spec (c_stage c) (c_bed c)) as [L|L].
  - destruct (B eq_refl) as (B1 & _ & _ & _ & B5 & _). rewrite Rmax_right by lra. split; [exact B1|]. split; [exact B5|]. lra.
  - rewrite (A eq_refl). rewrite Rmax_left by lra. auto.
Qed.

Lemma finish_step_spec d q x : match finish_step C d q x with
  | (q', None) => True
  | (q', Some x') => exists x0, x = Some x0 /\
      (forall k, (k < N C)%nat -> q' k = Rmax (q k) (bed C k)) /\ x_made x' = x_made x0 + (total D0 q' - total D0 q) /\
      x_step x' = x_step x0
  end.
Proof.
  destruct x as [x|]; cbn [finish_step]; [|exact I].
  destruct (momentum_update C d (x_xmom x) (x_eu x) (x_su x)) as [[xm su]|]; [|exact I].
  destruct (momentum_update C d (x_ymom x) (x_ev x) (x_sv x)) as [[ym sv]|]; [|exact I].
  exists x. split; [reflexivity|]. cbn [x_made x_step].
  unfold fix_negative_cells. rewrite fix_negative_loop_eq. cbn [fst].
  assert (St : forall k, (k < N C)%nat -> back c_stage (map fixed (cells_of C q xm ym)) q k = Rmax (q k) (bed C k)).
  { intros k Hk. unfold cells_of. rewrite map_map, back_map, (proj2 (Nat.ltb_lt _ _) Hk).
    apply (fixed_stage (cell_of C q xm ym k)). apply full. }
  split; [exact St|]. split; [|reflexivity]. unfold fix_volume. rewrite total_cells. f_equal. f_equal.
  rewrite total_full. unfold cells_of. rewrite !map_map. apply Rsum_map_ext_in. intros k Hk. apply in_seq in Hk.
  rewrite back_map, (proj2 (Nat.ltb_lt k (N C)) ltac:(lia)).
  destruct (fixed_stage (cell_of C q xm ym k)) as (_ & A & _); [apply full|]. rewrite A. reflexivity.
Qed.

(** * Momentum updates and friction *)

Lemma nth_map_seq {A} (F : nat -> A) n k : (k < n)%nat -> nth_error (map F (seq 0 n)) k = Some (F k).
Proof.
  intros H. rewrite nth_error_map, (nth_error_nth' (seq 0 n) 0%nat) by (rewrite seq_length; exact H).
  rewrite seq_nth by exact H. reflexivity.
Qed.

Lemma nth_map_seq_inv {A} (F : nat -> A) n k a : nth_error (map F (seq 0 n)) k = Some a -> (k < n)%nat /\ a = F k.
Proof.
  intros H. assert (L : (k < n)%nat).
  { rewrite <- (seq_length n 0), <- (map_length F). apply nth_error_Some. congruence. }
  rewrite nth_map_seq in H by exact L. injection H as <-. auto.
Qed.

Lemma momentum_update_ok d xs es ss : (forall k, (k < N C)%nat -> 0 < denominator d (xs k) (ss k)) ->
  exists xs' ss', momentum_update C d xs es ss = Some (xs', ss') /\
  forall k, (k < N C)%nat -> ss' k = 0 /\ xs' k = (xs k + d * es k) / denominator d (xs k) (ss k).
Proof.
  intros H. unfold momentum_update.
  pose proof (update_status d (map xs (seq 0 (N C))) (map es (seq 0 (N C))) (map ss (seq 0 (N C)))) as U.
  rewrite !map_length in U. specialize (U eq_refl eq_refl).
  destruct (update _ _ _ _) as [[xs' ss'] code]. destruct U as (L1 & L2 & _ & U1 & U2).
  assert (code = 0%Z).
  { apply U1. intros k x s Hx Hs. apply nth_map_seq_inv in Hx as (Hk & ->). apply nth_map_seq_inv in Hs as (_ & ->). auto. }
  subst code. cbn [Z.eqb]. destruct (U2 eq_refl) as (Z1 & V). eexists _, _. split; [reflexivity|].
  intros k Hk. unfold back. split.
  - destruct (nth_error ss' k) eqn:E; [eapply Z1; eauto|]. apply nth_error_None in E. rewrite L2, seq_length in E. lia.
  - rewrite (V k (xs k) (es k) (ss k)) by (apply nth_map_seq; exact Hk). reflexivity.
Qed.

Lemma friction_step_spec x k : 0 <= g D0 -> 0 < mah C -> (k < N C)%nat -> exists f, 0 <= f /\
  back fst (friction_step C x) (x_su x) k = x_su x k - f * x_xmom x k /\
  back snd (friction_step C x) (x_sv x) k = x_sv x k - f * x_ymom x k.
Proof.
  intros Hg Hm Hk. destruct (friction_rate (cf_sloped C) (g D0) (mah C) (friction_cell_of C x k) Hg Hm) as (f & Hf & E).
  exists f. split; [exact Hf|]. unfold back, friction_step, manning_friction_implicit.
  rewrite (map2_nth_error _ _ _ k (friction_cell_of C x k) (x_su x k, x_sv x k)).
  - rewrite E. cbn [fst snd friction_cell_of f_uh f_vh]. split; reflexivity.
  - apply nth_map_seq. exact Hk.
  - apply (nth_map_seq (fun k => (x_su x k, x_sv x k))). exact Hk.
Qed.

(** A momentum update after friction: the denominator is at least one. *)
Lemma friction_denominator d x f : 0 <= d -> 0 <= f -> 1 <= denominator d x (0 - f * x).
Proof.
  intros Hd Hf. unfold denominator. rewrite divide_semi_rate. destruct (Reqb x 0); [lra|].
  assert (0 <= d * f) by (apply Rmult_le_pos; auto). lra.
Qed.
Lemma rest_denominator d s : denominator d 0 s = 1.
Proof. unfold denominator, divide_semi. rewrite (proj2 (Reqb_true 0 0) eq_refl). ring. Qed.

(** * The reconstruction's error exit depends on the mesh only *)
Definition recon_fine : Prop := forall k, (k < r_number_of_elements (cf_rec C))%nat ->
  (r_number_of_boundaries (cf_rec C) k <= 1)%Z \/ r_number_of_boundaries (cf_rec C) k = 3%Z \/
  exists i, (i < 3)%nat /\ r_surrogate (cf_rec C) (3 * k + i)%nat <> k.

Lemma internal_neighbour_some I k : (exists i, (i < 3)%nat /\ r_surrogate I (3 * k + i)%nat <> k) ->
  exists n, internal_neighbour I k = Some n.
Proof.
  intros (i & Hi & Hn). unfold internal_neighbour, nb0, nb1, nb2.
  destruct (Nat.eqb_spec (r_surrogate I (3 * k)) k) as [E0|]; cbn [negb]; [|eauto].
  destruct (Nat.eqb_spec (r_surrogate I (3 * k + 1)) k) as [E1|]; cbn [negb]; [|eauto].
  destruct (Nat.eqb_spec (r_surrogate I (3 * k + 2)) k) as [E2|]; cbn [negb]; [|eauto].
  exfalso. destruct i as [|[|[|i]]]; try lia; [apply Hn; rewrite Nat.add_0_r|..]; auto.
Qed.

Lemma recon_fine_ok q x : recon_fine -> recon_ok (recon_of C q x) = true.
Proof.
  intros H. unfold recon_ok. apply forallb_forall. intros k Hk. apply in_seq in Hk. cbn [recon_of r_number_of_elements] in Hk.
  apply orb_true_iff. right. specialize (H k ltac:(lia)). unfold cell_jumps. cbn [recon_of r_number_of_boundaries].
  destruct (Z.eqb_spec (r_number_of_boundaries (cf_rec C) k) 3); [reflexivity|].
  destruct (Z.leb_spec (r_number_of_boundaries (cf_rec C) k) 1); [destruct (Rleb _ _); reflexivity|].
  destruct H as [H|[H|H]]; try lia.
  destruct (internal_neighbour_some (recon_of C q x) k H) as (n0 & ->). reflexivity.
Qed.
End Kernels.
