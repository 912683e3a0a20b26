(** Lemmas for [ParallelStructureProps]. *)
From Coq Require Import Reals List Arith Bool Lia Lra Permutation.
From Verif Require Import RealLib ListLib ArrayLib KahnLib SyncLib PhaseLib CulvertModel InletModel InletProofs InletProps
  ParallelInletProofs ParallelInletProps ParallelStructureModel.
Import ListNotations.
Local Open Scope R_scope.

(** ** The sequential call in the terms of the parallel one *)

Definition sequential_update (o : operator) (ii oo : list nat) (out : R * R) (Q barrel : R) (a : InletModel.sstate)
    : InletModel.sstate :=
  let d := sdom a in
  let '(tstar, nd, nx, ny) :=
    new_inflow o Q (average_depth d ii) (average d ii (xmom d)) (average d ii (ymom d)) (inlet_area d ii) in
  let d2 := set_inlet d ii nd nx ny in
  let area := inlet_area d oo in
  let extra := Q * tstar / area in
  let '(od, ox, oy) :=
    new_outflow o extra barrel (average_depth d2 oo) (fst out) (snd out) (average d2 oo (xmom d2)) (average d2 oo (ymom d2))
      ((average d ii (xmom d) - nx) * inlet_area d ii) ((average d ii (ymom d) - ny) * inlet_area d ii) area in
  InletModel.SState (set_inlet d2 oo od ox oy) (accumulated_flow a + extra * area)
    (Q * tstar / CulvertModel.timestep (culvert o)) (abs_timemean a + extra * area / yieldstep o).

Lemma structure_call_update o ii oo out Q barrel a a' :
  structure_call (Structure ii oo out (o_jet o) (o_zero o) (o_old o) (o_always o))
    (CulvertModel.timestep (culvert o)) (yieldstep o) Q barrel a = Some a' ->
  a' = sequential_update o ii oo out Q barrel a.
Proof.
  unfold structure_call, sequential_update, new_inflow, new_outflow, set_inlet.
  cbn [in_idx out_idx InletModel.outward use_momentum_jet zero_outflow_momentum use_old_momentum_method always_adjust].
  cbv zeta. destruct (negb (Rleb _ _)); [discriminate |]. intros E.
  assert (F : forall x y : InletModel.sstate, Some x = Some y -> y = x) by (intros x y H; congruence).
  apply F in E. rewrite E. clear.
  destruct (o_jet o), (o_zero o); reflexivity.
Qed.

(** ** Groups *)
Record group (n : nat) (o : operator) : Prop := {
  g_nodup : NoDup (o_procs o);
  g_range : forall p, In p (o_procs o) -> (p < n)%nat;
  g_master : In (o_master o) (o_procs o);
  g_incl : forall b, incl (inlet_procs o b) (o_procs o);
  g_inodup : forall b, NoDup (inlet_procs o b);
  g_imaster : forall b, In (inlet_master o b) (inlet_procs o b);
  g_enquiry : forall b, In (enquiry_proc o b) (inlet_procs o b) }.

Lemma num_of_MNum x : num_of (MNum x) = Some x.
Proof. reflexivity. Qed.

Lemma fold_plus_Rsum l : forall x, fold_left Rplus l x = x + Rsum l.
Proof. induction l as [| a l IH]; intros x; cbn [fold_left Rsum]; [lra |]. rewrite IH. lra. Qed.

Lemma sum_without (x : nat -> R) m l : NoDup l -> In m l ->
  fold_left Rplus (map x (without m l)) (x m) = Rsum (map x l).
Proof.
  intros ND Hm. rewrite fold_plus_Rsum. induction l as [| a l IH]; [contradiction |].
  inversion ND as [| y ys N ND']; subst. unfold without. cbn [filter]. fold (without m l).
  destruct (Nat.eqb_spec a m) as [-> | E]; cbn [negb map Rsum].
  - f_equal. f_equal. f_equal. clear - N. induction l as [| b l IH]; [reflexivity |]. unfold without. cbn [filter].
    destruct (Nat.eqb_spec b m) as [-> | E]; [exfalso; apply N; now left |]. cbn [negb]. f_equal. apply IH.
    intros X. apply N. now right.
  - destruct Hm as [-> | Hm]; [contradiction |]. specialize (IH ND' Hm). lra.
Qed.

Section Run.
Variables (n : nat) (o : operator).
Hypothesis GR : group n o.
Notation procs := (o_procs o).
Notation master := (o_master o).
Local Notation phase := (phase n procs).

Lemma range p : In p procs -> (p < n)%nat. Proof. apply (g_range n o GR). Qed.
Lemma irange b p : In p (inlet_procs o b) -> (p < n)%nat. Proof. intros H. apply range. exact (g_incl n o GR b p H). Qed.

(** *** The discharge routine *)
Lemma discharge_run (pt : nat -> part) (st : nat -> pstate) (K : nat -> bool -> option (R * R * CulvertModel.sstate) -> prog)
    (E : bool -> enquiry) s r sd :
  (forall b, enquiry_at (pdom (st (enquiry_proc o b))) (enquiry_idx (pt (enquiry_proc o b)) b) (inverts o b) (outwards o b) = E b) ->
  let un := use_new_velocity_head (culvert o) in
  sd = smoothed o (total_energy_at un (E true)) (e_stage (E true)) (total_energy_at un (E false)) (e_stage (E false)) (smooth (st master)) ->
  let fwd := negb (Rltb sd 0) in
  master_discharge o sd (smooth (st master)) (e_depth (E fwd)) (specific_energy un (E fwd)) (e_depth (E (negb fwd))) = Some r ->
  (forall p, In p procs -> s p = discharge_routine o p (pt p) (st p) (K p)) ->
  exists t, phase s t /\ forall p, In p procs -> t p = K p fwd (if Nat.eqb p master then Some r else None).
Proof using GR.
  intros HE un HD fwd HM H. pose proof (g_master n o GR) as Mm.
  assert (EP : forall b, In (enquiry_proc o b) procs).
  { intros b. exact (g_incl n o GR b _ (g_enquiry n o GR b)). }
  set (enq := fun p b => enquiry_at (pdom (st p)) (enquiry_idx (pt p) b) (inverts o b) (outwards o b)).
  unfold discharge_routine in H. cbv zeta in H.
  destruct (to_one_phase n procs range (enquiry_proc o true) master 2
     (fun p => [MNum (total_energy_at un (enq p true)); MNum (e_stage (enq p true))]) _ s (EP true) Mm eq_refl H) as (t1 & P1 & H1).
  cbv beta in H1. clear H.
  destruct (to_one_phase n procs range (enquiry_proc o false) master 2
     (fun p => [MNum (total_energy_at un (enq p false)); MNum (e_stage (enq p false))]) _ t1 (EP false) Mm eq_refl H1) as (t2 & P2 & H2).
  cbv beta in H2. clear H1.
  set (known := fun p => match (if Nat.eqb p master then Some [MNum (total_energy_at un (enq (enquiry_proc o true) true)); MNum (e_stage (enq (enquiry_proc o true) true))] else None),
      (if Nat.eqb p master then Some [MNum (total_energy_at un (enq (enquiry_proc o false) false)); MNum (e_stage (enq (enquiry_proc o false) false))] else None) with
      | Some [MNum te0; MNum st0], Some [MNum te1; MNum st1] => Some (smoothed o te0 st0 te1 st1 (smooth (st p)))
      | _, _ => None end).
  assert (KN : forall p, known p = if Nat.eqb p master then Some sd else None).
  { intros p. unfold known. destruct (Nat.eqb_spec p master) as [-> | N]; [| reflexivity].
    unfold enq. rewrite !HE. now rewrite HD. }
  assert (H2' : forall p, In p procs -> t2 p = to_all p master procs 1
      [MFlag match known p with Some sd => Rltb sd 0 | None => false end] (fun rev =>
      match rev with
      | Some [MFlag reversed] =>
          let fwd := negb reversed in
          to_one p (enquiry_proc o fwd) master 2 [MNum (e_depth (enq p fwd)); MNum (specific_energy un (enq p fwd))] (fun v2 =>
          to_one p (enquiry_proc o (negb fwd)) master 1 [MNum (e_depth (enq p (negb fwd)))] (fun v3 =>
          if Nat.eqb p master then
            match known p, v2, v3 with
            | Some sd, Some [MNum in_depth; MNum in_energy], Some [MNum out_depth] =>
                match master_discharge o sd (smooth (st p)) in_depth in_energy out_depth with
                | Some r => K p fwd (Some r)
                | None => Fail
                end
            | _, _, _ => Fail
            end
          else K p fwd None))
      | _ => Fail
      end)).
  { intros p Hp. rewrite (H2 p Hp). fold (known p).
    assert (G : Nat.eqb p master && match known p with None => true | _ => false end = false).
    { rewrite KN. destruct (Nat.eqb p master); reflexivity. }
    rewrite G. reflexivity. }
  clear H2.
  destruct (to_all_phase n procs range master procs 1 (fun p => [MFlag match known p with Some sd => Rltb sd 0 | None => false end]) _ t2 Mm (incl_refl _) (g_nodup n o GR) eq_refl H2') as (t3 & P3 & H3).
  clear H2'.
  assert (H3' : forall p, In p procs -> t3 p =
          to_one p (enquiry_proc o fwd) master 2 [MNum (e_depth (enq p fwd)); MNum (specific_energy un (enq p fwd))] (fun v2 =>
          to_one p (enquiry_proc o (negb fwd)) master 1 [MNum (e_depth (enq p (negb fwd)))] (fun v3 =>
          if Nat.eqb p master then
            match known p, v2, v3 with
            | Some sd, Some [MNum in_depth; MNum in_energy], Some [MNum out_depth] =>
                match master_discharge o sd (smooth (st p)) in_depth in_energy out_depth with
                | Some r => K p fwd (Some r)
                | None => Fail
                end
            | _, _, _ => Fail
            end
          else K p fwd None))).
  { intros p Hp. rewrite (H3 p Hp). rewrite (proj2 (mem_true p procs) Hp), orb_true_r. rewrite (KN master), Nat.eqb_refl.
    reflexivity. }
  clear H3.
  destruct (to_one_phase n procs range (enquiry_proc o fwd) master 2
     (fun p => [MNum (e_depth (enq p fwd)); MNum (specific_energy un (enq p fwd))]) _ t3 (EP fwd) Mm eq_refl H3') as (t4 & P4 & H4).
  cbv beta in H4. clear H3'.
  destruct (to_one_phase n procs range (enquiry_proc o (negb fwd)) master 1
     (fun p => [MNum (e_depth (enq p (negb fwd)))]) _ t4 (EP (negb fwd)) Mm eq_refl H4) as (t5 & P5 & H5).
  cbv beta in H5. clear H4.
  exists t5. split; [eauto using phase_trans |].
  intros p Hp. rewrite (H5 p Hp), KN. destruct (Nat.eqb_spec p master) as [-> | N]; [| reflexivity].
  unfold enq. rewrite !HE. now rewrite HM.
Qed.

(** *** The averages *)
Lemma sum_run b (x : nat -> R) (K : nat -> R -> prog) s :
  (forall p, In p (inlet_procs o b) -> s p = global_sum o p b (x p) (K p)) ->
  exists t y, PhaseLib.phase n (inlet_procs o b) s t /\ (forall p, In p (inlet_procs o b) -> t p = K p (y p)) /\
    y (inlet_master o b) = Rsum (map x (inlet_procs o b)).
Proof using GR.
  intros H. unfold global_sum in H.
  destruct (sum_at_phase MNum num_of num_of_MNum n (inlet_procs o b) (inlet_master o b) x K s (irange b)
    (g_inodup n o GR b) (g_imaster n o GR b) H) as (t & P & T).
  exists t, (fun p => if Nat.eqb p (inlet_master o b)
    then fold_left Rplus (map x (without (inlet_master o b) (inlet_procs o b))) (x (inlet_master o b)) else x p).
  split; [exact P |]. split; [exact T |]. rewrite Nat.eqb_refl.
  apply sum_without; [exact (g_inodup n o GR b) | exact (g_imaster n o GR b)].
Qed.

Lemma average_run b (d : nat -> dom) (idx : nat -> list nat) (x : nat -> R) (K : nat -> R -> prog) s area total :
  Rsum (map (fun p => inlet_area (d p) (idx p)) (inlet_procs o b)) = area -> 0 < area ->
  Rsum (map x (inlet_procs o b)) = total ->
  (forall p, In p (inlet_procs o b) -> s p = global_average o p b (d p) (idx p) (x p) (K p)) ->
  exists t y, PhaseLib.phase n (inlet_procs o b) s t /\ (forall p, In p (inlet_procs o b) -> t p = K p (y p)) /\
    y (inlet_master o b) = total / area.
Proof using GR.
  intros EA PA ET H. unfold global_average in H.
  destruct (sum_run b (fun p => inlet_area (d p) (idx p)) _ s H) as (t1 & a & P1 & H1 & A1). cbv beta in H1.
  destruct (sum_run b x (fun p v => K p (if Rltb 0 (a p) then v / a p else 0)) t1 H1) as (t2 & v & P2 & H2 & A2).
  exists t2, (fun p => if Rltb 0 (a p) then v p / a p else 0).
  split; [eapply phase_trans; eassumption |]. split; [exact H2 |].
  rewrite A1, A2, EA, ET. now rewrite (proj2 (Rltb_true 0 area)).
Qed.

(** What is known of an inlet: the sums over its processes. *)
Record inlet_sums (b : bool) (d : nat -> dom) (idx : nat -> list nat) (area vol stg xm ym : R) : Prop := {
  is_area : Rsum (map (fun p => inlet_area (d p) (idx p)) (inlet_procs o b)) = area;
  is_pos : 0 < area;
  is_vol : Rsum (map (fun p => total_water_volume (d p) (idx p)) (inlet_procs o b)) = vol;
  is_stage : Rsum (map (fun p => weighted (d p) (idx p) (stage (d p))) (inlet_procs o b)) = stg;
  is_xmom : Rsum (map (fun p => weighted (d p) (idx p) (xmom (d p))) (inlet_procs o b)) = xm;
  is_ymom : Rsum (map (fun p => weighted (d p) (idx p) (ymom (d p))) (inlet_procs o b)) = ym }.

Lemma inflow_run b d idx area vol stg xm ym (K : nat -> list msg -> prog) s :
  inlet_sums b d idx area vol stg xm ym ->
  (forall p, In p procs -> s p = inflow_averages o p b (d p) (idx p) (K p)) ->
  exists t vals, phase s t /\ (forall p, In p procs -> t p = K p (vals p)) /\
    vals (inlet_master o b) = [MNum (vol / area); MNum (stg / area); MNum (xm / area); MNum (ym / area); MNum area].
Proof using GR.
  intros [A PA V ST X Y] H. unfold inflow_averages in H.
  assert (H0 : forall p, In p (inlet_procs o b) -> s p = (global_average o p b (d p) (idx p) (total_water_volume (d p) (idx p)) (fun depth =>
    global_average o p b (d p) (idx p) (weighted (d p) (idx p) (stage (d p))) (fun stg =>
    global_average o p b (d p) (idx p) (weighted (d p) (idx p) (xmom (d p))) (fun xm =>
    global_average o p b (d p) (idx p) (weighted (d p) (idx p) (ymom (d p))) (fun ym =>
    global_sum o p b (inlet_area (d p) (idx p)) (fun area =>
    K p [MNum depth; MNum stg; MNum xm; MNum ym; MNum area]))))))).
  { intros p Hp. rewrite H by exact (g_incl n o GR b p Hp). now rewrite (proj2 (mem_true p _) Hp). }
  destruct (average_run b d idx _ _ s area vol A PA V H0) as (t1 & y1 & P1 & H1 & E1). cbv beta in H1.
  destruct (average_run b d idx (fun p => weighted (d p) (idx p) (stage (d p))) (fun p v => global_average o p b (d p) (idx p) (weighted (d p) (idx p) (xmom (d p))) (fun xm =>
    global_average o p b (d p) (idx p) (weighted (d p) (idx p) (ymom (d p))) (fun ym =>
    global_sum o p b (inlet_area (d p) (idx p)) (fun area =>
    K p [MNum (y1 p); MNum v; MNum xm; MNum ym; MNum area])))) t1 area stg A PA ST H1) as (t2 & y2 & P2 & H2 & E2).
  cbv beta in H2.
  destruct (average_run b d idx (fun p => weighted (d p) (idx p) (xmom (d p))) (fun p v =>
    global_average o p b (d p) (idx p) (weighted (d p) (idx p) (ymom (d p))) (fun ym =>
    global_sum o p b (inlet_area (d p) (idx p)) (fun area =>
    K p [MNum (y1 p); MNum (y2 p); MNum v; MNum ym; MNum area]))) t2 area xm A PA X H2) as (t3 & y3 & P3 & H3 & E3).
  cbv beta in H3.
  destruct (average_run b d idx (fun p => weighted (d p) (idx p) (ymom (d p))) (fun p v =>
    global_sum o p b (inlet_area (d p) (idx p)) (fun area =>
    K p [MNum (y1 p); MNum (y2 p); MNum (y3 p); MNum v; MNum area])) t3 area ym A PA Y H3) as (t4 & y4 & P4 & H4 & E4).
  cbv beta in H4.
  destruct (sum_run b (fun p => inlet_area (d p) (idx p)) (fun p v =>
    K p [MNum (y1 p); MNum (y2 p); MNum (y3 p); MNum (y4 p); MNum v]) t4 H4) as (t5 & y5 & P5 & H5 & E5).
  pose proof (phase_trans _ _ _ _ _ P1 (phase_trans _ _ _ _ _ P2 (phase_trans _ _ _ _ _ P3 (phase_trans _ _ _ _ _ P4 P5)))) as P.
  exists t5, (fun p => if mem p (inlet_procs o b) then [MNum (y1 p); MNum (y2 p); MNum (y3 p); MNum (y4 p); MNum (y5 p)] else []).
  split; [exact (phase_sub n _ _ _ _ (g_incl n o GR b) P) |]. split.
  - intros p Hp. destruct (mem p (inlet_procs o b)) eqn:M.
    + apply mem_true in M. now apply H5.
    + rewrite (proj2 P p) by (now apply mem_false). rewrite H by assumption. now rewrite M.
  - rewrite (proj2 (mem_true _ _) (g_imaster n o GR b)). rewrite E1, E2, E3, E4, E5, A. reflexivity.
Qed.

Lemma outflow_run b d idx area vol stg xm ym (K : nat -> list msg -> prog) s :
  inlet_sums b d idx area vol stg xm ym ->
  (forall p, In p procs -> s p = outflow_averages o p b (d p) (idx p) (K p)) ->
  exists t vals, phase s t /\ (forall p, In p procs -> t p = K p (vals p)) /\
    vals (inlet_master o b) = [MNum area; MNum (vol / area); MVec (fst (outwards o b)) (snd (outwards o b));
                               MNum (xm / area); MNum (ym / area)].
Proof using GR.
  intros [A PA V ST X Y] H. unfold outflow_averages in H.
  assert (H0 : forall p, In p (inlet_procs o b) -> s p =
    (global_sum o p b (inlet_area (d p) (idx p)) (fun area =>
    global_average o p b (d p) (idx p) (total_water_volume (d p) (idx p)) (fun depth =>
    global_average o p b (d p) (idx p) (weighted (d p) (idx p) (xmom (d p))) (fun xm =>
    global_average o p b (d p) (idx p) (weighted (d p) (idx p) (ymom (d p))) (fun ym =>
    K p [MNum area; MNum depth; MVec (fst (outwards o b)) (snd (outwards o b)); MNum xm; MNum ym])))))).
  { intros p Hp. rewrite H by exact (g_incl n o GR b p Hp). now rewrite (proj2 (mem_true p _) Hp). }
  destruct (sum_run b _ _ s H0) as (t1 & y1 & P1 & H1 & E1). cbv beta in H1.
  destruct (average_run b d idx (fun p => total_water_volume (d p) (idx p)) (fun p v =>
    global_average o p b (d p) (idx p) (weighted (d p) (idx p) (xmom (d p))) (fun xm =>
    global_average o p b (d p) (idx p) (weighted (d p) (idx p) (ymom (d p))) (fun ym =>
    K p [MNum (y1 p); MNum v; MVec (fst (outwards o b)) (snd (outwards o b)); MNum xm; MNum ym]))) t1 area vol A PA V H1) as (t2 & y2 & P2 & H2 & E2).
  cbv beta in H2.
  destruct (average_run b d idx (fun p => weighted (d p) (idx p) (xmom (d p))) (fun p v =>
    global_average o p b (d p) (idx p) (weighted (d p) (idx p) (ymom (d p))) (fun ym =>
    K p [MNum (y1 p); MNum (y2 p); MVec (fst (outwards o b)) (snd (outwards o b)); MNum v; MNum ym])) t2 area xm A PA X H2) as (t3 & y3 & P3 & H3 & E3).
  cbv beta in H3.
  destruct (average_run b d idx (fun p => weighted (d p) (idx p) (ymom (d p))) (fun p v =>
    K p [MNum (y1 p); MNum (y2 p); MVec (fst (outwards o b)) (snd (outwards o b)); MNum (y3 p); MNum v]) t3 area ym A PA Y H3) as (t4 & y4 & P4 & H4 & E4).
  pose proof (phase_trans _ _ _ _ _ P1 (phase_trans _ _ _ _ _ P2 (phase_trans _ _ _ _ _ P3 P4))) as P.
  exists t4, (fun p => if mem p (inlet_procs o b)
    then [MNum (y1 p); MNum (y2 p); MVec (fst (outwards o b)) (snd (outwards o b)); MNum (y3 p); MNum (y4 p)] else []).
  split; [exact (phase_sub n _ _ _ _ (g_incl n o GR b) P) |]. split.
  - intros p Hp. destruct (mem p (inlet_procs o b)) eqn:M.
    + apply mem_true in M. now apply H4.
    + rewrite (proj2 P p) by (now apply mem_false). rewrite H by assumption. now rewrite M.
  - rewrite (proj2 (mem_true _ _) (g_imaster n o GR b)). rewrite E1, E2, E3, E4, A. reflexivity.
Qed.

(** *** The update of the outflow inlet *)
Definition set_if (p : nat) (b : bool) (d : dom) (idx : list nat) (h x y : R) : dom :=
  if mem p (inlet_procs o b) then set_inlet d idx h x y else d.

Lemma update_outflow_run b (pt : nat -> part) (st : nat -> pstate) area vol stg xm ym Q barrel tstar xloss yloss sm h x y s :
  inlet_sums b (fun p => pdom (st p)) (fun p => inlet_idx (pt p) b) area vol stg xm ym ->
  new_outflow o (Q * tstar / area) barrel (vol / area) (fst (outwards o b)) (snd (outwards o b)) (xm / area) (ym / area)
    xloss yloss area = (h, x, y) ->
  (forall p, In p procs -> s p = update_outflow o p (pt p) (st p) b
     (if Nat.eqb p master then Some (Q, barrel, tstar, xloss, yloss, sm) else None)) ->
  exists t, phase s t /\ forall p, In p procs ->
    t p = Ret (with_dom
      (if Nat.eqb p master
       then PState (InletModel.SState (pdom (st p)) (accumulated_flow (acc (st p)) + Q * tstar / area * area)
              (Q * tstar / CulvertModel.timestep (culvert o)) (abs_timemean (acc (st p)) + Q * tstar / yieldstep o)) sm
       else st p) (set_if p b (pdom (st p)) (inlet_idx (pt p) b) h x y)).
Proof using GR.
  intros IS HN H. unfold update_outflow in H. cbv zeta in H. pose proof (g_master n o GR) as Mm.
  destruct (outflow_run b _ _ area vol stg xm ym _ s IS H) as (t1 & vals & P1 & H1 & E1). clear H.
  destruct (to_one_phase n procs range (inlet_master o b) master 5 vals _ t1 (g_incl n o GR b _ (g_imaster n o GR b)) Mm
     ltac:(now rewrite E1) H1) as (t2 & P2 & H2). cbv beta in H2. clear H1. rewrite E1 in H2.
  set (st' := PState (InletModel.SState (pdom (st master)) (accumulated_flow (acc (st master)) + Q * tstar / area * area)
              (Q * tstar / CulvertModel.timestep (culvert o)) (abs_timemean (acc (st master)) + Q * tstar / yieldstep o)) sm).
  assert (H2' : forall p, In p procs -> t2 p =
     to_all p master (inlet_procs o b) 3 (if Nat.eqb p master then [MNum h; MNum x; MNum y] else []) (fun got =>
       let st1 := if Nat.eqb p master then st' else st p in
       if mem p (inlet_procs o b) then
         match got with
         | Some [MNum depth; MNum xm; MNum ym] => Ret (with_dom st1 (set_inlet (pdom st1) (inlet_idx (pt p) b) depth xm ym))
         | _ => Fail
         end
       else Ret st1)).
  { intros p Hp. rewrite (H2 p Hp). destruct (Nat.eqb_spec p master) as [-> | N]; [| reflexivity].
    cbn [andb]. rewrite HN. reflexivity. }
  clear H2.
  destruct (to_all_phase n procs range master (inlet_procs o b) 3 (fun p => if Nat.eqb p master then [MNum h; MNum x; MNum y] else []) _ t2 Mm (g_incl n o GR b) (g_inodup n o GR b)
     ltac:(cbv beta; now rewrite Nat.eqb_refl) H2') as (t3 & P3 & H3). clear H2'.
  exists t3. split; [eauto using phase_trans |]. intros p Hp. rewrite (H3 p Hp). cbv beta. rewrite Nat.eqb_refl. cbv zeta. unfold set_if.
  destruct (mem p (inlet_procs o b)) eqn:M.
  - rewrite orb_true_r. destruct (Nat.eqb_spec p master) as [-> | N]; [| reflexivity]. unfold st', with_dom. reflexivity.
  - destruct (Nat.eqb_spec p master) as [-> | N]; [unfold st', with_dom; reflexivity |].
    f_equal. unfold with_dom, pdom. destruct (st p) as [[] ?]. reflexivity.
Qed.

(** *** The whole call *)
Lemma call_run (pt : nat -> part) (st : nat -> pstate) (E : bool -> enquiry) sd Q barrel sm
    area vol stg xm ym tstar nh nx ny area' vol' stg' xm' ym' h x y s :
  (forall b, enquiry_at (pdom (st (enquiry_proc o b))) (enquiry_idx (pt (enquiry_proc o b)) b) (inverts o b) (outwards o b) = E b) ->
  let un := use_new_velocity_head (culvert o) in
  sd = smoothed o (total_energy_at un (E true)) (e_stage (E true)) (total_energy_at un (E false)) (e_stage (E false)) (smooth (st master)) ->
  let b := negb (Rltb sd 0) in
  master_discharge o sd (smooth (st master)) (e_depth (E b)) (specific_energy un (E b)) (e_depth (E (negb b))) = Some (Q, barrel, sm) ->
  inlet_sums b (fun p => pdom (st p)) (fun p => inlet_idx (pt p) b) area vol stg xm ym ->
  new_inflow o Q (vol / area) (xm / area) (ym / area) area = (tstar, nh, nx, ny) ->
  let d2 p := set_if p b (pdom (st p)) (inlet_idx (pt p) b) nh nx ny in
  inlet_sums (negb b) d2 (fun p => inlet_idx (pt p) (negb b)) area' vol' stg' xm' ym' ->
  new_outflow o (Q * tstar / area') barrel (vol' / area') (fst (outwards o (negb b))) (snd (outwards o (negb b)))
    (xm' / area') (ym' / area') ((xm / area - nx) * area) ((ym / area - ny) * area) area' = (h, x, y) ->
  (forall p, In p procs -> s p = call o p (pt p) (st p)) ->
  exists t, phase s t /\ forall p, In p procs ->
    t p = Ret (with_dom
      (if Nat.eqb p master
       then PState (InletModel.SState (pdom (st p)) (accumulated_flow (acc (st p)) + Q * tstar / area' * area')
              (Q * tstar / CulvertModel.timestep (culvert o)) (abs_timemean (acc (st p)) + Q * tstar / yieldstep o)) sm
       else st p) (set_if p (negb b) (d2 p) (inlet_idx (pt p) (negb b)) h x y)).
Proof using GR.
  intros HE un HD b HM IS HNI d2 IS' HNO H. pose proof (g_master n o GR) as Mm. unfold call in H.
  destruct (discharge_run pt st _ E s (Q, barrel, sm) sd HE HD HM H) as (t1 & P1 & H1). clear H. fold b in H1. cbv beta zeta in H1.
  destruct (inflow_run b _ _ area vol stg xm ym _ t1 IS H1) as (t2 & vals & P2 & H2 & E2). clear H1.
  destruct (to_one_phase n procs range (inlet_master o b) master 5 vals _ t2 (g_incl n o GR b _ (g_imaster n o GR b)) Mm
     ltac:(now rewrite E2) H2) as (t3 & P3 & H3). cbv beta in H3. clear H2. rewrite E2 in H3.
  set (k := (Q, barrel, tstar, (xm / area - nx) * area, (ym / area - ny) * area, sm)).
  assert (H3' : forall p, In p procs -> t3 p =
     to_all p master (inlet_procs o b) 3 (if Nat.eqb p master then [MNum nh; MNum nx; MNum ny] else []) (fun got =>
       let known := if Nat.eqb p master then Some k else None in
       if mem p (inlet_procs o b) then
         match got with
         | Some [MNum depth; MNum xm; MNum ym] =>
             update_outflow o p (pt p) (with_dom (st p) (set_inlet (pdom (st p)) (inlet_idx (pt p) b) depth xm ym)) (negb b) known
         | _ => Fail
         end
       else update_outflow o p (pt p) (st p) (negb b) known)).
  { intros p Hp. rewrite (H3 p Hp). destruct (Nat.eqb_spec p master) as [-> | N]; [| reflexivity].
    cbn [andb]. rewrite HNI. reflexivity. }
  clear H3.
  destruct (to_all_phase n procs range master (inlet_procs o b) 3 (fun p => if Nat.eqb p master then [MNum nh; MNum nx; MNum ny] else []) _ t3 Mm (g_incl n o GR b) (g_inodup n o GR b)
     ltac:(cbv beta; now rewrite Nat.eqb_refl) H3') as (t4 & P4 & H4). clear H3'.
  set (st2 := fun p => with_dom (st p) (d2 p)).
  assert (H4' : forall p, In p procs -> t4 p = update_outflow o p (pt p) (st2 p) (negb b) (if Nat.eqb p master then Some k else None)).
  { intros p Hp. rewrite (H4 p Hp). cbv beta. rewrite Nat.eqb_refl. cbv zeta. unfold st2, d2, set_if.
    destruct (mem p (inlet_procs o b)) eqn:M.
    - rewrite orb_true_r. reflexivity.
    - f_equal. unfold with_dom, pdom. destruct (st p) as [[] ?]. reflexivity. }
  clear H4.
  destruct (update_outflow_run (negb b) pt st2 area' vol' stg' xm' ym' Q barrel tstar _ _ sm h x y t4 IS' HNO H4')
    as (t5 & P5 & H5).
  exists t5. split; [eauto 6 using phase_trans |].
  intros p Hp. rewrite (H5 p Hp). unfold st2, with_dom, pdom. destruct (Nat.eqb p master); reflexivity.
Qed.
End Run.
