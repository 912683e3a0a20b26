(** C85: culverts and weirs whose inlets belong to several processes. *)
From Coq Require Import Reals List Arith Bool Lia Lra Permutation.
From Verif Require Import RealLib ListLib ArrayLib KahnLib SyncLib PhaseLib CulvertModel InletModel InletProofs InletProps
  CulvertProps CulvertRoutineProps ParallelInletProofs ParallelInletProps StructureProps ParallelStructureModel ParallelStructureProofs.
Import ListNotations.
Local Open Scope R_scope.

(** The values of a process agree with those of the undivided domain on the
    triangles it owns. *)
Definition same (owned : nat -> Prop) (loc : nat -> nat) (d G : dom) : Prop :=
  forall i, owned i -> areas d i = areas G (loc i) /\ elev d i = elev G (loc i) /\ stage d i = stage G (loc i) /\
    xmom d i = xmom G (loc i) /\ ymom d i = ymom G (loc i).

(** The operator [gpt] of the undivided domain with state [G], divided among
    processes: every triangle is owned by at most one process, every triangle
    of an inlet by one of the inlet's processes, and each enquiry point by the
    process named for it. *)
Record divided_operator (n : nat) (o : operator) (owned : nat -> nat -> Prop) (loc : nat -> nat -> nat)
    (pt : nat -> part) (st : nat -> pstate) (gpt : part) (G : pstate) : Prop := {
  do_group : group n o;
  do_inj : forall p q i j, In p (o_procs o) -> In q (o_procs o) -> owned p i -> owned q j ->
    loc p i = loc q j -> p = q /\ i = j;
  do_owned : forall b p i, In p (inlet_procs o b) -> In i (inlet_idx (pt p) b) -> owned p i;
  do_parts : forall b, Permutation (inlet_idx gpt b)
    (flat_map (fun p => map (loc p) (inlet_idx (pt p) b)) (inlet_procs o b));
  do_values : forall p, In p (o_procs o) -> same (owned p) (loc p) (pdom (st p)) (pdom G);
  do_enquiry : forall b, owned (enquiry_proc o b) (enquiry_idx (pt (enquiry_proc o b)) b) /\
    loc (enquiry_proc o b) (enquiry_idx (pt (enquiry_proc o b)) b) = enquiry_idx gpt b }.

Definition start (o : operator) (pt : nat -> part) (st : nat -> pstate) (p : nat) : prog :=
  if in_dec Nat.eq_dec p (o_procs o) then call o p (pt p) (st p) else Ret (st p).

(** Accounts and smoothed values. *)
Definition books (s : pstate) : R * R * R * CulvertModel.sstate :=
  (accumulated_flow (acc s), InletModel.discharge (acc s), abs_timemean (acc s), smooth s).

Section Agree.
Variables (n : nat) (o : operator) (owned : nat -> nat -> Prop) (loc : nat -> nat -> nat)
  (pt : nat -> part) (st : nat -> pstate) (gpt : part) (G : pstate).
Hypothesis DV : divided_operator n o owned loc pt st gpt G.
Notation GR := (do_group _ _ _ _ _ _ _ _ DV).

Lemma inlet_iff b p i : In p (o_procs o) -> owned p i ->
  (In (loc p i) (inlet_idx gpt b) <-> In p (inlet_procs o b) /\ In i (inlet_idx (pt p) b)).
Proof using DV.
  intros Hp Ho. split.
  - intros H. apply (Permutation_in _ (do_parts _ _ _ _ _ _ _ _ DV b)) in H.
    apply in_flat_map in H as (q & Hq & H). apply in_map_iff in H as (j & E & Hj).
    pose proof (g_incl n o GR b q Hq) as Hq'.
    destruct (do_inj _ _ _ _ _ _ _ _ DV q p j i Hq' Hp (do_owned _ _ _ _ _ _ _ _ DV b q j Hq Hj) Ho E) as [-> ->].
    now split.
  - intros [Hq Hi]. apply (Permutation_in _ (Permutation_sym (do_parts _ _ _ _ _ _ _ _ DV b))).
    apply in_flat_map. exists p. split; [assumption | now apply in_map].
Qed.

Lemma sum_divided b (f : nat -> R) (g : nat -> nat -> R) :
  (forall p i, In p (o_procs o) -> owned p i -> g p i = f (loc p i)) ->
  Rsum (map (fun p => Rsum (map (g p) (inlet_idx (pt p) b))) (inlet_procs o b)) = Rsum (map f (inlet_idx gpt b)).
Proof using DV.
  intros H. rewrite (Rsum_perm _ _ (Permutation_map f (do_parts _ _ _ _ _ _ _ _ DV b))), Rsum_parts.
  apply Rsum_map_ext_in. intros p Hp. rewrite map_map. apply Rsum_map_ext_in. intros i Hi.
  apply H; [exact (g_incl n o GR b p Hp) | exact (do_owned _ _ _ _ _ _ _ _ DV b p i Hp Hi)].
Qed.

Lemma weighted_sum d idx a : weighted d idx a = Rsum (map (fun i => a i * areas d i) idx).
Proof. unfold weighted, take, inlet_areas. unfold InletModel.take. now rewrite zip_with_map. Qed.

Lemma sums b (d : nat -> dom) (g : dom) :
  (forall p, In p (o_procs o) -> same (owned p) (loc p) (d p) g) -> 0 < inlet_area g (inlet_idx gpt b) ->
  inlet_sums o b d (fun p => inlet_idx (pt p) b) (inlet_area g (inlet_idx gpt b)) (total_water_volume g (inlet_idx gpt b))
    (weighted g (inlet_idx gpt b) (stage g)) (weighted g (inlet_idx gpt b) (xmom g)) (weighted g (inlet_idx gpt b) (ymom g)).
Proof using DV.
  intros H PA. constructor; [| exact PA | | | |].
  - unfold inlet_area, inlet_areas, take. apply (sum_divided b (areas g) (fun p => areas (d p))).
    intros p i Hp Ho. apply (H p Hp i Ho).
  - rewrite total_water_volume_eq. unfold water_on.
    rewrite <- (sum_divided b (fun i => areas g i * (stage g i - elev g i)) (fun p i => areas (d p) i * (stage (d p) i - elev (d p) i))).
    + apply Rsum_map_ext_in. intros p _. apply total_water_volume_eq.
    + intros p i Hp Ho. destruct (H p Hp i Ho) as (-> & -> & -> & _). reflexivity.
  - rewrite weighted_sum. rewrite <- (sum_divided b _ (fun p i => stage (d p) i * areas (d p) i)).
    + apply Rsum_map_ext_in. intros p _. apply weighted_sum.
    + intros p i Hp Ho. destruct (H p Hp i Ho) as (-> & _ & -> & _). reflexivity.
  - rewrite weighted_sum. rewrite <- (sum_divided b _ (fun p i => xmom (d p) i * areas (d p) i)).
    + apply Rsum_map_ext_in. intros p _. apply weighted_sum.
    + intros p i Hp Ho. destruct (H p Hp i Ho) as (-> & _ & _ & -> & _). reflexivity.
  - rewrite weighted_sum. rewrite <- (sum_divided b _ (fun p i => ymom (d p) i * areas (d p) i)).
    + apply Rsum_map_ext_in. intros p _. apply weighted_sum.
    + intros p i Hp Ho. destruct (H p Hp i Ho) as (-> & _ & _ & _ & ->). reflexivity.
Qed.

(** The values after [set_inlet]. *)
Lemma set_inlet_values d idx h x y i :
  areas (set_inlet d idx h x y) i = areas d i /\ elev (set_inlet d idx h x y) i = elev d i /\
  stage (set_inlet d idx h x y) i = (if in_dec Nat.eq_dec i idx then elev d i + h else stage d i) /\
  xmom (set_inlet d idx h x y) i = (if in_dec Nat.eq_dec i idx then x else xmom d i) /\
  ymom (set_inlet d idx h x y) i = (if in_dec Nat.eq_dec i idx then y else ymom d i).
Proof.
  unfold set_inlet, set_depths, with_moms, with_stage, put_all. cbn [areas elev stage xmom ymom].
  unfold take. rewrite map_map, !put_map. repeat split.
Qed.

Lemma same_set b (d : nat -> dom) (g : dom) h x y p :
  In p (o_procs o) -> same (owned p) (loc p) (d p) g ->
  same (owned p) (loc p) (set_if o p b (d p) (inlet_idx (pt p) b) h x y) (set_inlet g (inlet_idx gpt b) h x y).
Proof using DV.
  intros Hp H i Ho. destruct (H i Ho) as (E1 & E2 & E3 & E4 & E5).
  destruct (set_inlet_values g (inlet_idx gpt b) h x y (loc p i)) as (-> & -> & -> & -> & ->).
  unfold set_if. destruct (mem p (inlet_procs o b)) eqn:M.
  - apply mem_true in M. destruct (set_inlet_values (d p) (inlet_idx (pt p) b) h x y i) as (-> & -> & -> & -> & ->).
    destruct (in_dec Nat.eq_dec i (inlet_idx (pt p) b)) as [I | I], (in_dec Nat.eq_dec (loc p i) (inlet_idx gpt b)) as [J | J].
    + rewrite E2. auto.
    + exfalso. apply J. now apply inlet_iff.
    + exfalso. apply I. now apply (inlet_iff b p i Hp Ho).
    + auto.
  - apply mem_false in M. destruct (in_dec Nat.eq_dec (loc p i) (inlet_idx gpt b)) as [J | J]; [| auto].
    exfalso. apply M. now apply (inlet_iff b p i Hp Ho).
Qed.

Lemma rest_set b (d : dom) h x y p i : In p (o_procs o) -> ~ owned p i ->
  let d' := set_if o p b d (inlet_idx (pt p) b) h x y in
  areas d' i = areas d i /\ elev d' i = elev d i /\ stage d' i = stage d i /\ xmom d' i = xmom d i /\ ymom d' i = ymom d i.
Proof using DV.
  intros Hp Ho. cbv zeta. unfold set_if. destruct (mem p (inlet_procs o b)) eqn:M; [| auto]. apply mem_true in M.
  destruct (set_inlet_values d (inlet_idx (pt p) b) h x y i) as (-> & -> & -> & -> & ->).
  destruct (in_dec Nat.eq_dec i (inlet_idx (pt p) b)) as [I | I]; [| auto].
  exfalso. apply Ho. exact (do_owned _ _ _ _ _ _ _ _ DV b p i M I).
Qed.
End Agree.

(** What a process must have at the end. *)
Record agrees (o : operator) (owned : nat -> Prop) (loc : nat -> nat) (p : nat) (s s' G' : pstate) : Prop := {
  ag_owned : same owned loc (pdom s') (pdom G');
  ag_rest : forall i, ~ owned i ->
    areas (pdom s') i = areas (pdom s) i /\ elev (pdom s') i = elev (pdom s) i /\ stage (pdom s') i = stage (pdom s) i /\
    xmom (pdom s') i = xmom (pdom s) i /\ ymom (pdom s') i = ymom (pdom s) i;
  ag_books : books s' = if Nat.eqb p (o_master o) then books G' else books s }.

(** The smoothing of the discharge is that of the sequential operator at the
    values that occur. *)
Definition smoothes_alike (o : operator) : Prop :=
  forall driving sd out f sq ts, 0 < driving -> formula o driving (Rabs sd) out = Some f ->
  smoother o sd sq (Qf f) (farea f) ts = Some (smooth_discharge sd sq (Qf f) (farea f) ts).

Lemma discharge_alike o size E0 E1 old sm r : smoothes_alike o -> 0 < size ->
  CulvertModel.discharge_routine (culvert o) size (formula o) E0 E1 old sm = Some r ->
  let un := use_new_velocity_head (culvert o) in
  let sd := smoothed o (total_energy_at un E0) (e_stage E0) (total_energy_at un E1) (e_stage E1) sm in
  let E (b : bool) := if b then E0 else E1 in
  let b := negb (Rltb sd 0) in
  inflow r = b /\
  master_discharge o sd sm (e_depth (E b)) (specific_energy un (E b)) (e_depth (E (negb b))) =
    Some (CulvertModel.discharge r, barrel_velocity r, after r).
Proof.
  intros HS Hsize. unfold CulvertModel.discharge_routine. rewrite (proj2 (Rleb_false size 0)) by exact Hsize.
  cbv zeta. unfold smoothed. set (un := use_new_velocity_head (culvert o)).
  set (ts := smoothing (CulvertModel.timestep (culvert o)) (timescale (culvert o))).
  set (sd := smooth_energy (smooth_delta sm) (if use_velocity_head (culvert o) then total_energy_at un E0 - total_energy_at un E1
     else e_stage E0 - e_stage E1) ts).
  assert (F : Rleb 0 sd = negb (Rltb sd 0)).
  { destruct (Rltb_spec sd 0) as [L | L]; cbn [negb]; [apply Rleb_false; lra | apply Rleb_true; lra]. }
  assert (D : (if negb (Rltb sd 0) then sd else - sd) = Rabs sd).
  { destruct (Rltb_spec sd 0) as [L | L]; cbn [negb]; unfold Rabs; destruct (Rcase_abs sd); lra. }
  rewrite F. unfold master_discharge. fold ts.
  assert (D' : (if Rltb sd 0 then - sd else sd) = Rabs sd) by (rewrite <- D; destruct (Rltb sd 0); reflexivity).
  cbv zeta. rewrite D, D'.
  assert (A : (if negb (Rltb sd 0) then E1 else E0) = (if negb (negb (Rltb sd 0)) then E0 else E1))
    by (destruct (Rltb sd 0); reflexivity).
  rewrite A. set (b := negb (Rltb sd 0)).
  set (Ei := if b then E0 else E1). set (Eo := if negb b then E0 else E1).
  destruct (Rltb_spec (1 / 100) (e_depth Ei)) as [L | L].
  - destruct (Rltb_spec (specific_energy un Ei) 0) as [L1 | L1]; [discriminate |].
    set (drv := if use_velocity_head (culvert o) then specific_energy un Ei else e_depth Ei).
    assert (VH : 0 <= velocity_head un Ei).
    { unfold velocity_head. destruct (e_velocity Ei) as [u v]. unfold grav.
      set (w := Rmin (u * fst (CulvertModel.outward Ei) + v * snd (CulvertModel.outward Ei)) 0). set (q := sqrt (u ^ 2 + v ^ 2)).
      assert (0 <= w ^ 2) by (rewrite <- Rsqr_pow2; apply Rle_0_sqr).
      assert (0 <= q ^ 2) by (rewrite <- Rsqr_pow2; apply Rle_0_sqr).
      destruct un; lra. }
    assert (DP : 0 < drv) by (unfold drv, specific_energy in *; destruct (use_velocity_head (culvert o)); lra).
    unfold bind. destruct (formula o drv (Rabs sd) (e_depth Eo)) as [f |] eqn:EF; [| discriminate].
    rewrite (HS drv sd (e_depth Eo) f (smooth_Q sm) ts DP EF).
    destruct (smooth_discharge sd (smooth_Q sm) (Qf f) (farea f) ts) as [[sq Q] v].
    destruct (Rltb 10 v); intros H; injection H as <-; split; reflexivity.
  - intros H; injection H as <-. split; reflexivity.
Qed.

Lemma pdom_with_dom s d : pdom (with_dom s d) = d.
Proof. reflexivity. Qed.

Theorem C85_agrees_with_sequential :
  forall n N o size owned loc pt st gpt G G',
  divided_operator n o owned loc pt st gpt G ->
  (forall b, region N (pdom G) (inlet_idx gpt b)) ->
  smoothes_alike o -> 0 < size ->
  books (st (o_master o)) = books G ->
  sequential_call o size gpt G = Some G' ->
  exists fin,
    always_ends n (start o pt st) fin /\
    (forall p, In p (o_procs o) -> exists s', fin p = Ret s' /\ agrees o (owned p) (loc p) p (st p) s' G') /\
    (forall p, ~ In p (o_procs o) -> fin p = Ret (st p)).
Proof.
  intros n N o size owned loc pt st gpt G G' DV RG HS Hsize HB HG.
  pose proof (do_group _ _ _ _ _ _ _ _ DV) as GR. pose proof (g_master n o GR) as Mm.
  assert (PA : forall b, 0 < inlet_area (pdom G) (inlet_idx gpt b)) by (intros b; exact (inlet_area_pos N _ _ (RG b))).
  unfold sequential_call in HG. cbv zeta in HG. unfold bind in HG.
  set (E := fun b : bool => enquiry_at (pdom G) (enquiry_idx gpt b) (inverts o b) (outwards o b)).
  fold (E true) (E false) in HG.
  destruct (CulvertModel.discharge_routine (culvert o) size (formula o) (E true) (E false) 0 (smooth G)) as [r |] eqn:ER; [| discriminate].
  destruct (discharge_alike o size (E true) (E false) 0 (smooth G) r HS Hsize ER) as [HI HM]. cbv zeta in HI, HM.
  set (un := use_new_velocity_head (culvert o)) in *.
  set (sd := smoothed o (total_energy_at un (E true)) (e_stage (E true)) (total_energy_at un (E false)) (e_stage (E false)) (smooth G)) in *.
  set (b := negb (Rltb sd 0)) in *. rewrite HI in HG.
  replace (if b then E true else E false) with (E b) in HM by (destruct b; reflexivity).
  replace (if negb b then E true else E false) with (E (negb b)) in HM by (destruct b; reflexivity).
  destruct (structure_call _ _ _ _ _ _) as [a' |] eqn:EC; [| discriminate].
  apply structure_call_update in EC. injection HG as <-.
  assert (SM : smooth (st (o_master o)) = smooth G) by (unfold books in HB; congruence).
  assert (HE : forall b, enquiry_at (pdom (st (enquiry_proc o b))) (enquiry_idx (pt (enquiry_proc o b)) b) (inverts o b) (outwards o b) = E b).
  { intros b0. destruct (do_enquiry _ _ _ _ _ _ _ _ DV b0) as [O1 O2].
    destruct (do_values _ _ _ _ _ _ _ _ DV _ (g_incl n o GR b0 _ (g_enquiry n o GR b0)) _ O1) as (_ & E2 & E3 & E4 & E5).
    unfold enquiry_at. rewrite E2, E3, E4, E5, O2. reflexivity. }
  set (Q := CulvertModel.discharge r) in *. set (barrel := barrel_velocity r) in *.
  set (ii := inlet_idx gpt b) in *. set (oo := inlet_idx gpt (negb b)) in *.
  unfold sequential_update in EC.
  change (sdom (acc G)) with (pdom G) in EC.
  set (area := inlet_area (pdom G) ii) in *.
  set (xa := average (pdom G) ii (xmom (pdom G))) in *. set (ya := average (pdom G) ii (ymom (pdom G))) in *.
  set (da := average_depth (pdom G) ii) in *.
  destruct (new_inflow o Q da xa ya area) as [[[tstar nh] nx] ny] eqn:ENI.
  set (d2 := fun p => set_if o p b (pdom (st p)) (inlet_idx (pt p) b) nh nx ny).
  set (g2 := set_inlet (pdom G) ii nh nx ny) in *.
  assert (S2 : forall p, In p (o_procs o) -> same (owned p) (loc p) (d2 p) g2).
  { intros p Hp. unfold d2, g2. apply (same_set n o owned loc pt st gpt G DV b (fun p => pdom (st p))); [exact Hp |].
    exact (do_values _ _ _ _ _ _ _ _ DV p Hp). }
  assert (A2 : inlet_area g2 oo = inlet_area (pdom G) oo) by reflexivity.
  set (area' := inlet_area (pdom G) oo) in *.
  pose proof (sums n o owned loc pt st gpt G DV b (fun p => pdom (st p)) (pdom G) (do_values _ _ _ _ _ _ _ _ DV) (PA b)) as IS.
  assert (PA2 : 0 < inlet_area g2 oo) by (rewrite A2; apply PA).
  pose proof (sums n o owned loc pt st gpt G DV (negb b) d2 g2 S2 PA2) as IS'. fold oo in IS'. rewrite A2 in IS'.
  fold ii area in IS.
  destruct (new_outflow o (Q * tstar / area') barrel (average_depth g2 oo) (fst (outwards o (negb b))) (snd (outwards o (negb b)))
    (average g2 oo (xmom g2)) (average g2 oo (ymom g2)) ((xa - nx) * area) ((ya - ny) * area) area') as [[h x] y] eqn:ENO.
  set (s0 := start o pt st).
  assert (S0 : forall p, In p (o_procs o) -> s0 p = call o p (pt p) (st p)).
  { intros p Hp. unfold s0, start. destruct (in_dec Nat.eq_dec p (o_procs o)); [reflexivity | contradiction]. }
  assert (S1 : forall p, ~ In p (o_procs o) -> s0 p = Ret (st p)).
  { intros p Hp. unfold s0, start. destruct (in_dec Nat.eq_dec p (o_procs o)); [contradiction | reflexivity]. }
  destruct (call_run n o GR pt st E sd Q barrel (after r) area
    (total_water_volume (pdom G) ii) (weighted (pdom G) ii (stage (pdom G))) (weighted (pdom G) ii (xmom (pdom G))) (weighted (pdom G) ii (ymom (pdom G)))
    tstar nh nx ny area' (total_water_volume g2 oo) (weighted g2 oo (stage g2)) (weighted g2 oo (xmom g2)) (weighted g2 oo (ymom g2))
    h x y s0 HE) as (t & [[c PT] PO] & T).
  - rewrite SM. reflexivity.
  - rewrite SM. exact HM.
  - exact IS.
  - exact ENI.
  - exact IS'.
  - exact ENO.
  - exact S0.
  - assert (T' : forall p, In p (o_procs o) -> exists s', t p = Ret s' /\ agrees o (owned p) (loc p) p (st p) s' (PState a' (after r))).
    { intros p Hp. eexists. split; [exact (T p Hp) |]. constructor.
      - rewrite pdom_with_dom. unfold pdom. rewrite EC. cbn [acc sdom].
        apply (same_set n o owned loc pt st gpt G DV (negb b) d2 g2 h x y p Hp (S2 p Hp)).
      - intros i Hi. rewrite pdom_with_dom.
        destruct (rest_set n o owned loc pt st gpt G DV (negb b) (d2 p) h x y p i Hp Hi) as (E1 & E2 & E3 & E4 & E5).
        destruct (rest_set n o owned loc pt st gpt G DV b (pdom (st p)) nh nx ny p i Hp Hi) as (F1 & F2 & F3 & F4 & F5).
        fold b. fold (d2 p) in F1, F2, F3, F4, F5 |- *. rewrite E1, E2, E3, E4, E5. auto.
      - unfold books. destruct (Nat.eqb_spec p (o_master o)) as [-> | Np]; [| reflexivity].
        unfold with_dom. cbn [acc smooth accumulated_flow InletModel.discharge abs_timemean]. rewrite EC.
        cbn [accumulated_flow InletModel.discharge abs_timemean].
        unfold books in HB. assert (B1 : accumulated_flow (acc (st (o_master o))) = accumulated_flow (acc G)) by congruence.
        assert (B2 : abs_timemean (acc (st (o_master o))) = abs_timemean (acc G)) by congruence.
        rewrite B1, B2. replace (Q * tstar / area' * area') with (Q * tstar); [reflexivity |].
        pose proof (PA (negb b)) as P'. fold oo area' in P'. field. lra. }
    exists t. split; [| split].
    + apply (one_run_is_enough n c); [exact PT |]. intros p _.
      destruct (in_dec Nat.eq_dec p (o_procs o)) as [Hp | Hp].
      * destruct (T' p Hp) as (s' & -> & _). exact I.
      * rewrite PO, S1 by assumption. exact I.
    + exact T'.
    + intros p Hp. rewrite PO by assumption. now apply S1.
Qed.
Print Assumptions C85_agrees_with_sequential.

(** Box and pipe use the smoothing of the sequential operator. *)
Theorem C85_box_smoothing o : smoother o = box_smoother -> smoothes_alike o.
Proof. intros E driving sd out f sq ts _ _. rewrite E. reflexivity. Qed.
Print Assumptions C85_box_smoothing.

(** The weir has its own lines, which take the direction from the inlet numbers
    and not from the sign of the difference in energy: the result is the same
    when no water passes at equal energies. *)
Theorem C85_weir_smoothing o : smoother o = weir_smoother ->
  (forall driving delta out f, 0 < driving -> formula o driving delta out = Some f ->
     farea f <> 0 /\ (delta = 0 -> Qf f = 0)) ->
  smoothes_alike o.
Proof.
  intros E H driving sd out f sq ts D F. destruct (H driving (Rabs sd) out f D F) as [A Z].
  rewrite E. unfold weir_smoother, smooth_discharge, bind, div.
  rewrite (proj2 (Reqb_false (farea f) 0) A). unfold sgn.
  destruct (Rltb_spec 0 sd) as [L | L].
  - rewrite (proj2 (Rltb_false sd 0)) by lra. reflexivity.
  - destruct (Rltb_spec sd 0) as [L1 | L1]; [reflexivity |].
    assert (sd = 0) as -> by lra. rewrite Rabs_R0 in Z. rewrite (Z eq_refl).
    replace (0 * 1) with 0 by ring. replace (0 * 0) with 0 by ring.
    set (sq' := sq + ts * (0 - sq)).
    assert (M : Rmin (Rabs sq') 0 = 0) by (apply Rmin_right, Rabs_pos). rewrite M.
    destruct (Reqb _ 1), (Reqb _ 0); reflexivity.
Qed.
Print Assumptions C85_weir_smoothing.
Theorem C85_weir_formula fuel width depth blockage barrels t ls :
  0 < width -> 0 < depth -> 0 < barrels -> 0 <= z1 t -> 0 <= z2 t ->
  forall driving delta out f, 0 < driving ->
  weir_orifice fuel width depth blockage barrels t ls driving delta out = Some f ->
  farea f <> 0 /\ (delta = 0 -> Qf f = 0).
Proof.
  intros Hw Hd Hb H1 H2 driving delta out f Hdr. unfold weir_orifice.
  destruct (Rleb_spec 1 blockage) as [B | B].
  { intros E. injection E as <-. cbn [farea Qf]. split; [lra | auto]. }
  destruct (weir_inlet_ok width depth blockage barrels t driving Hw Hd ltac:(lra) Hb H1 H2 Hdr) as [EQ HQ]. rewrite EQ.
  set (Q := weir_inlet_flow width depth blockage barrels t driving) in *. unfold bind.
  set (w := (1 - blockage) * barrels * width).
  destruct (dcrit_of fuel t w Q) as [d |]; [| discriminate].
  set (od := if Rltb depth d then depth else d). set (area := trapezoid_area t w od).
  destruct (div area _) as [hr |]; [| discriminate].
  destruct (tailwater_velocity ls delta hr) as [v |] eqn:TV; [| discriminate].
  assert (TZ : forall hr v, delta = 0 -> tailwater_velocity ls delta hr = Some v -> v = 0).
  { intros hr0 v0 -> T. revert T. unfold tailwater_velocity, bind. destruct (powr hr0 _) as [hp |]; [| discriminate].
    destruct (div _ hp) as [fr |]; [| discriminate]. unfold div. destruct (Reqb _ 0); [discriminate |].
    unfold root. destruct (Rltb _ 0); [discriminate |]. intros T. injection T as <-. unfold Rdiv. rewrite Rmult_0_l. apply sqrt_0. }
  match goal with |- context [if Rltb delta driving then ?x else ?y] => set (X := x) end.
  assert (FIN : forall Q od area (fr : option R), (match fr with
      | Some _ => match div velocity_protection area with
                  | Some p => match div Q (area + p) with Some bv => Some (Flow Q bv od area) | None => None end
                  | None => None end
      | None => None end) = Some f -> farea f <> 0 /\ Qf f = Q).
  { intros Q0 od0 a0 [fr |]; [| discriminate]. unfold div. destruct (Reqb_spec a0 0) as [| N]; [discriminate |].
    destruct (Reqb _ 0); [discriminate |]. intros E. injection E as <-. cbn [farea Qf]. auto. }
  destruct (Rltb_spec delta driving) as [L | L].
  - destruct X as [[[Q' od'] area'] |] eqn:EX; [| discriminate]. intros E. apply FIN in E as [E1 E2]. split; [exact E1 |].
    intros Z. rewrite E2. unfold X in EX.
    assert (Y : forall q od1, 0 <= q -> match div (trapezoid_area t w od1) (w + sides t od1) with
        | Some hr => match tailwater_velocity ls delta hr with
                     | Some v => Some (Rmin q (trapezoid_area t w od1 * v), od1, trapezoid_area t w od1) | None => None end
        | None => None end = Some (Q', od', area') -> Q' = 0).
    { intros q od1 Hq. destruct (div _ _) as [hr1 |]; [| discriminate].
      destruct (tailwater_velocity ls delta hr1) as [v1 |] eqn:T1; [| discriminate].
      rewrite (TZ hr1 v1 Z T1), Rmult_0_r. intros E. assert (Q' = Rmin q 0) as -> by congruence. now apply Rmin_right. }
    destruct (Rltb depth out).
    + apply (Y Q depth) in EX; [exact EX | lra].
    + destruct (dcrit_of fuel t w (Rmin Q (area * v))) as [d1 |]; [| discriminate].
      apply (Y _ _) in EX; [exact EX |]. rewrite (TZ hr v Z TV), Rmult_0_r. apply Rmin_glb; lra.
  - intros E. apply FIN in E as [E1 E2]. split; [exact E1 |]. intros ->. lra.
Qed.
Print Assumptions C85_weir_formula.

(** *** Conservation *)
Theorem C85_conservation :
  forall n N o size full loc pt st gpt G,
  divided_operator n o (fun p i => In i (full p)) loc pt st gpt G ->
  (forall p, In p (o_procs o) -> NoDup (full p) /\ forall i, In i (full p) -> (loc p i < N)%nat) ->
  (forall b, region N (pdom G) (inlet_idx gpt b)) ->
  smoothes_alike o -> sound_formula (formula o) -> 0 <= CulvertModel.timestep (culvert o) -> 0 < size ->
  books (st (o_master o)) = books G ->
  exists fin, always_ends n (start o pt st) fin /\ (forall p, (p < n)%nat -> exists s', fin p = Ret s') /\
    forall s', (forall p, In p (o_procs o) -> fin p = Ret (s' p)) ->
      Rsum (map (fun p => water_on (full p) (pdom (s' p))) (o_procs o)) =
      Rsum (map (fun p => water_on (full p) (pdom (st p))) (o_procs o)).
Proof.
  intros n N o size full loc pt st gpt G DV HF RG HS HSF Hdt Hsize HB.
  pose proof (do_group _ _ _ _ _ _ _ _ DV) as GR.
  set (E := fun b : bool => enquiry_at (pdom G) (enquiry_idx gpt b) (inverts o b) (outwards o b)).
  destruct (C68_routine (culvert o) size (formula o) (E true) (E false) 0 (smooth G) HSF Hdt Hsize) as (r & ER & _ & _ & _ & HQ & _).
  set (b := inflow r).
  destruct (C29_conservation
     (Structure (inlet_idx gpt b) (inlet_idx gpt (negb b)) (outwards o (negb b)) (o_jet o) (o_zero o) (o_old o) (o_always o))
     N (CulvertModel.timestep (culvert o)) (yieldstep o) (CulvertModel.discharge r) (barrel_velocity r) (acc G)
     (RG b) (RG (negb b)) HQ Hdt) as (a' & EC & W & _ & _ & _ & FA & FE & FR).
  cbn [in_idx out_idx] in FR.
  assert (HG : sequential_call o size gpt G = Some (PState a' (after r))).
  { unfold sequential_call. cbv zeta. fold (E true) (E false). unfold bind. rewrite ER. fold b. now rewrite EC. }
  destruct (C85_agrees_with_sequential n N o size _ loc pt st gpt G _ DV RG HS Hsize HB HG) as (fin & AE & T & T').
  exists fin. split; [exact AE |]. split.
  { intros p _. destruct (in_dec Nat.eq_dec p (o_procs o)) as [Hp | Hp]; [| eauto].
    destruct (T p Hp) as (s' & -> & _). eauto. }
  intros s' Hs'.
  set (all := flat_map (fun p => map (loc p) (full p)) (o_procs o)).
  assert (SUM : forall (d : nat -> dom) g, (forall p, In p (o_procs o) -> same (fun i => In i (full p)) (loc p) (d p) g) ->
    Rsum (map (fun p => water_on (full p) (d p)) (o_procs o)) = water_on all g).
  { intros d g H. unfold water_on, all. rewrite Rsum_parts. apply Rsum_map_ext_in. intros p Hp. rewrite map_map.
    apply Rsum_map_ext_in. intros i Hi. destruct (H p Hp i Hi) as (-> & -> & -> & _). reflexivity. }
  rewrite (SUM (fun p => pdom (s' p)) (sdom a')).
  2:{ intros p Hp. destruct (T p Hp) as (s1 & E1 & A1). rewrite (Hs' p Hp) in E1.
      assert (s' p = s1) as -> by congruence. exact (ag_owned _ _ _ _ _ _ _ A1). }
  rewrite (SUM (fun p => pdom (st p)) (pdom G) (do_values _ _ _ _ _ _ _ _ DV)).
  assert (ND : NoDup all).
  { pose proof (do_inj _ _ _ _ _ _ _ _ DV) as INJ. unfold all. pose proof (g_nodup n o GR) as NDP.
    assert (I : incl (o_procs o) (o_procs o)) by apply incl_refl. revert NDP I. generalize (o_procs o) at 1 2 4.
    intros l. induction l as [| p l IH]; intros NDP I; [constructor |]. inversion NDP as [| x xs Np NDP']; subst. cbn [flat_map].
    assert (Hp : In p (o_procs o)) by (apply I; now left).
    apply NoDup_app_intro; [| apply IH; [assumption | intros q Hq; apply I; now right] |].
    - destruct (HF p Hp) as [NF _].
      assert (J : forall i j, In i (full p) -> In j (full p) -> loc p i = loc p j -> i = j).
      { intros i j Hi Hj EQ. exact (proj2 (INJ p p i j Hp Hp Hi Hj EQ)). }
      clear - NF J. induction (full p) as [| a f IHf]; [constructor |]. inversion NF as [| y ys Na NF']; subst. cbn [map]. constructor.
      + intros X. apply in_map_iff in X as (j & EQ & Hj). apply Na. rewrite <- (J j a (or_intror Hj) (or_introl eq_refl) EQ). exact Hj.
      + apply IHf; [assumption |]. intros i j Hi Hj. apply J; now right.
    - intros x Hx Hy. apply in_map_iff in Hx as (i & <- & Hi). apply in_flat_map in Hy as (q & Hq & Hy).
      apply in_map_iff in Hy as (j & EQ & Hj).
      destruct (INJ q p j i (I q (or_intror Hq)) Hp Hj Hi EQ) as [-> _]. contradiction. }
  assert (B : forall i, In i all -> (i < N)%nat).
  { intros i Hi. apply in_flat_map in Hi as (p & Hp & Hi). apply in_map_iff in Hi as (j & <- & Hj). now apply (HF p Hp). }
  assert (IN : forall b i, In i (inlet_idx gpt b) -> In i all).
  { intros b0 i Hi. apply (Permutation_in _ (do_parts _ _ _ _ _ _ _ _ DV b0)) in Hi.
    apply in_flat_map in Hi as (p & Hp & Hi). apply in_map_iff in Hi as (j & <- & Hj). apply in_flat_map. exists p.
    split; [exact (g_incl n o GR b0 p Hp) |]. apply in_map. exact (do_owned _ _ _ _ _ _ _ _ DV b0 p j Hp Hj). }
  pose proof (water_change N (pdom G) (sdom a') all ND B FA FE) as WC.
  assert (OUT : forall i, ~ In i all -> stage (sdom a') i = stage (pdom G) i).
  { intros i Hi. apply FR; intros X; apply Hi; exact (IN _ _ X). }
  specialize (WC OUT). change (water N (sdom a') = water N (pdom G)) in W. lra.
Qed.
Print Assumptions C85_conservation.

(** *** The constructor *)

(** With an apron the sequential operator exchanges water over a polygon, the
    parallel one over the line. *)
Theorem C85_region_refuted : forall l0 l1 outward a,
  parallel_region l0 l1 outward (Some a) <> sequential_region l0 l1 outward (Some a).
Proof. intros l0 l1 out a H. discriminate H. Qed.
Print Assumptions C85_region_refuted.
Theorem C85_region_without_apron : forall l0 l1 outward,
  parallel_region l0 l1 outward None = sequential_region l0 l1 outward None.
Proof. reflexivity. Qed.
Print Assumptions C85_region_without_apron.

(** [force_constant_inlet_elevations]: the master takes the average over the
    inlet, every other process that over its own part. *)
Theorem C85_force_elevation :
  forall n procs master (d : nat -> dom) (idx : nat -> list nat),
  NoDup procs -> In master procs -> (forall p, In p procs -> (p < n)%nat) ->
  let area := Rsum (map (fun p => inlet_area (d p) (idx p)) procs) in
  let total := Rsum (map (fun p => weighted (d p) (idx p) (elev (d p))) procs) in
  exists fin, always_ends n (fun p => if in_dec Nat.eq_dec p procs then force_elevation procs master p (d p) (idx p) else Ret (d p)) fin /\
    forall p, In p procs -> fin p = Ret (with_elev (d p) (put_all (elev (d p)) (idx p)
      (if Nat.eqb p master then if Rltb 0 area then total / area else 0
       else if Rltb 0 (inlet_area (d p) (idx p)) then average (d p) (idx p) (elev (d p)) else 0))).
Proof.
  intros n procs master d idx ND HM HN area total.
  set (s0 := fun p => if in_dec Nat.eq_dec p procs then force_elevation procs master p (d p) (idx p) else Ret (d p)).
  assert (S0 : forall p, In p procs -> s0 p = force_elevation procs master p (d p) (idx p)).
  { intros p Hp. unfold s0. destruct (in_dec Nat.eq_dec p procs); [reflexivity | contradiction]. }
  unfold force_elevation in S0.
  destruct (sum_at_phase MNum num_of num_of_MNum n procs master _ _ s0 HN ND HM S0) as (t1 & P1 & T1). cbv beta in T1.
  set (a := fun p => if Nat.eqb p master then fold_left Rplus (map (fun p => inlet_area (d p) (idx p)) (without master procs)) (inlet_area (d master) (idx master)) else inlet_area (d p) (idx p)).
  destruct (sum_at_phase MNum num_of num_of_MNum n procs master
    (fun p => Rsum (zip_with Rmult (take (elev (d p)) (idx p)) (inlet_areas (d p) (idx p))))
    (fun p total => Ret (with_elev (d p) (put_all (elev (d p)) (idx p) (if Rltb 0 (a p) then total / a p else 0)))) t1 HN ND HM T1)
    as (t2 & P2 & T2). cbv beta in T2.
  destruct (phase_trans _ _ _ _ _ P1 P2) as [[c PC] PO].
  assert (T3 : forall p, In p procs -> t2 p = Ret (with_elev (d p) (put_all (elev (d p)) (idx p)
      (if Nat.eqb p master then if Rltb 0 area then total / area else 0
       else if Rltb 0 (inlet_area (d p) (idx p)) then average (d p) (idx p) (elev (d p)) else 0)))).
  { intros p Hp. rewrite (T2 p Hp). unfold a. destruct (Nat.eqb_spec p master) as [-> | Np]; [| reflexivity].
    rewrite (sum_without (fun p => inlet_area (d p) (idx p)) master procs ND HM).
    rewrite (sum_without (fun p => Rsum (zip_with Rmult (take (elev (d p)) (idx p)) (inlet_areas (d p) (idx p)))) master procs ND HM).
    reflexivity. }
  exists t2. split; [| exact T3].
  apply (one_run_is_enough n c); [exact PC |]. intros p _.
  destruct (in_dec Nat.eq_dec p procs) as [Hp | Hp]; [rewrite T3 by assumption; exact I |].
  rewrite PO by assumption. unfold s0. destruct (in_dec Nat.eq_dec p procs); [contradiction | exact I].
Qed.
Print Assumptions C85_force_elevation.

(** So the elevation of the inlet is not constant afterwards: two processes with
    one triangle each, at heights 0 and 2. *)
Definition steps_dom (p : nat) : dom := Dom (fun _ => 1) (fun _ => 2 * INR p) (fun _ => 3) (fun _ => 0) (fun _ => 0).
Theorem C85_constant_elevation_refuted :
  exists fin d0 d1, always_ends 2 (fun p => if in_dec Nat.eq_dec p [0; 1]%nat then force_elevation [0; 1]%nat 0 p (steps_dom p) [0%nat] else Ret (steps_dom p)) fin /\
    fin 0%nat = Ret d0 /\ fin 1%nat = Ret d1 /\ elev d0 0%nat = 1 /\ elev d1 0%nat = 2 /\
    sequential_force_elevation (Dom (fun _ => 1) (fun i => 2 * INR i) (fun _ => 3) (fun _ => 0) (fun _ => 0)) [0; 1]%nat =
      with_elev (Dom (fun _ => 1) (fun i => 2 * INR i) (fun _ => 3) (fun _ => 0) (fun _ => 0))
        (put_all (fun i => 2 * INR i) [0; 1]%nat 1).
Proof.
  destruct (C85_force_elevation 2 [0; 1]%nat 0%nat steps_dom (fun _ => [0%nat])) as (fin & AE & V).
  - repeat constructor; simpl; lia.
  - now left.
  - intros p [<- | [<- | []]]; lia.
  - eexists fin, _, _. split; [exact AE |]. split; [apply (V 0%nat); now left |]. split; [apply (V 1%nat); right; now left |].
    unfold with_elev, average, inlet_area, weighted, inlet_areas, take, steps_dom, sequential_force_elevation.
    cbn [Nat.eqb map areas elev zip_with Rsum fold_right put_all fold_left INR combine].
    repeat split.
    + destruct (Rltb_spec 0 (1 + 0 + (1 + 0 + 0))) as [L | L]; [| lra]. cbn. unfold upd. cbn. field.
    + destruct (Rltb_spec 0 (1 + 0)) as [L | L]; [| lra]. cbn. unfold upd. cbn. field.
    + match goal with |- with_elev _ (put_all _ _ ?a) = _ => replace a with 1; [reflexivity |] end. unfold average, inlet_area, inlet_areas, take. cbn. field.
Qed.
Print Assumptions C85_constant_elevation_refuted.

(** *** Non-vacuity: a box culvert from an inlet that two processes share. *)
Definition ex_op : operator :=
  Operator [0; 1]%nat 0 (fun b : bool => if b then [1; 0] else [1])%nat (fun b : bool => if b then 0 else 1)%nat
    (fun b : bool => if b then 0 else 1)%nat (fun _ => None) (fun _ => (1, 0)) (Settings true false 1 10)
    (boyd_box 1 1 0 1 (Losses 1 (1 / 100) 10)) box_smoother false false false false 1.
Definition ex_part (p : nat) : part :=
  Part (fun b : bool => if b then [0%nat] else [1%nat]) (fun b : bool => if b then 0 else 1)%nat.
Definition ex_whole : part := Part (fun b : bool => if b then [0; 2] else [3])%nat (fun b : bool => if b then 0 else 3)%nat.
Definition ex_water (i : nat) : R := if Nat.eqb i 3 then 1 / 2 else 1.
Definition ex_state (h : nat -> R) : pstate :=
  PState (InletModel.SState (Dom (fun _ => 1) (fun _ => 0) h (fun _ => 0) (fun _ => 0)) 0 0 0) (CulvertModel.SState (1 / 2) 0).

Lemma ex_divided_operator : divided_operator 2 ex_op (fun p i => In i [0; 1]%nat) (fun p i => 2 * p + i)%nat ex_part
    (fun p => ex_state (fun i => ex_water (2 * p + i))) ex_whole (ex_state ex_water).
Proof.
  split.
  - split; cbn [o_procs o_master inlet_procs inlet_master enquiry_proc ex_op].
    + repeat constructor; simpl; lia.
    + intros p [<- | [<- | []]]; lia.
    + now left.
    + intros [|] p; cbn; lia.
    + intros [|]; repeat constructor; simpl; lia.
    + intros [|]; cbn; lia.
    + intros [|]; cbn; lia.
  - intros p q i j _ _ Hi Hj H. assert (i < 2)%nat by (destruct Hi as [<- | [<- | []]]; lia).
    assert (j < 2)%nat by (destruct Hj as [<- | [<- | []]]; lia). lia.
  - intros [|] p i _ [<- | []]; cbn; lia.
  - intros [|]; cbn; [apply perm_swap | apply Permutation_refl].
  - intros p _ i _. cbn. auto.
  - intros [|]; cbn; lia.
Qed.

Example C85_example : exists fin, always_ends 2 (start ex_op ex_part (fun p => ex_state (fun i => ex_water (2 * p + i)))) fin /\
  (forall p, (p < 2)%nat -> exists s', fin p = Ret s').
Proof.
  destruct (C85_conservation 2 4 ex_op 1 (fun _ => [0; 1]%nat) _ _ _ _ _ ex_divided_operator) as (fin & A & B & _).
  - intros p [<- | [<- | []]]; (split; [repeat constructor; simpl; lia |]; intros i [<- | [<- | []]]; lia).
  - intros [|]; (split; [discriminate |]; split; [repeat constructor; simpl; lia |]); cbn; intros i Hi;
      repeat (destruct Hi as [<- | Hi]; [split; lia || lra |]); destruct Hi.
  - now apply C85_box_smoothing.
  - exact (proj1 (C68_box_sound _ _ _ _ _ C68_example_box)).
  - cbn. lra.
  - lra.
  - reflexivity.
  - exists fin. auto.
Qed.
