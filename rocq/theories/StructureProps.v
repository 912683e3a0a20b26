(** C29: culverts and other structures move water without creating or losing
    any. *)
From Coq Require Import Reals List Arith Bool Lra Lia.
From Verif Require Import RealLib ListLib ArrayLib InletModel InletProofs InletProps.
Import ListNotations.
Local Open Scope R_scope.

(** The volume the structure decides to move. *)
Definition moved (s : structure) (timestep Q : R) (d : dom) : R :=
  let h := average_depth d (in_idx s) in
  let a := inlet_area d (in_idx s) in
  if Rltb 0 h then
    if always_adjust s || Rleb (h * a) (Q * timestep)
    then Q * timestep * (h * a / (h * a + timestep * Q)) else Q * timestep
  else 0.

Lemma moved_bounds s n timestep Q d : region n d (in_idx s) -> 0 <= Q -> 0 <= timestep ->
  0 <= moved s timestep Q d <= Q * timestep /\
  (0 <= average_depth d (in_idx s) -> moved s timestep Q d <= water_on (in_idx s) d).
Proof.
  intros Reg HQ Ht. pose proof (inlet_area_pos n d _ Reg) as PA.
  assert (QT : 0 <= Q * timestep) by (apply Rmult_le_pos; lra).
  assert (W : water_on (in_idx s) d = average_depth d (in_idx s) * inlet_area d (in_idx s)).
  { unfold average_depth. rewrite total_water_volume_eq. field. lra. }
  rewrite W. unfold moved. set (h := average_depth d (in_idx s)) in *.
  set (a := inlet_area d (in_idx s)) in *.
  destruct (Rltb_spec 0 h) as [Hh|Hh].
  - assert (HA : 0 < h * a) by (apply Rmult_lt_0_compat; lra).
    set (q := Q * timestep) in *. replace (timestep * Q) with q by (unfold q; ring).
    assert (F : 0 < h * a + q) by lra.
    destruct always_adjust; cbn [orb]; [|destruct (Rleb_spec (h * a) q); [|lra]].
    all: assert (G : q * (h * a / (h * a + q)) * (h * a + q) = q * (h * a)) by (field; lra).
    all: set (m := q * (h * a / (h * a + q))) in *; clearbody m.
    all: assert (0 <= q * (h * a)) by (apply Rmult_le_pos; lra).
    all: assert (0 <= q * q) by (apply Rmult_le_pos; lra).
    all: assert (0 <= (h * a) * (h * a)) by (apply Rmult_le_pos; lra).
    all: repeat split; try intros _; apply Rmult_le_reg_r with (1 := F); rewrite ?G; lra.
  - split; [lra|]. intros H0. replace h with 0 by lra. lra.
Qed.

Theorem C29_conservation s n timestep yieldstep Q speed st :
  let d := sdom st in
  region n d (in_idx s) -> region n d (out_idx s) -> 0 <= Q -> 0 <= timestep ->
  exists st', structure_call s timestep yieldstep Q speed st = Some st' /\
    (* no water is created or lost, even for overlapping inlets *)
    water n (sdom st') = water n d /\
    accumulated_flow st' = accumulated_flow st + moved s timestep Q d /\
    (0 < timestep -> discharge st' * timestep = moved s timestep Q d) /\
    (* what leaves the inflow arrives at the outflow *)
    ((forall i, In i (in_idx s) -> ~ In i (out_idx s)) ->
       water_on (in_idx s) (sdom st') = water_on (in_idx s) d - moved s timestep Q d /\
       water_on (out_idx s) (sdom st') = water_on (out_idx s) d + moved s timestep Q d /\
       (0 <= average_depth d (in_idx s) -> 0 <= average_depth (sdom st') (in_idx s))) /\
    areas (sdom st') = areas d /\ elev (sdom st') = elev d /\
    forall i, ~ In i (in_idx s) -> ~ In i (out_idx s) ->
      stage (sdom st') i = stage d i /\ xmom (sdom st') i = xmom d i /\ ymom (sdom st') i = ymom d i.
Proof.
  intros d RegI RegO HQ Ht.
  pose proof (inlet_area_pos n d _ RegI) as PI. pose proof (inlet_area_pos n d _ RegO) as PO.
  pose proof (moved_bounds s n timestep Q d RegI HQ Ht) as (_ & MB).
  unfold structure_call. fold d.
  set (inf := in_idx s) in *. set (outf := out_idx s) in *.
  set (h := average_depth d inf) in *. set (ai := inlet_area d inf) in *.
  set (ao := inlet_area d outf) in *.
  set (dtQ := if Rltb 0 h then timestep * Q / h else 0).
  set (adjust := always_adjust s || Rleb (h * ai) (Q * timestep)).
  set (factor := 1 / (1 + dtQ / ai)).
  set (newh := if adjust then h * factor else h - timestep * Q / ai).
  set (tstar := if adjust then if Rltb 0 h then timestep * newh / h else 0 else timestep).
  set (m := moved s timestep Q d) in *.
  assert (QT : 0 <= Q * timestep) by (apply Rmult_le_pos; lra).
  assert (Key : Q * tstar = m /\ (h - newh) * ai = m).
  { unfold m, moved. fold inf h ai. fold adjust.
    unfold tstar, newh, factor, dtQ.
    destruct (Rltb_spec 0 h) as [Hh|Hh].
    - assert (HA : 0 < h * ai) by (apply Rmult_lt_0_compat; lra).
      assert (F : h * ai + timestep * Q <> 0) by lra.
      destruct adjust; [|split; field; lra].
      split; field; repeat split; lra.
    - destruct adjust eqn:E.
      + split; [ring|]. field. lra.
      + unfold adjust in E. apply orb_false_iff in E. destruct E as (_ & E).
        apply Rleb_false in E.
        assert (0 <= - h * ai) by (apply Rmult_le_pos; lra). lra. }
  destruct Key as (K1 & K2).
  set (gain := Q * tstar / ao * ao).
  assert (G : gain = m) by (unfold gain; rewrite K1; field; lra).
  rewrite (proj2 (Rleb_true _ _)).
  2:{ rewrite K2. replace (gain - m) with 0 by lra. rewrite Rabs_R0. lra. }
  cbn [negb].
  eexists. split; [reflexivity|]. cbn [sdom accumulated_flow discharge].
  set (d1 := set_depths d inf newh).
  match goal with |- context [average_depth ?x outf] => set (d2 := x) end.
  set (newo := average_depth d2 outf + Q * tstar / ao).
  set (d3 := set_depths d2 outf newo).
  match goal with |- context [water n ?x] => set (d4 := x) end.
  assert (Hd2 : areas d2 = areas d /\ elev d2 = elev d /\ stage d2 = stage d1) by (repeat split).
  assert (Hd4 : areas d4 = areas d /\ elev d4 = elev d /\ stage d4 = stage d3) by (repeat split).
  destruct RegI as (I1 & I2 & I3). destruct RegO as (O1 & O2 & O3).
  assert (Out1 : forall i, ~ In i inf -> stage d2 i = stage d i).
  { intros i Hi. rewrite (proj2 (proj2 Hd2)). unfold d1. rewrite set_depths_stage. destruct in_dec; tauto. }
  assert (Out2 : forall i, ~ In i outf -> stage d4 i = stage d2 i).
  { intros i Hi. rewrite (proj2 (proj2 Hd4)). unfold d3. rewrite set_depths_stage. destruct in_dec; tauto. }
  assert (Wi : water_on inf d = h * ai).
  { unfold h, average_depth. rewrite total_water_volume_eq. fold ai. field. lra. }
  assert (W1 : water_on inf d2 = water_on inf d - m).
  { rewrite (water_ext inf d1 d2 eq_refl eq_refl eq_refl). unfold d1. rewrite set_depths_water.
    rewrite Wi. fold ai. lra. }
  assert (W2 : water_on outf d4 = water_on outf d2 + m).
  { rewrite (water_ext outf d3 d4 eq_refl eq_refl eq_refl). unfold d3. rewrite set_depths_water.
    unfold newo, average_depth. rewrite total_water_volume_eq.
    change (inlet_area d2 outf) with ao. rewrite <- G. unfold gain. field. lra. }
  pose proof (water_change n d d2 inf I2 (fun i Hi => proj1 (I3 i Hi)) eq_refl eq_refl Out1) as C1.
  pose proof (water_change n d2 d4 outf O2 (fun i Hi => proj1 (O3 i Hi)) eq_refl eq_refl Out2) as C2.
  split; [lra|]. split; [rewrite G; reflexivity|].
  split; [intros Hpos; rewrite K1; field; lra|].
  split.
  - intros Disj.
    assert (X1 : water_on inf d4 = water_on inf d2).
    { unfold water_on. apply Rsum_map_ext_in. intros i Hi.
      rewrite Out2 by (apply Disj, Hi). reflexivity. }
    assert (X2 : water_on outf d2 = water_on outf d).
    { unfold water_on. apply Rsum_map_ext_in. intros i Hi.
      rewrite Out1 by (intros H; exact (Disj i H Hi)). reflexivity. }
    split; [lra|]. split; [lra|]. intros Hh.
    unfold average_depth. rewrite total_water_volume_eq.
    change (inlet_area d4 inf) with ai. rewrite X1, W1.
    apply Rmult_le_pos; [specialize (MB Hh); lra|]. apply Rlt_le, Rinv_0_lt_compat, PI.
  - split; [reflexivity|]. split; [reflexivity|]. intros i Hi Ho.
    split; [rewrite Out2, Out1 by assumption; reflexivity|].
    unfold d4, with_moms; cbn [xmom ymom]. unfold put_all.
    rewrite !(put_map_out _ outf) by exact Ho.
    unfold d3, set_depths, with_stage, d2, with_moms; cbn [xmom ymom].
    unfold put_all. rewrite !(put_map_out _ inf) by exact Hi. split; reflexivity.
Qed.
Print Assumptions C29_conservation.

(** The requested discharge is applied in full when the adjustment is off and
    there is enough water. *)
Theorem C29_full_discharge s timestep Q d :
  always_adjust s = false -> 0 < average_depth d (in_idx s) ->
  Q * timestep < average_depth d (in_idx s) * inlet_area d (in_idx s) ->
  moved s timestep Q d = Q * timestep.
Proof.
  intros A H L. unfold moved. rewrite (proj2 (Rltb_true _ _)) by exact H.
  rewrite A, (proj2 (Rleb_false _ _)) by exact L. reflexivity.
Qed.

(** For a negative discharge the semi-implicit update can leave a negative
    depth. *)
Theorem C29_negative_discharge_refuted :
  exists s d Q st', region 2 d (in_idx s) /\ region 2 d (out_idx s) /\ Q < 0 /\
    structure_call s 1 1 Q 0 (SState d 0 0 0) = Some st' /\
    0 <= average_depth d (in_idx s) /\ average_depth (sdom st') (in_idx s) < 0.
Proof.
  set (s := Structure [0%nat] [1%nat] (1, 0) false true true true).
  set (d := Dom (fun _ => 1) (fun _ => 0) (fun _ => 1) (fun _ => 0) (fun _ => 0)).
  exists s, d, (-2).
  assert (H1 : inlet_area d [0%nat] = 1) by (unfold inlet_area, inlet_areas, take; simpl; lra).
  assert (H2 : inlet_area d [1%nat] = 1) by (unfold inlet_area, inlet_areas, take; simpl; lra).
  assert (H3 : average_depth d [0%nat] = 1).
  { unfold average_depth. rewrite H1, total_water_volume_eq. unfold water_on. simpl. field. }
  unfold structure_call. cbn [sdom in_idx out_idx s always_adjust orb].
  rewrite H1, H2, H3.
  rewrite (proj2 (Rltb_true 0 1)) by lra.
  rewrite (proj2 (Rleb_true (Rabs _) _)).
  2:{ match goal with |- Rabs ?x <= _ => replace x with 0 by field end. rewrite Rabs_R0. lra. }
  cbn [negb]. eexists. refine (conj _ (conj _ (conj _ (conj eq_refl (conj _ _))))).
  - split; [discriminate|]. split; [repeat constructor; simpl; tauto|].
    intros i [<-|[]]. split; [lia|simpl; lra].
  - split; [discriminate|]. split; [repeat constructor; simpl; tauto|].
    intros i [<-|[]]. split; [lia|simpl; lra].
  - lra.
  - lra.
  - cbn [sdom]. unfold average_depth. rewrite total_water_volume_eq.
    unfold water_on, inlet_area, inlet_areas, take. cbn [map Rsum areas elev with_moms].
    unfold set_depths, with_stage, put, put_all, upd. simpl. lra.
Qed.
Print Assumptions C29_negative_discharge_refuted.

Example C29_example :
  let s := Structure [0%nat; 1%nat] [2%nat] (1, 0) false true true true in
  let d := Dom (fun _ => 1) (fun _ => 0) (fun _ => 1) (fun _ => 0) (fun _ => 0) in
  region 3 d (in_idx s) /\ region 3 d (out_idx s) /\ moved s 1 2 d = 1.
Proof.
  cbn zeta. refine (conj _ (conj _ _)).
  - split; [discriminate|]. split; [repeat constructor; simpl; lia|].
    intros i [<-|[<-|[]]]; (split; [lia|simpl; lra]).
  - split; [discriminate|]. split; [repeat constructor; simpl; lia|].
    intros i [<-|[]]. split; [lia|simpl; lra].
  - unfold moved, average_depth. cbn [in_idx always_adjust orb]. rewrite total_water_volume_eq.
    unfold water_on, inlet_area, inlet_areas, take. simpl.
    rewrite (proj2 (Rltb_true _ _)) by lra. field.
Qed.
