(** C28, C58: the rate operator. *)
From Coq Require Import Reals List Arith Bool Lra Lia.
From Verif Require Import RealLib ListLib ArrayLib InletModel InletProofs InletProps.
Import ListNotations.
Local Open Scope R_scope.

(** The water on the full triangles. *)
Definition full_water (n : nat) (full : nat -> bool) (d : dom) : R :=
  Rsum (map (fun i => areas d i * (stage d i - elev d i)) (filter full (seq 0 n))).

(** Picking positions whose triangle is full and reading an array there is
    picking the full triangles. *)
Lemma full_positions_map full (l : list nat) (f : nat -> R) :
  map (fun k => f (nth k l 0%nat)) (full_positions full l) = map f (filter full l).
Proof.
  unfold full_positions.
  assert (G : forall (p : list nat) l, 
    map (fun k => f (nth k (p ++ l) 0%nat))
      (filter (fun k => full (nth k (p ++ l) 0%nat)) (seq (length p) (length l)))
    = map f (filter full l)).
  { intros p l0. revert p. induction l0 as [|j l0 IH]; intros p; [reflexivity|].
    cbn [length seq filter].
    assert (E : nth (length p) (p ++ j :: l0) 0%nat = j).
    { rewrite app_nth2 by lia. rewrite Nat.sub_diag. reflexivity. }
    rewrite E. specialize (IH (p ++ [j])). rewrite <- app_assoc, app_length in IH. simpl in IH.
    rewrite Nat.add_1_r in IH.
    destruct (full j); cbn [map]; [rewrite E|]; rewrite IH; reflexivity. }
  exact (G [] l).
Qed.
Lemma full_positions_get full (l : list nat) (f : nat -> R) :
  map (get (map f l)) (full_positions full l) = map f (filter full l).
Proof.
  rewrite <- full_positions_map. apply map_ext_in. intros k Hk.
  apply filter_In in Hk. destruct Hk as (Hk & _). apply in_seq in Hk.
  apply get_map_nat. lia.
Qed.

(** The change of stage the operator applies at a triangle of the region. *)
Definition careful (rate : rate_spec) (l : list nat) : bool :=
  negb (forallb (fun x => Rleb 0 x) (match rate with Scalar r => [r] | _ => map (region_rate rate) l end)).
Definition increment rate l factor timestep d i :=
  let q := factor * timestep * region_rate rate i in
  if careful rate l then Rmax q (- (stage d i - elev d i)) else q.

Lemma rate_call_eq n full indices rate factor timestep st :
  let l := region_list n indices in
  let d := rdom st in
  let st' := rate_call n full indices rate factor timestep st in
  (forall i, stage (rdom st') i =
     if in_dec Nat.eq_dec i l then stage d i + increment rate l factor timestep d i else stage d i) /\
  areas (rdom st') = areas d /\ elev (rdom st') = elev d /\
  local_influx st' = Rsum (map (fun i => increment rate l factor timestep d i * areas d i) (filter full l)) /\
  rfsvi st' = rfsvi st + local_influx st' /\
  cumulative_influx st' = cumulative_influx st + local_influx st'.
Proof.
  intros l d st'. unfold st', rate_call. fold d l. unfold increment, careful.
  destruct (forallb _ _) eqn:E; cbn [negb rdom local_influx rfsvi cumulative_influx].
  - rewrite map_map. unfold take. rewrite !zip_with_map.
    refine (conj _ (conj eq_refl (conj eq_refl (conj _ (conj eq_refl eq_refl))))).
    + intros i. cbn [stage with_stage]. apply put_map.
    + f_equal. apply full_positions_get.
  - unfold take. rewrite !zip_with_map.
    refine (conj _ (conj eq_refl (conj eq_refl (conj _ (conj eq_refl eq_refl))))).
    + intros i. cbn [stage with_stage with_moms]. apply put_map.
    + f_equal. apply full_positions_get.
Qed.

Lemma filter_support full (l big : list nat) (f : nat -> R) :
  NoDup big -> NoDup l -> incl l big -> (forall i, In i big -> ~ In i l -> f i = 0) ->
  Rsum (map f (filter full big)) = Rsum (map f (filter full l)).
Proof.
  intros Nb Nl I Z. apply Rsum_support.
  - apply NoDup_filter, Nb.
  - apply NoDup_filter, Nl.
  - intros i Hi. apply filter_In in Hi. apply filter_In. split; [apply I|]; tauto.
  - intros i Hb Hn. apply filter_In in Hb. apply Z; [tauto|].
    intros Hl. apply Hn, filter_In. tauto.
Qed.

(** The volume of water on the full triangles changes by exactly the influx
    that is recorded. *)
Theorem C28_influx n full indices rate factor timestep st :
  let l := region_list n indices in
  NoDup l -> (forall i, In i l -> (i < n)%nat) ->
  let st' := rate_call n full indices rate factor timestep st in
  full_water n full (rdom st') = full_water n full (rdom st) + local_influx st' /\
  rfsvi st' = rfsvi st + local_influx st' /\
  cumulative_influx st' = cumulative_influx st + local_influx st' /\
  (forall i, ~ In i l -> stage (rdom st') i = stage (rdom st) i).
Proof.
  intros l N B st'.
  destruct (rate_call_eq n full indices rate factor timestep st) as (S1 & A1 & E1 & I1 & F1 & C1).
  fold l in S1, I1. fold st' in S1, A1, E1, I1, F1, C1.
  split; [|split; [exact F1|split; [exact C1|]]].
  - assert (X : full_water n full (rdom st') - full_water n full (rdom st) = local_influx st').
    { unfold full_water. rewrite <- Rsum_map_minus.
      rewrite (filter_support full l).
      - rewrite I1. apply Rsum_map_ext_in. intros i Hi. apply filter_In in Hi.
        rewrite A1, E1, S1. destruct in_dec; [|tauto]. ring.
      - apply seq_NoDup.
      - exact N.
      - intros i Hi. apply in_seq. specialize (B i Hi). lia.
      - intros i _ Hi. rewrite A1, E1, S1. destruct in_dec; [tauto|]. ring. }
    lra.
  - intros i Hi. rewrite S1. destruct in_dec; tauto.
Qed.
Print Assumptions C28_influx.

(** Unless a non-negative rate is turned negative by the factor, no cell that
    holds water is over-drained, and dry cells are never lowered. *)
Theorem C28_no_overdrain n full indices rate factor timestep st :
  0 <= factor * timestep ->
  let st' := rate_call n full indices rate factor timestep st in
  forall i, elev (rdom st) i <= stage (rdom st) i -> elev (rdom st') i <= stage (rdom st') i.
Proof.
  intros Hf st' i Hi.
  destruct (rate_call_eq n full indices rate factor timestep st) as (S1 & A1 & E1 & _).
  fold st' in S1, A1, E1. rewrite E1, S1.
  destruct in_dec as [Hin|]; [|exact Hi]. unfold increment.
  destruct careful eqn:C.
  - pose proof (Rmax_r (factor * timestep * region_rate rate i) (- (stage (rdom st) i - elev (rdom st) i))). lra.
  - unfold careful in C. apply negb_false_iff in C. rewrite forallb_forall in C.
    assert (0 <= region_rate rate i).
    { destruct rate; cbn [region_rate] in *.
      - apply Rleb_true, C. left. reflexivity.
      - apply Rleb_true, C. apply in_map, Hin.
      - apply Rleb_true, C. apply in_map, Hin. }
    assert (0 <= factor * timestep * region_rate rate i) by (apply Rmult_le_pos; lra). lra.
Qed.
Print Assumptions C28_no_overdrain.

(** With some negative rate the factor may have any sign. *)
Theorem C28_no_overdrain_careful n full indices rate factor timestep st :
  careful rate (region_list n indices) = true ->
  let st' := rate_call n full indices rate factor timestep st in
  forall i, elev (rdom st) i <= stage (rdom st) i -> elev (rdom st') i <= stage (rdom st') i.
Proof.
  intros Hc st' i Hi.
  destruct (rate_call_eq n full indices rate factor timestep st) as (S1 & A1 & E1 & _).
  fold st' in S1, A1, E1. rewrite E1, S1.
  destruct in_dec as [Hin|]; [|exact Hi]. unfold increment. rewrite Hc.
  pose proof (Rmax_r (factor * timestep * region_rate rate i) (- (stage (rdom st) i - elev (rdom st) i))). lra.
Qed.
Print Assumptions C28_no_overdrain_careful.

(** Momenta are damped, never reversed or amplified, where water is removed. *)
Theorem C28_momentum n full indices rate factor timestep st :
  let st' := rate_call n full indices rate factor timestep st in
  forall i, elev (rdom st) i <= stage (rdom st) i ->
  exists c, 0 <= c <= 1 /\ xmom (rdom st') i = c * xmom (rdom st) i /\
                           ymom (rdom st') i = c * ymom (rdom st) i.
Proof.
  intros st' i Hi. unfold st', rate_call.
  set (l := region_list n indices). set (d := rdom st) in *.
  destruct (forallb _ _) eqn:E; cbn [rdom].
  { exists 1. split; [lra|]. cbn [xmom ymom with_stage]. lra. }
  unfold take. rewrite !zip_with_map. cbn [xmom ymom with_stage with_moms].
  rewrite !put_map. destruct in_dec as [Hin|]; [|exists 1; lra].
  set (h := stage d i - elev d i). set (q := Rmax (factor * timestep * region_rate rate i) (- h)).
  assert (Hq : - h <= q) by apply Rmax_r. assert (Hh : 0 <= h) by (unfold h; lra).
  destruct (Rltb_spec q 0) as [Hn|Hn]; [|exists 1; lra].
  exists ((q + h) / (h + 1 / 10000000000)). split; [|split; ring].
  assert (P : 0 < h + 1 / 10000000000) by lra.
  split; [apply Rmult_le_pos; [lra|apply Rlt_le, Rinv_0_lt_compat, P]|].
  apply Rmult_le_reg_r with (1 := P). unfold Rdiv at 1. rewrite Rmult_assoc, Rinv_l by lra. lra.
Qed.
Print Assumptions C28_momentum.

(** A negative factor with a non-negative rate drains cells below their bed. *)
Definition rd := Dom (fun _ => 1) (fun _ => 0) (fun _ => 1) (fun _ => 0) (fun _ => 0).
Theorem C28_negative_factor_refuted :
  let st' := rate_call 1 (fun _ => true) None (Scalar 1) (-2) 1 (RState rd 0 0 0) in
  elev rd 0 <= stage rd 0 /\ stage (rdom st') 0 < elev (rdom st') 0.
Proof.
  cbn zeta. split; [simpl; lra|].
  destruct (rate_call_eq 1 (fun _ => true) None (Scalar 1) (-2) 1 (RState rd 0 0 0)) as (S1 & _ & E1 & _).
  rewrite S1, E1. destruct in_dec as [|n]; [|exfalso; apply n; left; reflexivity].
  unfold increment, careful. cbn [forallb]. rdecide. cbn. lra.
Qed.
Print Assumptions C28_negative_factor_refuted.

(** A triangle given twice is counted twice in the influx but filled once. *)
Theorem C28_duplicate_refuted :
  let st' := rate_call 1 (fun _ => true) (Some [0; 0]%nat) (Scalar 1) 1 1 (RState rd 0 0 0) in
  local_influx st' = 2 /\ full_water 1 (fun _ => true) (rdom st') = full_water 1 (fun _ => true) rd + 1.
Proof.
  cbn zeta.
  destruct (rate_call_eq 1 (fun _ => true) (Some [0; 0]%nat) (Scalar 1) 1 1 (RState rd 0 0 0))
    as (S1 & A1 & E1 & I1 & _).
  assert (Inc : forall i, increment (Scalar 1) [0; 0]%nat 1 1 rd i = 1).
  { intros i. unfold increment, careful. cbn [forallb]. rdecide. cbn. lra. }
  split.
  - rewrite I1. cbn [region_list filter map Rsum rdom]. rewrite !Inc. simpl. lra.
  - unfold full_water. cbn [seq filter map Rsum]. rewrite S1, A1, E1.
    destruct in_dec as [|n]; [|exfalso; apply n; left; reflexivity].
    cbn [region_list rdom]. rewrite Inc. simpl. lra.
Qed.
Print Assumptions C28_duplicate_refuted.

Example C28_example :
  let st' := rate_call 3 (fun i => Nat.ltb i 2) (Some [0; 2]%nat) (Scalar (-3)) 1 1 (RState rd 0 0 0) in
  local_influx st' = -1 /\ stage (rdom st') 0 = 0 /\ stage (rdom st') 1 = 1 /\ stage (rdom st') 2 = 0.
Proof.
  cbn zeta.
  destruct (rate_call_eq 3 (fun i => Nat.ltb i 2) (Some [0; 2]%nat) (Scalar (-3)) 1 1 (RState rd 0 0 0))
    as (S1 & A1 & E1 & I1 & _).
  assert (Inc : forall i, increment (Scalar (-3)) [0; 2]%nat 1 1 rd i = -1).
  { intros i. unfold increment, careful. cbn [forallb]. rdecide. cbn.
    unfold Rmax. destruct Rle_dec; lra. }
  rewrite I1, !S1. cbn [region_list filter rdom]. simpl Nat.ltb. cbn iota.
  cbn [map Rsum]. rewrite !Inc.
  repeat (match goal with |- context [in_dec Nat.eq_dec ?a ?b] =>
     destruct (in_dec Nat.eq_dec a b) as [HI|HI]; simpl in HI; try (exfalso; lia) end).
  simpl. rewrite ?Inc. repeat split; lra.
Qed.

(** ** C58: get_Q is the volume rate the operator applies. *)
Theorem C58_get_Q n full indices rate factor timestep st :
  (forall a, rate = CentroidArray a -> indices = None) ->
  0 <= timestep -> careful rate (region_list n indices) = false ->
  get_Q n full indices rate factor (rdom st) * timestep =
  local_influx (rate_call n full indices rate factor timestep st).
Proof.
  intros Hc Ht C.
  destruct (rate_call_eq n full indices rate factor timestep st) as (_ & _ & _ & I1 & _).
  rewrite I1. clear I1. set (d := rdom st). unfold increment. rewrite C.
  unfold get_Q, take. set (l := region_list n indices) in *.
  assert (P : forall g : nat -> R, 
     map (fun k => get (map (areas d) l) k * g (nth k l 0%nat)) (full_positions full l)
     = map (fun i => areas d i * g i) (filter full l)).
  { intros g. rewrite <- (full_positions_map full l (fun i => areas d i * g i)).
    apply map_ext_in. intros k Hk. apply filter_In in Hk. destruct Hk as (Hk & _). apply in_seq in Hk.
    rewrite get_map_nat by lia. reflexivity. }
  assert (Q : forall g : nat -> R, Rsum (map (fun i => areas d i * g i) (filter full l)) * factor * timestep
     = Rsum (map (fun i => factor * timestep * g i * areas d i) (filter full l))).
  { intros g. rewrite Rmult_assoc, Rmult_comm, <- Rsum_map_scal. apply Rsum_map_ext_in. intros; ring. }
  destruct rate as [r|f|a]; cbn [region_rate].
  - rewrite (P (fun _ => r)). apply (Q (fun _ => r)).
  - rewrite (P f). apply (Q f).
  - specialize (Hc a eq_refl). subst indices. unfold l, region_list in *.
    rewrite <- (Q a), <- (P a). f_equal. f_equal. f_equal.
    apply map_ext_in. intros k Hk. apply filter_In in Hk. destruct Hk as (Hk & _). apply in_seq in Hk.
    rewrite seq_length in Hk. rewrite seq_nth by lia. reflexivity.
Qed.
Print Assumptions C58_get_Q.

(** An array over all triangles is read at positions within the region: the
    discharge reported for a region is that of other triangles. *)
Theorem C58_centroid_array_refuted :
  let a := fun i => match i with O => 0 | _ => 1 end in
  get_Q 2 (fun _ => true) (Some [1]%nat) (CentroidArray a) 1 rd = 0 /\
  local_influx (rate_call 2 (fun _ => true) (Some [1]%nat) (CentroidArray a) 1 1 (RState rd 0 0 0)) = 1.
Proof.
  cbn zeta. split.
  - unfold get_Q, full_positions, get. simpl. lra.
  - match goal with |- local_influx (rate_call ?n ?f ?i ?r ?c ?t ?s) = _ =>
      destruct (rate_call_eq n f i r c t s) as (_ & _ & _ & I1 & _) end.
    rewrite I1. cbn [region_list filter map Rsum rdom]. unfold increment, careful. cbn.
    rdecide. cbn. lra.
Qed.
Print Assumptions C58_centroid_array_refuted.

Example C58_example :
  get_Q 3 (fun i => Nat.ltb i 2) None (Scalar 5) 2 rd = 20.
Proof. unfold get_Q, full_positions, get. simpl. lra. Qed.
