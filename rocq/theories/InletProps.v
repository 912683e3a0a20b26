(** C26, C27: inlets and the inlet operator. *)
From Coq Require Import Reals List Arith Bool Lra Lia Permutation.
From Verif Require Import RealLib ListLib ArrayLib InletModel InletProofs.
Import ListNotations.
Local Open Scope R_scope.

(** The water on all [n] triangles of the domain. *)
Definition water (n : nat) (d : dom) : R :=
  Rsum (map (fun i => areas d i * (stage d i - elev d i)) (seq 0 n)).
(** The water on the triangles of a list. *)
Definition water_on (l : list nat) (d : dom) : R :=
  Rsum (map (fun i => areas d i * (stage d i - elev d i)) l).

(** A region of the domain: distinct triangles of positive area. *)
Definition region (n : nat) (d : dom) (l : list nat) : Prop :=
  l <> [] /\ NoDup l /\ forall i, In i l -> (i < n)%nat /\ 0 < areas d i.

Lemma total_water_volume_eq d l : total_water_volume d l = water_on l d.
Proof.
  unfold total_water_volume, depths, inlet_areas, take, water_on.
  rewrite !zip_with_map. f_equal. apply map_ext. intros i. ring.
Qed.
Lemma inlet_area_pos n d l : region n d l -> 0 < inlet_area d l.
Proof.
  intros (H & _ & P). unfold inlet_area, inlet_areas, take. apply Rsum_pos.
  - destruct l; [tauto|discriminate].
  - intros x Hx. apply in_map_iff in Hx. destruct Hx as (i & <- & Hi). apply P, Hi.
Qed.

(** Changing stages on [l] only changes the water of the domain by what it
    changes on [l]. *)
Lemma water_change n d d' l : NoDup l -> (forall i, In i l -> (i < n)%nat) ->
  areas d' = areas d -> elev d' = elev d ->
  (forall i, ~ In i l -> stage d' i = stage d i) ->
  water n d' - water n d = water_on l d' - water_on l d.
Proof.
  intros N B Ha He Hs. unfold water, water_on. rewrite <- !Rsum_map_minus.
  apply Rsum_support.
  - apply seq_NoDup.
  - exact N.
  - intros i Hi. apply in_seq. specialize (B i Hi). lia.
  - intros i _ Hi. rewrite Ha, He, Hs by exact Hi. ring.
Qed.

Lemma set_depths_stage d l h i :
  stage (set_depths d l h) i = if in_dec Nat.eq_dec i l then elev d i + h else stage d i.
Proof.
  unfold set_depths, with_stage, take. cbn [stage]. rewrite map_map. apply put_map.
Qed.
Lemma set_depths_water d l h : water_on l (set_depths d l h) = h * inlet_area d l.
Proof.
  unfold water_on, inlet_area, inlet_areas, take. rewrite <- Rsum_map_scal.
  apply Rsum_map_ext_in. intros i Hi. rewrite set_depths_stage.
  destruct in_dec; [|tauto]. cbn [areas elev set_depths with_stage]. ring.
Qed.

(** ** C26 *)
(** After filling, every inlet cell has the larger of its old stage and one
    common level, everything else is unchanged, and the domain has gained
    exactly the volume. The result does not depend on how argsort breaks
    ties. *)
Theorem C26_set_stages_evenly n d l order volume :
  region n d l -> is_argsort order (take (stage d) l) -> 0 <= volume ->
  exists d' level,
    set_stages_evenly order d l volume = Some d' /\
    areas d' = areas d /\ elev d' = elev d /\ xmom d' = xmom d /\ ymom d' = ymom d /\
    (forall i, ~ In i l -> stage d' i = stage d i) /\
    (forall i, In i l -> stage d' i = Rmax (stage d i) level) /\
    water_on l d' = water_on l d + volume /\
    water n d' = water n d + volume.
Proof.
  intros Reg (No & Mem & Sor) Hv. destruct Reg as (Ne & N & P).
  unfold set_stages_evenly. rewrite (proj2 (Rltb_false volume 0)) by lra.
  set (ars := inlet_areas d l). set (stages := take (stage d) l) in *.
  set (A := map (get ars) order). set (S0 := map (get stages) order).
  assert (Lst : length stages = length l) by apply map_length.
  assert (Lo : length order = length l).
  { rewrite <- Lst, <- (seq_length (length stages) 0). apply Permutation_length.
    apply NoDup_Permutation; [exact No|apply seq_NoDup|].
    intros k. rewrite Mem, in_seq. lia. }
  assert (LA : length A = length l) by (unfold A; rewrite map_length; exact Lo).
  assert (LS : length S0 = length l) by (unfold S0; rewrite map_length; exact Lo).
  assert (Pl : (0 < length l)%nat) by (destruct l; [tauto|simpl; lia]).
  assert (len : length A = length S0) by lia.
  assert (Ord : forall k, (k < length l)%nat -> (nth k order 0%nat < length l)%nat).
  { intros k Hk. rewrite <- Lst. apply Mem, nth_In. lia. }
  assert (Garea : forall k, (k < length l)%nat -> get ars k = areas d (nth k l 0%nat)).
  { intros k Hk. unfold ars, inlet_areas, take. apply get_map_nat, Hk. }
  assert (Gst : forall k, (k < length l)%nat -> get stages k = stage d (nth k l 0%nat)).
  { intros k Hk. unfold stages, take. apply get_map_nat, Hk. }
  assert (pos : forall k, (k < length A)%nat -> 0 < get A k).
  { intros k Hk. unfold A. rewrite get_map_nat by lia.
    rewrite Garea by (apply Ord; lia). apply P, nth_In, Ord. lia. }
  assert (sorted : forall i j, (i <= j < length S0)%nat -> get S0 i <= get S0 j).
  { intros i j Hij. unfold S0. rewrite !get_map_nat by lia. apply Sor. lia. }
  set (SV := 0 :: cumsum 0 (zip_with Rmult (removelast (cumsum 0 A)) (diff S0))).
  destruct (last_le_exists SV volume) as (index & E).
  { exists 0. split; [left; reflexivity|exact Hv]. }
  rewrite E. pose proof (last_le_spec _ _ _ E) as (I1 & I2 & I3).
  assert (LSV : length SV = length A) by (apply SV_length; [exact len|lia]).
  pose proof (SA_pos A S0 len pos index ltac:(lia)) as PA.
  set (depth := (volume - get SV index) / get (cumsum 0 A) index).
  assert (D0 : 0 <= depth).
  { unfold depth, Rdiv. apply Rmult_le_pos; [lra|]. apply Rlt_le, Rinv_0_lt_compat, PA. }
  assert (D1 : depth * get (cumsum 0 A) index = volume - get SV index).
  { unfold depth. field. lra. }
  set (level := get stages (nth index order 0%nat) + depth).
  assert (Lev : level = get S0 index + depth).
  { unfold level, S0. rewrite get_map_nat by lia. reflexivity. }
  (* below and above *)
  assert (Low : forall k, (k <= index)%nat -> get S0 k <= level).
  { intros k Hk. rewrite Lev. pose proof (sorted k index ltac:(lia)). lra. }
  assert (High : forall k, (index < k < length l)%nat -> level < get S0 k).
  { intros k Hk. rewrite Lev.
    pose proof (I3 (S index) ltac:(lia)) as V.
    pose proof (SV_step A S0 len index ltac:(lia)) as V1. fold SV in V1.
    pose proof (sorted (S index) k ltac:(lia)).
    assert (depth < get S0 (S index) - get S0 index); [|lra].
    apply Rmult_lt_reg_r with (1 := PA). rewrite D1. unfold get in *. lra. }
  set (stages' := fold_left (fun s k => upd s k level) (firstn (S index) order) (get stages)).
  assert (New : forall k, (k < length l)%nat -> stages' k = Rmax (get stages k) level).
  { intros k Hk. unfold stages'. rewrite fold_upd_all.
    assert (In k order) as Hin by (apply Mem; lia).
    destruct (In_nth order k 0%nat Hin) as (j & J1 & J2).
    assert (Sj : get S0 j = get stages k) by (unfold S0; rewrite get_map_nat by lia; rewrite J2; reflexivity).
    destruct in_dec as [Hi|Hi]; rewrite <- J2 in Hi; rewrite in_firstn_nth in Hi by assumption.
    - pose proof (Low j ltac:(lia)). rewrite Rmax_right; lra.
    - pose proof (High j ltac:(lia)). rewrite Rmax_left; lra. }
  set (d' := with_stage d (put (stage d) l (map stages' (seq 0 (length l))))).
  assert (Stage : forall k, (k < length l)%nat ->
    stage d' (nth k l 0%nat) = Rmax (stage d (nth k l 0%nat)) level).
  { intros k Hk. unfold d', with_stage. cbn [stage].
    rewrite put_nth; [|exact N|rewrite map_length, seq_length; reflexivity|exact Hk].
    rewrite get_map_nat by (rewrite seq_length; exact Hk).
    rewrite seq_nth by exact Hk. rewrite Nat.add_0_l, New, Gst by exact Hk. reflexivity. }
  assert (StIn : forall i, In i l -> stage d' i = Rmax (stage d i) level).
  { intros i Hi. destruct (In_nth l i 0%nat Hi) as (k & K1 & <-). apply Stage, K1. }
  assert (StOut : forall i, ~ In i l -> stage d' i = stage d i).
  { intros i Hi. unfold d', with_stage. cbn [stage]. apply put_out, Hi. }
  assert (Vol : water_on l d' = water_on l d + volume).
  { assert (X : water_on l d' - water_on l d =
       Rsum (map (fun k => get ars k * (Rmax (get stages k) level - get stages k)) order)).
    { unfold water_on. rewrite <- Rsum_map_minus.
      assert (Y : forall (f : nat -> R), Rsum (map f l) =
                    Rsum (map (fun k => f (nth k l 0%nat)) (seq 0 (length l)))).
      { intros f. f_equal. rewrite <- (map_map (fun k => nth k l 0%nat) f). f_equal.
        clear. induction l as [|a l IH]; [reflexivity|]. simpl. f_equal.
        rewrite <- seq_shift, map_map. exact IH. }
      rewrite Y. rewrite (Rsum_perm (map _ order)
         (map (fun k => get ars k * (Rmax (get stages k) level - get stages k)) (seq 0 (length l)))).
      - apply Rsum_map_ext_in. intros k Hk. apply in_seq in Hk.
        rewrite Stage, Garea, Gst by lia. cbn [areas elev d' with_stage]. ring.
      - apply Permutation_map, NoDup_Permutation; [exact No|apply seq_NoDup|].
        intros k. rewrite Mem, in_seq. lia. }
    assert (Z : Rsum (map (fun k => get ars k * (Rmax (get stages k) level - get stages k)) order)
      = level * Rsum (firstn (S index) A) - Rsum (firstn (S index) (zip_with Rmult A S0))).
    { unfold A, S0. rewrite zip_with_map, !firstn_map.
      rewrite <- (firstn_skipn (S index) order) at 1. rewrite map_app, Rsum_app.
      rewrite (Rsum_map_zero (skipn (S index) order)).
      - rewrite <- Rsum_map_scal, <- Rsum_map_minus, Rplus_0_r. apply Rsum_map_ext_in.
        intros k Hk. destruct (In_nth _ _ 0%nat Hk) as (j & J1 & J2).
        rewrite firstn_length in J1.
        assert (J3 : nth j order 0%nat = k).
        { rewrite <- J2. rewrite <- (firstn_skipn (S index) order) at 1.
          apply app_nth1. rewrite firstn_length. lia. }
        assert (get S0 j = get stages k) by (unfold S0; rewrite get_map_nat by lia; rewrite J3; reflexivity).
        pose proof (Low j ltac:(lia)). rewrite Rmax_right by lra. ring.
      - intros k Hk. destruct (In_nth _ _ 0%nat Hk) as (j & J1 & J2).
        rewrite skipn_length in J1.
        assert (J3 : nth (S index + j) order 0%nat = k).
        { rewrite <- J2. rewrite <- (firstn_skipn (S index) order) at 1.
          rewrite app_nth2; rewrite firstn_length; [f_equal; lia|lia]. }
        assert (get S0 (S index + j) = get stages k)
          by (unfold S0; rewrite get_map_nat by lia; rewrite J3; reflexivity).
        pose proof (High (S index + j)%nat ltac:(lia)). rewrite Rmax_left by lra. ring. }
    pose proof (SV_volume A S0 len pos sorted index ltac:(lia)) as V. fold SV in V.
    rewrite (SA_get A index ltac:(lia)) in D1.
    rewrite Z, Lev in X. lra. }
  exists d', level. split; [reflexivity|]. do 4 (split; [reflexivity|]).
  split; [exact StOut|]. split; [exact StIn|]. split; [exact Vol|].
  pose proof (water_change n d d' l N (fun i Hi => proj1 (P i Hi)) eq_refl eq_refl StOut). lra.
Qed.
Print Assumptions C26_set_stages_evenly.

(** In the words of the property. *)
Corollary C26_level n d l order volume :
  region n d l -> is_argsort order (take (stage d) l) -> 0 <= volume ->
  exists d' level, set_stages_evenly order d l volume = Some d' /\
    water n d' = water n d + volume /\
    (forall i, stage d i <= stage d' i) /\
    forall i, In i l -> (stage d i < stage d' i -> stage d' i = level) /\
                        (stage d' i = stage d i -> level <= stage d i).
Proof.
  intros Reg Ord Hv.
  destruct (C26_set_stages_evenly n d l order volume Reg Ord Hv)
    as (d' & level & E & _ & _ & _ & _ & Out & In_ & _ & W).
  exists d', level. split; [exact E|]. split; [exact W|]. split.
  - intros i. destruct (in_dec Nat.eq_dec i l) as [H|H].
    + rewrite In_ by exact H. apply Rmax_l.
    + rewrite Out by exact H. lra.
  - intros i Hi. rewrite In_ by exact Hi. unfold Rmax. destruct Rle_dec; lra.
Qed.
Print Assumptions C26_level.

(** Two calls with different tie breaking give the same stages. *)
Corollary C26_order_irrelevant n d l o1 o2 volume :
  region n d l -> is_argsort o1 (take (stage d) l) -> is_argsort o2 (take (stage d) l) -> 0 <= volume ->
  exists d1 d2, set_stages_evenly o1 d l volume = Some d1 /\ set_stages_evenly o2 d l volume = Some d2 /\
    forall i, stage d1 i = stage d2 i.
Proof.
  intros Reg O1 O2 Hv.
  destruct (C26_set_stages_evenly n d l o1 volume Reg O1 Hv)
    as (d1 & l1 & E1 & A1 & B1 & _ & _ & Out1 & In1 & W1 & _).
  destruct (C26_set_stages_evenly n d l o2 volume Reg O2 Hv)
    as (d2 & l2 & E2 & A2 & B2 & _ & _ & Out2 & In2 & W2 & _).
  exists d1, d2. split; [exact E1|]. split; [exact E2|].
  destruct Reg as (Ne & N & P).
  assert (Main : forall (da db : dom) (la lb : R), la <= lb ->
     areas da = areas d -> areas db = areas d -> elev da = elev d -> elev db = elev d ->
     (forall i, In i l -> stage da i = Rmax (stage d i) la) ->
     (forall i, In i l -> stage db i = Rmax (stage d i) lb) ->
     water_on l da = water_on l db -> forall i, In i l -> stage da i = stage db i).
  { intros da db la lb Hl Aa Ab Ea Eb Ia Ib W i Hi.
    assert (G : forall k, (forall i, In i k -> In i l) ->
       0 <= Rsum (map (fun i => areas d i * (stage db i - stage da i)) k) /\
       (Rsum (map (fun i => areas d i * (stage db i - stage da i)) k) = 0 ->
        forall i, In i k -> stage da i = stage db i)).
    { induction k as [|j k IH]; intros Hk; [split; [simpl; lra|intros _ ? []]|].
      destruct (IH (fun i H => Hk i (or_intror H))) as (G1 & G2).
      pose proof (Hk j (or_introl eq_refl)) as Hj.
      assert (0 <= stage db j - stage da j).
      { rewrite Ia, Ib by exact Hj. unfold Rmax. repeat destruct Rle_dec; lra. }
      pose proof (proj2 (P j Hj)).
      assert (0 <= areas d j * (stage db j - stage da j)) by (apply Rmult_le_pos; lra).
      cbn [map Rsum]. split; [lra|]. intros Z.
      assert (Z1 : areas d j * (stage db j - stage da j) = 0) by lra.
      apply Rmult_integral in Z1.
      intros i0 [<-|Hi0]; [destruct Z1; lra|apply G2; [lra|exact Hi0]]. }
    apply (proj2 (G l (fun _ H => H))); [|exact Hi].
    unfold water_on in W. rewrite Aa, Ab, Ea, Eb in W.
    rewrite (Rsum_map_ext_in _ (fun i => areas d i * (stage db i - elev d i) -
        areas d i * (stage da i - elev d i))) by (intros; ring).
    rewrite Rsum_map_minus. lra. }
  intros i. destruct (in_dec Nat.eq_dec i l) as [H|H]; [|rewrite Out1, Out2 by exact H; reflexivity].
  destruct (Rle_dec l1 l2).
  - apply (Main d1 d2 l1 l2); auto; lra.
  - symmetry. apply (Main d2 d1 l2 l1); auto; lra.
Qed.
Print Assumptions C26_order_irrelevant.

(** A negative volume is refused. *)
Theorem C26_negative order d l volume : volume < 0 -> set_stages_evenly order d l volume = None.
Proof. intros H. unfold set_stages_evenly. rewrite (proj2 (Rltb_true volume 0)) by exact H. reflexivity. Qed.

(** Adding the volume at uniform depth is also exact. *)
Theorem C26_set_depths_evenly n d l volume : region n d l ->
  let d' := set_depths_evenly d l volume in
  water n d' = water n d + volume /\
  (forall i, ~ In i l -> stage d' i = stage d i) /\
  exists h, forall i, In i l -> stage d' i - elev d' i = h.
Proof.
  intros Reg d'. pose proof (inlet_area_pos n d l Reg) as PA. destruct Reg as (Ne & N & P).
  assert (Out : forall i, ~ In i l -> stage d' i = stage d i).
  { intros i Hi. unfold d', set_depths_evenly. rewrite set_depths_stage. destruct in_dec; tauto. }
  split; [|split; [exact Out|]].
  - pose proof (water_change n d d' l N (fun i Hi => proj1 (P i Hi)) eq_refl eq_refl Out) as W.
    assert (V : water_on l d' = water_on l d + volume).
    { unfold d', set_depths_evenly. rewrite set_depths_water.
      unfold average_depth. rewrite total_water_volume_eq. field. lra. }
    lra.
  - exists (average_depth d l + volume / inlet_area d l). intros i Hi.
    unfold d', set_depths_evenly. rewrite set_depths_stage. destruct in_dec; [|tauto].
    cbn [elev set_depths with_stage]. ring.
Qed.
Print Assumptions C26_set_depths_evenly.

(** Three cells at stages 2, 0, 1, unit areas: two units of water fill the
    two lower cells to 3/2. *)
Definition exd := Dom (fun _ => 1) (fun _ => 0)
  (fun i => match i with 5%nat => 2 | 6%nat => 0 | _ => 1 end) (fun _ => 0) (fun _ => 0).
Example C26_example :
  region 10 exd [5; 6; 7]%nat /\ is_argsort [1; 2; 0]%nat (take (stage exd) [5; 6; 7]%nat) /\
  exists d', set_stages_evenly [1; 2; 0]%nat exd [5; 6; 7]%nat 2 = Some d' /\
    stage d' 5%nat = 2 /\ stage d' 6%nat = 3/2 /\ stage d' 7%nat = 3/2 /\ stage d' 8%nat = 1.
Proof.
  refine (conj _ (conj _ _)).
  - split; [discriminate|]. split; [repeat constructor; simpl; lia|].
    intros i Hi. simpl in Hi. split; [lia|simpl; lra].
  - split; [repeat constructor; simpl; lia|]. split; [intros k; simpl; lia|].
    intros i j Hij. simpl in Hij.
    destruct j as [|[|[|]]], i as [|[|[|]]]; try lia; unfold get; simpl; lra.
  - unfold set_stages_evenly. rdecide.
    unfold inlet_areas, take, exd, zip_with, get. simpl. rdecide. simpl.
    eexists. split; [reflexivity|]. unfold put, upd. simpl. repeat split; field.
Qed.

(** ** C27 *)
Lemma set_inlet_moms_dom velocity zv u v d l :
  let d' := set_inlet_moms velocity zv u v d l in
  areas d' = areas d /\ elev d' = elev d /\ stage d' = stage d.
Proof.
  unfold set_inlet_moms. destruct velocity as [[vx vy]|], zv; repeat split; reflexivity.
Qed.
Lemma water_ext l d d' : areas d' = areas d -> elev d' = elev d -> stage d' = stage d ->
  water_on l d' = water_on l d.
Proof. intros A B C. unfold water_on. rewrite A, B, C. reflexivity. Qed.

(** One call. The volume applied is the requested one, unless that would
    take out more than there is. *)
Theorem C27_call vp velocity zv n l order dt Q1 Q2 st :
  region n (odom st) l -> is_argsort order (take (stage (odom st)) l) -> 0 <= dt ->
  let current := total_water_volume (odom st) l in
  (current < 0 -> inlet_call vp velocity zv l order dt Q1 Q2 st = None) /\
  (0 <= current -> exists st' dv,
    inlet_call vp velocity zv l order dt Q1 Q2 st = Some st' /\
    dv = Rmax ((1/2) * (Q1 + Q2) * dt) (- current) /\
    total_water_volume (odom st') l = current + dv /\
    0 <= total_water_volume (odom st') l /\
    water n (odom st') = water n (odom st) + dv /\
    fsvi st' = fsvi st + dv /\
    total_applied st' = total_applied st + dv /\
    applied_Q st' * dt = dv /\
    total_requested st' = total_requested st + (1/2) * (Q1 + Q2) * dt /\
    areas (odom st') = areas (odom st) /\ elev (odom st') = elev (odom st) /\
    forall i, ~ In i l -> stage (odom st') i = stage (odom st) i).
Proof.
  intros Reg Ord Hdt current. unfold inlet_call. fold current. split; intros Hc.
  { rewrite (proj2 (Rltb_true current 0)) by exact Hc. reflexivity. }
  rewrite (proj2 (Rltb_false current 0)) by exact Hc.
  set (volume := 1 / 2 * (Q1 + Q2) * dt).
  set (d := odom st) in *.
  set (u := velocities vp d l (xmom d)). set (v := velocities vp d l (ymom d)).
  pose proof (inlet_area_pos n d l Reg) as PA.
  assert (Cw : current = water_on l d) by apply total_water_volume_eq.
  assert (NP : NoDup l /\ forall i, In i l -> (i < n)%nat).
  { destruct Reg as (_ & N & P). split; [exact N|]. intros i Hi. apply P, Hi. }
  destruct NP as (N & B).
  assert (Dep : forall h d', d' = set_depths d l h \/ d' = set_inlet_moms velocity zv u v (set_depths d l h) l
       \/ d' = with_moms (set_depths d l h) (put_all (xmom (set_depths d l h)) l 0)
                 (put_all (ymom (set_depths d l h)) l 0) ->
     total_water_volume d' l = h * inlet_area d l /\ water n d' = water n d + (h * inlet_area d l - current) /\
     areas d' = areas d /\ elev d' = elev d /\ forall i, ~ In i l -> stage d' i = stage d i).
  { intros h d' Hd'.
    assert (E : areas d' = areas (set_depths d l h) /\ elev d' = elev (set_depths d l h)
                /\ stage d' = stage (set_depths d l h)).
    { destruct Hd' as [->|[->| ->]]; [repeat split|apply set_inlet_moms_dom|repeat split]. }
    destruct E as (E1 & E2 & E3).
    assert (Out : forall i, ~ In i l -> stage d' i = stage d i).
    { intros i Hi. rewrite E3, set_depths_stage. destruct in_dec; tauto. }
    assert (V : water_on l d' = h * inlet_area d l).
    { rewrite (water_ext l _ _ E1 E2 E3). apply set_depths_water. }
    split; [rewrite total_water_volume_eq; exact V|].
    split; [|split; [exact E1|split; [exact E2|exact Out]]].
    pose proof (water_change n d d' l N B E1 E2 Out). rewrite Cw. lra. }
  destruct (Rleb_spec 0 volume) as [Hv|Hv].
  - destruct (C26_set_stages_evenly n d l order volume Reg Ord Hv)
      as (d1 & level & E & A1 & B1 & _ & _ & Out & _ & W & Wn).
    rewrite E. pose proof (set_inlet_moms_dom velocity zv u v d1 l) as (M1 & M2 & M3).
    set (d2 := set_inlet_moms velocity zv u v d1 l) in *.
    exists (Op d2 (fsvi st + volume) (1/2 * (Q1 + Q2)) (total_applied st + volume)
              (total_requested st + volume)), volume.
    cbn [odom fsvi total_applied total_requested applied_Q].
    assert (T : total_water_volume d2 l = current + volume).
    { rewrite total_water_volume_eq, (water_ext l _ _ M1 M2 M3). lra. }
    split; [reflexivity|]. split; [rewrite Rmax_left; lra|].
    split; [exact T|]. split; [lra|]. split.
    { rewrite <- Wn. unfold water. rewrite M1, M2, M3. reflexivity. }
    do 2 (split; [reflexivity|]). split; [reflexivity|]. split; [reflexivity|].
    split; [rewrite M1; exact A1|]. split; [rewrite M2; exact B1|].
    intros i Hi. rewrite M3. apply Out, Hi.
  - destruct (Rleb_spec 0 (current + volume)) as [Hs|Hs].
    + set (h := (current + volume) / inlet_area d l).
      destruct (Dep h (set_inlet_moms velocity zv u v (set_depths d l h) l))
        as (T & Wn & A1 & B1 & Out); [auto|].
      assert (Eh : h * inlet_area d l = current + volume) by (unfold h; field; lra).
      rewrite Eh in T, Wn.
      eexists _, volume. split; [reflexivity|]. cbn [odom fsvi total_applied total_requested applied_Q].
      split; [rewrite Rmax_left; lra|]. split; [exact T|]. split; [lra|]. split; [lra|].
      do 2 (split; [reflexivity|]). split; [reflexivity|]. split; [reflexivity|].
      split; [exact A1|]. split; [exact B1|]. exact Out.
    + destruct (Dep 0 (with_moms (set_depths d l 0) (put_all (xmom (set_depths d l 0)) l 0)
                 (put_all (ymom (set_depths d l 0)) l 0)))
        as (T & Wn & A1 & B1 & Out); [auto|].
      rewrite Rmult_0_l in T, Wn.
      assert (dt <> 0) by (intros ->; unfold volume in Hv; lra).
      eexists _, (- current). split; [reflexivity|]. cbn [odom fsvi total_applied total_requested applied_Q].
      split; [rewrite Rmax_right; lra|]. split; [lra|]. split; [lra|]. split; [lra|].
      split; [lra|]. split; [reflexivity|]. split; [field; exact H|]. split; [reflexivity|].
      split; [exact A1|]. split; [exact B1|]. exact Out.
Qed.
Print Assumptions C27_call.

(** Any history: calls interleaved with arbitrary other changes of the domain
    and of its volume integral. The ledger sums what the calls did to the
    water of the domain. *)
Inductive event :=
| Call (order : list nat) (dt Q1 Q2 : R)
| Other (f : dom -> dom) (dv : R).

Fixpoint run vp velocity zv n l (evs : list event) (st : opstate) (ledger : R)
    : option (opstate * R) :=
  match evs with
  | [] => Some (st, ledger)
  | Other f dv :: evs =>
      run vp velocity zv n l evs
        (Op (f (odom st)) (fsvi st + dv) (applied_Q st) (total_applied st) (total_requested st)) ledger
  | Call order dt Q1 Q2 :: evs =>
      match inlet_call vp velocity zv l order dt Q1 Q2 st with
      | None => None
      | Some st' => run vp velocity zv n l evs st' (ledger + (water n (odom st') - water n (odom st)))
      end
  end.

(** The events leave the mesh alone and argsort sorts. *)
Fixpoint valid vp velocity zv l (evs : list event) (st : opstate) : Prop :=
  match evs with
  | [] => True
  | Other f dv :: evs =>
      areas (f (odom st)) = areas (odom st) /\
      valid vp velocity zv l evs
        (Op (f (odom st)) (fsvi st + dv) (applied_Q st) (total_applied st) (total_requested st))
  | Call order dt Q1 Q2 :: evs =>
      0 <= dt /\ is_argsort order (take (stage (odom st)) l) /\
      match inlet_call vp velocity zv l order dt Q1 Q2 st with
      | None => True
      | Some st' => valid vp velocity zv l evs st'
      end
  end.

Definition other_fsvi (evs : list event) : R :=
  Rsum (map (fun e => match e with Other _ dv => dv | _ => 0 end) evs).

Theorem C27_history vp velocity zv n l evs : forall st ledger st' ledger',
  region n (odom st) l -> valid vp velocity zv l evs st ->
  run vp velocity zv n l evs st ledger = Some (st', ledger') ->
  total_applied st' - total_applied st = ledger' - ledger /\
  fsvi st' - fsvi st = ledger' - ledger + other_fsvi evs.
Proof.
  induction evs as [|e evs IH]; intros st ledger st' ledger' Reg V H.
  - injection H as <- <-. unfold other_fsvi. simpl. lra.
  - destruct e as [order dt Q1 Q2|f dv]; cbn [run valid] in H, V.
    + destruct V as (Hdt & Ord & V).
      destruct (C27_call vp velocity zv n l order dt Q1 Q2 st Reg Ord Hdt) as (Cn & Cp).
      destruct (Rlt_le_dec (total_water_volume (odom st) l) 0) as [Hc|Hc].
      { rewrite (Cn Hc) in H. discriminate. }
      destruct (Cp Hc) as (st1 & dv & E & _ & _ & _ & Wn & F & T & _ & _ & A1 & _).
      rewrite E in H, V.
      assert (Reg1 : region n (odom st1) l).
      { destruct Reg as (R1 & R2 & R3). refine (conj R1 (conj R2 _)). intros i Hi. rewrite A1. auto. }
      destruct (IH st1 _ st' ledger' Reg1 V H) as (I1 & I2).
      unfold other_fsvi in *. cbn [map Rsum]. lra.
    + destruct V as (A1 & V).
      assert (Reg1 : region n (f (odom st)) l).
      { destruct Reg as (R1 & R2 & R3). refine (conj R1 (conj R2 _)). intros i Hi. rewrite A1. auto. }
      destruct (IH (Op (f (odom st)) (fsvi st + dv) (applied_Q st) (total_applied st) (total_requested st)) ledger st' ledger' Reg1 V H) as (I1 & I2). cbn [total_applied fsvi] in I1, I2.
      unfold other_fsvi in *. cbn [map Rsum]. lra.
Qed.
Print Assumptions C27_history.

(** Taking five units where there are three takes three. *)
Example C27_example : exists st', 
  inlet_call 0 None false [5; 6; 7]%nat [1; 2; 0]%nat 1 (-5) (-5) (Op exd 0 0 0 0) = Some st' /\
  total_applied st' = -3 /\ total_water_volume (odom st') [5; 6; 7]%nat = 0.
Proof.
  destruct C26_example as (Reg & Ord & _).
  destruct (C27_call 0 None false 10 [5; 6; 7]%nat [1; 2; 0]%nat 1 (-5) (-5) (Op exd 0 0 0 0) Reg Ord ltac:(lra))
    as (_ & Cp).
  assert (T : total_water_volume exd [5; 6; 7]%nat = 3).
  { rewrite total_water_volume_eq. unfold water_on, exd. simpl. ring. }
  cbn [odom] in Cp. rewrite T in Cp.
  destruct (Cp ltac:(lra)) as (st' & dv & E & D & W & _ & _ & _ & A & _).
  exists st'. split; [exact E|]. cbn [total_applied] in A. rewrite W, A, D.
  rewrite Rmax_right by lra. lra.
Qed.
