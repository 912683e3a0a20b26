(** C84: the inlet operator on several processes. *)
From Coq Require Import Reals List Arith Bool Lia Lra Permutation.
From Verif Require Import RealLib ListLib ArrayLib KahnLib SyncLib InletModel InletProofs InletProps ParallelInletModel ParallelInletProofs.
Import ListNotations.
Local Open Scope R_scope.

(** The inlet [gidx] of the undivided domain [G], divided among the processes
    [procs]: process [p] holds the triangles [idx p], its triangle [i] is
    triangle [loc p i] of the undivided domain and has the same values. *)
Record divided (n : nat) (procs : list nat) (master : nat) (idx : nat -> list nat) (loc : nat -> nat -> nat)
    (d : nat -> dom) (G : dom) (gidx : list nat) : Prop := {
  dv_nodup : NoDup procs;
  dv_master : In master procs;
  dv_range : forall p, In p procs -> (p < n)%nat;
  dv_parts : Permutation gidx (flat_map (fun p => map (loc p) (idx p)) procs);
  dv_values : forall p i, In p procs -> In i (idx p) ->
    areas (d p) i = areas G (loc p i) /\ elev (d p) i = elev G (loc p i) /\ stage (d p) i = stage G (loc p i) /\
    xmom (d p) i = xmom G (loc p i) /\ ymom (d p) i = ymom G (loc p i) }.

(** Processes that take no part in the operator do nothing. *)
Definition start (vp big : R) velocity zv procs master (idx order : nat -> list nat) dt Q1 Q2 (st : nat -> opstate) (p : nat)
  : KahnLib.prog msg opstate :=
  if in_dec Nat.eq_dec p procs then call vp big velocity zv procs master p (idx p) (order p) dt Q1 Q2 (st p)
  else Ret (st p).

(** *** Sums over the parts *)
Lemma Rsum_parts {A} (f : nat -> R) (parts : A -> list nat) l :
  Rsum (map f (flat_map parts l)) = Rsum (map (fun a => Rsum (map f (parts a))) l).
Proof.
  induction l as [| a l IH]; [reflexivity |]. cbn [flat_map map Rsum]. now rewrite map_app, Rsum_app, IH.
Qed.
Lemma map_nth_seq {B} (f : nat -> B) l : map (fun k => f (nth k l 0%nat)) (seq 0 (length l)) = map f l.
Proof.
  rewrite <- (map_map (fun k => nth k l 0%nat) f). f_equal.
  induction l as [| a l IH]; [reflexivity |]. cbn [length seq map nth]. f_equal.
  rewrite <- seq_shift, map_map. exact IH.
Qed.

Lemma NoDup_app_parts {A} (l l' : list A) : NoDup (l ++ l') -> NoDup l /\ NoDup l'.
Proof.
  induction l as [| a l IH]; intros H; [split; [constructor | exact H] |]. inversion H as [| x xs N H']; subst.
  destruct (IH H') as [H1 H2]. split; [constructor; [| exact H1] | exact H2]. intros X. apply N, in_or_app. now left.
Qed.

Section Parts.
Variables (n : nat) (procs : list nat) (master : nat) (idx : nat -> list nat) (loc : nat -> nat -> nat)
  (d : nat -> dom) (G : dom) (gidx : list nat).
Hypothesis DV : divided n procs master idx loc d G gidx.

Lemma sum_parts (f : nat -> R) (g : nat -> nat -> R) :
  (forall p i, In p procs -> In i (idx p) -> g p i = f (loc p i)) ->
  Rsum (map (fun p => Rsum (map (g p) (idx p))) procs) = Rsum (map f gidx).
Proof using DV.
  intros H. rewrite (Rsum_perm _ _ (Permutation_map f (dv_parts _ _ _ _ _ _ _ _ DV))), Rsum_parts.
  apply Rsum_map_ext_in. intros p Hp. rewrite map_map. apply Rsum_map_ext_in. intros i Hi. now apply H.
Qed.

Lemma in_part p i : In p procs -> In i (idx p) -> In (loc p i) gidx.
Proof using DV.
  intros Hp Hi. apply (Permutation_in _ (Permutation_sym (dv_parts _ _ _ _ _ _ _ _ DV))).
  apply in_flat_map. exists p. split; [assumption | now apply in_map].
Qed.
Lemma part_of g : In g gidx -> exists p i, In p procs /\ In i (idx p) /\ g = loc p i.
Proof using DV.
  intros H. apply (Permutation_in _ (dv_parts _ _ _ _ _ _ _ _ DV)) in H.
  apply in_flat_map in H as (p & Hp & H). apply in_map_iff in H as (i & <- & Hi). now exists p, i.
Qed.
Lemma part_nodup p : NoDup gidx -> In p procs -> NoDup (idx p).
Proof using DV.
  intros N Hp. apply (Permutation_NoDup (dv_parts _ _ _ _ _ _ _ _ DV)) in N.
  clear DV. revert N Hp. induction procs as [| a l IH]; [contradiction |]. intros N [-> | Hp]; cbn [flat_map] in N.
  - apply NoDup_app_parts in N as [N _]. now apply NoDup_map_inv in N.
  - apply IH; [now apply NoDup_app_parts in N | assumption].
Qed.

Lemma volume_parts : Rsum (map (fun p => total_water_volume (d p) (idx p)) procs) = total_water_volume G gidx.
Proof using DV.
  rewrite total_water_volume_eq. unfold water_on.
  rewrite <- (sum_parts (fun i => areas G i * (stage G i - elev G i)) (fun p i => areas (d p) i * (stage (d p) i - elev (d p) i))).
  - apply Rsum_map_ext_in. intros p _. apply total_water_volume_eq.
  - intros p i Hp Hi. destruct (dv_values _ _ _ _ _ _ _ _ DV p i Hp Hi) as (-> & -> & -> & _). reflexivity.
Qed.
Lemma area_parts : Rsum (map (fun p => inlet_area (d p) (idx p)) procs) = inlet_area G gidx.
Proof using DV.
  unfold inlet_area, inlet_areas, take. apply (sum_parts (areas G) (fun p => areas (d p))).
  intros p i Hp Hi. apply (dv_values _ _ _ _ _ _ _ _ DV p i Hp Hi).
Qed.
End Parts.

(** *** One level *)
Definition fill_volume (d : dom) (l : list nat) (level : R) : R :=
  Rsum (map (fun i => areas d i * (Rmax (stage d i) level - stage d i)) l).

Lemma Rsum_le_eq {A} (f g : A -> R) l : (forall x, In x l -> f x <= g x) -> Rsum (map f l) = Rsum (map g l) ->
  forall x, In x l -> f x = g x.
Proof.
  induction l as [| a l IH]; intros H E x Hx; [contradiction |]. cbn [map Rsum] in E.
  assert (Ha : f a <= g a) by (apply H; now left).
  assert (Hl : Rsum (map f l) <= Rsum (map g l)).
  { assert (0 <= Rsum (map (fun x => g x - f x) l)).
    { apply Rsum_nonneg. intros y Hy. apply in_map_iff in Hy as (z & <- & Hz). specialize (H z (or_intror Hz)). lra. }
    rewrite Rsum_map_minus in H0. lra. }
  destruct Hx as [<- | Hx]; [lra |]. apply IH; [intros y Hy; apply H; now right | lra | assumption].
Qed.

Lemma level_unique d l a b : (forall i, In i l -> 0 < areas d i) -> fill_volume d l a = fill_volume d l b ->
  forall i, In i l -> Rmax (stage d i) a = Rmax (stage d i) b.
Proof.
  intros HA.
  assert (W : forall a b, a <= b -> fill_volume d l a = fill_volume d l b ->
    forall i, In i l -> Rmax (stage d i) a = Rmax (stage d i) b).
  { clear a b. intros a b L E i Hi.
    assert (M : forall j, Rmax (stage d j) a <= Rmax (stage d j) b).
    { intros j. unfold Rmax. destruct (Rle_dec (stage d j) a), (Rle_dec (stage d j) b); lra. }
    assert (T : areas d i * (Rmax (stage d i) a - stage d i) = areas d i * (Rmax (stage d i) b - stage d i)).
    { apply (Rsum_le_eq (fun i => areas d i * (Rmax (stage d i) a - stage d i))
                        (fun i => areas d i * (Rmax (stage d i) b - stage d i)) l); [| exact E | exact Hi].
      intros j Hj. specialize (HA j Hj). specialize (M j). apply Rmult_le_compat_l; lra. }
    specialize (HA i Hi). apply Rmult_eq_reg_l in T; lra. }
  intros E. destruct (Rle_dec a b) as [L | L]; [now apply W |].
  intros i Hi. symmetry. apply W; [lra | now symmetry | assumption].
Qed.

(** *** Momenta *)
Definition mom_after (velocity : option R) (zv : bool) (h u : R) : R :=
  if zv then 0 else match velocity with Some v => h * v | None => h * u end.
Definition speed (vp m h : R) : R := m * h / (h * h + vp).

Lemma velocities_map vp d l m : velocities vp d l m = map (fun i => speed vp (m i) (stage d i - elev d i)) l.
Proof. unfold velocities, depths, take. now rewrite !zip_with_map. Qed.
Lemma depths_map d l : depths d l = map (fun i => stage d i - elev d i) l.
Proof. unfold depths, take. now rewrite zip_with_map. Qed.

Lemma moms_after velocity zv vp d0 d l i :
  let d' := set_inlet_moms velocity zv (velocities vp d0 l (xmom d0)) (velocities vp d0 l (ymom d0)) d l in
  xmom d' i = (if in_dec Nat.eq_dec i l then
     mom_after (option_map fst velocity) zv (stage d i - elev d i) (speed vp (xmom d0 i) (stage d0 i - elev d0 i)) else xmom d i) /\
  ymom d' i = (if in_dec Nat.eq_dec i l then
     mom_after (option_map snd velocity) zv (stage d i - elev d i) (speed vp (ymom d0 i) (stage d0 i - elev d0 i)) else ymom d i).
Proof.
  cbv zeta. rewrite !velocities_map. unfold set_inlet_moms, put_all. rewrite depths_map.
  destruct velocity as [[vx vy] |], zv; cbn [with_moms xmom ymom option_map fst snd]; unfold mom_after;
    rewrite ?zip_with_map, ?map_map, ?put_map;
    destruct (in_dec Nat.eq_dec i l); auto; rewrite ?put_map; destruct (in_dec Nat.eq_dec i l); try contradiction; auto.
Qed.

Lemma apply_level_stage order d idx pos level k : NoDup idx -> (k < length idx)%nat ->
  stage (apply_level order d idx pos level) (nth k idx 0%nat) =
  if in_dec Nat.eq_dec k (firstn pos order) then level else get (take (stage d) idx) k.
Proof.
  intros N Hk. unfold apply_level. cbn [with_stage stage]. rewrite put_nth; [| assumption | now rewrite map_length, seq_length | assumption].
  rewrite get_map_nat by (now rewrite seq_length). rewrite seq_nth by assumption. cbn [Nat.add]. apply fold_upd_all.
Qed.
Lemma apply_level_out order d idx pos level i : ~ In i idx -> stage (apply_level order d idx pos level) i = stage d i.
Proof. intros H. unfold apply_level. cbn [with_stage stage]. now apply put_out. Qed.

(** *** The theorem *)

(** What a process must have at the end: the values of the undivided domain on
    its part of the inlet, everything else as before, and the same volumes in
    the accounts. *)
Record agrees (idx : list nat) (loc : nat -> nat) (s s' G G' : opstate) : Prop := {
  ag_inlet : forall i, In i idx ->
    stage (odom s') i = stage (odom G') (loc i) /\
    xmom (odom s') i = xmom (odom G') (loc i) /\ ymom (odom s') i = ymom (odom G') (loc i);
  ag_rest : forall i, ~ In i idx ->
    stage (odom s') i = stage (odom s) i /\ xmom (odom s') i = xmom (odom s) i /\ ymom (odom s') i = ymom (odom s) i;
  ag_fixed : areas (odom s') = areas (odom s) /\ elev (odom s') = elev (odom s);
  ag_Q : applied_Q s' = applied_Q G';
  ag_applied : total_applied s' - total_applied s = total_applied G' - total_applied G;
  ag_requested : total_requested s' - total_requested s = total_requested G' - total_requested G;
  ag_fsvi : fsvi s' - fsvi s = fsvi G' - fsvi G }.

Theorem C84_agrees_with_sequential :
  forall n N vp big velocity zv procs master idx order loc dt Q1 Q2 st G gidx gorder,
  divided n procs master idx loc (fun p => odom (st p)) (odom G) gidx ->
  region N (odom G) gidx ->
  is_argsort gorder (take (stage (odom G)) gidx) ->
  (forall p, In p procs -> is_argsort (order p) (take (stage (odom (st p))) (idx p))) ->
  (forall i, In i gidx -> stage (odom G) i < big) ->
  0 < dt -> 0 <= total_water_volume (odom G) gidx ->
  exists G' fin,
    inlet_call vp velocity zv gidx gorder dt Q1 Q2 G = Some G' /\
    always_ends n (start vp big velocity zv procs master idx order dt Q1 Q2 st) fin /\
    (forall p, In p procs -> exists s', fin p = Ret s' /\ agrees (idx p) (loc p) (st p) s' G G') /\
    (forall p, ~ In p procs -> fin p = Ret (st p)).
Proof.
  intros n N vp big velocity zv procs master idx order loc dt Q1 Q2 st G gidx gorder DV RG GO LO HBG Hdt HC.
  pose proof (dv_nodup _ _ _ _ _ _ _ _ DV) as ND. pose proof (dv_master _ _ _ _ _ _ _ _ DV) as HM.
  pose proof (dv_range _ _ _ _ _ _ _ _ DV) as HN.
  pose proof RG as (NEg & NDg & PAg).
  assert (VAL : forall p i, In p procs -> In i (idx p) ->
    areas (odom (st p)) i = areas (odom G) (loc p i) /\ elev (odom (st p)) i = elev (odom G) (loc p i) /\
    stage (odom (st p)) i = stage (odom G) (loc p i) /\
    xmom (odom (st p)) i = xmom (odom G) (loc p i) /\ ymom (odom (st p)) i = ymom (odom G) (loc p i))
    by exact (dv_values _ _ _ _ _ _ _ _ DV).
  assert (CUR : current procs idx st = total_water_volume (odom G) gidx) by exact (volume_parts _ _ _ _ _ _ _ _ DV).
  assert (TOT : total procs idx st = inlet_area (odom G) gidx) by exact (area_parts _ _ _ _ _ _ _ _ DV).
  set (s0 := start vp big velocity zv procs master idx order dt Q1 Q2 st).
  assert (S0 : forall p, In p procs -> s0 p = call vp big velocity zv procs master p (idx p) (order p) dt Q1 Q2 (st p)).
  { intros p Hp. unfold s0, start. destruct (in_dec Nat.eq_dec p procs); [reflexivity | contradiction]. }
  assert (S1 : forall p, ~ In p procs -> s0 p = Ret (st p)).
  { intros p Hp. unfold s0, start. destruct (in_dec Nat.eq_dec p procs); [contradiction | reflexivity]. }
  destruct (prologue n vp big velocity zv procs master idx order dt Q1 Q2 st ND HM HN s0 S0) as (c1 & t1 & R1 & R2 & R3).
  rewrite CUR in R3. rewrite (proj2 (Rltb_false _ 0)) in R3 by exact HC. rewrite TOT in R3.
  unfold inlet_call. rewrite (proj2 (Rltb_false _ 0)) by exact HC.
  set (vol := 1 / 2 * (Q1 + Q2) * dt). fold vol in R3. change (volume dt Q1 Q2) with vol in R3.
  set (cv := total_water_volume (odom G) gidx) in *. set (ta := inlet_area (odom G) gidx) in *.
  assert (QE : vol / dt = 1 / 2 * (Q1 + Q2)) by (unfold vol; field; lra).
  (* the momenta from the stages *)
  assert (MOM : forall p d1 dG, In p procs ->
    (forall i, In i (idx p) -> stage d1 i = stage dG (loc p i)) ->
    (forall i, ~ In i (idx p) -> stage d1 i = stage (odom (st p)) i) ->
    elev d1 = elev (odom (st p)) -> areas d1 = areas (odom (st p)) ->
    xmom d1 = xmom (odom (st p)) -> ymom d1 = ymom (odom (st p)) -> elev dG = elev (odom G) ->
    let d' := set_inlet_moms velocity zv (velocities vp (odom (st p)) (idx p) (xmom (odom (st p))))
                (velocities vp (odom (st p)) (idx p) (ymom (odom (st p)))) d1 (idx p) in
    let G' := set_inlet_moms velocity zv (velocities vp (odom G) gidx (xmom (odom G)))
                (velocities vp (odom G) gidx (ymom (odom G))) dG gidx in
    (forall i, In i (idx p) -> stage d' i = stage G' (loc p i) /\ xmom d' i = xmom G' (loc p i) /\ ymom d' i = ymom G' (loc p i)) /\
    (forall i, ~ In i (idx p) -> stage d' i = stage (odom (st p)) i /\ xmom d' i = xmom (odom (st p)) i /\ ymom d' i = ymom (odom (st p)) i) /\
    (areas d' = areas (odom (st p)) /\ elev d' = elev (odom (st p)))).
  { intros p d1 dG Hp Hin Hout He Ha Hx Hy HeG d' G'.
    destruct (set_inlet_moms_dom velocity zv (velocities vp (odom (st p)) (idx p) (xmom (odom (st p))))
                (velocities vp (odom (st p)) (idx p) (ymom (odom (st p)))) d1 (idx p)) as (F1 & F2 & F3).
    destruct (set_inlet_moms_dom velocity zv (velocities vp (odom G) gidx (xmom (odom G)))
                (velocities vp (odom G) gidx (ymom (odom G))) dG gidx) as (E1 & E2 & E3).
    fold d' in F1, F2, F3. fold G' in E1, E2, E3.
    split; [| split; [| rewrite F1, F2; auto]].
    - intros i Hi. rewrite F3, E3.
      destruct (moms_after velocity zv vp (odom (st p)) d1 (idx p) i) as [MX MY].
      destruct (moms_after velocity zv vp (odom G) dG gidx (loc p i)) as [NX NY].
      fold d' in MX, MY. fold G' in NX, NY. rewrite MX, MY, NX, NY.
      destruct (in_dec Nat.eq_dec i (idx p)); [| contradiction].
      destruct (in_dec Nat.eq_dec (loc p i) gidx) as [_ | X]; [| exfalso; apply X; exact (in_part _ _ _ _ _ _ _ _ DV p i Hp Hi)].
      destruct (VAL p i Hp Hi) as (_ & V2 & V3 & V4 & V5).
      rewrite Hin, He, HeG, V2, V3, V4, V5 by assumption. auto.
    - intros i Hi. rewrite F3.
      destruct (moms_after velocity zv vp (odom (st p)) d1 (idx p) i) as [MX MY].
      fold d' in MX, MY. rewrite MX, MY, Hx, Hy. destruct (in_dec Nat.eq_dec i (idx p)); [contradiction |]. auto. }
  destruct (Rleb_spec 0 vol) as [Hv | Hv].
  - (* fill to a level *)
    destruct (C26_set_stages_evenly N (odom G) gidx gorder vol RG GO Hv) as (dG & lG & -> & A1 & A2 & A3 & A4 & A5 & A6 & A7 & _).
    eexists.
    set (K := fun p d1 => Ret (Op (set_inlet_moms velocity zv (velocities vp (odom (st p)) (idx p) (xmom (odom (st p))))
                (velocities vp (odom (st p)) (idx p) (ymom (odom (st p)))) d1 (idx p)) (fsvi (st p) + vol) (vol / dt)
              (total_applied (st p) + vol) (total_requested (st p) + vol)) : prog).
    destruct (fill_run n big procs master idx order st ND HM HN LO) with (volume := vol) (K := K) (s := t1)
      as (c2 & t2 & pos & level & U1 & U2 & U3 & FL).
    + intros p i Hp Hi. destruct (VAL p i Hp Hi) as (-> & _). apply PAg. exact (in_part _ _ _ _ _ _ _ _ DV p i Hp Hi).
    + intros p i Hp Hi. destruct (VAL p i Hp Hi) as (_ & _ & -> & _). apply HBG. exact (in_part _ _ _ _ _ _ _ _ DV p i Hp Hi).
    + destruct gidx as [| g0 l0] eqn:EG; [contradiction |]. rewrite <- EG in *.
      destruct (part_of _ _ _ _ _ _ _ _ DV g0) as (p & i & Hp & Hi & _); [rewrite EG; now left |].
      exists p. split; [assumption |]. intros X. rewrite X in Hi. contradiction.
    + exact Hv.
    + intros p Hp. rewrite (R3 p Hp). unfold update_inlet. rewrite (proj2 (Reqb_false dt 0)) by lra.
      rewrite (proj2 (Rleb_true 0 vol)) by lra. reflexivity.
    + exists t2. split; [reflexivity |]. split; [| split].
      * apply (one_run_is_enough n (c1 + c2)); [eapply syncs_trans; eassumption |].
        intros p _. destruct (in_dec Nat.eq_dec p procs) as [Hp | Hp].
        -- rewrite (U2 p Hp). exact I.
        -- rewrite (U3 p Hp), (R2 p Hp), (S1 p Hp). exact I.
      * assert (HOs : forall i, In i procs -> is_argsort (sh_order (all_shares procs master idx order st i)) (sh_stages (all_shares procs master idx order st i))).
        { intros i Hi. rewrite (all_shares_at procs master idx order st i Hi). now apply LO. }
        assert (LEV : forall g, In g gidx -> Rmax (stage (odom G) g) level = Rmax (stage (odom G) g) lG).
        { apply level_unique; [intros i Hi; now apply PAg |].
          transitivity vol.
          - rewrite <- (filled_volume procs _ HOs vol pos level FL). symmetry. unfold fill_volume.
            rewrite <- (sum_parts _ _ _ _ _ _ _ _ DV (fun i => areas (odom G) i * (Rmax (stage (odom G) i) level - stage (odom G) i))
               (fun p i => areas (odom (st p)) i * (Rmax (stage (odom (st p)) i) level - stage (odom (st p)) i))).
            + apply Rsum_map_ext_in. intros p Hp. unfold sg, ag. rewrite (all_shares_at procs master idx order st p Hp).
              unfold share_of, sh_stages, sh_areas. cbn [fst snd]. unfold take, inlet_areas, take. rewrite map_length.
              rewrite <- (map_nth_seq (fun i => areas (odom (st p)) i * (Rmax (stage (odom (st p)) i) level - stage (odom (st p)) i)) (idx p)).
              apply Rsum_map_ext_in. intros k Hk. apply in_seq in Hk. rewrite !get_map_nat by lia. reflexivity.
            + intros p i Hp Hi. destruct (VAL p i Hp Hi) as (-> & _ & -> & _). reflexivity.
          - unfold water_on in A7. unfold fill_volume.
            assert (E : Rsum (map (fun i => areas (odom G) i * (Rmax (stage (odom G) i) lG - stage (odom G) i)) gidx) =
                        Rsum (map (fun i => areas dG i * (stage dG i - elev dG i)) gidx) -
                        Rsum (map (fun i => areas (odom G) i * (stage (odom G) i - elev (odom G) i)) gidx)).
            { rewrite <- Rsum_map_minus. apply Rsum_map_ext_in. intros i Hi. rewrite A1, A2, (A6 i Hi). ring. }
            rewrite E. lra. }
        intros p Hp. rewrite (U2 p Hp). unfold K. eexists. split; [reflexivity |].
        set (d1 := apply_level (order p) (odom (st p)) (idx p) (pos p) level).
        destruct (MOM p d1 dG Hp) as (M1 & M2 & M3); try reflexivity.
        { intros i Hi. apply (In_nth _ _ 0%nat) in Hi as (k & Hk & E).
          assert (Hi : In i (idx p)) by (rewrite <- E; now apply nth_In).
          unfold d1. rewrite <- E at 1. rewrite apply_level_stage; [| exact (part_nodup _ _ _ _ _ _ _ _ DV p NDg Hp) | exact Hk].
          assert (Hk' : (k < length (sh_stages (all_shares procs master idx order st p)))%nat).
          { rewrite (all_shares_at procs master idx order st p Hp). unfold share_of, sh_stages, take. cbn [fst snd]. now rewrite map_length. }
          pose proof (filled_max procs _ HOs vol pos level p k FL Hp Hk') as FM. unfold sg in FM.
          rewrite (all_shares_at procs master idx order st p Hp) in FM. unfold share_of, sh_stages, sh_order in FM. cbn [fst snd] in FM.
          rewrite FM. unfold take. rewrite get_map_nat by assumption. rewrite E.
          destruct (VAL p i Hp Hi) as (_ & _ & -> & _).
          pose proof (in_part _ _ _ _ _ _ _ _ DV p i Hp Hi) as Hg. rewrite (A6 _ Hg). now apply LEV. }
        { intros i Hi. unfold d1. now apply apply_level_out. }
        { exact A2. }
        constructor; cbn [odom applied_Q total_applied total_requested fsvi]; try ring; assumption.
      * intros p Hp. now rewrite (U3 p Hp), (R2 p Hp), (S1 p Hp).
  - (* take water out *)
    assert (DEP : forall p h i, In p procs ->
      (In i (idx p) -> stage (set_depths (odom (st p)) (idx p) h) i = stage (set_depths (odom G) gidx h) (loc p i)) /\
      (~ In i (idx p) -> stage (set_depths (odom (st p)) (idx p) h) i = stage (odom (st p)) i)).
    { intros p h i Hp. rewrite !set_depths_stage. split; intros Hi.
      - destruct (in_dec Nat.eq_dec i (idx p)); [| contradiction].
        destruct (in_dec Nat.eq_dec (loc p i) gidx) as [_ | X]; [| exfalso; apply X; exact (in_part _ _ _ _ _ _ _ _ DV p i Hp Hi)].
        destruct (VAL p i Hp Hi) as (_ & -> & _). reflexivity.
      - destruct (in_dec Nat.eq_dec i (idx p)); [contradiction | reflexivity]. }
    assert (FIN : forall (f : nat -> opstate), (forall p, In p procs -> t1 p = Ret (f p)) ->
              always_ends n s0 t1 /\ forall p, ~ In p procs -> t1 p = Ret (st p)).
    { intros f Hf. split.
      - apply (one_run_is_enough n c1); [exact R1 |]. intros p _. destruct (in_dec Nat.eq_dec p procs) as [Hp | Hp].
        + rewrite (Hf p Hp). exact I.
        + rewrite (R2 p Hp), (S1 p Hp). exact I.
      - intros p Hp. now rewrite (R2 p Hp), (S1 p Hp). }
    destruct (Rleb_spec 0 (cv + vol)) as [Hw | Hw]; eexists; exists t1; (split; [reflexivity |]).
    + set (f := fun p => Op (set_inlet_moms velocity zv (velocities vp (odom (st p)) (idx p) (xmom (odom (st p))))
                (velocities vp (odom (st p)) (idx p) (ymom (odom (st p)))) (set_depths (odom (st p)) (idx p) ((cv + vol) / ta)) (idx p))
            (fsvi (st p) + vol) (vol / dt) (total_applied (st p) + vol) (total_requested (st p) + vol)).
      assert (T : forall p, In p procs -> t1 p = Ret (f p)).
      { intros p Hp. rewrite (R3 p Hp). unfold update_inlet. rewrite (proj2 (Reqb_false dt 0)) by lra.
        rewrite (proj2 (Rleb_false 0 vol)) by lra. rewrite (proj2 (Rleb_true 0 (cv + vol))) by lra. reflexivity. }
      destruct (FIN f T) as [AE OUT]. split; [exact AE |]. split; [| exact OUT].
      intros p Hp. exists (f p). split; [now apply T |].
      destruct (MOM p (set_depths (odom (st p)) (idx p) ((cv + vol) / ta)) (set_depths (odom G) gidx ((cv + vol) / ta)) Hp)
        as (M1 & M2 & M3); try reflexivity; try (intros i; apply (DEP p _ i Hp)).
      constructor; cbn [f odom applied_Q total_applied total_requested fsvi]; try ring; assumption.
    + set (f := fun p => Op (with_moms (set_depths (odom (st p)) (idx p) 0)
              (put_all (xmom (set_depths (odom (st p)) (idx p) 0)) (idx p) 0) (put_all (ymom (set_depths (odom (st p)) (idx p) 0)) (idx p) 0))
            (fsvi (st p) - cv) (- cv / dt) (total_applied (st p) + - cv) (total_requested (st p) + vol)).
      assert (T : forall p, In p procs -> t1 p = Ret (f p)).
      { intros p Hp. rewrite (R3 p Hp). unfold update_inlet. rewrite (proj2 (Reqb_false dt 0)) by lra.
        rewrite (proj2 (Rleb_false 0 vol)) by lra. rewrite (proj2 (Rleb_false 0 (cv + vol))) by lra. reflexivity. }
      destruct (FIN f T) as [AE OUT]. split; [exact AE |]. split; [| exact OUT].
      intros p Hp. exists (f p). split; [now apply T |].
      assert (PA : forall a l i, put_all a l 0 i = if in_dec Nat.eq_dec i l then 0 else a i) by (intros; unfold put_all; apply put_map).
      constructor; cbn [f odom applied_Q total_applied total_requested fsvi with_moms stage xmom ymom areas elev]; try ring; try (split; reflexivity).
      * intros i Hi. rewrite !PA. destruct (in_dec Nat.eq_dec i (idx p)); [| contradiction].
        destruct (in_dec Nat.eq_dec (loc p i) gidx) as [_ | X]; [| exfalso; apply X; exact (in_part _ _ _ _ _ _ _ _ DV p i Hp Hi)].
        split; [now apply DEP | auto].
      * intros i Hi. rewrite !PA. destruct (in_dec Nat.eq_dec i (idx p)); [contradiction |]. split; [now apply DEP | auto].
Qed.
Print Assumptions C84_agrees_with_sequential.

(** The volume: what the operator adds is the requested volume, or minus the
    water that there is; over all processes together. *)
Theorem C84_volume_added :
  forall n N vp big velocity zv procs master idx order loc dt Q1 Q2 st G gidx gorder,
  divided n procs master idx loc (fun p => odom (st p)) (odom G) gidx ->
  region N (odom G) gidx ->
  is_argsort gorder (take (stage (odom G)) gidx) ->
  (forall p, In p procs -> is_argsort (order p) (take (stage (odom (st p))) (idx p))) ->
  (forall i, In i gidx -> stage (odom G) i < big) ->
  0 < dt -> 0 <= total_water_volume (odom G) gidx ->
  exists res fin,
    always_ends n (start vp big velocity zv procs master idx order dt Q1 Q2 st) fin /\
    (forall p, In p procs -> fin p = Ret (res p)) /\
    let dv := Rmax ((1/2) * (Q1 + Q2) * dt) (- total_water_volume (odom G) gidx) in
    Rsum (map (fun p => total_water_volume (odom (res p)) (idx p)) procs) =
      Rsum (map (fun p => total_water_volume (odom (st p)) (idx p)) procs) + dv /\
    forall p, In p procs -> total_applied (res p) = total_applied (st p) + dv /\ fsvi (res p) = fsvi (st p) + dv.
Proof.
  intros n N vp big velocity zv procs master idx order loc dt Q1 Q2 st G gidx gorder DV RG GO LO HB Hdt HC.
  destruct (C84_agrees_with_sequential n N vp big velocity zv procs master idx order loc dt Q1 Q2 st G gidx gorder DV RG GO LO HB Hdt HC)
    as (G' & fin & EG & AE & AG & _).
  destruct (proj2 (C27_call vp velocity zv N gidx gorder dt Q1 Q2 G RG GO (Rlt_le _ _ Hdt)) HC)
    as (G2 & dv & E2 & Hdv & W & _ & _ & F & T & _ & _ & A1 & A2 & _).
  rewrite EG in E2. injection E2 as <-.
  set (res := fun p => match fin p with Ret s => s | _ => st p end).
  assert (RES : forall p, In p procs -> fin p = Ret (res p) /\ agrees (idx p) (loc p) (st p) (res p) G G').
  { intros p Hp. destruct (AG p Hp) as (s' & E & A). unfold res. rewrite E. auto. }
  exists res, fin. split; [exact AE |]. split; [intros p Hp; now apply RES |]. cbv zeta. rewrite <- Hdv. split.
  - assert (DV' : divided n procs master idx loc (fun p => odom (res p)) (odom G') gidx).
    { constructor; try apply DV. intros p i Hp Hi. destruct (RES p Hp) as [_ A].
      destruct (ag_fixed _ _ _ _ _ _ A) as [-> ->]. rewrite A1, A2.
      destruct (dv_values _ _ _ _ _ _ _ _ DV p i Hp Hi) as (-> & -> & _).
      destruct (ag_inlet _ _ _ _ _ _ A i Hi) as (-> & -> & ->). auto. }
    rewrite (volume_parts _ _ _ _ _ _ _ _ DV'), (volume_parts _ _ _ _ _ _ _ _ DV). exact W.
  - intros p Hp. destruct (RES p Hp) as [_ A]. pose proof (ag_applied _ _ _ _ _ _ A). pose proof (ag_fsvi _ _ _ _ _ _ A). lra.
Qed.
Print Assumptions C84_volume_added.

(** *** The volume account of the run *)
(** Every process adds the whole volume to its own account, and the report
    adds up the accounts: it counts the volume once for every process of the
    inlet. *)
Lemma fold_plus_f (f : nat -> R) l : forall x, fold_left (fun a p => a + f p) l x = x + Rsum (map f l).
Proof. induction l as [| a l IH]; intros x; cbn [fold_left map Rsum]; [lra |]. rewrite IH. lra. Qed.
Lemma reported_sum n f : (0 < n)%nat -> reported_volume_integral n f = Rsum (map f (seq 0 n)).
Proof.
  intros H. unfold reported_volume_integral. rewrite fold_plus_f. destruct n; [lia |].
  cbn [seq map Rsum Nat.sub]. now rewrite Nat.sub_0_r.
Qed.
Lemma Rsum_const_nat (l : list nat) c : Rsum (map (fun _ => c) l) = INR (length l) * c.
Proof. induction l as [| a l IH]; [cbn; lra |]. cbn [map Rsum length]. rewrite IH, S_INR. lra. Qed.

Theorem C84_reported_volume_refuted :
  forall n N vp big velocity zv procs master idx order loc dt Q1 Q2 st G gidx gorder,
  divided n procs master idx loc (fun p => odom (st p)) (odom G) gidx ->
  region N (odom G) gidx ->
  is_argsort gorder (take (stage (odom G)) gidx) ->
  (forall p, In p procs -> is_argsort (order p) (take (stage (odom (st p))) (idx p))) ->
  (forall i, In i gidx -> stage (odom G) i < big) ->
  0 < dt -> 0 <= total_water_volume (odom G) gidx ->
  exists res fin,
    always_ends n (start vp big velocity zv procs master idx order dt Q1 Q2 st) fin /\
    (forall p, (p < n)%nat -> fin p = Ret (res p)) /\
    let dv := Rmax ((1/2) * (Q1 + Q2) * dt) (- total_water_volume (odom G) gidx) in
    reported_volume_integral n (fun p => fsvi (res p)) - reported_volume_integral n (fun p => fsvi (st p)) =
      INR (length procs) * dv.
Proof.
  intros n N vp big velocity zv procs master idx order loc dt Q1 Q2 st G gidx gorder DV RG GO LO HB Hdt HC.
  destruct (C84_agrees_with_sequential n N vp big velocity zv procs master idx order loc dt Q1 Q2 st G gidx gorder DV RG GO LO HB Hdt HC)
    as (G' & fin & EG & AE & AG & OUT).
  destruct (proj2 (C27_call vp velocity zv N gidx gorder dt Q1 Q2 G RG GO (Rlt_le _ _ Hdt)) HC)
    as (G2 & dv & E2 & Hdv & _ & _ & _ & F & _).
  rewrite EG in E2. injection E2 as <-.
  set (res := fun p => match fin p with Ret s => s | _ => st p end).
  pose proof (dv_range _ _ _ _ _ _ _ _ DV master (dv_master _ _ _ _ _ _ _ _ DV)) as Hn.
  exists res, fin. split; [exact AE |]. split.
  - intros p _. unfold res. destruct (in_dec Nat.eq_dec p procs) as [Hp | Hp].
    + destruct (AG p Hp) as (s' & E & _). now rewrite E.
    + now rewrite (OUT p Hp).
  - cbv zeta. rewrite <- Hdv. rewrite !reported_sum by lia. rewrite <- Rsum_map_minus.
    rewrite (Rsum_support (fun p => fsvi (res p) - fsvi (st p)) (seq 0 n) procs).
    + rewrite <- Rsum_const_nat. apply Rsum_map_ext_in. intros p Hp. destruct (AG p Hp) as (s' & E & A).
      unfold res. rewrite E. pose proof (ag_fsvi _ _ _ _ _ _ A). lra.
    + apply seq_NoDup.
    + exact (dv_nodup _ _ _ _ _ _ _ _ DV).
    + intros p Hp. apply in_seq. pose proof (dv_range _ _ _ _ _ _ _ _ DV p Hp). lia.
    + intros p _ Hp. unfold res. rewrite (OUT p Hp). lra.
Qed.
Print Assumptions C84_reported_volume_refuted.

(** *** Negative water volume in the inlet *)
(** The master's assertion fails and all other processes of the inlet wait
    for its message for ever. *)
Theorem C84_assertion_blocks :
  forall n vp big velocity zv procs master idx order loc dt Q1 Q2 st G gidx,
  divided n procs master idx loc (fun p => odom (st p)) (odom G) gidx ->
  total_water_volume (odom G) gidx < 0 ->
  exists fin, always_ends n (start vp big velocity zv procs master idx order dt Q1 Q2 st) fin /\
    fin master = Fail /\ forall p, In p procs -> p <> master -> exists k, fin p = Recv master k.
Proof.
  intros n vp big velocity zv procs master idx order loc dt Q1 Q2 st G gidx DV HC.
  pose proof (dv_nodup _ _ _ _ _ _ _ _ DV) as ND. pose proof (dv_master _ _ _ _ _ _ _ _ DV) as HM.
  pose proof (dv_range _ _ _ _ _ _ _ _ DV) as HN.
  assert (CUR : current procs idx st = total_water_volume (odom G) gidx) by exact (volume_parts _ _ _ _ _ _ _ _ DV).
  set (s0 := start vp big velocity zv procs master idx order dt Q1 Q2 st).
  assert (S0 : forall p, In p procs -> s0 p = call vp big velocity zv procs master p (idx p) (order p) dt Q1 Q2 (st p)).
  { intros p Hp. unfold s0, start. destruct (in_dec Nat.eq_dec p procs); [reflexivity | contradiction]. }
  assert (S1 : forall p, ~ In p procs -> s0 p = Ret (st p)).
  { intros p Hp. unfold s0, start. destruct (in_dec Nat.eq_dec p procs); [contradiction | reflexivity]. }
  destruct (prologue n vp big velocity zv procs master idx order dt Q1 Q2 st ND HM HN s0 S0) as (c1 & t1 & R1 & R2 & R3).
  rewrite CUR in R3. rewrite (proj2 (Rltb_true _ 0)) in R3 by exact HC. destruct R3 as [R3 R4].
  assert (W : forall p, In p procs -> p <> master -> exists k, t1 p = Recv master k).
  { intros p Hp Np. apply R4. now apply others_in. }
  assert (ID : forall p, (p < n)%nat -> idle (t1 p)).
  { intros p _. destruct (in_dec Nat.eq_dec p procs) as [Hp | Hp].
    - destruct (Nat.eq_dec p master) as [-> | Np]; [rewrite R3; exact I |]. destruct (W p Hp Np) as (k & ->). exact I.
    - rewrite (R2 p Hp), (S1 p Hp). exact I. }
  exists t1. split; [| split; [exact R3 | exact W]].
  apply (one_run_to_the_end n c1); [exact R1 | now apply idle_sync | now apply idle_steps].
Qed.
Print Assumptions C84_assertion_blocks.

(** Two processes with one triangle each; one cubic metre is added. *)
Definition ex_G : opstate := Op (Dom (fun _ => 1) (fun _ => 0) (fun i => match i with 0%nat => 2 | _ => 1 end) (fun _ => 0) (fun _ => 0)) 0 0 0 0.
Definition ex_p (p : nat) : opstate :=
  Op (Dom (fun _ => 1) (fun _ => 0) (fun _ => match p with 0%nat => 2 | _ => 1 end) (fun _ => 0) (fun _ => 0)) 0 0 0 0.
Lemma ex_divided : divided 2 [0; 1]%nat 0 (fun _ => [0%nat]) (fun p _ => p) (fun p => odom (ex_p p)) (odom ex_G) [0; 1]%nat.
Proof.
  constructor.
  - repeat constructor; simpl; lia.
  - now left.
  - intros p [<- | [<- | []]]; lia.
  - reflexivity.
  - intros p i [<- | [<- | []]] [<- | []]; cbn; auto.
Qed.
Lemma ex_water : total_water_volume (odom ex_G) [0; 1]%nat = 3.
Proof. rewrite total_water_volume_eq. cbn. lra. Qed.
Example C84_example :
  exists res fin,
    always_ends 2 (start 1 100 None false [0; 1]%nat 0 (fun _ => [0%nat]) (fun _ => [0%nat]) 1 1 1 ex_p) fin /\
    (forall p, (p < 2)%nat -> fin p = Ret (res p)) /\
    reported_volume_integral 2 (fun p => fsvi (res p)) - reported_volume_integral 2 (fun p => fsvi (ex_p p)) = 2.
Proof.
  destruct (C84_reported_volume_refuted 2 2 1 100 None false [0; 1]%nat 0 (fun _ => [0%nat]) (fun _ => [0%nat])
              (fun p _ => p) 1 1 1 ex_p ex_G [0; 1]%nat [1; 0]%nat) as (res & fin & H1 & H2 & H3).
  - exact ex_divided.
  - split; [discriminate |]. split; [repeat constructor; simpl; lia |]. intros i [<- | [<- | []]]; cbn; split; lia || lra.
  - split; [repeat constructor; simpl; lia |]. split.
    + intros k. cbn. lia.
    + intros i j H. cbn in H. destruct i as [| [| i]], j as [| [| j]]; cbn; try lra; lia.
  - intros p [<- | [<- | []]]; (split; [repeat constructor; simpl; lia |]; split;
      [intros k; cbn; lia | intros i j H; cbn in H; destruct i, j; cbn; try lra; lia]).
  - intros i [<- | [<- | []]]; cbn; lra.
  - lra.
  - rewrite ex_water. lra.
  - exists res, fin. split; [exact H1 |]. split; [exact H2 |]. rewrite H3, ex_water.
    cbn [length INR]. rewrite Rmax_left; lra.
Qed.
