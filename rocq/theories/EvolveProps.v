(** Properties C01, C02, C03: the time loop of [domain.evolve]. *)
From Coq Require Import Reals Lra Lia List Bool ZArith.
From Coq Require Import Floats.SpecFloat.
From Verif Require Import RealLib EvolveModel EvolveProofs.
Import ListNotations.
Local Open Scope R_scope.

(** * C01: yield times *)

(** Specification: the times a user expects from
    [evolve(yieldstep, finaltime)] started at time [start]: [start + i *
    yieldstep] for [i = 0 .. n] (for [i = 1 .. n] if the initial yield is
    skipped), then [final]. *)
Definition expected_times (skip : bool) (start yieldstep final : R) (n : nat) : list R :=
  map (fun i => start + INR i * yieldstep)
      (if skip then seq 1 n else seq 0 (S n)) ++ [final].

(** [n] is the number of yield times after [start] that come (more than
    1e-12) before [final]. *)
Definition intermediate_yields (start yieldstep final : R) (n : nat) : Prop :=
  (forall i, (1 <= i <= n)%nat -> start + INR i * yieldstep < final - 1 / 10 ^ 12) /\
  final - 1 / 10 ^ 12 <= start + INR (S n) * yieldstep.

Definition is_prefix {A} (l1 l2 : list A) : Prop := exists l, l2 = l1 ++ l.

(** The physics always proposes a positive timestep. *)
Definition positive_timesteps (d : rclock) (flux : nat -> R) : Prop :=
  0 < cfl d /\ 0 < evolve_max_timestep d /\
  (forall x, fixed_flux_timestep d = Some x -> 0 < x) /\ forall k, 0 < flux k.

Lemma positive_timesteps_pos d flux : positive_timesteps d flux -> pos_steps d flux.
Proof.
  intros (A & B & C & D) k. rewrite cfl_timestep_R.
  apply Rmin_glb_lt; auto. apply Rmult_lt_0_compat; auto.
  destruct (fixed_flux_timestep d) eqn:E; auto.
Qed.

(** Absolute time at which [evolve] starts: on the very first call (without
    [skip_initial_step]) the model time is reset to [evolve_starttime],
    afterwards it is the current time. *)
Definition start_time (skip : bool) (d : rclock) : R :=
  starttime d +
  (if evolved_called d || skip then relative_time d else evolve_starttime d).

Lemma expected_S skip start ys final n :
  expected_times skip start ys final n =
  (if skip then [] else [start]) ++ map (fun i => start + INR i * ys) (seq 1 n) ++ [final].
Proof.
  unfold expected_times. destruct skip; simpl; auto. f_equal. lra.
Qed.

Lemma eps_eq : 1 / 10 ^ 12 = eps.
Proof. unfold eps. field. Qed.

Lemma evolve_unfold fuel ys f skip flux (d : rclock) :
  0 < ys -> positive_timesteps d flux -> start_time skip d <= f ->
  exists d4,
    head_inv (f - starttime d) d4 /\ starttime d4 = starttime d /\
    relative_yieldtime d4 = ytime (start_time skip d - starttime d) ys 1 /\
    relative_time d4 = start_time skip d - starttime d /\
    pos_steps d4 flux /\ evolve_min_timestep d4 = evolve_min_timestep d /\
    cfl d4 = cfl d /\ fixed_flux_timestep d4 = fixed_flux_timestep d /\
    evolve_max_timestep d4 = evolve_max_timestep d /\
    same_guard d4 (set_step ROps d (timestep d) (smallsteps d) (default_order d)) /\
    evolve ROps fuel (Some ys) (Some f) None skip flux d =
    (let (yl, e) := evolve_loop ROps fuel ys flux 0 d4 in
     ((if evolved_called d || skip then [] else [start_time skip d]) ++ yl, e)).
Proof.
  intros Hys Hpos Hst. unfold evolve.
  assert (E1 : (if evolved_called d then true else skip) = (evolved_called d || skip)%bool)
    by (destruct (evolved_called d); reflexivity).
  rewrite E1.
  set (est := if (evolved_called d || skip)%bool then relative_time d else evolve_starttime d) in *.
  change (start_time skip d) with (starttime d + (est : R)) in *.
  set (sk := (evolved_called d || skip)%bool) in *.
  set (rt := if negb (neqb ROps (relative_time d) est) then est else relative_time d).
  assert (Ert : rt = est).
  { unfold rt. simpl. destruct (Reqb_spec (relative_time d) est); simpl; auto. }
  rewrite Ert.
  cbn [set_start set_finaltimes starttime relative_finaltime relative_time nltb ROps nsub].
  destruct (Rltb_spec (f - starttime d) est); [simpl in *; lra|].
  match goal with |- context [evolve_loop ROps fuel ys flux 0 ?dd] => exists dd end.
  split; [|split; [|split; [|split; [|split;[|split; [|split; [|split; [|split; [|split; [|
    reflexivity]]]]]]]]]].
  - unfold head_inv; simpl. repeat split; lra.
  - reflexivity.
  - simpl. unfold ytime. simpl. lra.
  - simpl. lra.
  - apply positive_timesteps_pos in Hpos. intros k.
    erewrite cfl_timestep_ext; [apply (Hpos k)|..]; reflexivity.
  - reflexivity.
  - reflexivity.
  - reflexivity.
  - reflexivity.
  - unfold same_guard; simpl; auto 10.
Qed.

(** C01 (safety): whatever positive flux timesteps the flow produces, the
    yielded times are exactly the requested ones.  If the run is cut short
    (step budget, or the too-small-timestep exception) the yielded times are
    a prefix of the requested ones.  Model time never passes finaltime: the
    'time overshot' exception is impossible. *)
Theorem C01_evolve_yields_requested_times :
  forall fuel yieldstep finaltime skip flux (d : rclock),
  0 < yieldstep -> positive_timesteps d flux ->
  start_time skip d <= finaltime ->
  let sk := (evolved_called d || skip)%bool in
  let run := evolve ROps fuel (Some yieldstep) (Some finaltime) None skip flux d in
  match snd run with
  | Finished _ d' =>
      exists n, intermediate_yields (start_time skip d) yieldstep finaltime n /\
        fst run = expected_times sk (start_time skip d) yieldstep finaltime n /\
        get_time ROps d' = finaltime
  | TooSmallTimestep _ | OutOfFuel _ _ _ =>
      exists n, is_prefix (fst run)
                  (expected_times sk (start_time skip d) yieldstep finaltime n) /\
                (forall i, (1 <= i <= n)%nat ->
                   start_time skip d + INR i * yieldstep < finaltime - 1 / 10 ^ 12)
  | _ => False
  end.
Proof.
  intros fuel ys f skip flux d Hys Hpos Hst sk run.
  destruct (evolve_unfold fuel ys f skip flux d Hys Hpos Hst)
    as (d4 & HI & Hs & HY & Ht & Hps & _ & _ & _ & _ & _ & E).
  unfold run. rewrite E. clear run E.
  pose proof (evolve_loop_ok fuel ys flux 0 d4 (starttime d) (start_time skip d - starttime d)
    (f - starttime d) 0 Hys HI Hs HY Hps) as (m & Hm & HR).
  destruct (evolve_loop ROps fuel ys flux 0 d4) as [yl e]. simpl in HR.
  assert (YE : forall m, yields (starttime d) (start_time skip d - starttime d) ys 0 m =
               map (fun i => start_time skip d + INR i * ys) (seq 1 m)).
  { intros m'. unfold yields. apply map_ext. intros i. unfold ytime. lra. }
  rewrite YE in HR.
  assert (Hm' : forall i, (1 <= i <= m)%nat ->
     start_time skip d + INR i * ys < f - 1 / 10 ^ 12).
  { intros i Hi. specialize (Hm i ltac:(lia)). unfold ytime in Hm. rewrite eps_eq. lra. }
  destruct e; simpl in HR; try contradiction; simpl.
  - destruct HR as (Hyl & Hl & T1 & T2 & T3).
    exists m. split; [split|split].
    + exact Hm'.
    + rewrite eps_eq. unfold ytime in Hl. simpl Nat.add in Hl. lra.
    + rewrite expected_S, Hyl. fold sk.
      replace (starttime d + (f - starttime d)) with f by lra. reflexivity.
    + unfold get_time. simpl. rewrite T1, T2. lra.
  - exists m. split; [|exact Hm'].
    exists [f]. rewrite HR, expected_S, <- !app_assoc. reflexivity.
  - destruct HR as (Hyl & _). exists m. split; [|exact Hm'].
    exists [f]. rewrite Hyl, expected_S, <- !app_assoc. reflexivity.
Qed.
Print Assumptions C01_evolve_yields_requested_times.

(** C01 (termination): if the flux timesteps stay above some positive bound
    (and above evolve_min_timestep, so that the degenerate-timestep guard is
    not triggered), the run reaches finaltime after finitely many steps. *)
Theorem C01_evolve_terminates :
  forall yieldstep finaltime skip flux (d : rclock) m,
  0 < yieldstep -> positive_timesteps d flux ->
  start_time skip d <= finaltime ->
  0 < m -> (forall k, m <= cfl_timestep ROps d (flux k)) ->
  evolve_min_timestep d <= m ->
  exists fuel0, forall fuel, (fuel0 <= fuel)%nat ->
  exists d', snd (evolve ROps fuel (Some yieldstep) (Some finaltime) None skip flux d)
             = Finished ROps d'.
Proof.
  intros ys f skip flux d m Hys Hpos Hst Hm Hb Hmin.
  set (L := f - start_time skip d).
  assert (HA : exists A, L <= INR A * m).
  { destruct (INR_archimed m L Hm) as (n & Hn). exists n. lra. }
  assert (HB : exists B, L <= INR B * ys).
  { destruct (INR_archimed ys L Hys) as (n & Hn). exists n. lra. }
  destruct HA as (A & HA). destruct HB as (B & HB).
  exists (S (A + B)). intros fuel Hfuel.
  destruct (evolve_unfold fuel ys f skip flux d Hys Hpos Hst)
    as (d4 & HI & Hs & HY & Ht & Hps & Hm4 & E1 & E2 & E3 & _ & E).
  rewrite E.
  destruct (evolve_loop_terminates fuel ys flux 0 d4 (f - starttime d) m A B) as (d' & Hd'); auto.
  - intros k. erewrite cfl_timestep_ext; [apply Hb|..]; auto.
  - rewrite Hm4. exact Hmin.
  - rewrite Ht. unfold L in HA. lra.
  - rewrite HY. unfold ytime. simpl INR. unfold L in HB. lra.
  - exists d'. destruct (evolve_loop ROps fuel ys flux 0 d4). simpl in *. exact Hd'.
Qed.
Print Assumptions C01_evolve_terminates.

(** C01 for [duration]: asking for a duration is asking for the finaltime
    that many seconds after the start. *)
Theorem C01_duration_is_finaltime :
  forall fuel yieldstep duration skip flux (d : rclock),
  evolve ROps fuel yieldstep None (Some duration) skip flux d =
  evolve ROps fuel yieldstep (Some (start_time skip d + duration)) None skip flux d.
Proof.
  intros fuel ys u skip flux d. unfold evolve.
  assert (E1 : (if evolved_called d then true else skip) = (evolved_called d || skip)%bool)
    by (destruct (evolved_called d); reflexivity).
  rewrite E1.
  set (est := if (evolved_called d || skip)%bool then relative_time d else evolve_starttime d) in *.
  change (start_time skip d) with (starttime d + (est : R)) in *.
  set (rt := if negb (neqb ROps (relative_time d) est) then est else relative_time d).
  assert (Ert : rt = est).
  { unfold rt. simpl. destruct (Reqb_spec (relative_time d) est); simpl; auto. }
  rewrite Ert.
  assert (A1 : nadd ROps u (get_time ROps (set_start ROps d est est)) =
               starttime d + est + u) by (unfold get_time; simpl; lra).
  assert (A2 : nadd ROps u (relative_time (set_start ROps d est est)) =
               starttime d + est + u - starttime d) by (simpl; lra).
  cbn [set_finaltimes]. rewrite A1, A2. reflexivity.
Qed.
Print Assumptions C01_duration_is_finaltime.

(** A fresh domain as created by the constructor with default settings
    (config.py: CFL 1.0, max_timestep 1e3, min_timestep 1e-6,
    max_smallsteps 50, default_order 2). *)
Definition fresh (start : R) : rclock :=
  {| relative_time := (0 : num ROps); starttime := start; evolve_starttime := 0;
     evolved_called := false; relative_finaltime := None; finaltime := None;
     relative_yieldtime := 0; cfl := 1; evolve_max_timestep := 1000;
     evolve_min_timestep := (/ 10 ^ 6)%R; max_smallsteps := 50; smallsteps := 0;
     order_ := 2; default_order := 2; fixed_flux_timestep := None; timestep := 0 |}.

(** Non-vacuity: a fresh domain started at 100 s, yieldstep 2, finaltime 105,
    flux timestep always 1.5: hypotheses hold and the yields are
    100, 102, 104, 105. *)
Example C01_example :
  positive_timesteps (fresh 100) (fun _ => 3 / 2) /\
  start_time false (fresh 100) <= 105 /\
  intermediate_yields 100 2 105 2 /\
  exists fuel,
  fst (evolve ROps fuel (Some 2) (Some 105) None false (fun _ => 3 / 2) (fresh 100))
    = [100; 102; 104; 105].
Proof.
  assert (P : positive_timesteps (fresh 100) (fun _ => 3 / 2)).
  { unfold positive_timesteps, fresh; simpl. repeat split; intros; try lra; discriminate. }
  assert (S : start_time false (fresh 100) <= 105) by (unfold start_time; simpl; lra).
  split; [exact P|]. split; [exact S|]. split.
  { unfold intermediate_yields. split.
    + intros i Hi. assert (i = 1 \/ i = 2)%nat as [->| ->] by lia; simpl; lra.
    + simpl; lra. }
  destruct (C01_evolve_terminates 2 105 false (fun _ => 3 / 2) (fresh 100) (3 / 2)) as (f0 & H);
    auto; try lra.
  - intros _. rewrite cfl_timestep_R. simpl. unfold Rmin. destruct (Rle_dec _ _); lra.
  - simpl. lra.
  - exists f0. destruct (H f0 (le_n _)) as (d' & Hd').
    pose proof (C01_evolve_yields_requested_times f0 2 105 false (fun _ => 3/2) (fresh 100)
      ltac:(lra) P S) as H1. cbv zeta in H1. rewrite Hd' in H1.
    destruct H1 as (n & (N1 & N2) & -> & _).
    replace (start_time false (fresh 100)) with 100 in * by (unfold start_time; simpl; lra).
    assert (n = 2)%nat as ->.
    { destruct n as [|[|[|n]]]; auto; exfalso.
      - simpl in N2. lra. - simpl in N2. lra.
      - specialize (N1 3%nat ltac:(lia)). simpl in N1. lra. }
    unfold expected_times. simpl. repeat (f_equal; try lra).
Qed.

(** Finding: the constructor never initialises [relative_finaltime], so the
    first call of [evolve] with neither finaltime nor duration fails with an
    AttributeError instead of evolving. *)
Theorem C01_evolve_without_finaltime_refuted :
  forall start fuel ystep skip flux,
  evolve ROps fuel ystep None None skip flux (fresh start) = ([], NoFinaltimeAttribute ROps).
Proof. intros. unfold evolve. simpl. reflexivity. Qed.
Print Assumptions C01_evolve_without_finaltime_refuted.

(** Finding: when finaltime equals the current time on the first call, the
    same time is yielded twice (once as initial yield, once as final). *)
Theorem C01_final_equals_start_yields_twice :
  forall start fuel yieldstep (flux : nat -> R), 0 < yieldstep -> (forall k, 0 < flux k) ->
  fst (evolve ROps (S fuel) (Some yieldstep) (Some start) None false flux (fresh start))
    = [start; start].
Proof.
  intros s fuel ys flux Hys Hf.
  assert (P : positive_timesteps (fresh s) flux).
  { unfold positive_timesteps; simpl; repeat split; try lra; auto. discriminate. }
  assert (Q : start_time false (fresh s) <= s) by (unfold start_time; simpl; lra).
  destruct (evolve_unfold (S fuel) ys s false flux (fresh s) Hys P Q)
    as (d4 & HI & Hs & HY & Ht & Hps & Hm4 & E1 & E2 & E3 & SG & E).
  etransitivity; [exact (f_equal fst E)|]. clear E. simpl evolve_loop.
  pose proof (evolve_iter_cases ys d4 (flux 0%nat) _ Hys HI (Hps 0%nat)) as HC. cbv zeta in HC.
  set (c := clip_yieldtime ROps d4 _) in HC.
  pose proof eps_pos as He.
  assert (Hc0 : 0 <= c).
  { destruct HI as (A & B & C). apply (clip_nonneg d4 _ _ A B); [|].
    - simpl in *. lra. - simpl in *; specialize (Hps 0%nat); lra. }
  assert (T0 : relative_time d4 = 0) by (rewrite Ht; unfold start_time; simpl; lra).
  change (starttime (fresh s)) with s in HC.
  destruct HC as [(G & _)|(sm & o & G & [(Hc & Ei)|[(Hc & _)|(Hc & _)]])].
  - exfalso. unfold small_step_guard in G.
    destruct SG as (S1 & S2 & S3 & S4 & _). simpl in S1, S2, S3, S4.
    rewrite S1, S2, S3 in G. simpl in G. destruct (Rltb _ _); discriminate.
  - rewrite Ei. simpl. unfold start_time, get_time; simpl. rewrite Hs. simpl.
    f_equal; [lra|]. f_equal. lra.
  - simpl in *. lra.
  - simpl in *. lra.
Qed.
Print Assumptions C01_final_equals_start_yields_twice.

(** * C02: no overshoot in floating point *)

(** IEEE-754 binary64 arithmetic (round to nearest even), from the standard
    library's executable specification of floats. *)
Definition f64 (m : positive) (e : Z) : spec_float := S754_finite false m e.
Definition F64 : NumOps :=
  {| num := spec_float; nadd := SFadd 53 1024; nsub := SFsub 53 1024;
     nmul := SFmul 53 1024; nltb := SFltb; nleb := SFleb; neqb := SFeqb;
     nepsilon := f64 4951760157141521 (-92) (* 1e-12 *) |}.

(** A domain with default settings whose model time is 0.294 (binary64). *)
Definition f64_domain : clock F64 :=
  {| relative_time := (f64 5296233161787703 (-54) : num F64); starttime := S754_zero false;
     evolve_starttime := S754_zero false;
     evolved_called := true; relative_finaltime := None; finaltime := None;
     relative_yieldtime := S754_zero false; cfl := f64 4503599627370496 (-52);
     evolve_max_timestep := f64 8796093022208000 (-43);
     evolve_min_timestep := f64 4722366482869645 (-72);
     max_smallsteps := 50; smallsteps := 0;
     order_ := 2; default_order := 2; fixed_flux_timestep := None;
     timestep := S754_zero false |}.

(** C02 is false in floating point: a domain whose time is 0.294 evolved to
    finaltime 0.9 with a large flux timestep (1000 s, e.g. a dry domain) ends
    with the exception 'time overshot finaltime', because
    0.294 + (0.9 - 0.294) > 0.9 in binary64. *)
Theorem C02_no_overshoot_float_refuted :
  exists (fuel : nat) (flux : nat -> spec_float) (final : spec_float) (d' : clock F64),
    final = f64 8106479329266893 (-53) /\
    evolve F64 fuel None (Some final) None false flux f64_domain = ([], Overshot F64 d').
Proof.
  exists 1%nat, (fun _ => f64 8796093022208000 (-43)), (f64 8106479329266893 (-53)).
  set (r := evolve F64 _ _ _ _ _ _ _).
  assert (H : match snd r with Overshot _ _ => Nat.eqb (length (fst r)) 0 | _ => false end = true)
    by (unfold r; vm_compute; reflexivity).
  clearbody r. destruct r as [l e]. simpl in H. destruct e as [| | |d'| | |]; try discriminate.
  exists d'. split; [reflexivity|]. destruct l; [reflexivity|discriminate].
Qed.
Print Assumptions C02_no_overshoot_float_refuted.

(** The same request in exact arithmetic never overshoots: instance of C01,
    for every request whose finaltime is not already past. *)
Theorem C02_no_overshoot_exact_arithmetic_partial :
  forall fuel yieldstep finaltime skip flux (d : rclock),
  0 < yieldstep -> positive_timesteps d flux -> start_time skip d <= finaltime ->
  forall d', snd (evolve ROps fuel (Some yieldstep) (Some finaltime) None skip flux d)
             <> Overshot ROps d'.
Proof.
  intros fuel ys f skip flux d Hys Hp Hs d' E.
  pose proof (C01_evolve_yields_requested_times fuel ys f skip flux d Hys Hp Hs) as H.
  cbv zeta in H. rewrite E in H. exact H.
Qed.
Print Assumptions C02_no_overshoot_exact_arithmetic_partial.

(** * C03: the timestep *)

(** Clock states at the head of the time loop that a run can reach. *)
Inductive loop_head (yieldstep : R) : rclock -> rclock -> Prop :=
| lh_start d : loop_head yieldstep d d
| lh_yield d d1 d2 flux t : loop_head yieldstep d d1 -> 0 < cfl_timestep ROps d1 flux ->
    evolve_iter ROps yieldstep d1 flux = IYield ROps t d2 -> loop_head yieldstep d d2
| lh_continue d d1 d2 flux : loop_head yieldstep d d1 -> 0 < cfl_timestep ROps d1 flux ->
    evolve_iter ROps yieldstep d1 flux = IContinue ROps d2 -> loop_head yieldstep d d2.

Lemma loop_head_inv ys tf (d d1 : rclock) :
  0 < ys -> loop_head ys d d1 -> head_inv tf d ->
  head_inv tf d1 /\ (d1 = d \/ relative_time d1 < tf).
Proof.
  intros Hys H HI. pose proof eps_pos as He. induction H as [d|d d1 d2 f t _ IH Hc E|d d1 d2 f _ IH Hc E]; [auto|..];
  destruct (IH HI) as (I1 & _);
  pose proof (evolve_iter_cases ys d1 f tf Hys I1 Hc) as HC; cbv zeta in HC;
  (destruct HC as [(_ & Ei)|(s & o & _ & [(_ & Ei)|[(H1 & H2 & Ei)|(H1 & H2 & Ei)]])];
   rewrite E in Ei; try discriminate; injection Ei; intros; subst);
  destruct I1 as (A & B & C); unfold head_inv; simpl; (split; [|right; simpl in *; lra]);
  repeat split; auto; simpl in *; lra.
Qed.

(** C03 (bounds): every timestep a run takes is positive, not larger than the
    CFL-limited flux timestep, nor than evolve_max_timestep, and does not
    carry the model beyond finaltime or the next yield time. *)
Theorem C03_timestep_bounds :
  forall yieldstep finaltime flux (d d1 d2 : rclock),
  0 < yieldstep ->
  (* the state [evolve] enters its loop with *)
  relative_finaltime d = Some finaltime -> relative_time d < finaltime ->
  relative_yieldtime d = relative_time d + yieldstep ->
  loop_head yieldstep d d1 ->
  0 < cfl d1 -> 0 < evolve_max_timestep d1 ->
  0 < flux -> fixed_flux_timestep d1 = None ->
  update_timestep ROps d1 flux = Some d2 ->
  0 < timestep d2 /\ timestep d2 <= cfl d1 * flux /\
  timestep d2 <= evolve_max_timestep d1 /\
  relative_time d1 + timestep d2 <= finaltime /\
  relative_time d1 + timestep d2 <= relative_yieldtime d1.
Proof.
  intros ys tf f d d1 d2 Hys Hf Ht HY HR Hcfl Hmax Hfl Hfix HU.
  assert (HI : head_inv tf d) by (unfold head_inv; simpl in *; repeat split; auto; lra).
  destruct (loop_head_inv ys tf d d1 Hys HR HI) as ((A & B & C) & D).
  assert (Hlt : relative_time d1 < tf) by (destruct D as [->|]; auto).
  destruct (update_timestep_inv d1 d2 f HU) as (s & o & _ & ->).
  assert (Hdt : 0 < cfl_timestep ROps d1 f).
  { rewrite cfl_timestep_R, Hfix. apply Rmin_glb_lt; auto. apply Rmult_lt_0_compat; auto. }
  pose proof (clip_le_tf d1 tf (cfl_timestep ROps d1 f) A) as L1.
  pose proof (clip_le_yield d1 tf (cfl_timestep ROps d1 f) A) as L2.
  assert (L3 : clip_yieldtime ROps d1 (clip_finaltime ROps d1 (cfl_timestep ROps d1 f))
               <= cfl_timestep ROps d1 f).
  { unfold clip_yieldtime, clip_finaltime. rewrite A. simpl. rdestruct; simpl in *; lra. }
  assert (L4 : 0 < clip_yieldtime ROps d1 (clip_finaltime ROps d1 (cfl_timestep ROps d1 f))).
  { unfold clip_yieldtime, clip_finaltime. rewrite A. simpl. rdestruct; simpl in *; lra. }
  assert (L5 : cfl_timestep ROps d1 f <= cfl d1 * f /\
               cfl_timestep ROps d1 f <= evolve_max_timestep d1).
  { rewrite cfl_timestep_R, Hfix. split; [apply Rmin_l|apply Rmin_r]. }
  cbn [timestep set_step]. repeat split; simpl in *; lra.
Qed.
Print Assumptions C03_timestep_bounds.

(** C03 (guard): the 'Too small timestep' exception is raised exactly when
    some stretch of consecutive candidate timesteps, all below
    evolve_min_timestep, is longer than max_smallsteps (twice that for a
    second order domain, which first falls back to first order). *)
Theorem C03_too_small_exception_iff :
  forall (d : rclock) (candidates : list R),
  (default_order d = 1 \/ default_order d = 2)%nat ->
  order_ d = default_order d -> smallsteps d = 0%nat ->
  (guard_run ROps d candidates = None <->
   exists pre stretch post, candidates = pre ++ stretch ++ post /\
     length stretch = (default_order d * S (max_smallsteps d))%nat /\
     forall x, In x stretch -> x < evolve_min_timestep d).
Proof.
  intros d dts HD HO HS. rewrite guard_run_raises_iff by auto.
  assert (E : raise_after d = (default_order d * S (max_smallsteps d))%nat).
  { unfold raise_after. destruct HD as [-> | ->]; simpl; lia. }
  rewrite E.
  split; intros (a & w & b & H1 & H2 & H3); exists a, w, b; repeat split; auto.
  - intros x Hx. rewrite Forall_forall in H3. auto.
  - apply Forall_forall. auto.
Qed.
Print Assumptions C03_too_small_exception_iff.

(** C03 (guard, whole run): if [evolve] ends with the 'Too small timestep'
    exception, then more than max_smallsteps consecutive flux timesteps were
    below evolve_min_timestep. *)
Theorem C03_evolve_raises_only_after_small_stretch :
  forall fuel yieldstep finaltime skip flux (d : rclock),
  0 < yieldstep -> positive_timesteps d flux ->
  start_time skip d <= finaltime ->
  (default_order d = 1 \/ default_order d = 2)%nat -> smallsteps d = 0%nat ->
  snd (evolve ROps fuel (Some yieldstep) (Some finaltime) None skip flux d)
    = TooSmallTimestep ROps ->
  exists k0, forall i, (i < default_order d * S (max_smallsteps d))%nat ->
    cfl_timestep ROps d (flux (k0 + i)%nat) < evolve_min_timestep d.
Proof.
  intros fuel ys f skip flux d Hys Hp Hs HD HS0 HT.
  destruct (evolve_unfold fuel ys f skip flux d Hys Hp Hs)
    as (d4 & HI & Hst & HY & Ht & Hps & Hm4 & E1 & E2 & E3 & SG & E).
  rewrite E in HT.
  destruct (evolve_loop ROps fuel ys flux 0 d4) as [yl e] eqn:EL. simpl in HT. subst e.
  destruct (loop_too_small fuel ys flux 0 d4) as (n & Hn); [rewrite EL; reflexivity|].
  destruct SG as (S1 & S2 & S3 & S4 & S5 & S6). simpl in S1, S2, S3, S4.
  apply C03_too_small_exception_iff in Hn; try (rewrite ?S4, ?S2, ?S1; auto; fail).
  destruct Hn as (a & w & b & EQ & HL & HW).
  exists (length a). intros i Hi.
  change (@length (num ROps) w) with (@length R w) in HL.
  rewrite S3, S4 in HL.
  assert (Hi' : (i < length w)%nat) by lia.
  assert (Hlen : (length a + i < n)%nat).
  { apply (f_equal (@length R)) in EQ. rewrite map_length, seq_length, !app_length in EQ. lia. }
  assert (Hnth : nth (length a + i) (map (fun i0 : nat => cfl_timestep ROps d4 (flux i0)) (seq 0 n)) 0
          = nth i w 0).
  { rewrite EQ. rewrite app_nth2_plus. rewrite app_nth1; auto. }
  rewrite (nth_indep _ 0 (cfl_timestep ROps d4 (flux 0%nat))) in Hnth
    by (rewrite map_length, seq_length; auto).
  rewrite (map_nth (fun i0 : nat => cfl_timestep ROps d4 (flux i0))) in Hnth.
  rewrite seq_nth in Hnth by auto. simpl in Hnth.
  rewrite (cfl_timestep_ext d d4) by auto. rewrite Hnth.
  rewrite <- Hm4. apply HW. apply nth_In. exact Hi'.
Qed.
Print Assumptions C03_evolve_raises_only_after_small_stretch.

(** Non-vacuity: with max_smallsteps 50 and second order, 102 consecutive
    degenerate candidates raise and 101 do not. *)
Example C03_example :
  guard_run ROps (fresh 0) (repeat 0 102) = None /\
  guard_run ROps (fresh 0) (repeat 0 101) <> None.
Proof.
  assert (Hp : 0 < / 10 ^ 6) by (apply Rinv_0_lt_compat, pow_lt; lra).
  split.
  - apply C03_too_small_exception_iff; simpl; auto.
    exists [], (repeat 0 102), []. rewrite app_nil_r. repeat split.
    intros x Hx. apply repeat_spec in Hx. subst. exact Hp.
  - intros H. apply C03_too_small_exception_iff in H; simpl; auto.
    destruct H as (a & w & b & E & HL & _).
    apply (f_equal (@length R)) in E. rewrite !app_length, repeat_length in E.
    change (@length (num ROps) w) with (@length R w) in HL. simpl in HL. lia.
Qed.

(** Non-vacuity of [C03_timestep_bounds]: the loop entry of a fresh domain. *)
Example C03_bounds_example :
  exists d2, update_timestep ROps
    (set_relative_yieldtime ROps (set_finaltimes ROps (fresh 0) (Some 5) (Some 5)) 2) (3/2) = Some d2.
Proof.
  unfold update_timestep, small_step_guard. simpl.
  destruct (Rltb _ _); eauto.
Qed.
