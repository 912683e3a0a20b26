(** Lemmas about the time loop of [EvolveModel] over the reals. *)
From Coq Require Import Reals Lra Lia List Bool ZArith.
From Verif Require Import RealLib EvolveModel.
Import ListNotations.
Local Open Scope R_scope.

(** [epsilon] of anuga/config.py as an exact real. *)
Definition eps : R := / 10 ^ 12.
Lemma eps_pos : 0 < eps.
Proof. unfold eps. apply Rinv_0_lt_compat. apply pow_lt. lra. Qed.

(** Exact arithmetic. *)
Definition ROps : NumOps :=
  {| num := R; nadd := Rplus; nsub := Rminus; nmul := Rmult;
     nltb := Rltb; nleb := Rleb; neqb := Reqb; nepsilon := eps |}.

Notation rclock := (clock ROps).

(** The timestep before clipping, as a real. *)
Lemma cfl_timestep_R (d : rclock) f :
  cfl_timestep ROps d f =
  Rmin (cfl d * match fixed_flux_timestep d with Some x => x | None => f end)
       (evolve_max_timestep d).
Proof.
  unfold cfl_timestep, nmin; simpl. unfold Rmin. rdestruct; destruct Rle_dec; lra.
Qed.

Section Step.
Variable d : rclock.
Variable tf dt : R.
Hypothesis Hf : relative_finaltime d = Some tf.
Hypothesis Htf : relative_time d <= tf.
Hypothesis Hy : relative_time d < relative_yieldtime d.
Hypothesis Hdt : 0 < dt.

Let c := clip_yieldtime ROps d (clip_finaltime ROps d dt).

Lemma clip_le_tf : relative_time d + c <= tf.
Proof.
  unfold c, clip_yieldtime, clip_finaltime. rewrite Hf. simpl. rdestruct; lra.
Qed.
Lemma clip_le_yield : relative_time d + c <= relative_yieldtime d.
Proof.
  unfold c, clip_yieldtime, clip_finaltime. rewrite Hf. simpl. rdestruct; lra.
Qed.
Lemma clip_le_dt : c <= dt.
Proof.
  unfold c, clip_yieldtime, clip_finaltime. rewrite Hf. simpl. rdestruct; lra.
Qed.
Lemma clip_nonneg : 0 <= c.
Proof.
  unfold c, clip_yieldtime, clip_finaltime. rewrite Hf. simpl. rdestruct; lra.
Qed.
Lemma clip_pos : relative_time d < tf -> 0 < c.
Proof.
  intros. unfold c, clip_yieldtime, clip_finaltime. rewrite Hf. simpl. rdestruct; lra.
Qed.
Lemma clip_cases : c = dt \/ relative_time d + c = tf \/
                   relative_time d + c = relative_yieldtime d.
Proof.
  unfold c, clip_yieldtime, clip_finaltime. rewrite Hf. simpl. rdestruct; lra.
Qed.
End Step.

(** Times at which the loop must hand back control, [i]-th one. *)
Definition ytime (t0 ys : R) (i : nat) : R := t0 + INR i * ys.

(** Shape of the list of yielded (absolute) times when [m] intermediate
    yields [j+1 .. j+m] happened. *)
Definition yields (s t0 ys : R) (j m : nat) : list R :=
  map (fun i => s + ytime t0 ys i) (seq (S j) m).

Definition loop_ok (s t0 ys tf : R) (j : nat) (r : list R * ending ROps) : Prop :=
  exists m,
    (forall i, (j < i <= j + m)%nat -> ytime t0 ys i < tf - eps) /\
    match snd r with
    | Finished _ d' =>
        fst r = yields s t0 ys j m ++ [s + tf] /\
        tf - eps <= ytime t0 ys (S (j + m)) /\
        relative_time d' = tf /\ starttime d' = s /\ relative_finaltime d' = Some tf
    | TooSmallTimestep _ => fst r = yields s t0 ys j m
    | OutOfFuel _ d' _ =>
        fst r = yields s t0 ys j m /\ relative_time d' <= tf /\
        relative_time d' < relative_yieldtime d' /\
        relative_yieldtime d' = ytime t0 ys (S (j + m))
    | _ => False
    end.

Lemma update_timestep_inv (d d1 : rclock) f :
  update_timestep ROps d f = Some d1 ->
  exists s o, small_step_guard ROps d (cfl_timestep ROps d f) = Some (s, o) /\
  d1 = set_step ROps d
         (clip_yieldtime ROps d (clip_finaltime ROps d (cfl_timestep ROps d f))) s o.
Proof.
  unfold update_timestep.
  destruct (small_step_guard ROps d (cfl_timestep ROps d f)) as [[s o]|]; [|discriminate].
  intros H; injection H as <-. eauto.
Qed.

Lemma ytime_S t0 ys i : ytime t0 ys (S i) = ytime t0 ys i + ys.
Proof. unfold ytime. rewrite S_INR. lra. Qed.

(** Positivity of the timestep proposed by the physics. *)
Definition pos_steps (d : rclock) (flux : nat -> R) : Prop :=
  forall k, 0 < cfl_timestep ROps d (flux k).

Lemma cfl_timestep_ext (d d' : rclock) f :
  cfl d = cfl d' -> fixed_flux_timestep d = fixed_flux_timestep d' ->
  evolve_max_timestep d = evolve_max_timestep d' ->
  cfl_timestep ROps d f = cfl_timestep ROps d' f.
Proof. intros A B C. unfold cfl_timestep. rewrite A, B, C. reflexivity. Qed.

(** Loop-head invariant. *)
Definition head_inv (tf : R) (d : rclock) : Prop :=
  relative_finaltime d = Some tf /\ relative_time d <= tf /\
  relative_time d < relative_yieldtime d.

Lemma evolve_iter_cases ys (d : rclock) f tf :
  0 < ys -> head_inv tf d -> 0 < cfl_timestep ROps d f ->
  let c := clip_yieldtime ROps d (clip_finaltime ROps d (cfl_timestep ROps d f)) in
  (small_step_guard ROps d (cfl_timestep ROps d f) = None /\
   evolve_iter ROps ys d f = ITooSmall ROps) \/
  exists s o, small_step_guard ROps d (cfl_timestep ROps d f) = Some (s, o) /\
  let d1 := set_step ROps d c s o in
  ((tf - eps <= relative_time d + c <= tf /\
    evolve_iter ROps ys d f = IFinal ROps (set_relative_time ROps d1 tf)) \/
   (relative_time d + c < tf - eps /\ relative_time d + c = relative_yieldtime d /\
    evolve_iter ROps ys d f =
      IYield ROps (starttime d + relative_yieldtime d)
       (set_relative_yieldtime ROps (set_relative_time ROps d1 (relative_yieldtime d))
          (relative_yieldtime d + ys))) \/
   (relative_time d + c < tf - eps /\ relative_time d + c < relative_yieldtime d /\
    evolve_iter ROps ys d f = IContinue ROps (set_relative_time ROps d1 (relative_time d + c)))).
Proof.
  intros Hys (Hf & Htf & Hty) Hdt c.
  unfold evolve_iter, update_timestep.
  destruct (small_step_guard ROps d (cfl_timestep ROps d f)) as [[s o]|] eqn:G; [|left; auto].
  right. exists s, o. split; [reflexivity|].
  pose proof (clip_le_tf d tf (cfl_timestep ROps d f) Hf) as L1.
  pose proof (clip_le_yield d tf (cfl_timestep ROps d f) Hf) as L2.
  fold c in L1, L2 |- *.
  simpl. rewrite Hf. simpl in L1, L2.
  destruct (Rleb_spec (tf - eps) (relative_time d + c)) as [Hfin|Hnf].
  - destruct (Rltb_spec tf (relative_time d + c)) as [Hov|_]; [lra|].
    left. split; [lra|reflexivity].
  - destruct (Rleb_spec (relative_yieldtime d) (relative_time d + c)) as [Hy|Hny].
    + right; left. assert (E : relative_time d + c = relative_yieldtime d) by lra.
      split; [lra|]. split; [lra|]. unfold get_time; simpl. rewrite E. reflexivity.
    + right; right. repeat split; lra.
Qed.

Lemma evolve_loop_ok : forall fuel ys flux k (d : rclock) s t0 tf j,
  0 < ys ->
  head_inv tf d -> starttime d = s ->
  relative_yieldtime d = ytime t0 ys (S j) ->
  pos_steps d flux ->
  loop_ok s t0 ys tf j (evolve_loop ROps fuel ys flux k d).
Proof.
  induction fuel as [|fuel IH]; intros ys flux k d s t0 tf j Hys HI Hs HY Hpos.
  { destruct HI as (Hf & Htf & Hty).
    exists 0%nat. simpl. split; [intros; lia|]. rewrite Nat.add_0_r. auto. }
  pose proof HI as (Hf & Htf & Hty).
  simpl evolve_loop.
  pose proof (evolve_iter_cases ys d (flux k) tf Hys HI (Hpos k)) as H.
  cbv zeta in H.
  set (c := clip_yieldtime ROps d _) in H.
  destruct H as [(_ & ->)|(sm & o & _ & [(Hc & ->)|[(H1 & H2 & ->)|(H1 & H2 & ->)]])].
  - exists 0%nat. simpl. split; [intros; lia|reflexivity].
  - exists 0%nat. simpl. split; [intros; lia|].
    unfold get_time; simpl. rewrite Nat.add_0_r, <- HY.
    repeat split; auto; try (rewrite Hs; reflexivity).
    pose proof (clip_le_yield d tf (cfl_timestep ROps d (flux k)) Hf) as L2.
    fold c in L2. simpl in *. lra.
  - match goal with |- context [evolve_loop ROps fuel ys flux (S k) ?dd] =>
      specialize (IH ys flux (S k) dd s t0 tf (S j) Hys) end.
    destruct (evolve_loop ROps fuel ys flux (S k) _) as [yl e] eqn:EL.
    destruct IH as (m & Hm & Hres).
    + unfold head_inv; simpl. pose proof eps_pos. repeat split; auto; lra.
    + exact Hs.
    + simpl. rewrite HY, <- ytime_S. reflexivity.
    + intros i. erewrite cfl_timestep_ext; [apply (Hpos i)|..]; reflexivity.
    + exists (S m). split.
      { intros i Hi. destruct (Nat.eq_dec i (S j)) as [->|].
        - rewrite <- HY. lra.
        - apply Hm. lia. }
      simpl in *. rewrite Hs, HY.
      replace (S (j + S m)) with (S (S j + m)) by lia.
      destruct e; simpl in *; auto.
      * destruct Hres as (A & B). rewrite A. split; auto.
      * rewrite Hres. reflexivity.
      * destruct Hres as (A & B). rewrite A. split; auto.
  - match goal with |- context [evolve_loop ROps fuel ys flux (S k) ?dd] =>
      specialize (IH ys flux (S k) dd s t0 tf j Hys) end.
    apply IH.
    + unfold head_inv; simpl. pose proof eps_pos. repeat split; auto; lra.
    + exact Hs.
    + exact HY.
    + intros i. erewrite cfl_timestep_ext; [apply (Hpos i)|..]; reflexivity.
Qed.

(** Termination: enough fuel always reaches finaltime. *)
Lemma evolve_loop_terminates : forall fuel ys flux k (d : rclock) tf m A B,
  0 < ys -> 0 < m ->
  head_inv tf d ->
  (forall k, m <= cfl_timestep ROps d (flux k)) ->
  evolve_min_timestep d <= m ->
  tf - relative_time d <= INR A * m ->
  tf - relative_yieldtime d <= INR B * ys ->
  (A + B < fuel)%nat ->
  exists d', snd (evolve_loop ROps fuel ys flux k d) = Finished ROps d'.
Proof.
  induction fuel as [|fuel IH]; intros ys flux k d tf m A B Hys Hm HI Hpos Hmin HA HB Hfuel;
    [lia|].
  pose proof HI as (Hf & Htf & Hty).
  simpl evolve_loop.
  pose proof (Hpos k) as Hdt. pose proof eps_pos as Heps.
  pose proof (evolve_iter_cases ys d (flux k) tf Hys HI ltac:(lra)) as H.
  cbv zeta in H.
  pose proof (clip_cases d tf (cfl_timestep ROps d (flux k)) Hf) as L4.
  set (c := clip_yieldtime ROps d _) in H, L4.
  destruct H as [(G & ->)|(sm & o & _ & [(Hc & ->)|[(H1 & H2 & ->)|(H1 & H2 & ->)]])].
  - exfalso. unfold small_step_guard in G. simpl in G.
    destruct (Rltb_spec (cfl_timestep ROps d (flux k)) (evolve_min_timestep d)); [|discriminate].
    simpl in *. lra.
  - simpl. eauto.
  - destruct B as [|B]; [simpl in HB; lra|]. rewrite S_INR in HB.
    match goal with |- context [evolve_loop ROps fuel ys flux (S k) ?dd] =>
        specialize (IH ys flux (S k) dd tf m A B Hys Hm) end.
    destruct (evolve_loop ROps fuel ys flux (S k) _) as [yl e]. simpl in *.
    apply IH; auto; try lra; try lia.
    unfold head_inv; simpl. repeat split; auto; lra.
  - assert (c = cfl_timestep ROps d (flux k)) by (destruct L4 as [?|[?|?]]; simpl in *; lra).
    destruct A as [|A]; [simpl in HA; simpl in *; lra|]. rewrite S_INR in HA.
    match goal with |- context [evolve_loop ROps fuel ys flux (S k) ?dd] =>
        specialize (IH ys flux (S k) dd tf m A B Hys Hm) end.
    apply IH; auto; simpl in *; try lra; try lia.
    unfold head_inv; simpl. repeat split; auto; lra.
Qed.

(** ** The small-step guard over a history *)

(** Is a candidate timestep degenerate? *)
Definition smallb (emin dt : R) : bool := Rltb dt emin.

(** Length of the run of small steps at the end of a history. *)
Fixpoint trailing (emin : R) (acc : nat) (dts : list R) : nat :=
  match dts with
  | [] => acc
  | dt :: r => trailing emin (if smallb emin dt then S acc else 0) r
  end.

(** Number of consecutive small steps that makes the guard raise. *)
Definition raise_after (d : rclock) : nat :=
  if Nat.eqb (default_order d) 2 then 2 * S (max_smallsteps d) else S (max_smallsteps d).

(** [acc] consecutive small steps have been seen. *)
Definition guard_state (d : rclock) (acc : nat) : Prop :=
  (smallsteps d <= max_smallsteps d)%nat /\
  ((default_order d = 1 /\ order_ d = 1 /\ acc = smallsteps d)%nat \/
   (default_order d = 2 /\ order_ d = 2 /\ acc = smallsteps d)%nat \/
   (default_order d = 2 /\ order_ d = 1 /\ acc = S (max_smallsteps d) + smallsteps d)%nat).

Lemma guard_step d acc dt :
  guard_state d acc ->
  let acc' := if smallb (evolve_min_timestep d) dt then S acc else 0%nat in
  match small_step_guard ROps d dt with
  | None => acc' = raise_after d
  | Some (s, o) => guard_state (set_step ROps d dt s o) acc' /\ (acc' < raise_after d)%nat
  end.
Proof.
  intros (Hle & Hc). unfold small_step_guard, smallb, raise_after, guard_state. simpl.
  destruct (Rltb_spec dt (evolve_min_timestep d)).
  - destruct (Nat.ltb_spec (max_smallsteps d) (S (smallsteps d))).
    + destruct Hc as [(A & B & C)|[(A & B & C)|(A & B & C)]]; rewrite A, B; simpl; lia.
    + simpl. destruct Hc as [(A & B & C)|[(A & B & C)|(A & B & C)]]; rewrite A; simpl; lia.
  - simpl. destruct Hc as [(A & B & C)|[(A & B & C)|(A & B & C)]]; rewrite A, B; simpl; lia.
Qed.

Lemma raise_after_set_step d dt s o : raise_after (set_step ROps d dt s o) = raise_after d.
Proof. reflexivity. Qed.

Lemma guard_run_raises : forall dts d acc,
  guard_state d acc -> (acc < raise_after d)%nat ->
  (guard_run ROps d dts = None <->
   exists pre post, dts = pre ++ post /\
     trailing (evolve_min_timestep d) acc pre = raise_after d).
Proof.
  induction dts as [|dt dts IH]; intros d acc HS Hlt; simpl.
  { split; [discriminate|]. intros (pre & post & E & H).
    destruct pre; [|discriminate]. simpl in H. lia. }
  pose proof (guard_step d acc dt HS) as G. cbv zeta in G.
  destruct (small_step_guard ROps d dt) as [[s o]|] eqn:EG.
  - destruct G as (GS & Glt).
    rewrite (IH _ _ GS) by (rewrite raise_after_set_step; exact Glt).
    rewrite raise_after_set_step. simpl.
    split.
    + intros (pre & post & -> & H). exists (dt :: pre), post. auto.
    + intros (pre & post & E & H). destruct pre as [|x pre].
      * simpl in H. lia.
      * injection E as <- E. exists pre, post. auto.
  - split; [|reflexivity]. intros _. exists [dt], dts. split; [reflexivity|]. exact G.
Qed.

(** A trailing run of length at least [n] means the last [n] are small. *)
Lemma trailing_window emin : forall l acc n,
  (n <= trailing emin acc l)%nat -> (acc + length l >= n)%nat ->
  exists l1 l2, l = l1 ++ l2 /\ (n - acc <= length l2 <= n)%nat /\
     (length l2 < n -> l1 = [])%nat /\ Forall (fun x => x < emin) l2.
Proof.
  induction l as [|x l IH] using rev_ind; intros acc n H HL.
  - simpl in *. exists [], []. repeat split; simpl; auto; lia.
  - assert (TA : forall l acc, trailing emin acc (l ++ [x]) =
        if smallb emin x then S (trailing emin acc l) else 0%nat).
    { clear. induction l; simpl; intros; auto. }
    rewrite TA in H. destruct n as [|n].
    { exists (l ++ [x]), []. rewrite app_nil_r. repeat split; simpl; auto; lia. }
    unfold smallb in H. destruct (Rltb_spec x emin); [|lia].
    destruct (IH acc n) as (l1 & l2 & -> & HLn & He & HF).
    + lia.
    + rewrite app_length in HL; simpl in HL. lia.
    + exists l1, (l2 ++ [x]). rewrite <- app_assoc. repeat split; auto.
      * rewrite app_length; cbn [length]. lia.
      * rewrite app_length; cbn [length]. lia.
      * rewrite app_length; cbn [length]. intros. apply He. lia.
      * apply Forall_app. auto.
Qed.

Lemma trailing_app emin : forall l1 l2 acc,
  trailing emin acc (l1 ++ l2) = trailing emin (trailing emin acc l1) l2.
Proof. induction l1; simpl; auto. Qed.

Lemma trailing_all_small emin : forall l acc,
  Forall (fun x => x < emin) l -> trailing emin acc l = (acc + length l)%nat.
Proof.
  induction l; simpl; intros acc H; [lia|].
  inversion H; subst. unfold smallb. destruct (Rltb_spec a emin); [|lra].
  rewrite IHl by auto. lia.
Qed.

Lemma trailing_reaches emin : forall l acc n,
  (acc < n)%nat -> (n <= trailing emin acc l)%nat ->
  exists pre post, l = pre ++ post /\ trailing emin acc pre = n.
Proof.
  induction l as [|x l IH]; simpl; intros acc n H1 H2; [lia|].
  destruct (Nat.eq_dec (if smallb emin x then S acc else 0%nat) n) as [E|NE].
  - exists [x], l. auto.
  - destruct (IH (if smallb emin x then S acc else 0%nat) n) as (pre & post & -> & H).
    + destruct (smallb emin x); lia.
    + exact H2.
    + exists (x :: pre), post. auto.
Qed.

Lemma guard_run_raises_iff : forall d dts,
  (default_order d = 1 \/ default_order d = 2)%nat ->
  order_ d = default_order d -> smallsteps d = 0%nat ->
  (guard_run ROps d dts = None <->
   exists pre w post, dts = pre ++ w ++ post /\ length w = raise_after d /\
     Forall (fun x => x < evolve_min_timestep d) w).
Proof.
  intros d dts HD HO HS.
  rewrite (guard_run_raises dts d 0).
  2:{ unfold guard_state. lia. }
  2:{ unfold raise_after. destruct (Nat.eqb _ _); lia. }
  split.
  - intros (pre & post & -> & H).
    assert (TL : forall l acc, (trailing (evolve_min_timestep d) acc l <= acc + length l)%nat).
    { clear. induction l; simpl; intros; [lia|].
      etransitivity; [apply IHl|]. destruct (smallb _ _); lia. }
    specialize (TL pre 0%nat).
    destruct (trailing_window (evolve_min_timestep d) pre 0 (raise_after d)) as (l1 & l2 & -> & HL & _ & HF);
      [lia|lia|].
    exists l1, l2, post. split; [rewrite <- app_assoc; reflexivity|]. split; [ |auto]. change (@length (num ROps) l2) with (@length R l2). lia.
  - intros (pre & w & post & -> & HL & HF).
    destruct (trailing_reaches (evolve_min_timestep d) (pre ++ w) 0 (raise_after d)) as (a & b & E & H).
    + unfold raise_after. destruct (Nat.eqb _ _); lia.
    + rewrite trailing_app, trailing_all_small by auto. change (@length (num ROps) w) with (@length R w) in HL. lia.
    + exists a, (b ++ post). split; auto. rewrite app_assoc, E, app_assoc. reflexivity.
Qed.

(** The loop's guard sees exactly the sequence of candidate timesteps. *)
Definition same_guard (d d' : rclock) : Prop :=
  smallsteps d = smallsteps d' /\ order_ d = order_ d' /\
  max_smallsteps d = max_smallsteps d' /\ default_order d = default_order d' /\
  evolve_min_timestep d = evolve_min_timestep d' /\
  cfl d = cfl d' /\ fixed_flux_timestep d = fixed_flux_timestep d' /\
  evolve_max_timestep d = evolve_max_timestep d'.

Lemma same_guard_run : forall dts d d', same_guard d d' ->
  (guard_run ROps d dts = None <-> guard_run ROps d' dts = None).
Proof.
  induction dts as [|dt dts IH]; simpl; intros d d' H; [split; discriminate|].
  assert (E : small_step_guard ROps d dt = small_step_guard ROps d' dt).
  { unfold small_step_guard. destruct H as (-> & -> & -> & -> & -> & _). reflexivity. }
  rewrite E. destruct (small_step_guard ROps d' dt) as [[s o]|]; [|tauto].
  apply IH. unfold same_guard in *; simpl; tauto.
Qed.

Lemma loop_too_small : forall fuel ys flux k (d : rclock),
  snd (evolve_loop ROps fuel ys flux k d) = TooSmallTimestep ROps ->
  exists n, guard_run ROps d (map (fun i => cfl_timestep ROps d (flux i)) (seq k n)) = None.
Proof.
  induction fuel as [|fuel IH]; intros ys flux k d; simpl; [discriminate|].
  unfold evolve_iter, update_timestep.
  destruct (small_step_guard ROps d (cfl_timestep ROps d (flux k))) as [[s o]|] eqn:G.
  2:{ intros _. exists 1%nat. simpl. rewrite G. reflexivity. }
  set (c := clip_yieldtime ROps d _).
  assert (REC : forall d2, same_guard d2 (set_step ROps d (cfl_timestep ROps d (flux k)) s o) ->
     snd (evolve_loop ROps fuel ys flux (S k) d2) = TooSmallTimestep ROps ->
     exists n, guard_run ROps d (map (fun i => cfl_timestep ROps d (flux i)) (seq k n)) = None).
  { intros d2 HS H. destruct (IH ys flux (S k) d2 H) as (n & Hn).
    exists (S n). simpl. rewrite G. rewrite <- same_guard_run; [|exact HS].
    erewrite map_ext; [exact Hn|]. intros i. simpl.
    apply cfl_timestep_ext; unfold same_guard in HS; simpl in HS; symmetry; apply HS. }
  simpl. destruct (relative_finaltime d) as [tf|].
  - destruct (Rleb (tf - eps) (relative_time d + c)).
    + destruct (Rltb tf (relative_time d + c)); discriminate.
    + destruct (Rleb (relative_yieldtime d) (relative_time d + c)).
      * match goal with |- context [evolve_loop ROps fuel ys flux (S k) ?dd] =>
          specialize (REC dd) end.
        destruct (evolve_loop ROps fuel ys flux (S k) _) as [yl e] eqn:EL.
        simpl. intros ->. apply REC; [|reflexivity]. unfold same_guard; simpl; auto 10.
      * apply REC. unfold same_guard; simpl; auto 10.
  - destruct (Rleb (relative_yieldtime d) (relative_time d + c)).
      * match goal with |- context [evolve_loop ROps fuel ys flux (S k) ?dd] =>
          specialize (REC dd) end.
        destruct (evolve_loop ROps fuel ys flux (S k) _) as [yl e] eqn:EL.
        simpl. intros ->. apply REC; [|reflexivity]. unfold same_guard; simpl; auto 10.
      * apply REC. unfold same_guard; simpl; auto 10.
Qed.
