(** Proofs about [AllocationModel]. *)
From Coq Require Import Reals List Arith Bool Lia FunctionalExtensionality.
From Verif Require Import RealLib ArrayLib KahnLib SyncLib PhaseLib AllocationModel.
Import ListNotations.

(** ** What the master has gathered *)
Section Gathered.
Variables (size : nat -> nat) (has : nat -> bool).
Definition part (p : nat) : bool := Nat.ltb 0 (size p).

Fixpoint absorb_all (l : list nat) (g : gathered) : option gathered :=
  match l with
  | [] => Some g
  | i :: l => match absorb g i (size i) (has i) with Some g => absorb_all l g | None => None end
  end.
Lemma absorb_all_app l1 l2 g : absorb_all (l1 ++ l2) g = match absorb_all l1 g with Some g => absorb_all l2 g | None => None end.
Proof. revert g. induction l1 as [| i l IH]; intros g; [reflexivity |]. cbn. destruct (absorb g i _ _); [apply IH | reflexivity]. Qed.
Lemma absorb_all_none l : forall g, absorb_all l g = None ->
  exists l1 j l2 g1, l = l1 ++ j :: l2 /\ absorb_all l1 g = Some g1 /\ absorb g1 j (size j) (has j) = None.
Proof.
  induction l as [| i l IH]; intros g H; [discriminate |]. cbn in H. destruct (absorb g i (size i) (has i)) as [g1 |] eqn:E.
  - destruct (IH g1 H) as (l1 & j & l2 & g2 & -> & H2 & H3). exists (i :: l1), j, l2, g2. split; [reflexivity |]. cbn. rewrite E. auto.
  - exists [], i, l, g. auto.
Qed.

(** [vs]: the processes the master has heard of, itself first. *)
Record good (vs : list nat) (g : gathered) : Prop := {
  go_procs : g_procs g = filter part vs;
  go_enq : filter has vs = match g_enq g with None => [] | Some p => [p] end;
  go_master : match g_master g with
    | None => g_max g = None /\ filter part vs = []
    | Some m => In m vs /\ part m = true /\ g_max g = Some (size m) /\ forall p, In p vs -> size p <= size m
    end }.
Hypothesis has_part : forall p, has p = true -> part p = true.

Lemma own_good m : good [m] (own m (size m) (has m)).
Proof using has_part.
  unfold own. constructor; cbn [filter]; fold (part m).
  - destruct (part m); reflexivity.
  - destruct (has m) eqn:H; destruct (part m) eqn:P; try reflexivity. rewrite (has_part m H) in P. discriminate.
  - destruct (part m) eqn:P; cbn; [| auto]. repeat split; auto. intros p [<- | []]. lia.
Qed.
Lemma filter_nil_size vs : filter part vs = [] -> forall p, In p vs -> size p = 0.
Proof.
  intros F p Hp. destruct (part p) eqn:E; [| unfold part in E; apply Nat.ltb_ge in E; lia].
  exfalso. assert (In p (filter part vs)) by (apply filter_In; auto). rewrite F in H. destruct H.
Qed.
Lemma absorb_good vs g i g' : good vs g -> absorb g i (size i) (has i) = Some g' -> good (vs ++ [i]) g'.
Proof using has_part.
  intros [G1 G2 G3]. unfold absorb. fold (part i).
  destruct (part i) eqn:P.
  2:{ intros E. injection E as <-. constructor.
      - rewrite filter_app. cbn [filter]. rewrite P, app_nil_r. exact G1.
      - rewrite filter_app. cbn [filter]. destruct (has i) eqn:H; [rewrite (has_part i H) in P; discriminate |]. rewrite app_nil_r. exact G2.
      - destruct (g_master g) as [m |].
        + destruct G3 as (A & B & C & D). repeat split; auto; [apply in_app_iff; auto |]. intros p Hp. apply in_app_iff in Hp as [Hp | [<- | []]]; [auto |].
          unfold part in P. apply Nat.ltb_ge in P. lia.
        + destruct G3 as [A B]. split; [exact A |]. rewrite filter_app, B. cbn [filter]. now rewrite P. }
  intros E.
  assert (M : match (if larger (size i) (g_max g) then Some i else g_master g) with
      | None => (if larger (size i) (g_max g) then Some (size i) else g_max g) = None /\ filter part (vs ++ [i]) = []
      | Some m => In m (vs ++ [i]) /\ part m = true /\ (if larger (size i) (g_max g) then Some (size i) else g_max g) = Some (size m) /\
          forall p, In p (vs ++ [i]) -> size p <= size m
      end).
  { destruct (g_master g) as [m |].
    - destruct G3 as (A & B & C & D). rewrite C. cbn [larger]. destruct (Nat.ltb_spec (size m) (size i)).
      + repeat split; auto; [apply in_app_iff; right; now left |]. intros p Hp. apply in_app_iff in Hp as [Hp | [<- | []]]; [specialize (D p Hp); lia | lia].
      + repeat split; auto; [apply in_app_iff; now left |]. intros p Hp. apply in_app_iff in Hp as [Hp | [<- | []]]; [auto | lia].
    - destruct G3 as [A B]. rewrite A. cbn [larger]. repeat split; auto; [apply in_app_iff; right; now left |].
      intros p Hp. apply in_app_iff in Hp as [Hp | [<- | []]]; [rewrite (filter_nil_size vs B p Hp); lia | lia]. }
  destruct (has i) eqn:H.
  - destruct (g_enq g) eqn:Q; [discriminate |]. injection E as <-. constructor; cbn [g_procs g_enq g_master g_max].
    + rewrite filter_app, G1. cbn [filter]. now rewrite P.
    + rewrite filter_app, G2. cbn [filter]. now rewrite H.
    + exact M.
  - injection E as <-. constructor; cbn [g_procs g_enq g_master g_max].
    + rewrite filter_app, G1. cbn [filter]. now rewrite P.
    + rewrite filter_app, G2. cbn [filter]. now rewrite H, app_nil_r.
    + exact M.
Qed.
Lemma absorb_fails vs g i : good vs g -> absorb g i (size i) (has i) = None -> has i = true /\ filter has vs <> [].
Proof.
  intros [_ G2 _]. unfold absorb. destruct (0 <? size i); [| discriminate]. destruct (has i); [| discriminate].
  destruct (g_enq g); [| discriminate]. intros _. split; [reflexivity |]. rewrite G2. discriminate.
Qed.
Lemma absorb_all_good l : forall vs g g', good vs g -> absorb_all l g = Some g' -> good (vs ++ l) g'.
Proof using has_part.
  induction l as [| i l IH]; intros vs g g' G E; cbn in E.
  - injection E as <-. now rewrite app_nil_r.
  - destruct (absorb g i (size i) (has i)) as [g1 |] eqn:E1; [| discriminate].
    specialize (IH (vs ++ [i]) g1 g' (absorb_good vs g i g1 G E1) E). rewrite <- app_assoc in IH. exact IH.
Qed.
Lemma absorb_all_ok l : forall vs g, good vs g -> length (filter has (vs ++ l)) <= 1 -> exists g', absorb_all l g = Some g'.
Proof using has_part.
  induction l as [| i l IH]; intros vs g G L; cbn; [eauto |].
  destruct (absorb g i (size i) (has i)) as [g1 |] eqn:E1.
  - apply (IH (vs ++ [i]) g1 (absorb_good vs g i g1 G E1)). rewrite <- app_assoc. exact L.
  - exfalso. destruct (absorb_fails vs g i G E1) as [H N]. rewrite filter_app in L. cbn in L. rewrite H, app_length in L. cbn in L.
    destruct (filter has vs); [contradiction | cbn in L; lia].
Qed.
Lemma absorb_all_two l vs g : good vs g -> 1 < length (filter has (vs ++ l)) -> absorb_all l g = None.
Proof using has_part.
  intros G L. destruct (absorb_all l g) as [g' |] eqn:E; [| reflexivity].
  destruct (absorb_all_good l vs g g' G E) as [_ G2 _]. rewrite G2 in L. destruct (g_enq g'); cbn in L; lia.
Qed.
End Gathered.

(** ** Runs *)
Section Runs.
Context {A : Type}.
Local Notation prog := (KahnLib.prog msg A).

Lemma transfer1 n a b (m : msg) (s : nat -> prog) k K : a < n -> b < n -> a <> b -> s a = Send b m k -> s b = Recv a K ->
  exists c t, syncs n c s t /\ t a = k /\ t b = K m /\ forall p, p <> a -> p <> b -> t p = s p.
Proof. intros Ha Hb N Ea Eb. exact (transfer n a b [m] s k [] (fun vs => match vs with [m] => K m | _ => Fail end) Ha Hb N Ea Eb). Qed.

Section Collect.
Variables (n master : nat) (size : nat -> nat) (has : nat -> bool).
Hypothesis HM : master < n.

Lemma collect_one i l (s : nat -> prog) g K k : i < n -> i <> master ->
  s i = Send master (MSize (size i)) (Send master (MFlag (has i)) k) -> s master = collect (i :: l) g K ->
  exists c t, syncs n c s t /\ t i = k /\
    t master = match absorb g i (size i) (has i) with Some g => collect l g K | None => Fail end /\
    forall p, p <> i -> p <> master -> t p = s p.
Proof using HM.
  intros Hi Ni Ei Em. cbn [collect] in Em.
  destruct (transfer n i master [MSize (size i); MFlag (has i)] s k []
    (fun vs => match vs with
               | [x; y] => match x, y with
                  | MSize x, MFlag y => match absorb g i x y with Some g => collect l g K | None => Fail end
                  | _, _ => Fail end
               | _ => Fail end) Hi HM Ni Ei Em) as (c & t & T1 & T2 & T3 & T4).
  exists c, t. auto.
Qed.

Lemma collect_run l : forall (s : nat -> prog) g g' K (k : nat -> prog), NoDup l -> (forall i, In i l -> i < n /\ i <> master) ->
  (forall i, In i l -> s i = Send master (MSize (size i)) (Send master (MFlag (has i)) (k i))) ->
  forall r, s master = collect (l ++ r) g K -> absorb_all size has l g = Some g' ->
  exists c t, syncs n c s t /\ t master = collect r g' K /\ (forall i, In i l -> t i = k i) /\
    forall p, p <> master -> ~ In p l -> t p = s p.
Proof using HM.
  induction l as [| i l IH]; intros s g g' K k ND HL HS r Em HA.
  - cbn in HA. injection HA as <-. exists 0, s. split; [apply syncs_refl |]. repeat split; auto. intros i [].
  - inversion ND as [| x xs NI ND']; subst. destruct (HL i (or_introl eq_refl)) as [Hi Ni]. cbn in HA.
    destruct (absorb g i (size i) (has i)) as [g1 |] eqn:E1; [| discriminate].
    destruct (collect_one i (l ++ r) s g K (k i) Hi Ni (HS i (or_introl eq_refl)) Em) as (c1 & s1 & R1 & R2 & R3 & R4).
    rewrite E1 in R3.
    destruct (IH s1 g1 g' K k ND') with (r := r) as (c2 & t & T1 & T2 & T3 & T4).
    + intros j Hj. apply HL. now right.
    + intros j Hj. rewrite R4; [apply HS; now right | intros ->; contradiction | now apply HL; right].
    + exact R3.
    + exact HA.
    + exists (c1 + c2), t. split; [eapply syncs_trans; eassumption |]. split; [exact T2 |]. split.
      * intros j [<- | Hj]; [| now apply T3]. rewrite T4; assumption.
      * intros p Pm Pl. rewrite T4; [| assumption | intros X; apply Pl; now right]. apply R4; [| assumption]. intros ->. apply Pl. now left.
Qed.
End Collect.

(** A complete allocation. *)
Section Allocate.
Variables (n : nat) (procs : list nat) (master : nat) (size : nat -> nat) (has : nat -> bool) (want : bool).
Hypothesis HN : forall p, In p procs -> p < n.
Hypothesis ND : NoDup procs.
Hypothesis HM : In master procs.
Hypothesis has_part : forall p, has p = true -> part size p = true.
Variable K : nat -> result -> prog.
Variable s : nat -> prog.
Hypothesis HS : forall p, In p procs -> s p = allocate procs master p (size p) (has p) want (K p).

Definition after_send (p : nat) : prog :=
  recv_list master 3 [] (fun vs => match vs with
      | [MProc m; MProcs l; MProc e] => if has p && negb (eqb_proc e p) then Fail else K p (Result (Nat.ltb 0 (size p)) m l e)
      | _ => Fail end).
Lemma sender p : In p procs -> p <> master -> s p = Send master (MSize (size p)) (Send master (MFlag (has p)) (after_send p)).
Proof using HS. intros Hp Np. rewrite HS by assumption. unfold allocate. destruct (Nat.eqb_spec p master); [contradiction | reflexivity]. Qed.
Lemma others_range i : In i (without master procs) -> i < n /\ i <> master.
Proof using HN. intros Hi. apply in_without in Hi as [Hi Ni]. auto. Qed.
Definition checked (g : gathered) : prog :=
      if Nat.eqb (length (g_procs g)) 0 then Fail
      else if is_none (g_master g) then Fail
      else if want && is_none (g_enq g) then Fail
      else scatter (without master procs) (fun _ => [MProc (g_master g); MProcs (g_procs g); MProc (g_enq g)])
             (K master (Result (Nat.ltb 0 (size master)) (g_master g) (g_procs g) (g_enq g))).
Lemma master_prog : s master = collect (without master procs) (own master (size master) (has master)) checked.
Proof using HS HM. rewrite HS by assumption. unfold allocate. now rewrite Nat.eqb_refl. Qed.

Lemma collected g : absorb_all size has (without master procs) (own master (size master) (has master)) = Some g ->
  exists c t, syncs n c s t /\ t master = checked g /\ (forall p, In p procs -> p <> master -> t p = after_send p) /\
    forall p, ~ In p procs -> t p = s p.
Proof using HN ND HM HS.
  intros E.
  destruct (collect_run n master size has (HN master HM) (without master procs) s (own master (size master) (has master)) g checked after_send
    (NoDup_without _ _ ND) others_range) with (r := @nil nat) as (c & t & T1 & T2 & T3 & T4).
  - intros i Hi. apply in_without in Hi as [Hi Ni]. now apply sender.
  - rewrite app_nil_r. exact master_prog.
  - exact E.
  - exists c, t. split; [exact T1 |]. split; [exact T2 |]. split.
    + intros p Hp Np. apply T3. apply in_without. auto.
    + intros p Hp. apply T4; [intros ->; contradiction |]. rewrite in_without. tauto.
Qed.

Lemma allocate_phase g : absorb_all size has (without master procs) (own master (size master) (has master)) = Some g ->
  g_procs g <> [] -> g_master g <> None -> (want = true -> g_enq g <> None) ->
  (forall p, In p procs -> has p = true -> g_enq g = Some p) ->
  exists t, phase n procs s t /\ forall p, In p procs -> t p = K p (Result (part size p) (g_master g) (g_procs g) (g_enq g)).
Proof using HN ND HM HS.
  intros E NP NM NE NQ. destruct (collected g E) as (c1 & t1 & R1 & R2 & R3 & R4).
  unfold checked in R2. destruct (Nat.eqb_spec (length (g_procs g)) 0) as [L | _]; [apply length_zero_iff_nil in L; contradiction |].
  destruct (g_master g) as [m |] eqn:EM; [| contradiction]. cbn [is_none] in R2.
  assert (want && is_none (g_enq g) = false) as W.
  { destruct want; [| reflexivity]. destruct (g_enq g); [reflexivity | now destruct NE]. }
  rewrite W in R2.
  destruct (scatter_run n master (fun _ => [MProc (Some m); MProcs (g_procs g); MProc (g_enq g)]) (without master procs) t1
    (K master (Result (Nat.ltb 0 (size master)) (Some m) (g_procs g) (g_enq g)))
    (fun p vs => match vs with
      | [MProc m; MProcs l; MProc e] => if has p && negb (eqb_proc e p) then Fail else K p (Result (Nat.ltb 0 (size p)) m l e)
      | _ => Fail end) (HN master HM) (NoDup_without _ _ ND) others_range) as (c2 & t & T1 & T2 & T3 & T4).
  - intros i Hi. apply in_without in Hi as [Hi Ni]. now apply R3.
  - exact R2.
  - exists t. split.
    + split; [exists (c1 + c2); eapply syncs_trans; eassumption |]. intros p Hp. rewrite T4; [now apply R4 | intros ->; contradiction |].
      rewrite in_without. tauto.
    + intros p Hp. destruct (Nat.eq_dec p master) as [-> | Np]; [exact T2 |].
      rewrite T3 by (apply in_without; auto). fold (part size p).
      destruct (has p) eqn:H; [| reflexivity]. rewrite (NQ p Hp H). cbn [eqb_proc]. now rewrite Nat.eqb_refl.
Qed.

(** The facts about the group that the master finds. *)
Lemma without_first p : In p (master :: without master procs) <-> In p procs.
Proof using HM.
  clear - HM. cbn [In]. rewrite in_without. destruct (Nat.eq_dec p master) as [-> | N]; [tauto |]. split; [intros [-> | [H _]]; auto | auto].
Qed.
Lemma found g : absorb_all size has (without master procs) (own master (size master) (has master)) = Some g ->
  good size has (master :: without master procs) g.
Proof using has_part. intros E. exact (absorb_all_good size has has_part _ [master] _ g (own_good size has has_part master) E). Qed.
End Allocate.

(** ** Executions that stop half-way *)
(** As [always_ends], the final states for waiting and for buffered sends given
    separately. *)
Record ends_in (n : nat) (init fs : nat -> prog) (fb : net msg A) : Prop := {
  ei_sync : exists bound, forall c s, syncs n c init s -> c <= bound /\
    (exists c', syncs n c' s fs) /\ (sync_terminal n s -> s = fs);
  ei_buffered : exists bound, forall c s, steps n c (Net init no_messages) s -> c <= bound /\
    (exists c', steps n c' s fb) /\ (terminal n s -> s = fb) }.
Lemma ends_in_intro n c d init fs fb : syncs n c init fs -> sync_terminal n fs ->
  steps n d (Net fs no_messages) fb -> terminal n fb -> ends_in n init fs fb.
Proof.
  intros H1 T1 H2 T2. constructor.
  - exists c. intros l s Hs. destruct (sync_schedule_independent n l c init fs s H1 T1 Hs) as (X & Y & Z).
    split; [exact X |]. split; [eexists; exact Y | exact Z].
  - exists (2 * c + d). intros l s Hs. pose proof (steps_trans _ _ _ _ _ _ _ _ (sync_to_steps n c init fs H1) H2) as H.
    destruct (schedule_independent msg A n l (2 * c + d) _ _ s H T2 Hs) as (X & Y & Z).
    split; [exact X |]. split; [eexists; exact Y | exact Z].
Qed.

(** Processes whose two messages nobody receives. *)
Lemma drain n master (a b : nat -> msg) (k : nat -> prog) l : forall (s : nat -> prog) ch,
  NoDup l -> (forall i, In i l -> i < n /\ s i = Send master (a i) (Send master (b i) (k i))) ->
  exists d t ch', steps n d (Net s ch) (Net t ch') /\ (forall i, In i l -> t i = k i) /\ (forall p, ~ In p l -> t p = s p) /\
    forall x y, y <> master -> ch' x y = ch x y.
Proof.
  induction l as [| i l IH]; intros s ch ND H.
  - exists 0, s, ch. split; [apply steps_refl |]. repeat split; auto. intros i [].
  - inversion ND as [| x xs NI ND']; subst. destruct (H i (or_introl eq_refl)) as [Hi Ei].
    set (s1 := upd s i (Send master (b i) (k i))). set (c1 := upd2 msg ch i master (ch i master ++ [a i])).
    set (s2 := upd s1 i (k i)). set (c2 := upd2 msg c1 i master (c1 i master ++ [b i])).
    destruct (IH s2 c2 ND') as (d & t & ch' & T1 & T2 & T3 & T4).
    + intros j Hj. destruct (H j (or_intror Hj)) as [Hj1 Hj2]. split; [exact Hj1 |].
      unfold s2, s1. rewrite !upd_ne by (intros ->; contradiction). exact Hj2.
    + exists (S (S d)), t, ch'. split; [| split; [| split]].
      * apply steps_cons with (i := i) (t := Net s1 c1); [exact Hi | |].
        { exact (step_send msg A i (Net s ch) master (a i) (Send master (b i) (k i)) Ei). }
        apply steps_cons with (i := i) (t := Net s2 c2); [exact Hi | | exact T1].
        apply (step_send msg A i (Net s1 c1) master (b i) (k i)). cbn [procs]. unfold s1. now rewrite upd_same.
      * intros j [<- | Hj]; [| now apply T2]. rewrite T3 by assumption. unfold s2. now rewrite upd_same.
      * intros p Hp. rewrite T3 by (intros X; apply Hp; now right). unfold s2, s1. rewrite !upd_ne; auto; intros ->; apply Hp; now left.
      * intros x y Hy. rewrite T4 by assumption. unfold c2, c1. rewrite !upd2_get.
        destruct (Nat.eqb_spec y master); [contradiction |]. rewrite !andb_false_r. reflexivity.
Qed.

Lemma jam n c init (t : nat -> prog) master (a b : nat -> msg) (k : nat -> prog) l :
  syncs n c init t -> NoDup l -> master < n -> ended (t master) ->
  (forall i, In i l -> i < n /\ t i = Send master (a i) (Send master (b i) (k i))) ->
  (forall i, In i l -> exists f, k i = Recv master f) ->
  (forall p, p < n -> ~ In p l -> p <> master -> idle (t p)) ->
  exists fb, ends_in n init t fb /\ procs fb master = t master /\ (forall i, In i l -> procs fb i = k i) /\
    forall p, ~ In p l -> procs fb p = t p.
Proof.
  intros H ND HM EM HL HK HI.
  assert (NM : ~ In master l). { intros X. destruct (HL master X) as [_ E]. rewrite E in EM. destruct EM. }
  destruct (drain n master a b k l t no_messages ND HL) as (d & t' & ch' & T1 & T2 & T3 & T4).
  exists (Net t' ch'). split; [| split; [cbn; now apply T3 | split; [exact T2 | exact T3]]].
  apply (ends_in_intro n c d); [exact H | | exact T1 |].
  - intros i j u Hi Hj ST. destruct ST as [t m f f' E F].
    assert (j <> master). { intros ->. rewrite F in EM. destruct EM. }
    destruct (in_dec Nat.eq_dec i l) as [X | X].
    + destruct (HL i X) as [_ E']. rewrite E' in E. congruence.
    + destruct (Nat.eq_dec i master) as [-> | Ni]; [rewrite E in EM; destruct EM |].
      specialize (HI i Hi X Ni). rewrite E in HI. destruct HI.
  - intros i u Hi ST.
    assert (ID : idle (t' i)).
    { destruct (in_dec Nat.eq_dec i l) as [X | X]; [rewrite T2 by assumption; destruct (HK i X) as (f & ->); exact I |].
      rewrite T3 by assumption. destruct (Nat.eq_dec i master) as [-> | Ni]; [| now apply HI].
      destruct (t master); exact I || destruct EM. }
    inversion ST as [s0 d0 m f E | s0 j f m l0 E F]; subst; cbn [procs chan] in *.
    + rewrite E in ID. exact ID.
    + assert (i = master \/ i <> master) as [-> | Ni] by lia.
      * rewrite T3 in E by assumption. rewrite E in EM. exact EM.
      * rewrite T4 in F by assumption. discriminate F.
Qed.
End Runs.
