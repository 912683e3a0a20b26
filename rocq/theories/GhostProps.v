(** C35: after update_ghosts the ghost triangles hold their owners' values. *)
From Coq Require Import List Arith ZArith Lia Bool.
From Verif Require Import ArrayLib GhostModel GhostProofs.
From Verif Require DistributeModel DistributeProofs DistributeProps.
Import ListNotations.

Section C35.
Variable V : Type.
Variable n : nat.
Variable sends recvs : nat -> list nat.
Variable sid rid : nat -> nat -> list nat.
Variable wait_sends : bool.
Variable sync : nat -> bool.

(** Whatever the interleaving of the processes and of the message deliveries,
    and whatever the processes compute between the calls: when [q] has returned
    from call [r], the ghosts that it receives from [p] hold the values which
    [p] had when it made its call [r], and the other triangles of [q] are as
    they were when [q] made its call.  The processes must be synchronised
    between two calls, or the exchange must wait for its send requests. *)
Theorem C35_ghosts_current : matching n sends recvs sid rid ->
  (wait_sends = true \/ forall r, sync r = true) ->
  forall s, reachable V n sends recvs sid rid wait_sends sync s ->
  forall q l, q < n -> todo V s q = Compute :: l ->
  (forall p k i g, In p (recvs q) -> nth_error (sid p q) k = Some i -> nth_error (rid q p) k = Some g ->
    cv V s q g = calls V s p (rd V s q) i) /\
  (forall i, ~ In i (flat_map (rid q) (recvs q)) -> cv V s q i = calls V s q (rd V s q) i).
Proof.
  intros M HW s R q l Hq T.
  eapply ghosts_current; [exact M|eapply inv_reachable; [exact M|exact HW|exact R]|exact Hq|exact T].
Qed.

(** [calls] is what it should be: entry [r] of process [p] is written when [p]
    makes its call [r], with its values at that moment, and never again; it has
    been written when [q] returns from call [r]. *)
Theorem C35_calls_recorded s p l : p < n -> todo V s p = Enter :: l ->
  exists s', do_move V n sends recvs sid rid wait_sends sync (MOp V p) s = Some s' /\
    forall i, calls V s' p (rd V s p) i = cv V s p i.
Proof.
  intros Hp T. unfold do_move. destruct (Nat.ltb_spec p n); [|lia]. rewrite T.
  eexists. split; [reflexivity|]. intros i. cbn [calls exec set_todo rd cv]. rewrite set2_get, !Nat.eqb_refl. reflexivity.
Qed.
Theorem C35_calls_final : matching n sends recvs sid rid ->
  (wait_sends = true \/ forall r, sync r = true) ->
  forall s, reachable V n sends recvs sid rid wait_sends sync s ->
  forall q l p m s' i, q < n -> todo V s q = Compute :: l -> In p (recvs q) ->
  do_move V n sends recvs sid rid wait_sends sync m s = Some s' ->
  calls V s' p (rd V s q) i = calls V s p (rd V s q) i.
Proof.
  intros M HW s R q l p m s' i Hq T Hr H.
  pose proof (inv_reachable V n sends recvs sid rid wait_sends sync M s HW R) as Iv.
  assert (Hp : p < n) by (eapply (keys_range _ _ _ _ _ M q p Hq); right; exact Hr).
  eapply calls_frozen; [exact M|exact H|apply (iv_suffix _ _ _ _ _ _ _ _ _ Iv p Hp)|exact Hp|].
  eapply owner_called; eassumption.
Qed.

(** The exchange cannot get stuck: in every reachable state some process or the
    message system can make a move. *)
Theorem C35_no_deadlock : matching n sends recvs sid rid ->
  (wait_sends = true \/ forall r, sync r = true) -> 0 < n ->
  forall s, reachable V n sends recvs sid rid wait_sends sync s ->
  exists m s', do_move V n sends recvs sid rid wait_sends sync m s = Some s' /\ is_scribble V m = false.
Proof.
  intros M HW Hn s R. eapply no_deadlock; [exact M|eapply inv_reachable; [exact M|exact HW|exact R]|exact Hn].
Qed.
End C35.
Print Assumptions C35_ghosts_current.
Print Assumptions C35_calls_recorded.
Print Assumptions C35_calls_final.
Print Assumptions C35_no_deadlock.

(** ** With the patterns of a distributed mesh *)
Section Distributed.
Import DistributeModel.
Variable neighbours : Z -> list Z.
Variable tpp : list nat.
Variable w : nat.
Let nproc := length tpp.
Hypothesis Hneigh : forall t k, (0 <= t < DistributeProofs.total tpp)%Z -> In k (neighbours t) -> (k < DistributeProofs.total tpp)%Z.
Variable received : nat -> bool.

Let lo (p : nat) := fst (rng tpp p).
Let hi (p : nat) := snd (rng tpp p).
Let G (p : nat) := ghosts_of neighbours tpp w p.
Let dicts (p : nat) := local_commun neighbours (received p) tpp w p.
Let recv_ids (q p : nat) : list nat :=
  match dicts q with Some (r, _) => match dget Nat.eqb r p with Some (l, _) => map Z.to_nat l | None => [] end | None => [] end.
Let send_ids (p q : nat) : list nat :=
  match dicts p with Some (_, s) => match dget Nat.eqb s q with Some (l, _) => map Z.to_nat l | None => [] end | None => [] end.
(** Key lists of the dictionaries, in any order. *)
Variable sends recvs : nat -> list nat.
Hypothesis Hsends : forall p, p < nproc -> NoDup (sends p) /\
  forall q, In q (sends p) <-> q < nproc /\ exists r s e, dicts p = Some (r, s) /\ dget Nat.eqb s q = Some e.
Hypothesis Hrecvs : forall p, p < nproc -> NoDup (recvs p) /\
  forall q, In q (recvs p) <-> q < nproc /\ exists r s e, dicts p = Some (r, s) /\ dget Nat.eqb r q = Some e.

Lemma Forall2_len {A B} (P : A -> B -> Prop) l m : Forall2 P l m -> length l = length m.
Proof. induction 1; cbn; congruence. Qed.
Lemma Forall2_nth {A B} (P : A -> B -> Prop) l m : Forall2 P l m -> forall k a, nth_error l k = Some a ->
  exists b, nth_error m k = Some b /\ P a b.
Proof.
  induction 1 as [|a b l m Hab H IH]; intros k x Hk; [destruct k; discriminate|].
  destruct k as [|k]; cbn in Hk |- *; [injection Hk as <-; eauto|apply IH, Hk].
Qed.

Lemma recv_facts q p : q < nproc -> In p (recvs q) -> p < nproc /\ exists r s locals globals, dicts q = Some (r, s) /\
  dget Nat.eqb r p = Some (locals, globals) /\ recv_ids q p = map Z.to_nat locals /\
  Forall2 (fun l g => (hi q - lo q <= l)%Z /\ nth_error (arange (lo q) (hi q) ++ G q) (Z.to_nat l) = Some g) locals globals.
Proof.
  intros Hq Hi. apply (proj2 (Hrecvs q Hq)) in Hi as (Hp & r & s & [locals globals] & E & Eg).
  split; [exact Hp|]. exists r, s, locals, globals. split; [exact E|]. split; [exact Eg|]. split.
  - unfold recv_ids. rewrite E, Eg. reflexivity.
  - apply (proj1 (DistributeProps.C34_local_ids neighbours tpp w Hneigh (received q) q r s Hq E) p locals globals Hp Eg).
Qed.
Lemma send_facts p q : p < nproc -> In q (sends p) -> q < nproc /\ exists r s locals globals, dicts p = Some (r, s) /\
  dget Nat.eqb s q = Some (locals, globals) /\ send_ids p q = map Z.to_nat locals /\
  Forall2 (fun l g => (0 <= l < hi p - lo p)%Z /\ nth_error (arange (lo p) (hi p) ++ G p) (Z.to_nat l) = Some g) locals globals.
Proof.
  intros Hp Hi. apply (proj2 (Hsends p Hp)) in Hi as (Hq & r & s & [locals globals] & E & Eg).
  split; [exact Hq|]. exists r, s, locals, globals. split; [exact E|]. split; [exact Eg|]. split.
  - unfold send_ids. rewrite E, Eg. reflexivity.
  - apply (proj2 (DistributeProps.C34_local_ids neighbours tpp w Hneigh (received p) p r s Hp E) q locals globals Hq Eg).
Qed.

Lemma NoDup_flat_map {A B} (f : A -> list B) l : NoDup l -> (forall a, In a l -> NoDup (f a)) ->
  (forall a b x, In a l -> In b l -> In x (f a) -> In x (f b) -> a = b) -> NoDup (flat_map f l).
Proof.
  induction 1 as [|a l Ha Hl IH]; intros H1 H2; [constructor|]. cbn [flat_map]. apply NoDup_app_intro.
  - apply H1. left. reflexivity.
  - apply IH; [intros; apply H1; right; assumption|intros; eapply H2; try right; eassumption].
  - intros x Hx Hy. apply in_flat_map in Hy as (b & Hb & Hy). apply Ha.
    rewrite (H2 a b x); [exact Hb|left; reflexivity|right; exact Hb|exact Hx|exact Hy].
Qed.

Lemma locals_nodup (P : Z -> Z -> Prop) (L : list Z) locals globals :
  Forall2 (fun l g => P l g /\ nth_error L (Z.to_nat l) = Some g) locals globals -> NoDup globals -> NoDup (map Z.to_nat locals).
Proof.
  induction 1 as [|l g locals globals [_ H] HF IH]; intros ND; [constructor|]. inversion ND as [|? ? Hg ND']; subst.
  cbn [map]. constructor; [|apply IH, ND']. intros Hi. apply in_map_iff in Hi as (l' & El & Hl').
  apply Hg. apply In_nth_error in Hl' as (k & Hk). destruct (Forall2_nth _ _ _ HF k l' Hk) as (g' & Hg' & _ & Hn).
  rewrite El in Hn. assert (g' = g) by congruence. subst. eapply nth_error_In. exact Hg'.
Qed.

Theorem C35_patterns_matching : matching nproc sends recvs send_ids recv_ids.
Proof.
  assert (PM : forall p q rp sp rq sq, p < nproc -> q < nproc -> dicts p = Some (rp, sp) -> dicts q = Some (rq, sq) ->
    option_map snd (dget Nat.eqb sp q) = option_map snd (dget Nat.eqb rq p)).
  { intros p q rp sp rq sq Hp Hq E1 E2. eapply (DistributeProps.C34_patterns_match neighbours tpp w Hneigh); eassumption. }
  assert (Ex : forall p, p < nproc -> exists r s, dicts p = Some (r, s)).
  { intros p Hp. apply (DistributeProps.C34_succeeds neighbours tpp w Hneigh (received p) p Hp). }
  split.
  - intros p Hp. split; [apply (Hsends p Hp)|apply (Hrecvs p Hp)].
  - intros p q Hp [H|H]; [apply (send_facts p q Hp H)|apply (recv_facts p q Hp H)].
  - intros p q Hp Hq. destruct (Ex p Hp) as (rp & sp & Ep). destruct (Ex q Hq) as (rq & sq & Eq).
    specialize (PM p q rp sp rq sq Hp Hq Ep Eq).
    rewrite (proj2 (Hsends p Hp) q), (proj2 (Hrecvs q Hq) p). split.
    + intros (_ & r & s & e & E & Eg). rewrite Ep in E. injection E as <- <-. rewrite Eg in PM. cbn in PM.
      split; [exact Hp|]. destruct (dget Nat.eqb rq p) as [e'|] eqn:D; [|discriminate]. eauto 6.
    + intros (_ & r & s & e & E & Eg). rewrite Eq in E. injection E as <- <-. rewrite Eg in PM. cbn in PM.
      split; [exact Hq|]. destruct (dget Nat.eqb sp q) as [e'|] eqn:D; [|discriminate]. eauto 6.
  - intros p q Hp Hs. destruct (send_facts p q Hp Hs) as (Hq & rp & sp & l1 & g1 & E1 & D1 & I1 & F1).
    destruct (Ex q Hq) as (rq & sq & Eq). specialize (PM p q rp sp rq sq Hp Hq E1 Eq). rewrite D1 in PM. cbn in PM.
    assert (Hr : In p (recvs q)).
    { apply (proj2 (Hrecvs q Hq) p). split; [exact Hp|]. destruct (dget Nat.eqb rq p) as [e'|] eqn:D; [|discriminate]. eauto 6. }
    destruct (recv_facts q p Hq Hr) as (_ & rq' & sq' & l2 & g2 & E2 & D2 & I2 & F2).
    rewrite Eq in E2. injection E2 as <- <-. rewrite D2 in PM. cbn in PM. injection PM as <-.
    rewrite I1, I2, !map_length. apply Forall2_len in F1, F2. lia.
  - intros q Hq. apply NoDup_flat_map.
    + apply (Hrecvs q Hq).
    + intros p Hp. destruct (recv_facts q p Hq Hp) as (Hp' & r & s & l & g & E & D & I & F). rewrite I.
      eapply locals_nodup; [exact F|].
      apply (proj2 (DistributeProps.C34_ghosts_owned neighbours tpp w Hneigh (received q) q r s Hq E) p l g Hp' D).
    + intros p p' x Hp Hp' Hx Hx'.
      destruct (recv_facts q p Hq Hp) as (Lp & r & s & l & g & E & D & I & F).
      destruct (recv_facts q p' Hq Hp') as (Lp' & r' & s' & l' & g' & E' & D' & I' & F').
      rewrite E in E'. injection E' as <- <-. rewrite I in Hx. rewrite I' in Hx'.
      apply in_map_iff in Hx as (z & <- & Hz). apply in_map_iff in Hx' as (z' & Ez & Hz').
      apply In_nth_error in Hz as (k & Hk). apply In_nth_error in Hz' as (k' & Hk').
      destruct (Forall2_nth _ _ _ F k z Hk) as (gg & Hg & _ & Ng).
      destruct (Forall2_nth _ _ _ F' k' z' Hk') as (gg' & Hg' & _ & Ng').
      rewrite Ez, Ng in Ng'. injection Ng' as <-.
      destruct (DistributeProps.C34_ghosts_owned neighbours tpp w Hneigh (received q) q r s Hq E) as [O1 O2].
      destruct (O2 p l g Lp D) as (_ & _ & _ & O3). destruct (O3 gg (nth_error_In _ _ Hg)) as [Gq _].
      destruct (O1 gg Gq) as (p0 & _ & _ & _ & ll & gl & _ & _ & U).
      rewrite (U p l g Lp D (nth_error_In _ _ Hg)), (U p' l' g' Lp' D' (nth_error_In _ _ Hg')). reflexivity.
Qed.

(** On a distributed mesh: after each call every ghost triangle of [q] has the
    value its owner had when it made that call.  Local triangle [j] of [q] is
    global triangle [g]; on its owner [p] it is local triangle [g - lo p]. *)
Theorem C35_distributed (V : Type) wait_sends sync :
  (wait_sends = true \/ forall r, sync r = true) ->
  forall s, reachable V nproc sends recvs send_ids recv_ids wait_sends sync s ->
  forall q l, q < nproc -> todo V s q = Compute :: l ->
  forall g, In g (G q) -> exists j p, nth_error (arange (lo q) (hi q) ++ G q) j = Some g /\
    p < nproc /\ p <> q /\ (lo p <= g < hi p)%Z /\
    cv V s q j = calls V s p (rd V s q) (Z.to_nat (g - lo p)).
Proof.
  intros HW s R q l Hq T g Hg.
  destruct (C35_ghosts_current V nproc sends recvs send_ids recv_ids wait_sends sync C35_patterns_matching HW s R q l Hq T) as [H _].
  destruct (DistributeProps.C34_succeeds neighbours tpp w Hneigh (received q) q Hq) as (rq & sq & Eq).
  destruct (DistributeProps.C34_ghosts_owned neighbours tpp w Hneigh (received q) q rq sq Hq Eq) as [O1 _].
  destruct (O1 g Hg) as (p & [Hp Ho] & _ & Npq & locals & globals & Dg & Hin & _).
  assert (Hr : In p (recvs q)) by (apply (proj2 (Hrecvs q Hq) p); split; [exact Hp|eauto 6]).
  destruct (recv_facts q p Hq Hr) as (_ & r' & s' & l2 & g2 & E2 & D2 & I2 & F2).
  unfold dicts in E2. rewrite Eq in E2. injection E2 as <- <-. rewrite Dg in D2. injection D2 as <- <-.
  assert (Hs : In q (sends p)) by (apply (keys_match _ _ _ _ _ C35_patterns_matching p q Hp Hq), Hr).
  destruct (send_facts p q Hp Hs) as (_ & rp & sp & l1 & g1 & E1 & D1 & I1 & F1).
  pose proof (DistributeProps.C34_patterns_match neighbours tpp w Hneigh (received p) (received q) p q rp sp rq sq Hp Hq E1 Eq) as PM.
  rewrite D1, Dg in PM. cbn in PM. injection PM as ->.
  apply In_nth_error in Hin as (k & Hk).
  assert (L1 : length l1 = length globals) by (apply Forall2_len in F1; exact F1).
  assert (L2 : length locals = length globals) by (apply Forall2_len in F2; exact F2).
  assert (Hkl : k < length globals) by (apply nth_error_Some; congruence).
  destruct (nth_error l1 k) as [a1|] eqn:A1; [|apply nth_error_None in A1; lia].
  destruct (nth_error locals k) as [a2|] eqn:A2; [|apply nth_error_None in A2; lia].
  destruct (Forall2_nth _ _ _ F1 k a1 A1) as (x1 & X1 & B1 & N1).
  destruct (Forall2_nth _ _ _ F2 k a2 A2) as (x2 & X2 & B2 & N2).
  assert (x1 = g) by congruence. assert (x2 = g) by congruence. subst x1 x2.
  exists (Z.to_nat a2), p. refine (conj N2 (conj Hp (conj Npq (conj Ho _)))).
  rewrite (H p k (Z.to_nat a1) (Z.to_nat a2) Hr).
  - f_equal.
    assert (N1' : nth_error (arange (lo p) (hi p)) (Z.to_nat a1) = Some g).
    { rewrite nth_error_app1 in N1; [exact N1|]. unfold arange. rewrite map_length, seq_length. lia. }
    unfold arange in N1'. rewrite nth_error_map in N1'.
    destruct (nth_error (seq 0 (Z.to_nat (hi p - lo p))) (Z.to_nat a1)) as [z|] eqn:Z1; [|discriminate].
    injection N1' as N1'. assert (z = Z.to_nat a1).
    { pose proof (nth_error_nth _ _ 0%nat Z1) as E0. rewrite seq_nth in E0; [lia|]. lia. }
    lia.
  - rewrite I1, nth_error_map, A1. reflexivity.
  - rewrite I2, nth_error_map, A2. reflexivity.
Qed.
End Distributed.

(** Such key lists exist. *)
Example C35_keys_exist {A} nproc (d : list (nat * A)) : exists keys, NoDup keys /\
  forall q, In q keys <-> q < nproc /\ exists e, DistributeModel.dget Nat.eqb d q = Some e.
Proof.
  exists (filter (fun q => match DistributeModel.dget Nat.eqb d q with Some _ => true | None => false end) (seq 0 nproc)).
  split; [apply NoDup_filter, seq_NoDup|]. intros q. rewrite filter_In, in_seq.
  destruct (DistributeModel.dget Nat.eqb d q) as [e|]; split.
  - intros [H _]. split; [lia|eauto].
  - intros [H _]. split; [lia|reflexivity].
  - intros [_ H]. discriminate.
  - intros [_ (e & H)]. discriminate.
Qed.
Print Assumptions C35_patterns_matching.
Print Assumptions C35_distributed.

(** ** Synchronisation in [evolve] *)

(** With the Euler method, and with the two-stage method and a ghost layer of
    at least 4, every two calls in [evolve] have an Allreduce between them. *)
Theorem C35_evolve_synchronised m lw k : (m = Euler \/ (m = RK2 /\ 4 <= lw)) ->
  forall b, In b (syncs (evolve_events m lw false k)) -> b = true.
Proof.
  intros Hm. unfold syncs, evolve_events. cbn [since tl].
  induction k as [|k IH]; intros b; [intros []|]. cbn [evolve_steps].
  assert (E : since (step_events m lw false ++ evolve_steps m lw false k) false = true :: since (evolve_steps m lw false k) false).
  { destruct Hm as [->|[-> Hl]]; unfold step_events, timestep_events; [reflexivity|].
    destruct (Nat.ltb_spec lw 4); [lia|]. reflexivity. }
  rewrite E. intros [<-|H]; [reflexivity|apply IH, H].
Qed.
Print Assumptions C35_evolve_synchronised.
Example C35_evolve_euler : syncs (evolve_events Euler 2 false 3) = [true; true; true].
Proof. reflexivity. Qed.

(** Not so for the other methods, and never with a fixed flux timestep. *)
Theorem C35_evolve_unsynchronised k lw : lw < 4 ->
  syncs (evolve_events RK2 lw false k) = concat (repeat [true; false] k) /\
  syncs (evolve_events RK3 lw false k) = concat (repeat [true; false; false] k) /\
  (forall m lw' b, In b (syncs (evolve_events m lw' true k)) -> b = false).
Proof.
  intros Hl. unfold syncs, evolve_events. cbn [since tl]. refine (conj _ (conj _ _)).
  - induction k as [|k IH]; [reflexivity|]. cbn [evolve_steps]. unfold step_events at 1, timestep_events.
    destruct (Nat.ltb_spec lw 4); [|lia]. cbn [app since repeat concat]. rewrite IH. reflexivity.
  - induction k as [|k IH]; [reflexivity|]. cbn [evolve_steps]. unfold step_events at 1, timestep_events.
    cbn [app since repeat concat]. rewrite IH. reflexivity.
  - intros m lw'. induction k as [|k IH]; intros b; [intros []|]. cbn [evolve_steps].
    destruct m; unfold step_events at 1, timestep_events; cbn [app since].
    + intros [<-|H]; [reflexivity|apply IH, H].
    + destruct (lw' <? 4); cbn [app since].
      * intros [<-|[<-|H]]; [reflexivity|reflexivity|apply IH, H].
      * intros [<-|H]; [reflexivity|apply IH, H].
    + intros [<-|[<-|[<-|H]]]; [reflexivity|reflexivity|reflexivity|apply IH, H].
Qed.
Print Assumptions C35_evolve_unsynchronised.

(** ** Without synchronisation the exchange can deliver later values *)

(** Two processes, each with one full triangle (0) and one ghost (1). *)
Definition peer (p : nat) : list nat := [1 - p].
Definition one (i p q : nat) : list nat := [i].
Example peer_matching : matching 2 peer peer (one 0) (one 1).
Proof.
  assert (B : forall p, p < 2 -> p = 0 \/ p = 1) by (intros; lia).
  split; unfold peer, one.
  - intros p _. split; (constructor; [simpl; tauto|constructor]).
  - intros p q Hp [[<-|[]]|[<-|[]]]; lia.
  - intros p q Hp Hq. destruct (B p Hp), (B q Hq); subst; simpl; intuition congruence.
  - reflexivity.
  - intros q _. simpl. constructor; [simpl; tauto|constructor].
Qed.

Definition race_start (sync : nat -> bool) : state nat :=
  St nat (fun _ => 0) (fun p => round peer peer false sync p 0) (fun p _ => 10 * p)
     (fun _ _ _ => 0) (fun _ _ _ => 0) (fun _ _ => []) (fun _ _ => false) (fun _ _ _ => 0).

Example race_start_initial sync : initial nat peer peer false sync (race_start sync).
Proof. repeat split. Qed.

Lemma run_reachable V n sends recvs sid rid ws sync l : forall s t, reachable V n sends recvs sid rid ws sync s ->
  run V n sends recvs sid rid ws sync l s = Some t -> reachable V n sends recvs sid rid ws sync t.
Proof.
  induction l as [|m l IH]; intros s t R H; cbn [run] in H; [injection H as <-; exact R|].
  destruct (do_move V n sends recvs sid rid ws sync m s) as [u|] eqn:E; [|discriminate].
  eapply IH; [eapply reach_move; eassumption|exact H].
Qed.

Definition moves_of (p k : nat) : list (move nat) := repeat (MOp nat p) k.
(** One undisturbed call of both processes. *)
Definition calm_call : list (move nat) :=
  moves_of 0 4 ++ moves_of 1 4 ++
  [MCapture nat 0 1 0 0; MDeliver nat 0 1; MCapture nat 1 0 0 0; MDeliver nat 1 0] ++ moves_of 0 2 ++ moves_of 1 2.
Definition advance (c0 c1 : nat) (barrier : bool) : list (move nat) :=
  [MCompute nat 0 (fun _ => c0); MCompute nat 1 (fun _ => c1)] ++
  (if barrier then [MOp nat 0; MOp nat 1] else []) ++ [MNext nat 0; MNext nat 1].
(** Process 0 gets its message first, goes on and starts its next call before
    the library has read its previous message. *)
Definition race : list (move nat) :=
  moves_of 0 4 ++ moves_of 1 4 ++ [MCapture nat 1 0 0 0; MDeliver nat 1 0] ++ moves_of 0 2 ++
  [MCompute nat 0 (fun _ => 7); MNext nat 0] ++ moves_of 0 2 ++
  [MCapture nat 0 1 0 0; MDeliver nat 0 1] ++ moves_of 1 2.

(** The calls of the two-stage method: an Allreduce after calls 0, 2, 4, ... *)
Theorem C35_unsynchronised_refuted :
  exists s l, reachable nat 2 peer peer (one 0) (one 1) false Nat.even s /\
    todo nat s 1 = Compute :: l /\ rd nat s 1 = 1 /\
    cv nat s 1 1 = 7 /\ calls nat s 0 1 0 = 5 /\ calls nat s 0 2 0 = 7.
Proof.
  assert (E : option_map (fun s => (todo nat s 1, rd nat s 1, cv nat s 1 1, calls nat s 0 1 0, calls nat s 0 2 0))
    (run nat 2 peer peer (one 0) (one 1) false Nat.even (calm_call ++ advance 5 6 true ++ race) (race_start Nat.even))
    = Some ([Compute], 1, 7, 5, 7)) by (vm_compute; reflexivity).
  destruct (run nat 2 peer peer (one 0) (one 1) false Nat.even (calm_call ++ advance 5 6 true ++ race) (race_start Nat.even)) as [s|] eqn:R;
    [|discriminate]. cbn [option_map] in E. injection E as E1 E2 E3 E4 E5.
  exists s, []. refine (conj _ (conj E1 (conj E2 (conj E3 (conj E4 E5))))).
  eapply run_reachable; [|exact R]. apply reach_init, race_start_initial.
Qed.
Print Assumptions C35_unsynchronised_refuted.
Example C35_two_stage_pattern k : nth_error (syncs (evolve_events RK2 2 false 3)) k = None \/
  nth_error (syncs (evolve_events RK2 2 false 3)) k = Some (Nat.even k).
Proof. do 6 (destruct k as [|k]; [right; reflexivity|]). left. destruct k; reflexivity. Qed.

(** The hypotheses of the theorem are met, and an exchange completes. *)
Example C35_calm : exists s l, reachable nat 2 peer peer (one 0) (one 1) false (fun _ => true) s /\
  todo nat s 1 = Compute :: l /\ rd nat s 1 = 1 /\ cv nat s 1 1 = 5.
Proof.
  assert (E : option_map (fun s => (todo nat s 1, rd nat s 1, cv nat s 1 1))
    (run nat 2 peer peer (one 0) (one 1) false (fun _ => true) (calm_call ++ advance 5 6 true ++ calm_call) (race_start (fun _ => true)))
    = Some ([Compute; Barrier], 1, 5)) by (vm_compute; reflexivity).
  destruct (run nat 2 peer peer (one 0) (one 1) false (fun _ => true) (calm_call ++ advance 5 6 true ++ calm_call) (race_start (fun _ => true))) as [s|] eqn:R;
    [|discriminate]. cbn [option_map] in E. injection E as E1 E2 E3.
  exists s, [Barrier]. refine (conj _ (conj E1 (conj E2 E3))).
  eapply run_reachable; [|exact R]. apply reach_init, race_start_initial.
Qed.
