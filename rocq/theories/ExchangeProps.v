(** C97: the other ways of exchanging ghost values end, and deliver the values of
    the call, whatever the library does. *)
From Coq Require Import List Arith Bool Lia ZArith.
From Verif Require Import ArrayLib DistributeModel DistributeProofs DistributeProps GhostModel GhostProps KahnLib SyncLib SwapLib ExchangeModel ExchangeProofs.
Import ListNotations.

Section Exchange.
Variable V : Type.
Variable n : nat.
Variable sends recvs : nat -> list nat.
Variable sid rid : nat -> nat -> list nat.
Variable compute : nat -> nat -> (nat -> V) -> (nat -> V).
Variable stale : nat -> nat -> nat -> list V.

(** What an exchange should do: the ghosts get the values of their sources, and
    nothing else changes. *)
Definition delivered (cv after : nat -> nat -> V) : Prop :=
  forall p, p < n ->
  (forall q k g f, In q (recvs p) -> nth_error (rid p q) k = Some g -> nth_error (sid q p) k = Some f -> after p g = cv q f) /\
  (forall i, (forall q, In q (recvs p) -> ~ In i (rid p q)) -> after p i = cv p i).

(** Runs: exchanges with the computations of the processes between them. *)
Inductive delivers : nat -> nat -> (nat -> nat -> V) -> (nat -> nat -> V) -> Prop :=
| delivers_0 : forall r cv, delivers 0 r cv cv
| delivers_S : forall calls r cv after fin, delivered cv after ->
    delivers calls (S r) (fun p => compute p r (after p)) fin -> delivers (S calls) r cv fin.

Lemma exchanged_delivered cv : matching n sends recvs sid rid -> delivered cv (exchanged V recvs sid rid cv).
Proof.
  intros Match p Hp. split.
  - intros q k g f Hq Hg Hf. rewrite exchanged_puts. eapply puts_hit; [apply (ghosts_nodup _ _ _ _ _ Match p Hp)|exact Hq|exact Hg|].
    unfold take. apply map_nth_error. exact Hf.
  - intros i Hi. rewrite exchanged_puts. apply puts_miss. rewrite in_flat_map. intros (q & Hq & Hiq). exact (Hi q Hq Hiq).
Qed.
Lemma ideal_delivers : matching n sends recvs sid rid -> forall calls r cv, delivers calls r cv (ideal V recvs sid rid compute calls r cv).
Proof.
  intros Match. induction calls as [|calls IH]; intros r cv; [apply delivers_0|]. eapply delivers_S; [apply exchanged_delivered; exact Match|]. apply IH.
Qed.

(** Blocking sends and receives: all calls of all processes end, whether or not
    sends wait for the receiver, and the values are those of the calls; no
    synchronisation between the calls is needed. *)
Theorem C97_blocking :
  forall calls cv s, matching n sends recvs sid rid ->
  (forall p q q' i, p < n -> In q (sends p) -> In q' (recvs p) -> In i (sid p q) -> ~ In i (rid p q')) ->
  (forall p, p < n -> s p = blocking V n sends recvs sid rid compute p calls 0 (cv p)) ->
  exists fin res, always_ends n s fin /\ (forall p, p < n -> fin p = Ret (res p)) /\ delivers calls 0 cv res.
Proof.
  intros calls cv s Match Full Hs. destruct (blocking_run V n sends recvs sid rid compute Match Full calls 0 cv s Hs) as (c & t & R & P).
  exists t, (ideal V recvs sid rid compute calls 0 cv). split; [|split; [exact P|apply ideal_delivers; exact Match]].
  apply (one_run_is_enough n c); [exact R|]. intros p Hp. rewrite (P p Hp). exact I.
Qed.
Print Assumptions C97_blocking.

(** MPI_Sendrecv with the partners in the order of their numbers: the same, if
    every process receives from those to which it sends. *)
Theorem C97_sendrecv :
  forall calls cv s, matching n sends recvs sid rid -> (forall p q, p < n -> (In q (sends p) <-> In q (recvs p))) ->
  quiet s -> (forall p, p < n -> pg s p = sendrecv V sends recvs sid rid compute stale p calls 0 (cv p)) ->
  exists fin res, swaps_end n s fin /\ (forall p, p < n -> pg fin p = XRet (res p)) /\ delivers calls 0 cv res.
Proof.
  intros calls cv s Match Sym Q Hs. destruct (sendrecv_run V n sends recvs sid rid compute stale Match Sym calls 0 cv s Q Hs) as (c & t & R & _ & P).
  exists t, (ideal V recvs sid rid compute calls 0 cv). split; [|split; [exact P|apply ideal_delivers; exact Match]].
  apply (one_swap_run_is_enough n c); [exact R|]. intros p Hp. rewrite (P p Hp). exact I.
Qed.
Print Assumptions C97_sendrecv.

(** The sides agree, if the processes compute values from values only. *)
Definition extensional : Prop := forall p r c c', (forall i, c i = c' i) -> forall i, compute p r c i = compute p r c' i.

(** The exchange determines the values. *)
Theorem C97_same :
  extensional -> matching n sends recvs sid rid -> forall calls r cv cv' a b, (forall p i, p < n -> cv p i = cv' p i) ->
  delivers calls r cv a -> delivers calls r cv' b -> forall p i, p < n -> a p i = b p i.
Proof.
  intros Ext Match. induction calls as [|calls IH]; intros r cv cv' a b E Ha Hb.
  - inversion Ha; inversion Hb; subst. exact E.
  - inversion Ha as [|? ? ? a1 ? Da Ra]; subst. inversion Hb as [|? ? ? b1 ? Db Rb]; subst. revert Ra Rb. apply IH. intros p i Hp. apply Ext. clear i. intros i.
    destruct (Da p Hp) as (A1 & A2). destruct (Db p Hp) as (B1 & B2).
    destruct (in_dec Nat.eq_dec i (flat_map (rid p) (recvs p))) as [Hi|Hi].
    + apply in_flat_map in Hi. destruct Hi as (q & Hq & Hi). destruct (In_nth_error _ _ Hi) as (k & Hk).
      assert (Hqn : q < n) by (apply (keys_range _ _ _ _ _ Match p q Hp); right; exact Hq).
      assert (L : length (rid p q) = length (sid q p)) by (apply (ids_length _ _ _ _ _ Match q p Hqn); apply (keys_match _ _ _ _ _ Match q p Hqn Hp); exact Hq).
      destruct (nth_error (sid q p) k) as [f|] eqn:Ef.
      * rewrite (A1 q k i f Hq Hk Ef), (B1 q k i f Hq Hk Ef). apply E, Hqn.
      * apply nth_error_None in Ef. rewrite <- L in Ef. apply nth_error_None in Ef. congruence.
    + assert (No : forall q, In q (recvs p) -> ~ In i (rid p q)) by (intros q Hq X; apply Hi, in_flat_map; exists q; tauto).
      rewrite (A2 i No), (B2 i No). apply E, Hp.
Qed.
Print Assumptions C97_same.
End Exchange.

(** ** Distributed meshes *)
Section Distributed.
Variable neighbours : Z -> list Z.
Variable tpp : list nat.
Variable w : nat.
Let nproc := length tpp.
Hypothesis Hneigh : forall t k, (0 <= t < DistributeProofs.total tpp)%Z -> In k (neighbours t) -> (k < DistributeProofs.total tpp)%Z.
(** Neighbours are neighbours of each other. *)
Hypothesis Hsym : forall t k, (0 <= t < DistributeProofs.total tpp)%Z -> (0 <= k)%Z -> In k (neighbours t) -> In t (neighbours k).
Variable received : nat -> bool.
Let lo (p : nat) := fst (rng tpp p).
Let hi (p : nat) := snd (rng tpp p).
Let dicts (p : nat) := local_commun neighbours (received p) tpp w p.
Let recv_ids (q p : nat) : list nat :=
  match dicts q with Some (r, _) => match dget Nat.eqb r p with Some (l, _) => map Z.to_nat l | None => [] end | None => [] end.
Let send_ids (p q : nat) : list nat :=
  match dicts p with Some (_, s) => match dget Nat.eqb s q with Some (l, _) => map Z.to_nat l | None => [] end | None => [] end.
Variable sends recvs : nat -> list nat.
Hypothesis Hsends : forall p, p < nproc -> NoDup (sends p) /\
  forall q, In q (sends p) <-> q < nproc /\ exists r s e, dicts p = Some (r, s) /\ dget Nat.eqb s q = Some e.
Hypothesis Hrecvs : forall p, p < nproc -> NoDup (recvs p) /\
  forall q, In q (recvs p) <-> q < nproc /\ exists r s e, dicts p = Some (r, s) /\ dget Nat.eqb r q = Some e.

Lemma within_up a b k t : DistributeProofs.within neighbours a b k t -> forall l, k <= l -> DistributeProofs.within neighbours a b l t.
Proof.
  induction 1 as [k t Ht|k t m Ht IH Hm H0]; intros l Hl; [apply within_full; exact Ht|]. destruct l as [|l]; [lia|]. apply within_step with (t := t); [apply IH; lia|exact Hm|exact H0].
Qed.
Lemma within_range p k t : p < nproc -> DistributeProofs.within neighbours (lo p) (hi p) k t -> (0 <= t < DistributeProofs.total tpp)%Z.
Proof.
  intros Hp H. destruct (rng_bounds tpp p Hp) as (B1 & B2 & B3 & _). fold (lo p) (hi p) in B1, B2, B3.
  induction H as [k t Ht|k t m Ht IH Hm H0]; [lia|]. split; [exact H0|]. exact (Hneigh t m IH Hm).
Qed.
Lemma within_back p q k x : p < nproc -> DistributeProofs.within neighbours (lo p) (hi p) k x -> forall j, DistributeProofs.within neighbours (lo q) (hi q) j x ->
  exists t, (lo p <= t < hi p)%Z /\ DistributeProofs.within neighbours (lo q) (hi q) (k + j) t.
Proof.
  intros Hp H. induction H as [k t Ht|k t m Ht IH Hm H0]; intros j Hj.
  - exists t. split; [exact Ht|]. eapply within_up; [exact Hj|lia].
  - destruct (IH (S j)) as (u & U1 & U2).
    + pose proof (within_range p k t Hp Ht) as Rt. apply within_step with (t := m); [exact Hj|apply Hsym; assumption|lia].
    + exists u. split; [exact U1|]. replace (S k + j) with (k + S j) by lia. exact U2.
Qed.

Lemma recv_key p q : p < nproc -> q < nproc -> (In q (recvs p) <-> q <> p /\ exists g, (lo q <= g < hi q)%Z /\ In g (ghosts_of neighbours tpp w p)).
Proof.
  intros Hp Hq. destruct (DistributeProps.C34_succeeds neighbours tpp w Hneigh (received p) p Hp) as (r & s & E).
  destruct (DistributeProps.C34_ghosts_owned neighbours tpp w Hneigh (received p) p r s Hp E) as (O1 & O2).
  rewrite (proj2 (Hrecvs p Hp) q). split.
  - intros (_ & r' & s' & (locals, globals) & E' & D). unfold dicts in E'. rewrite E in E'. injection E' as <- <-.
    destruct (O2 q locals globals Hq D) as (NE & _ & _ & A). destruct globals as [|g gl]; [congruence|]. destruct (A g (or_introl eq_refl)) as (A1 & (_ & A2)).
    split; [|exists g; split; assumption]. intros ->. destruct (O1 g A1) as (p' & _ & U & N & _). apply N. symmetry. apply U. split; assumption.
  - intros (N & g & Hg & Hin). destruct (O1 g Hin) as (p' & (Hp' & Ho) & U & _ & locals & globals & D & _).
    assert (Eq : q = p') by (apply U; split; assumption). subst p'. split; [exact Hq|]. unfold dicts. eauto 6.
Qed.

(** On a mesh distributed by ANUGA each process receives from exactly those to
    which it sends, and no ghost is sent. *)
Theorem C97_symmetric : forall p q, p < nproc -> (In q (sends p) <-> In q (recvs p)).
Proof.
  pose proof (C35_patterns_matching neighbours tpp w Hneigh received sends recvs Hsends Hrecvs) as Match.
  assert (Half : forall p q, p < nproc -> q < nproc -> In q (recvs p) -> In p (recvs q)).
  { intros p q Hp Hq H. apply (recv_key p q Hp Hq) in H. destruct H as (N & g & Hg & Hin). apply (recv_key q p Hq Hp). split; [congruence|].
    assert (W : DistributeProofs.within neighbours (lo p) (hi p) (Nat.max w 1) g) by (apply (DistributeProps.C34_layer_width neighbours tpp w Hneigh p g Hp); right; exact Hin).
    destruct (within_back p q _ g Hp W 0 (within_full _ _ _ 0 g Hg)) as (t & Ht & Wt). rewrite Nat.add_0_r in Wt. exists t. split; [exact Ht|].
    apply (DistributeProps.C34_layer_width neighbours tpp w Hneigh q t Hq) in Wt. destruct Wt as [Wt | Wt]; [|exact Wt]. exfalso. apply N.
    destruct (DistributeProps.C34_succeeds neighbours tpp w Hneigh (received p) p Hp) as (r & s & E).
    destruct (DistributeProps.C34_ghosts_owned neighbours tpp w Hneigh (received p) p r s Hp E) as (O1 & _).
    pose proof (owns_owner tpp p t (conj Hp Ht)) as O3. pose proof (owns_owner tpp q t (conj Hq Wt)) as O4. congruence. }
  intros p q Hp. split; intros H.
  - assert (Hq : q < nproc) by (apply (keys_range _ _ _ _ _ Match p q Hp); left; exact H). apply (Half q p Hq Hp). apply (keys_match _ _ _ _ _ Match p q Hp Hq). exact H.
  - assert (Hq : q < nproc) by (apply (keys_range _ _ _ _ _ Match p q Hp); right; exact H). apply (keys_match _ _ _ _ _ Match p q Hp Hq). exact (Half p q Hp Hq H).
Qed.
Print Assumptions C97_symmetric.

Theorem C97_no_ghost_sent : forall p q q' i, p < nproc -> In q (sends p) -> In q' (recvs p) -> In i (send_ids p q) -> ~ In i (recv_ids p q').
Proof.
  intros p q q' i Hp Hq Hq' Hi Hj.
  destruct (send_facts neighbours tpp w Hneigh received sends Hsends p q Hp Hq) as (_ & r & s & l & g & E & D & I1 & F).
  destruct (recv_facts neighbours tpp w Hneigh received recvs Hrecvs p q' Hp Hq') as (_ & r' & s' & l' & g' & E' & D' & I2 & F').
  assert (Hi' : In i (map Z.to_nat l)) by (rewrite <- I1; exact Hi). assert (Hj' : In i (map Z.to_nat l')) by (rewrite <- I2; exact Hj). clear Hi Hj. rename Hi' into Hi, Hj' into Hj.
  apply in_map_iff in Hi. destruct Hi as (z & <- & Hz). apply in_map_iff in Hj. destruct Hj as (z' & Ez & Hz').
  apply In_nth_error in Hz. destruct Hz as (k & Hk). apply In_nth_error in Hz'. destruct Hz' as (k' & Hk').
  destruct (GhostProps.Forall2_nth _ _ _ F k z Hk) as (x & _ & B & _). destruct (GhostProps.Forall2_nth _ _ _ F' k' z' Hk') as (x' & _ & B' & _). lia.
Qed.
Print Assumptions C97_no_ghost_sent.

(** Both ways work on every mesh distributed by ANUGA. *)
Theorem C97_distributed (V : Type) (compute : nat -> nat -> (nat -> V) -> (nat -> V)) (stale : nat -> nat -> nat -> list V) :
  forall calls cv,
  (forall s, (forall p, p < nproc -> s p = blocking V nproc sends recvs send_ids recv_ids compute p calls 0 (cv p)) ->
    exists fin res, always_ends nproc s fin /\ (forall p, p < nproc -> fin p = Ret (res p)) /\ delivers V nproc recvs send_ids recv_ids compute calls 0 cv res) /\
  (forall s, quiet s -> (forall p, p < nproc -> pg s p = sendrecv V sends recvs send_ids recv_ids compute stale p calls 0 (cv p)) ->
    exists fin res, swaps_end nproc s fin /\ (forall p, p < nproc -> pg fin p = XRet (res p)) /\ delivers V nproc recvs send_ids recv_ids compute calls 0 cv res).
Proof.
  intros calls cv. pose proof (C35_patterns_matching neighbours tpp w Hneigh received sends recvs Hsends Hrecvs) as Match. split.
  - intros s. apply C97_blocking; [exact Match|exact C97_no_ghost_sent].
  - intros s. apply C97_sendrecv; [exact Match|exact C97_symmetric].
Qed.
Print Assumptions C97_distributed.
End Distributed.

(** Two processes with one full triangle and one ghost each; a strip of three
    processes. *)
Example C97_case : matching 2 peer peer (one 0) (one 1) /\ (forall p q, p < 2 -> (In q (peer p) <-> In q (peer p))) /\
  (forall p q q' i, p < 2 -> In q (peer p) -> In q' (peer p) -> In i (one 0 p q) -> ~ In i (one 1 p q')) /\
  ideal nat peer (one 0) (one 1) (fun _ _ c => c) 1 0 (fun p i => 10 * p + i) 0 1 = 10 /\
  (forall t k, (0 <= t < DistributeProofs.total [1; 2; 3]%nat)%Z -> (0 <= k)%Z -> In k (DistributeProps.strip t) -> In t (DistributeProps.strip k)).
Proof.
  split; [exact peer_matching|]. split; [tauto|]. split; [intros p q q' i _ _ _ [<- | []] [X | []]; discriminate|]. split; [reflexivity|].
  intros t k Ht Hk Hin. unfold DistributeProofs.total in Ht. cbn in Ht. unfold DistributeProps.strip in *. cbn [In] in *.
  destruct (Z.eqb_spec t 0), (Z.eqb_spec t 5), (Z.eqb_spec k 0), (Z.eqb_spec k 5); lia.
Qed.
