(** Processes that exchange messages with [MPI_Sendrecv]: a process sends to a
    partner and receives from it, and goes on when both have happened.  The
    library passes a message directly to a partner that is waiting for it, or
    buffers it, as it pleases; messages between two processes keep their order.
    If one execution without buffering ends, every execution ends, in the same
    state, and none gets stuck waiting for a buffer. *)
From Coq Require Import List Arith Lia Bool FunctionalExtensionality.
From Verif Require Import ArrayLib KahnLib.
Import ListNotations.

Section Swap.
Context {M R : Type}.

Inductive xprog :=
| XRet (r : R)
| XFail
| Swap (q : nat) (m : M) (k : M -> xprog).

(** [sent p], [got p]: the halves of the current exchange of [p] that are done;
    [fly p q]: messages from [p] to [q] in buffers of the library. *)
Record conf := Conf { pg : nat -> xprog; sent : nat -> bool; got : nat -> option M; fly : nat -> nat -> list M }.

Inductive act := Pass (p q : nat) | Buffer (p : nat) | Take (p : nat) | Finish (p : nat).

Definition set_fly (c : nat -> nat -> list M) (a b : nat) (v : list M) : nat -> nat -> list M := upd c a (upd (c a) b v).

Inductive happens : act -> conf -> conf -> Prop :=
| h_pass : forall s p q m k m' k', pg s p = Swap q m k -> pg s q = Swap p m' k' ->
    sent s p = false -> got s q = None -> fly s p q = [] ->
    happens (Pass p q) s (Conf (pg s) (upd (sent s) p true) (upd (got s) q (Some m)) (fly s))
| h_buffer : forall s p q m k, pg s p = Swap q m k -> sent s p = false ->
    happens (Buffer p) s (Conf (pg s) (upd (sent s) p true) (got s) (set_fly (fly s) p q (fly s p q ++ [m])))
| h_take : forall s p q m k m' l, pg s p = Swap q m k -> got s p = None -> fly s q p = m' :: l ->
    happens (Take p) s (Conf (pg s) (sent s) (upd (got s) p (Some m')) (set_fly (fly s) q p l))
| h_finish : forall s p q m k m', pg s p = Swap q m k -> sent s p = true -> got s p = Some m' ->
    happens (Finish p) s (Conf (upd (pg s) p (k m')) (upd (sent s) p false) (upd (got s) p None) (fly s)).

Definition within (n : nat) (a : act) : Prop :=
  match a with Pass p q => p < n /\ q < n | Buffer p | Take p | Finish p => p < n end.
Definition cost (a : act) : nat := match a with Pass _ _ => 2 | _ => 1 end.
Definition direct (a : act) : Prop := match a with Buffer _ => False | _ => True end.

(** Executions, with what they cost; [P] restricts what may happen. *)
Inductive history (P : act -> Prop) : nat -> conf -> conf -> Prop :=
| hist_nil : forall s, history P 0 s s
| hist_cons : forall a c s t u, P a -> happens a s t -> history P c t u -> history P (cost a + c) s u.

Lemma history_trans P c d s t u : history P c s t -> history P d t u -> history P (c + d) s u.
Proof. induction 1; intros; [assumption|]. rewrite <- Nat.add_assoc. eapply hist_cons; eauto. Qed.

Lemma happens_det a s t u : happens a s t -> happens a s u -> t = u.
Proof. intros H1 H2. destruct H1; inversion H2; subst; congruence. Qed.

Lemma set_fly_get c a b v a' b' : set_fly c a b v a' b' = if (a' =? a) && (b' =? b) then v else c a' b'.
Proof. unfold set_fly, upd. destruct (Nat.eqb_spec a' a); subst; cbn; [destruct (b' =? b); reflexivity|reflexivity]. Qed.
Lemma set_fly_comm c a b v a' b' v' : a <> a' \/ b <> b' -> set_fly (set_fly c a b v) a' b' v' = set_fly (set_fly c a' b' v') a b v.
Proof.
  intros H. apply functional_extensionality. intros x. apply functional_extensionality. intros y. rewrite !set_fly_get.
  destruct (Nat.eqb_spec x a), (Nat.eqb_spec x a'), (Nat.eqb_spec y b), (Nat.eqb_spec y b'); subst; cbn; try reflexivity; exfalso; lia.
Qed.
Lemma set_fly_other c a b v a' b' : a <> a' \/ b <> b' -> set_fly c a b v a' b' = c a' b'.
Proof. intros H. rewrite set_fly_get. destruct (Nat.eqb_spec a' a), (Nat.eqb_spec b' b); subst; cbn; try reflexivity; exfalso; lia. Qed.
Lemma set_fly_same c a b v : set_fly c a b v a b = v.
Proof. rewrite set_fly_get, !Nat.eqb_refl. reflexivity. Qed.
Lemma set_fly_back c a b v w : c a b = w -> set_fly (set_fly c a b v) a b w = c.
Proof.
  intros H. apply functional_extensionality. intros x. apply functional_extensionality. intros y. rewrite !set_fly_get.
  destruct (Nat.eqb_spec x a), (Nat.eqb_spec y b); subst; reflexivity.
Qed.
Lemma conf_eq p p' s s' g g' f f' : p = p' -> s = s' -> g = g' -> f = f' -> Conf p s g f = Conf p' s' g' f'.
Proof. intros -> -> -> ->. reflexivity. Qed.

Ltac same_prog := repeat match goal with
  | H1 : pg ?s ?p = Swap _ _ _, H2 : pg ?s ?p = Swap _ _ _ |- _ => rewrite H1 in H2; injection H2 as ?; subst
  end.
Ltac away := rewrite ?upd_other, ?set_fly_other by (first [assumption | congruence | tauto | lia]).

Lemma direct_diamond a b s t u : direct a -> direct b -> a <> b -> happens a s t -> happens b s u ->
  exists v, happens b t v /\ happens a u v.
Proof.
  intros Da Db N H1 H2. destruct H1 as [s p q m k m' k' E1 E2 E3 E4 E5|s p q m k E1 E2|s p q m k m' l E1 E2 E3|s p q m k m' E1 E2 E3]; try contradiction.
  - inversion H2 as [s0 p0 q0 m0 k0 m0' k0' F1 F2 F3 F4 F5|s0 p0 q0 m0 k0 F1 F2|s0 p0 q0 m0 k0 m0' l0 F1 F2 F3|s0 p0 q0 m0 k0 m0' F1 F2 F3]; subst; try contradiction.
    + assert (p <> p0) by (intros ->; rewrite E1 in F1; injection F1 as <- _ _; congruence).
      assert (q <> q0) by (intros ->; rewrite E2 in F2; injection F2 as <- _ _; congruence).
      eexists. split; [eapply h_pass; cbn [pg sent got fly]; try eassumption; rewrite upd_other by congruence; assumption|]. cbn [pg sent got fly].
      rewrite (upd_comm (got s) q q0), (upd_comm (sent s) p p0) by assumption.
      eapply (h_pass (Conf (pg s) (upd (sent s) p0 true) (upd (got s) q0 (Some m0)) (fly s)) p q m k m' k'); cbn [pg sent got fly]; try eassumption; rewrite upd_other by congruence; assumption.
    + assert (q <> p0) by (intros ->; rewrite E2 in F1; injection F1 as <- _ _; congruence).
      eexists. split; [eapply h_take; cbn [pg sent got fly]; try eassumption; rewrite upd_other by congruence; assumption|]. cbn [pg sent got fly].
      rewrite (upd_comm (got s) q p0) by assumption.
      eapply (h_pass (Conf (pg s) (sent s) (upd (got s) p0 (Some m0')) (set_fly (fly s) q0 p0 l0)) p q m k m' k'); cbn [pg sent got fly]; try eassumption; [rewrite upd_other by congruence; assumption|].
      rewrite set_fly_other by (right; congruence). assumption.
    + assert (p <> p0) by congruence. assert (q <> p0) by congruence.
      eexists. split; [eapply h_finish; cbn [pg sent got fly]; [exact F1|rewrite upd_other by congruence; exact F2|rewrite upd_other by congruence; exact F3]|]. cbn [pg sent got fly].
      rewrite (upd_comm (got s) q p0), (upd_comm (sent s) p p0) by assumption.
      eapply (h_pass (Conf (upd (pg s) p0 (k0 m0')) (upd (sent s) p0 false) (upd (got s) p0 None) (fly s)) p q m k m' k'); cbn [pg sent got fly]; rewrite ?upd_other by congruence; assumption.
  - inversion H2 as [s0 p0 q0 m0 k0 m0' k0' F1 F2 F3 F4 F5|s0 p0 q0 m0 k0 F1 F2|s0 p0 q0 m0 k0 m0' l0 F1 F2 F3|s0 p0 q0 m0 k0 m0' F1 F2 F3]; subst; try contradiction.
    + assert (q0 <> p) by (intros ->; rewrite F2 in E1; injection E1 as <- _ _; congruence).
      eexists. split; [eapply h_pass; cbn [pg sent got fly]; try eassumption; [rewrite upd_other by congruence; assumption|rewrite set_fly_other by (right; congruence); assumption]|]. cbn [pg sent got fly].
      rewrite (upd_comm (got s) p q0) by congruence.
      eapply (h_take (Conf (pg s) (upd (sent s) p0 true) (upd (got s) q0 (Some m0)) (fly s)) p q m k m' l); cbn [pg sent got fly]; rewrite ?upd_other by congruence; assumption.
    + assert (p <> p0) by congruence.
      eexists. split; [eapply h_take; cbn [pg sent got fly]; [eassumption|rewrite upd_other by congruence; assumption|rewrite set_fly_other by (right; congruence); eassumption]|]. cbn [pg sent got fly].
      rewrite (upd_comm (got s) p p0), (set_fly_comm (fly s) q p) by (first [assumption|right; assumption]).
      eapply (h_take (Conf (pg s) (sent s) (upd (got s) p0 (Some m0')) (set_fly (fly s) q0 p0 l0)) p q m k m' l); cbn [pg sent got fly]; [assumption|rewrite upd_other by congruence; assumption|rewrite set_fly_other by (right; congruence); assumption].
    + assert (p <> p0) by congruence.
      eexists. split; [eapply h_finish; cbn [pg sent got fly]; rewrite ?upd_other by congruence; eassumption|]. cbn [pg sent got fly].
      rewrite (upd_comm (got s) p p0) by assumption.
      eapply (h_take (Conf (upd (pg s) p0 (k0 m0')) (upd (sent s) p0 false) (upd (got s) p0 None) (fly s)) p q m k m' l); cbn [pg sent got fly]; rewrite ?upd_other by congruence; assumption.
  - inversion H2 as [s0 p0 q0 m0 k0 m0' k0' F1 F2 F3 F4 F5|s0 p0 q0 m0 k0 F1 F2|s0 p0 q0 m0 k0 m0' l0 F1 F2 F3|s0 p0 q0 m0 k0 m0' F1 F2 F3]; subst; try contradiction.
    + assert (p <> p0) by congruence. assert (p <> q0) by congruence.
      eexists. split; [eapply h_pass; cbn [pg sent got fly]; rewrite ?upd_other by congruence; eassumption|]. cbn [pg sent got fly].
      rewrite (upd_comm (got s) p q0), (upd_comm (sent s) p p0) by assumption.
      eapply (h_finish (Conf (pg s) (upd (sent s) p0 true) (upd (got s) q0 (Some m0)) (fly s)) p q m k m'); cbn [pg sent got fly]; rewrite ?upd_other by congruence; assumption.
    + assert (p <> p0) by congruence.
      eexists. split; [eapply h_take; cbn [pg sent got fly]; rewrite ?upd_other by congruence; eassumption|]. cbn [pg sent got fly].
      rewrite (upd_comm (got s) p p0) by assumption.
      eapply (h_finish (Conf (pg s) (sent s) (upd (got s) p0 (Some m0')) (set_fly (fly s) q0 p0 l0)) p q m k m'); cbn [pg sent got fly]; rewrite ?upd_other by congruence; assumption.
    + assert (p <> p0) by congruence.
      eexists. split; [eapply h_finish; cbn [pg sent got fly]; rewrite ?upd_other by congruence; eassumption|]. cbn [pg sent got fly].
      rewrite (upd_comm (got s) p p0), (upd_comm (sent s) p p0), (upd_comm (pg s) p p0) by assumption.
      eapply (h_finish (Conf (upd (pg s) p0 (k0 m0')) (upd (sent s) p0 false) (upd (got s) p0 None) (fly s)) p q m k m'); cbn [pg sent got fly]; rewrite ?upd_other by congruence; assumption.
Qed.

(** A message that is buffered will be taken instead of passed. *)
Lemma buffer_direct p b s t u : direct b -> happens (Buffer p) s t -> happens b s u ->
  (exists q, b = Pass p q /\ happens (Take q) t u) \/ (exists v, happens b t v /\ happens (Buffer p) u v).
Proof.
  intros Db H1 H2. inversion H1 as [|s1 p1 q m k E1 E2| |]; subst.
  destruct H2 as [s p0 q0 m0 k0 m0' k0' F1 F2 F3 F4 F5|s p0 q0 m0 k0 F1 F2|s p0 q0 m0 k0 m0' l0 F1 F2 F3|s p0 q0 m0 k0 m0' F1 F2 F3]; try contradiction.
  - destruct (Nat.eq_dec p0 p) as [->|N].
    + left. rewrite E1 in F1. injection F1 as <- <- <-. exists q. split; [reflexivity|].
      replace (Conf (pg s) (upd (sent s) p true) (upd (got s) q (Some m)) (fly s))
        with (Conf (pg s) (upd (sent s) p true) (upd (got s) q (Some m)) (set_fly (set_fly (fly s) p q (fly s p q ++ [m])) p q [])) by (rewrite set_fly_back by assumption; reflexivity).
      eapply (h_take (Conf (pg s) (upd (sent s) p true) (got s) (set_fly (fly s) p q (fly s p q ++ [m]))) q p m0' k0' m []); cbn [pg sent got fly]; try assumption.
      rewrite set_fly_same, F5. reflexivity.
    + right. eexists. split; [eapply h_pass; cbn [pg sent got fly]; try eassumption; [rewrite upd_other by congruence; assumption|rewrite set_fly_other by (left; congruence); assumption]|]. cbn [pg sent got fly].
      rewrite (upd_comm (sent s) p p0) by congruence.
      eapply (h_buffer (Conf (pg s) (upd (sent s) p0 true) (upd (got s) q0 (Some m0)) (fly s)) p q m k); cbn [pg sent got fly]; rewrite ?upd_other by congruence; assumption.
  - right. eexists. split.
    + eapply h_take with (l := if (q0 =? p) && (p0 =? q) then l0 ++ [m] else l0); cbn [pg sent got fly]; try eassumption. rewrite set_fly_get, F3.
      destruct (Nat.eqb_spec q0 p), (Nat.eqb_spec p0 q); subst; cbn; try reflexivity. rewrite F3. reflexivity.
    + cbn [pg sent got fly].
      replace (set_fly (set_fly (fly s) p q (fly s p q ++ [m])) q0 p0 (if (q0 =? p) && (p0 =? q) then l0 ++ [m] else l0))
        with (set_fly (set_fly (fly s) q0 p0 l0) p q (set_fly (fly s) q0 p0 l0 p q ++ [m])).
      * eapply (h_buffer (Conf (pg s) (sent s) (upd (got s) p0 (Some m0')) (set_fly (fly s) q0 p0 l0)) p q m k); cbn [pg sent got fly]; assumption.
      * assert (D : (q0 = p /\ p0 = q) \/ (q0 <> p \/ p0 <> q)) by lia. destruct D as [(-> & ->)|D].
        -- rewrite !Nat.eqb_refl. cbn [andb]. rewrite set_fly_same. apply functional_extensionality. intros x. apply functional_extensionality. intros y. rewrite !set_fly_get.
           destruct ((x =? p) && (y =? q)); reflexivity.
        -- assert (B : (q0 =? p) && (p0 =? q) = false) by (destruct (Nat.eqb_spec q0 p), (Nat.eqb_spec p0 q); subst; cbn; try reflexivity; exfalso; lia). rewrite B.
           rewrite set_fly_other by exact D. apply set_fly_comm. exact D.
  - assert (p0 <> p) by congruence. right. eexists. split; [eapply h_finish; cbn [pg sent got fly]; rewrite ?upd_other by congruence; eassumption|]. cbn [pg sent got fly].
    rewrite (upd_comm (sent s) p p0) by congruence.
    eapply (h_buffer (Conf (upd (pg s) p0 (k0 m0')) (upd (sent s) p0 false) (upd (got s) p0 None) (fly s)) p q m k); cbn [pg sent got fly]; rewrite ?upd_other by congruence; assumption.
Qed.

Lemma act_dec (a b : act) : {a = b} + {a <> b}.
Proof. decide equality; apply Nat.eq_dec. Qed.

Section Schedules.
Variable n : nat.
Definition any (a : act) : Prop := within n a.
Definition unbuffered (a : act) : Prop := within n a /\ direct a.
Definition finished (s : conf) : Prop := forall p, p < n -> match pg s p with Swap _ _ _ => False | _ => True end.

Lemma finished_still s a t : finished s -> within n a -> ~ happens a s t.
Proof. intros F W H. destruct H as [s p q ? ? ? ? E|s p ? ? ? E|s p ? ? ? ? ? E|s p ? ? ? ? E]; cbn in W; specialize (F p ltac:(tauto)); rewrite E in F; exact F. Qed.

Lemma still_towards c s fin a s1 : history unbuffered c s fin -> finished fin -> within n a -> happens a s s1 ->
  exists c', c = cost a + c' /\ history unbuffered c' s1 fin.
Proof.
  intros H. revert a s1. induction H as [s|b c s t u (Wb & Db) Hb Hr IH]; intros a s1 F W Ha.
  - exfalso. exact (finished_still s a s1 F W Ha).
  - assert (Go : forall v, happens b s1 v -> happens a t v -> exists c', cost b + c = cost a + c' /\ history unbuffered c' s1 u).
    { intros v V1 V2. destruct (IH a v F W V2) as (c' & -> & H'). exists (cost b + c'). split; [lia|]. eapply hist_cons; [split; eassumption|exact V1|exact H']. }
    destruct a as [p q|p|p|p]; try (destruct (act_dec b (Pass p q)) as [->|N]; [rewrite (happens_det _ _ _ _ Ha Hb); eauto|];
      destruct (direct_diamond (Pass p q) b s s1 t I Db ltac:(congruence) Ha Hb) as (v & V1 & V2); exact (Go v V1 V2)).
    + destruct (buffer_direct p b s s1 t Db Ha Hb) as [(q & -> & T)|(v & V1 & V2)]; [|exact (Go v V1 V2)].
      exists (1 + c). split; [reflexivity|]. cbn in Wb. apply (hist_cons unbuffered (Take q) c s1 t u); [split; [cbn; tauto|exact I]|exact T|exact Hr].
    + destruct (act_dec b (Take p)) as [->|N]; [rewrite (happens_det _ _ _ _ Ha Hb); eauto|].
      destruct (direct_diamond (Take p) b s s1 t I Db ltac:(congruence) Ha Hb) as (v & V1 & V2); exact (Go v V1 V2).
    + destruct (act_dec b (Finish p)) as [->|N]; [rewrite (happens_det _ _ _ _ Ha Hb); eauto|].
      destruct (direct_diamond (Finish p) b s s1 t I Db ltac:(congruence) Ha Hb) as (v & V1 & V2); exact (Go v V1 V2).
Qed.

(** Whatever the library does, no execution is longer than a fixed number of
    steps, each can go on, without any buffering, until [fin] is reached, and
    only [fin] has nothing that must happen next. *)
Definition swaps_end (init fin : conf) : Prop :=
  exists bound, forall c s, history any c init s ->
    c <= bound /\ (exists c', history unbuffered c' s fin) /\
    ((forall a t, within n a -> direct a -> ~ happens a s t) -> s = fin).

Theorem one_swap_run_is_enough c init fin : history unbuffered c init fin -> finished fin -> swaps_end init fin.
Proof.
  intros H F. exists c. intros d s Hs. revert c H. induction Hs as [s|a d s t u W Ha Hr IH]; intros c H.
  - split; [lia|]. split; [eexists; exact H|]. intros St. inversion H as [|a c' ? t ? (W & D) Ha]; subst; [reflexivity|]. exfalso. exact (St a t W D Ha).
  - destruct (still_towards c s fin a t H F W Ha) as (c' & -> & H'). destruct (IH c' H') as (A & B & C). split; [lia|]. split; assumption.
Qed.

(** ** Exchanges with a list of partners *)
Fixpoint swap_all {X} (ks : list nat) (v : nat -> M) (keep : X -> nat -> M -> X) (x : X) (K : X -> xprog) : xprog :=
  match ks with
  | [] => K x
  | q :: ks => Swap q (v q) (fun m => swap_all ks v keep (keep x q m) K)
  end.

Definition quiet (s : conf) : Prop := (forall p, sent s p = false) /\ (forall p, got s p = None) /\ (forall p q, fly s p q = []).

(** The partners of [r] in a list of pairs. *)
Fixpoint partners (r : nat) (l : list (nat * nat)) : list nat :=
  match l with
  | [] => []
  | (a, b) :: l => if r =? a then b :: partners r l else if r =? b then a :: partners r l else partners r l
  end.

Lemma swap_pair a b s va ka vb kb : a < n -> b < n -> quiet s -> pg s a = Swap b va ka -> pg s b = Swap a vb kb ->
  exists c t, history unbuffered c s t /\ quiet t /\ pg t a = ka vb /\ pg t b = kb va /\ forall p, p <> a -> p <> b -> pg t p = pg s p.
Proof.
  intros Ha Hb (Qs & Qg & Qf) Ea Eb. destruct (Nat.eq_dec a b) as [->|N].
  - rewrite Ea in Eb. injection Eb as <- <-.
    exists (2 + (1 + 0)), (Conf (upd (pg s) b (ka va)) (upd (upd (sent s) b true) b false) (upd (upd (got s) b (Some va)) b None) (fly s)). split; [|split].
    + apply (hist_cons unbuffered (Pass b b)) with (t := Conf (pg s) (upd (sent s) b true) (upd (got s) b (Some va)) (fly s)); [split; [cbn; tauto|exact I]| |].
      * eapply h_pass; eauto.
      * apply (hist_cons unbuffered (Finish b)) with (t := Conf (upd (pg s) b (ka va)) (upd (upd (sent s) b true) b false) (upd (upd (got s) b (Some va)) b None) (fly s)); [split; [exact Hb|exact I]| |apply hist_nil].
        eapply (h_finish (Conf (pg s) (upd (sent s) b true) (upd (got s) b (Some va)) (fly s))); cbn [pg sent got fly]; [exact Ea|apply upd_same|apply upd_same].
    + split; [|split]; cbn [sent got fly]; intros p; [..|exact (Qf p)]; unfold upd; destruct (p =? b); auto.
    + cbn [pg]. rewrite upd_same. split; [reflexivity|]. split; [reflexivity|]. intros p P1 _. apply upd_other. exact P1.
  - set (s1 := Conf (pg s) (upd (sent s) a true) (upd (got s) b (Some va)) (fly s)).
    set (s2 := Conf (pg s1) (upd (sent s1) b true) (upd (got s1) a (Some vb)) (fly s1)).
    set (s3 := Conf (upd (pg s2) a (ka vb)) (upd (sent s2) a false) (upd (got s2) a None) (fly s2)).
    set (s4 := Conf (upd (pg s3) b (kb va)) (upd (sent s3) b false) (upd (got s3) b None) (fly s3)).
    exists (2 + (2 + (1 + (1 + 0)))), s4. split; [|split].
    + apply (hist_cons unbuffered (Pass a b)) with (t := s1); [split; [cbn; tauto|exact I]|eapply h_pass; eauto|].
      apply (hist_cons unbuffered (Pass b a)) with (t := s2); [split; [cbn; tauto|exact I]| |].
      { eapply (h_pass s1 b a vb kb va ka); cbn; auto; rewrite upd_other by congruence; auto. }
      apply (hist_cons unbuffered (Finish a)) with (t := s3); [split; [exact Ha|exact I]| |].
      { eapply (h_finish s2 a b va ka vb); cbn; [exact Ea|rewrite upd_other, upd_same by congruence; reflexivity|apply upd_same]. }
      apply (hist_cons unbuffered (Finish b)) with (t := s4); [split; [exact Hb|exact I]| |apply hist_nil].
      eapply (h_finish s3 b a vb kb va); cbn.
      * rewrite upd_other by congruence. exact Eb.
      * rewrite upd_other, upd_same by congruence. reflexivity.
      * rewrite upd_other, upd_other, upd_same by congruence. reflexivity.
    + split; [|split]; cbn; intros p; [..|exact (Qf p)]; unfold upd; destruct (Nat.eqb_spec p b), (Nat.eqb_spec p a); auto.
    + cbn. rewrite upd_same, upd_other, upd_same by congruence. split; [reflexivity|]. split; [reflexivity|]. intros p P1 P2. rewrite !upd_other by assumption. reflexivity.
Qed.

Theorem swap_all_run {X} (v : nat -> nat -> M) (keep : nat -> X -> nat -> M -> X) (K : nat -> X -> xprog) :
  forall l s (x : nat -> X), (forall a b, In (a, b) l -> a < n /\ b < n) -> quiet s ->
  (forall p, p < n -> pg s p = swap_all (partners p l) (v p) (keep p) (x p) (K p)) ->
  exists c t, history unbuffered c s t /\ quiet t /\
    (forall p, p < n -> pg t p = K p (fold_left (fun x q => keep p x q (v q p)) (partners p l) (x p))).
Proof.
  induction l as [|(a, b) l IH]; intros s x Hl Q H.
  - exists 0, s. split; [apply hist_nil|]. split; [exact Q|exact H].
  - destruct (Hl a b (or_introl eq_refl)) as (Ha & Hb).
    pose proof (H a Ha) as Ea. pose proof (H b Hb) as Eb. cbn [partners] in Ea, Eb. rewrite Nat.eqb_refl in Ea. cbn [swap_all] in Ea.
    assert (Eb' : pg s b = Swap a (v b a) (fun m => swap_all (partners b l) (v b) (keep b) (keep b (x b) a m) (K b))).
    { destruct (Nat.eqb_spec b a) as [->|N]; [exact Ea|]. rewrite Nat.eqb_refl in Eb. exact Eb. }
    destruct (swap_pair a b s _ _ _ _ Ha Hb Q Ea Eb') as (c1 & s1 & R1 & Q1 & Pa & Pb & Po).
    destruct (IH s1 (fun p => if p =? a then keep p (x p) b (v b a) else if p =? b then keep p (x p) a (v a b) else x p)) as (c2 & t & R2 & Q2 & P2).
    + intros a' b' Hin. apply Hl. right. exact Hin.
    + exact Q1.
    + intros p Hp. destruct (Nat.eqb_spec p a) as [->|Na]; [rewrite Pa; reflexivity|]. destruct (Nat.eqb_spec p b) as [->|Nb]; [rewrite Pb; reflexivity|].
      rewrite Po by assumption. rewrite (H p Hp). cbn [partners]. destruct (Nat.eqb_spec p a); [contradiction|]. destruct (Nat.eqb_spec p b); [contradiction|reflexivity].
    + exists (c1 + c2), t. split; [eapply history_trans; eassumption|]. split; [exact Q2|]. intros p Hp. rewrite (P2 p Hp). cbn [partners].
      destruct (Nat.eqb_spec p a) as [->|Na]; [reflexivity|]. destruct (Nat.eqb_spec p b) as [->|Nb]; reflexivity.
Qed.
End Schedules.
End Swap.
