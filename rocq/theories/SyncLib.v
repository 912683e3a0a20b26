(** Sends that wait for the receiver, for the programs of [KahnLib]: a message
    passes only when the sender and the receiver have both arrived.  As with
    buffered sends the order of the exchanges does not matter, and a program
    that can end with such sends ends also with buffered ones, in the same
    state. *)
From Coq Require Import List Arith Lia Bool FunctionalExtensionality.
From Verif Require Import ArrayLib KahnLib.
Import ListNotations.

Section Sync.
Context {M R : Type}.
Local Notation prog := (KahnLib.prog M R).
Local Notation net := (KahnLib.net M R).
Local Notation no_msgs := (KahnLib.no_messages (M:=M)).

Inductive sync_step (i j : nat) : (nat -> prog) -> (nat -> prog) -> Prop :=
| sync_intro : forall s m k k', s i = Send j m k -> s j = Recv i k' ->
    sync_step i j s (upd (upd s i k) j (k' m)).

Inductive syncs (n : nat) : nat -> (nat -> prog) -> (nat -> prog) -> Prop :=
| syncs_refl : forall s, syncs n 0 s s
| syncs_cons : forall i j c s t u, i < n -> j < n -> sync_step i j s t -> syncs n c t u -> syncs n (S c) s u.

Lemma syncs_trans n c d s t u : syncs n c s t -> syncs n d t u -> syncs n (c + d) s u.
Proof. induction 1; intros; simpl; eauto using syncs_cons. Qed.

Definition sync_terminal (n : nat) (s : nat -> prog) : Prop :=
  forall i j t, i < n -> j < n -> ~ sync_step i j s t.

Lemma sync_det i j s t u : sync_step i j s t -> sync_step i j s u -> t = u.
Proof.
  intros H1 H2. destruct H1 as [s m k k' E F]. inversion H2 as [s0 m0 k0 k0' E0 F0]; subst.
  rewrite E in E0. rewrite F in F0. injection E0 as <- <-. injection F0 as <-. reflexivity.
Qed.

Lemma sync_same_sender i j j' s t u : sync_step i j s t -> sync_step i j' s u -> j = j'.
Proof. intros H1 H2. destruct H1 as [s m k k' E F]. inversion H2; subst. congruence. Qed.
Lemma sync_same_receiver i i' j s t u : sync_step i j s t -> sync_step i' j s u -> i = i'.
Proof. intros H1 H2. destruct H1 as [s m k k' E F]. inversion H2; subst. congruence. Qed.
Lemma sync_cross i i' j j' s t u : sync_step i j s t -> sync_step i' j' s u -> i <> j'.
Proof. intros H1 H2 ->. destruct H1 as [s m k k' E F]. inversion H2; subst. congruence. Qed.

Lemma upd_ne {A} (f : nat -> A) a v b : b <> a -> upd f a v b = f b.
Proof. intros. now apply upd_other. Qed.

Lemma sync_diamond i j i' j' s t u : (i, j) <> (i', j') -> sync_step i j s t -> sync_step i' j' s u ->
  exists v, sync_step i' j' t v /\ sync_step i j u v.
Proof.
  intros N H1 H2.
  assert (Nii : i <> i') by (intros ->; apply N; f_equal; eapply sync_same_sender; eassumption).
  assert (Njj : j <> j') by (intros ->; apply N; f_equal; eapply sync_same_receiver; eassumption).
  assert (Nij : i <> j') by (eapply sync_cross; eassumption).
  assert (Nji : i' <> j) by (eapply sync_cross; eassumption).
  destruct H1 as [s m k k' E F]. inversion H2 as [s0 m0 k0 k0' E0 F0]; subst.
  eexists. split.
  - apply sync_intro with (m := m0) (k := k0) (k' := k0'); rewrite !upd_ne by auto; assumption.
  - replace (upd (upd (upd (upd s i k) j (k' m)) i' k0) j' (k0' m0))
      with (upd (upd (upd (upd s i' k0) j' (k0' m0)) i k) j (k' m)).
    + apply sync_intro; rewrite !upd_ne by auto; assumption.
    + apply functional_extensionality. intros x. unfold upd.
      destruct (Nat.eqb_spec x j), (Nat.eqb_spec x i), (Nat.eqb_spec x j'), (Nat.eqb_spec x i'); subst; try congruence; try reflexivity.
Qed.

Lemma sync_towards n : forall c s t i j s1, syncs n c s t -> sync_terminal n t -> i < n -> j < n -> sync_step i j s s1 ->
  exists c', c = S c' /\ syncs n c' s1 t.
Proof.
  induction c as [| c IH]; intros s t i j s1 H T Hi Hj H1.
  - inversion H; subst. exfalso. exact (T i j s1 Hi Hj H1).
  - inversion H as [| i' j' c0 s0 t1 u0 Hi' Hj' H2 H3]; subst. exists c. split; [reflexivity |].
    destruct (Nat.eq_dec i i') as [-> | Ni].
    + assert (j = j') as -> by (eapply sync_same_sender; eassumption).
      now rewrite (sync_det i' j' s s1 t1 H1 H2).
    + assert (N : (i, j) <> (i', j')) by congruence.
      destruct (sync_diamond i j i' j' s s1 t1 N H1 H2) as (v & V1 & V2).
      destruct (IH t1 t i j v H3 T Hi Hj V2) as (c' & -> & H4).
      eapply syncs_cons; [exact Hi' | exact Hj' | exact V1 | exact H4].
Qed.

Theorem sync_schedule_independent n : forall l c s t s', syncs n c s t -> sync_terminal n t ->
  syncs n l s s' -> l <= c /\ syncs n (c - l) s' t /\ (sync_terminal n s' -> s' = t).
Proof.
  induction l as [| l IH]; intros c s t s' H T H1.
  - inversion H1; subst. rewrite Nat.sub_0_r. split; [lia |]. split; [exact H |].
    intros T'. destruct H as [| i j c s' t u Hi Hj H _]; [reflexivity |]. exfalso. exact (T' i j t Hi Hj H).
  - inversion H1 as [| i j l0 s0 t1 u0 Hi Hj H2 H3]; subst.
    destruct (sync_towards n c s t i j t1 H T Hi Hj H2) as (c' & -> & H4).
    destruct (IH c' t1 t s' H4 T H3) as (A & B & C). split; [lia |]. split; [exact B | exact C].
Qed.

(** With buffered sends. *)
Lemma sync_to_steps n c s t : syncs n c s t -> steps n (2 * c) (Net s no_msgs) (Net t no_msgs).
Proof.
  induction 1 as [s | i j c s t u Hi Hj H1 H2 IH]; [apply steps_refl |].
  replace (2 * S c) with (S (S (2 * c))) by lia. destruct H1 as [s m k k' E F].
  assert (Nij : i <> j) by (intros ->; congruence).
  eapply steps_cons; [exact Hi | apply step_send; exact E |].
  eapply steps_cons; [exact Hj | |].
  - apply step_recv with (j := i) (k := k') (m := m) (l := []).
    + cbn [procs]. rewrite upd_ne by auto. exact F.
    + cbn [chan]. rewrite upd2_get, !Nat.eqb_refl. reflexivity.
  - cbn [procs chan]. rewrite upd2_twice.
    replace (upd2 M (KahnLib.no_messages (M:=M)) i j []) with (KahnLib.no_messages (M:=M)); [exact IH |].
    apply functional_extensionality. intros x. apply functional_extensionality. intros y. rewrite upd2_get.
    destruct ((x =? i) && (y =? j)); reflexivity.
Qed.

(** ** Ended programs *)
Definition ended (p : prog) : Prop := match p with Ret _ | Fail => True | _ => False end.

Lemma ended_sync n s : (forall p, p < n -> ended (s p)) -> sync_terminal n s.
Proof. intros H i j t Hi Hj S. destruct S as [s m k k' E F]. specialize (H i Hi). rewrite E in H. exact H. Qed.
Lemma ended_steps n s : (forall p, p < n -> ended (s p)) -> terminal n (Net s no_msgs).
Proof.
  intros H i t Hi S. specialize (H i Hi).
  inversion S as [s0 d m k E | s0 j k m l E]; subst; cbn [procs] in E; rewrite E in H; exact H.
Qed.

(** Whatever the order of the steps and whether or not sends wait: every
    execution can go on until the state [fin] is reached, and no execution
    ends anywhere else or is longer than a fixed number of steps. *)
Record always_ends (n : nat) (init fin : nat -> prog) : Prop := {
  ae_sync : exists bound, forall c s, syncs n c init s -> c <= bound /\
    (exists c', syncs n c' s fin) /\ (sync_terminal n s -> s = fin);
  ae_buffered : exists bound, forall c s, steps n c (Net init no_msgs) s -> c <= bound /\
    (exists c', steps n c' s (Net fin no_msgs)) /\ (terminal n s -> s = Net fin no_msgs) }.

Theorem one_run_to_the_end n c init fin : syncs n c init fin ->
  sync_terminal n fin -> terminal n (Net fin no_msgs) -> always_ends n init fin.
Proof.
  intros H E1 E2. constructor.
  - exists c. intros l s Hs. destruct (sync_schedule_independent n l c init fin s H E1 Hs) as (A & B & C).
    split; [exact A |]. split; [eexists; exact B | exact C].
  - exists (2 * c). intros l s Hs.
    destruct (schedule_independent M R n l (2 * c) _ _ s (sync_to_steps n c init fin H) E2 Hs) as (A & B & C).
    split; [exact A |]. split; [eexists; exact B | exact C].
Qed.
Theorem one_run_is_enough n c init fin : syncs n c init fin -> (forall p, p < n -> ended (fin p)) ->
  always_ends n init fin.
Proof. intros H E. apply (one_run_to_the_end n c); [exact H | now apply ended_sync | now apply ended_steps]. Qed.

(** Processes that have ended or wait for a message. *)
Definition idle (p : prog) : Prop := match p with Send _ _ _ => False | _ => True end.
Lemma idle_sync n s : (forall p, p < n -> idle (s p)) -> sync_terminal n s.
Proof. intros H i j t Hi Hj S. destruct S as [s m k k' E F]. specialize (H i Hi). rewrite E in H. exact H. Qed.
Lemma idle_steps n s : (forall p, p < n -> idle (s p)) -> terminal n (Net s no_msgs).
Proof.
  intros H i t Hi S. specialize (H i Hi).
  inversion S as [s0 d m k E | s0 j k m l E F]; subst; cbn [procs] in E.
  - rewrite E in H. exact H.
  - discriminate F.
Qed.

(** ** Gathering and scattering *)
Fixpoint recv_list (src c : nat) (acc : list M) (K : list M -> prog) : prog :=
  match c with
  | 0 => K acc
  | S c => Recv src (fun m => recv_list src c (acc ++ [m]) K)
  end.
Fixpoint send_list (dst : nat) (ms : list M) (k : prog) : prog :=
  match ms with
  | [] => k
  | m :: ms => Send dst m (send_list dst ms k)
  end.
(** For each process of the list in turn: receive [c] messages. *)
Fixpoint gather (l : list nat) (c : nat) (acc : list (list M)) (K : list (list M) -> prog) : prog :=
  match l with
  | [] => K acc
  | i :: l => recv_list i c [] (fun vs => gather l c (acc ++ [vs]) K)
  end.
(** For each process of the list in turn: send the messages [f i]. *)
Fixpoint scatter (l : list nat) (f : nat -> list M) (k : prog) : prog :=
  match l with
  | [] => k
  | i :: l => send_list i (f i) (scatter l f k)
  end.

(** One sender, one receiver. *)
Lemma transfer n a b ms : forall s k acc K, a < n -> b < n -> a <> b ->
  s a = send_list b ms k -> s b = recv_list a (length ms) acc K ->
  exists c t, syncs n c s t /\ t a = k /\ t b = K (acc ++ ms) /\ forall p, p <> a -> p <> b -> t p = s p.
Proof.
  induction ms as [| m ms IH]; intros s k acc K Ha Hb N Ea Eb; cbn [send_list recv_list length] in *.
  - exists 0, s. rewrite app_nil_r. split; [apply syncs_refl |]. auto.
  - set (s1 := upd (upd s a (send_list b ms k)) b (recv_list a (length ms) (acc ++ [m]) K)).
    destruct (IH s1 k (acc ++ [m]) K Ha Hb N) as (c & t & T1 & T2 & T3 & T4).
    + unfold s1. rewrite upd_ne, upd_same by auto. reflexivity.
    + unfold s1. rewrite upd_same. reflexivity.
    + exists (S c), t. split; [| split; [exact T2 | split]].
      * apply syncs_cons with (i := a) (j := b) (t := s1); [exact Ha | exact Hb | | exact T1].
        unfold s1. apply (sync_intro a b s m (send_list b ms k) (fun m => recv_list a (length ms) (acc ++ [m]) K)); assumption.
      * rewrite <- app_assoc in T3. exact T3.
      * intros p Pa Pb. rewrite T4 by assumption. unfold s1. now rewrite !upd_ne by auto.
Qed.

Lemma gather_run n b (v : nat -> list M) c0 : forall l s (k : nat -> prog) acc K,
  b < n -> NoDup l -> (forall i, In i l -> i < n /\ i <> b /\ length (v i) = c0) ->
  (forall i, In i l -> s i = send_list b (v i) (k i)) -> s b = gather l c0 acc K ->
  exists c t, syncs n c s t /\ t b = K (acc ++ map v l) /\ (forall i, In i l -> t i = k i) /\
    forall p, p <> b -> ~ In p l -> t p = s p.
Proof.
  induction l as [| i l IH]; intros s k acc K Hb ND HL HS Eb; cbn [gather map] in *.
  - exists 0, s. rewrite app_nil_r. split; [apply syncs_refl |]. repeat split; auto. intros i [].
  - inversion ND as [| x xs NI ND']; subst. destruct (HL i (or_introl eq_refl)) as (Hi & Ni & Li).
    rewrite <- Li in Eb.
    destruct (transfer n i b (v i) s (k i) [] (fun vs => gather l (length (v i)) (acc ++ [vs]) K) Hi Hb Ni
                (HS i (or_introl eq_refl)) Eb) as (c1 & s1 & R1 & R2 & R3 & R4).
    cbn [app] in R3. rewrite Li in R3.
    destruct (IH s1 k (acc ++ [v i]) K Hb ND') as (c2 & t & T1 & T2 & T3 & T4).
    + intros j Hj. apply HL. now right.
    + intros j Hj. destruct (HL j (or_intror Hj)) as (_ & Nj & _). rewrite R4; [apply HS; now right | | assumption].
      intros ->. contradiction.
    + exact R3.
    + exists (c1 + c2), t. split; [eapply syncs_trans; eassumption |]. split; [| split].
      * rewrite <- app_assoc in T2. exact T2.
      * intros j [<- | Hj]; [| now apply T3]. rewrite T4; assumption.
      * intros p Pb Pl. rewrite T4; [| assumption | intros X; apply Pl; now right].
        apply R4; [| assumption]. intros ->. apply Pl. now left.
Qed.

Lemma scatter_run n a (v : nat -> list M) : forall l s k (K : nat -> list M -> prog),
  a < n -> NoDup l -> (forall i, In i l -> i < n /\ i <> a) ->
  (forall i, In i l -> s i = recv_list a (length (v i)) [] (K i)) -> s a = scatter l v k ->
  exists c t, syncs n c s t /\ t a = k /\ (forall i, In i l -> t i = K i (v i)) /\
    forall p, p <> a -> ~ In p l -> t p = s p.
Proof.
  induction l as [| i l IH]; intros s k K Ha ND HL HS Ea; cbn [scatter] in *.
  - exists 0, s. split; [apply syncs_refl |]. repeat split; auto. intros i [].
  - inversion ND as [| x xs NI ND']; subst. destruct (HL i (or_introl eq_refl)) as (Hi & Ni).
    assert (Ni' : a <> i) by auto.
    destruct (transfer n a i (v i) s (scatter l v k) [] (K i) Ha Hi Ni' Ea
                (HS i (or_introl eq_refl))) as (c1 & s1 & R1 & R2 & R3 & R4).
    destruct (IH s1 k K Ha ND') as (c2 & t & T1 & T2 & T3 & T4).
    + intros j Hj. apply HL. now right.
    + intros j Hj. destruct (HL j (or_intror Hj)) as (_ & Nj). rewrite R4; [apply HS; now right | assumption |].
      intros ->. contradiction.
    + exact R2.
    + exists (c1 + c2), t. split; [eapply syncs_trans; eassumption |]. split; [exact T2 |]. split.
      * intros j [<- | Hj]; [| now apply T3]. rewrite T4; assumption.
      * intros p Pa Pl. rewrite T4; [| assumption | intros X; apply Pl; now right].
        apply R4; [assumption |]. intros ->. apply Pl. now left.
Qed.
End Sync.
