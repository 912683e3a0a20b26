(** Processes that exchange messages over first-in first-out channels with
    buffered sends, under an arbitrary scheduler.  The order of steps of
    different processes does not matter: if one execution ends, every
    execution ends, in the same state. *)
From Coq Require Import List Arith Lia Bool FunctionalExtensionality.
From Verif Require Import ArrayLib.
Import ListNotations.

Section Kahn.
Variables M R : Type.

Inductive prog :=
| Ret (r : R)
| Fail
| Send (dst : nat) (m : M) (k : prog)
| Recv (src : nat) (k : M -> prog).

(** [chan a b]: the messages sent by [a] to [b] and not yet received. *)
Record net := Net { procs : nat -> prog; chan : nat -> nat -> list M }.

Definition upd2 (c : nat -> nat -> list M) (a b : nat) (v : list M) : nat -> nat -> list M :=
  upd c a (upd (c a) b v).

Inductive step (i : nat) : net -> net -> Prop :=
| step_send : forall s d m k, procs s i = Send d m k ->
    step i s (Net (upd (procs s) i k) (upd2 (chan s) i d (chan s i d ++ [m])))
| step_recv : forall s j k m l, procs s i = Recv j k -> chan s j i = m :: l ->
    step i s (Net (upd (procs s) i (k m)) (upd2 (chan s) j i l)).

(** [n] processes; executions with their length. *)
Inductive steps (n : nat) : nat -> net -> net -> Prop :=
| steps_refl : forall s, steps n 0 s s
| steps_cons : forall i k s t u, i < n -> step i s t -> steps n k t u -> steps n (S k) s u.

Definition terminal (n : nat) (s : net) : Prop := forall i t, i < n -> ~ step i s t.

Lemma steps_trans n k l s t u : steps n k s t -> steps n l t u -> steps n (k + l) s u.
Proof. induction 1; intros; simpl; eauto using steps_cons. Qed.

Lemma upd_comm {A} (f : nat -> A) a b x y : a <> b -> upd (upd f a x) b y = upd (upd f b y) a x.
Proof.
  intros N. apply functional_extensionality. intros z. unfold upd.
  destruct (Nat.eqb_spec z b), (Nat.eqb_spec z a); congruence.
Qed.
Lemma upd_twice {A} (f : nat -> A) a x y : upd (upd f a x) a y = upd f a y.
Proof. apply functional_extensionality. intros z. unfold upd. destruct (z =? a); reflexivity. Qed.
Lemma upd_id {A} (f : nat -> A) a : upd f a (f a) = f.
Proof. apply functional_extensionality. intros z. unfold upd. destruct (Nat.eqb_spec z a); congruence. Qed.

Lemma upd2_get c a b v a' b' : upd2 c a b v a' b' = if (a' =? a) && (b' =? b) then v else c a' b'.
Proof.
  unfold upd2, upd. destruct (Nat.eqb_spec a' a) as [->|]; [|reflexivity]. destruct (b' =? b); reflexivity.
Qed.
Lemma upd2_comm c a b v a' b' v' : (a <> a' \/ b <> b') ->
  upd2 (upd2 c a b v) a' b' v' = upd2 (upd2 c a' b' v') a b v.
Proof.
  intros N. apply functional_extensionality. intros x. apply functional_extensionality. intros y.
  rewrite !upd2_get.
  destruct (Nat.eqb_spec x a), (Nat.eqb_spec y b), (Nat.eqb_spec x a'), (Nat.eqb_spec y b'); simpl; auto.
  subst. tauto.
Qed.
Lemma upd2_twice c a b v v' : upd2 (upd2 c a b v) a b v' = upd2 c a b v'.
Proof.
  apply functional_extensionality. intros x. apply functional_extensionality. intros y.
  rewrite !upd2_get. destruct ((x =? a) && (y =? b)); reflexivity.
Qed.

Lemma step_det i s t u : step i s t -> step i s u -> t = u.
Proof.
  intros H1 H2. destruct H1 as [s d m k E|s a k m l E F];
    inversion H2 as [s' d' m' k' E'|s' a' k' m' l' E' F']; subst; rewrite E in E'; try discriminate.
  - injection E' as -> -> ->. reflexivity.
  - injection E' as -> ->. rewrite F in F'. injection F' as -> ->. reflexivity.
Qed.

Lemma diamond i j s t u : i <> j -> step i s t -> step j s u -> exists v, step j t v /\ step i u v.
Proof.
  intros N H1 H2. destruct H1 as [s d m k E|s a k m l E F]; inversion H2 as [s' d' m' k' E'|s' a' k' m' l' E' F']; subst.
  - eexists. split.
    + apply step_send. cbn [procs]. rewrite upd_other by auto. exact E'.
    + match goal with |- step i ?x ?y => replace y with
        (Net (upd (procs x) i k) (upd2 (chan x) i d (chan x i d ++ [m]))) end.
      * apply step_send. cbn [procs]. rewrite upd_other by auto. exact E.
      * cbn [procs chan]. f_equal; [apply upd_comm; auto|].
        rewrite !upd2_get. destruct (Nat.eqb_spec i j), (Nat.eqb_spec j i); try congruence. cbn [andb].
        apply upd2_comm. auto.
  - eexists. split.
    + eapply step_recv.
      * cbn [procs]. rewrite upd_other by auto. exact E'.
      * cbn [chan]. rewrite upd2_get.
        instantiate (1 := if (a' =? i) && (j =? d) then l' ++ [m] else l').
        destruct (Nat.eqb_spec a' i) as [->|], (Nat.eqb_spec j d) as [->|]; cbn [andb]; try exact F'.
        rewrite F'. reflexivity.
    + match goal with |- step i ?x ?y => replace y with
        (Net (upd (procs x) i k) (upd2 (chan x) i d (chan x i d ++ [m]))) end.
      * apply step_send. cbn [procs]. rewrite upd_other by auto. exact E.
      * cbn [procs chan]. f_equal; [apply upd_comm; auto|].
        rewrite upd2_get.
        destruct (Nat.eqb_spec a' i) as [->|], (Nat.eqb_spec j d) as [->|]; cbn [andb].
        -- rewrite !Nat.eqb_refl. cbn [andb]. rewrite !upd2_twice. reflexivity.
        -- destruct (Nat.eqb_spec i i), (Nat.eqb_spec d j); try congruence. cbn [andb]. apply upd2_comm. auto.
        -- destruct (Nat.eqb_spec i a'); try congruence. cbn [andb]. apply upd2_comm. auto.
        -- destruct (Nat.eqb_spec i a'); try congruence. cbn [andb]. apply upd2_comm. auto.
  - eexists. split.
    + apply step_send. cbn [procs]. rewrite upd_other by auto. exact E'.
    + match goal with |- step i ?x ?y => replace y with
        (Net (upd (procs x) i (k m)) (upd2 (chan x) a i (if (a =? j) && (i =? d') then l ++ [m'] else l))) end.
      * eapply step_recv.
        -- cbn [procs]. rewrite upd_other by auto. exact E.
        -- cbn [chan]. rewrite upd2_get.
           destruct (Nat.eqb_spec a j) as [->|], (Nat.eqb_spec i d') as [->|]; cbn [andb]; try exact F.
           rewrite F. reflexivity.
      * cbn [procs chan]. f_equal; [apply upd_comm; auto|]. rewrite upd2_get.
        destruct (Nat.eqb_spec a j) as [->|], (Nat.eqb_spec i d') as [->|]; cbn [andb].
        -- rewrite !Nat.eqb_refl. cbn [andb]. rewrite !upd2_twice. reflexivity.
        -- destruct (Nat.eqb_spec j j), (Nat.eqb_spec d' i); try congruence. cbn [andb]. apply upd2_comm. auto.
        -- destruct (Nat.eqb_spec j a); try congruence. cbn [andb]. apply upd2_comm. auto.
        -- destruct (Nat.eqb_spec j a); try congruence. cbn [andb]. apply upd2_comm. auto.
  - eexists. split.
    + eapply step_recv.
      * cbn [procs]. rewrite upd_other by auto. exact E'.
      * cbn [chan]. rewrite upd2_get. instantiate (1 := l').
        destruct (Nat.eqb_spec j i); try congruence. rewrite andb_false_r. exact F'.
    + match goal with |- step i ?x ?y => replace y with
        (Net (upd (procs x) i (k m)) (upd2 (chan x) a i l)) end.
      * eapply step_recv.
        -- cbn [procs]. rewrite upd_other by auto. exact E.
        -- cbn [chan]. rewrite upd2_get. destruct (Nat.eqb_spec i j); try congruence. rewrite andb_false_r. exact F.
      * cbn [procs chan]. f_equal; [apply upd_comm; auto|]. apply upd2_comm. auto.
Qed.

(** One step of any execution stays on the way to the final state. *)
Lemma towards n : forall k s t i s1, steps n k s t -> terminal n t -> i < n -> step i s s1 ->
  exists k', k = S k' /\ steps n k' s1 t.
Proof.
  induction k as [|k IH]; intros s t i s1 H T Hi H1.
  - inversion H; subst. exfalso. exact (T i s1 Hi H1).
  - inversion H as [|j k0 s0 t1 u0 Hj H2 H3]; subst. exists k. split; [reflexivity|].
    destruct (Nat.eq_dec i j) as [->|N].
    + rewrite (step_det j s s1 t1 H1 H2). exact H3.
    + destruct (diamond i j s s1 t1 N H1 H2) as (c & C1 & C2).
      destruct (IH t1 t i c H3 T Hi C2) as (k' & -> & H4).
      eapply steps_cons; [exact Hj|exact C1|exact H4].
Qed.

(** If some execution reaches a terminal state, every execution can be
    completed to that state, and none is longer. *)
Theorem schedule_independent n : forall l k s t s', steps n k s t -> terminal n t ->
  steps n l s s' -> l <= k /\ steps n (k - l) s' t /\ (terminal n s' -> s' = t).
Proof.
  induction l as [|l IH]; intros k s t s' H T H1.
  - inversion H1; subst. rewrite Nat.sub_0_r. split; [lia|]. split; [exact H|].
    intros T'. destruct H as [|i k s' t u Hi H _]; [reflexivity|]. exfalso. exact (T' i t Hi H).
  - inversion H1 as [|i l0 s0 t1 u0 Hi H2 H3]; subst.
    destruct (towards n k s t i t1 H T Hi H2) as (k' & -> & H4).
    destruct (IH k' t1 t s' H4 T H3) as (A & B & C). split; [lia|]. split; [exact B|exact C].
Qed.

(** ** Collective exchanges *)

Definition others (n p : nat) : list nat := filter (fun q => negb (q =? p)) (seq 0 n).

(** For each partner in turn: send, then receive. *)
Fixpoint exchange_pairwise (v : M) (partners : list nat) (acc : list M) (k : list M -> prog) : prog :=
  match partners with
  | [] => k acc
  | q :: r => Send q v (Recv q (fun m => exchange_pairwise v r (acc ++ [m]) k))
  end.

(** Send to all partners, then receive from all partners. *)
Fixpoint send_all (v : M) (partners : list nat) (k : prog) : prog :=
  match partners with
  | [] => k
  | q :: r => Send q v (send_all v r k)
  end.
Fixpoint recv_all (partners : list nat) (acc : list M) (k : list M -> prog) : prog :=
  match partners with
  | [] => k acc
  | q :: r => Recv q (fun m => recv_all r (acc ++ [m]) k)
  end.
Definition exchange_bulk (v : M) (partners : list nat) (k : list M -> prog) : prog :=
  send_all v partners (recv_all partners [] k).

Definition no_messages : nat -> nat -> list M := fun _ _ => [].

Fixpoint partners_in (r : nat) (sched : list (nat * nat)) : list nat :=
  match sched with
  | [] => []
  | (a, b) :: s => if r =? a then b :: partners_in r s else if r =? b then a :: partners_in r s else partners_in r s
  end.

Lemma pairwise_run n (v : nat -> M) (k : nat -> list M -> prog) : forall sched acc tl,
  (forall a b, In (a, b) sched -> a < n /\ b < n /\ a <> b) ->
  exists c, steps n c
    (Net (fun p => exchange_pairwise (v p) (partners_in p sched ++ tl p) (acc p) (k p)) no_messages)
    (Net (fun p => exchange_pairwise (v p) (tl p) (acc p ++ map v (partners_in p sched)) (k p)) no_messages).
Proof.
  induction sched as [|[a b] sched IH]; intros acc tl H.
  - exists 0. simpl. replace (fun p => exchange_pairwise (v p) (tl p) (acc p ++ []) (k p))
      with (fun p => exchange_pairwise (v p) (tl p) (acc p) (k p)); [constructor|].
    apply functional_extensionality. intros p. rewrite app_nil_r. reflexivity.
  - destruct (H a b (or_introl eq_refl)) as (Ha & Hb & N).
    set (acc' := upd (upd acc a (acc a ++ [v b])) b (acc b ++ [v a])).
    destruct (IH acc' tl) as (c & C); [intros; apply H; right; auto|].
    exists (4 + c).
    set (rest := fun p => partners_in p sched ++ tl p) in *.
    set (pr0 := fun p => exchange_pairwise (v p) (partners_in p ((a, b) :: sched) ++ tl p) (acc p) (k p)).
    assert (Ea : pr0 a = Send b (v a) (Recv b (fun m => exchange_pairwise (v a) (rest a) (acc a ++ [m]) (k a)))).
    { unfold pr0. cbn [partners_in]. rewrite Nat.eqb_refl. reflexivity. }
    assert (Eb : pr0 b = Send a (v b) (Recv a (fun m => exchange_pairwise (v b) (rest b) (acc b ++ [m]) (k b)))).
    { unfold pr0. cbn [partners_in]. destruct (Nat.eqb_spec b a); [congruence|]. rewrite Nat.eqb_refl. reflexivity. }
    cbn [plus].
    eapply steps_cons; [exact Ha|apply step_send; exact Ea|].
    eapply steps_cons; [exact Hb|apply step_send; cbn [procs]; rewrite upd_other by auto; exact Eb|].
    eapply steps_cons; [exact Ha| |].
    { eapply step_recv.
      - cbn [procs]. rewrite upd_other by auto. rewrite upd_same. reflexivity.
      - cbn [chan]. unfold no_messages. rewrite !upd2_get, !Nat.eqb_refl. cbn [andb].
        destruct (Nat.eqb_spec b a); [congruence|]. reflexivity. }
    eapply steps_cons; [exact Hb| |].
    { eapply step_recv.
      - cbn [procs]. rewrite upd_other by auto. rewrite upd_same. reflexivity.
      - cbn [chan]. unfold no_messages. rewrite !upd2_get, !Nat.eqb_refl. cbn [andb].
        destruct (Nat.eqb_spec a b); [congruence|]. reflexivity. }
    cbn [procs chan].
    match goal with |- steps n c ?s ?t =>
      replace s with (Net (fun p => exchange_pairwise (v p) (partners_in p sched ++ tl p) (acc' p) (k p)) no_messages);
      [replace t with (Net (fun p => exchange_pairwise (v p) (tl p) (acc' p ++ map v (partners_in p sched)) (k p))
                           no_messages); [exact C|]|] end.
    + f_equal. apply functional_extensionality. intros p. unfold acc'. cbn [partners_in].
      unfold upd. destruct (Nat.eqb_spec p b) as [e1|], (Nat.eqb_spec p a) as [e2|]; try congruence; try subst p;
        cbn [map]; rewrite <- ?app_assoc; reflexivity.
    + f_equal.
      * apply functional_extensionality. intros p. unfold acc', upd, pr0, rest. cbn [partners_in].
        destruct (Nat.eqb_spec p b) as [e1|], (Nat.eqb_spec p a) as [e2|]; try congruence; try subst p; reflexivity.
      * apply functional_extensionality. intros x. apply functional_extensionality. intros y.
        rewrite !upd2_get. unfold no_messages.
        destruct (Nat.eqb_spec x a), (Nat.eqb_spec y b), (Nat.eqb_spec x b), (Nat.eqb_spec y a); cbn [andb]; reflexivity.
Qed.

(** All pairs, in lexicographic order. *)
Definition all_pairs (n : nat) : list (nat * nat) :=
  flat_map (fun a => map (fun b => (a, b)) (seq (S a) (n - S a))) (seq 0 n).

Lemma partners_app r s1 s2 : partners_in r (s1 ++ s2) = partners_in r s1 ++ partners_in r s2.
Proof.
  induction s1 as [|[a b] s1 IH]; [reflexivity|]. cbn [app partners_in]. rewrite IH.
  destruct (r =? a); [reflexivity|]. destruct (r =? b); reflexivity.
Qed.
Lemma partners_row r a l : ~ In a l -> NoDup l ->
  partners_in r (map (fun b => (a, b)) l) = if r =? a then l else if in_dec Nat.eq_dec r l then [a] else [].
Proof.
  intros Ha. induction l as [|b l IH]; intros ND.
  - simpl. destruct (r =? a); reflexivity.
  - inversion ND; subst. cbn [map partners_in]. rewrite IH; [|intros ?; apply Ha; right; auto|auto].
    destruct (Nat.eqb_spec r a) as [->|]; [reflexivity|].
    destruct (Nat.eqb_spec r b) as [->|].
    + destruct (in_dec Nat.eq_dec b l); [tauto|]. destruct (in_dec Nat.eq_dec b (b :: l)) as [|n']; [reflexivity|].
      exfalso. apply n'. left. reflexivity.
    + destruct (in_dec Nat.eq_dec r l), (in_dec Nat.eq_dec r (b :: l)) as [i'|n']; try reflexivity.
      * exfalso. apply n'. right. auto.
      * destruct i'; congruence.
Qed.

Lemma filter_all {A} (f : A -> bool) l : (forall x, In x l -> f x = true) -> filter f l = l.
Proof.
  induction l as [|x l IH]; intros H; [reflexivity|]. simpl. rewrite (H x (or_introl eq_refl)).
  f_equal. apply IH. intros y Hy. apply H. right. exact Hy.
Qed.

Lemma all_pairs_partners n r : r < n -> partners_in r (all_pairs n) = others n r.
Proof.
  intros Hr. unfold all_pairs, others.
  assert (G : forall m, m <= n ->
    partners_in r (flat_map (fun a => map (fun b => (a, b)) (seq (S a) (n - S a))) (seq 0 m)) =
    if r <? m then filter (fun q => negb (q =? r)) (seq 0 n) else filter (fun q => negb (q =? r)) (seq 0 m)).
  { induction m as [|m IH]; intros Hm; [reflexivity|].
    rewrite seq_S, flat_map_app, partners_app, IH by lia. cbn [flat_map Nat.add]. rewrite app_nil_r.
    rewrite partners_row; [|rewrite in_seq; lia|apply seq_NoDup].
    destruct (Nat.ltb_spec r m), (Nat.ltb_spec r (S m)); try lia.
    - destruct (Nat.eqb_spec r m); [lia|].
      destruct (in_dec Nat.eq_dec r (seq (S m) (n - S m))) as [i|]; [apply in_seq in i; lia|].
      apply app_nil_r.
    - assert (r = m) by lia. subst m. rewrite Nat.eqb_refl.
      replace n with (r + (1 + (n - S r))) at 2 by lia. rewrite !seq_app, !filter_app.
      cbn [Nat.add seq filter]. rewrite Nat.eqb_refl. cbn [negb app].
      f_equal. rewrite Nat.add_1_r.
      symmetry. apply filter_all. intros x Hx. apply in_seq in Hx.
      destruct (Nat.eqb_spec x r); [lia|reflexivity].
    - rewrite filter_app. cbn [Nat.add filter].
      destruct (Nat.eqb_spec r m); [lia|]. destruct (Nat.eqb_spec m r); [lia|]. cbn [negb].
      destruct (in_dec Nat.eq_dec r (seq (S m) (n - S m))) as [i|ni]; [reflexivity|].
      exfalso. apply ni. apply in_seq. lia. }
  rewrite G by lia. destruct (Nat.ltb_spec r n); [reflexivity|lia].
Qed.

(** The pairwise exchange gives every process the values of the others. *)
Theorem exchange_pairwise_runs n (v : nat -> M) (k : nat -> list M -> prog) (pr : nat -> prog) :
  (forall p, p < n -> pr p = exchange_pairwise (v p) (others n p) [] (k p)) ->
  exists c pr', steps n c (Net pr no_messages) (Net pr' no_messages) /\
    (forall p, p < n -> pr' p = k p (map v (others n p))) /\ (forall p, n <= p -> pr' p = pr p).
Proof.
  intros H.
  set (k' := fun p => if p <? n then k p else fun _ => pr p).
  destruct (pairwise_run n v k' (all_pairs n) (fun _ => []) (fun _ => [])) as (c & C).
  { intros a b Hi. unfold all_pairs in Hi. apply in_flat_map in Hi as (x & Hx & Hi).
    apply in_map_iff in Hi as (y & E & Hy). injection E as <- <-. apply in_seq in Hx, Hy. lia. }
  assert (Out : forall p, n <= p -> partners_in p (all_pairs n) = []).
  { intros p Hp. unfold all_pairs. 
    assert (G : forall l, (forall a, In a l -> a < n) ->
      partners_in p (flat_map (fun a => map (fun b => (a, b)) (seq (S a) (n - S a))) l) = []).
    { induction l as [|a l IH]; intros Hl; [reflexivity|]. cbn [flat_map]. rewrite partners_app, IH by (intros; apply Hl; right; auto).
      rewrite partners_row; [|rewrite in_seq; lia|apply seq_NoDup].
      assert (a < n) by (apply Hl; left; auto).
      destruct (Nat.eqb_spec p a); [lia|].
      destruct (in_dec Nat.eq_dec p (seq (S a) (n - S a))) as [i|]; [apply in_seq in i; lia|reflexivity]. }
    apply G. intros a Ha. apply in_seq in Ha. lia. }
  eexists c, _. split; [|split].
  - replace pr with (fun p => exchange_pairwise (v p) (partners_in p (all_pairs n) ++ []) [] (k' p)); [exact C|].
    apply functional_extensionality. intros p. rewrite app_nil_r. unfold k'.
    destruct (Nat.ltb_spec p n).
    + rewrite all_pairs_partners by auto. symmetry. apply H. auto.
    + rewrite Out by auto. reflexivity.
  - intros p Hp. cbn [exchange_pairwise app]. rewrite all_pairs_partners by auto. unfold k'.
    destruct (Nat.ltb_spec p n); [reflexivity|lia].
  - intros p Hp. cbn [exchange_pairwise app]. unfold k'. destruct (Nat.ltb_spec p n); [lia|reflexivity].
Qed.

(** Running the sends of one process. *)
Lemma send_all_run n p v k : p < n -> forall l c pr, pr p = send_all v l k -> NoDup l ->
  (forall q, In q l -> c p q = []) ->
  exists z, steps n z (Net pr c)
    (Net (upd pr p k) (fun a b => if (a =? p) && (if in_dec Nat.eq_dec b l then true else false) then [v] else c a b)).
Proof.
  intros Hp. induction l as [|q l IH]; intros c pr E ND He.
  - exists 0. simpl in E. rewrite <- E, upd_id.
    match goal with |- steps _ _ _ (Net _ ?x) => replace x with c; [constructor|] end.
    apply functional_extensionality. intros a. apply functional_extensionality. intros b.
    simpl. rewrite andb_false_r. reflexivity.
  - inversion ND; subst. cbn [send_all] in E.
    destruct (IH (upd2 c p q (c p q ++ [v])) (upd pr p (send_all v l k))) as (z & Z).
    + apply upd_same.
    + assumption.
    + intros q' Hq'. rewrite upd2_get, Nat.eqb_refl. destruct (Nat.eqb_spec q' q); [congruence|].
      apply He. right. exact Hq'.
    + exists (S z). eapply steps_cons; [exact Hp|apply step_send; exact E|]. cbn [procs chan].
      rewrite upd_twice in Z.
      match type of Z with steps _ _ _ (Net _ ?x) => match goal with |- steps _ _ _ (Net _ ?y) => replace y with x; [exact Z|] end end.
      apply functional_extensionality. intros a. apply functional_extensionality. intros b.
      rewrite upd2_get. destruct (Nat.eqb_spec a p) as [->|]; cbn [andb]; [|reflexivity].
      destruct (in_dec Nat.eq_dec b l), (in_dec Nat.eq_dec b (q :: l)) as [i'|n']; try reflexivity.
      * exfalso. apply n'. right. auto.
      * destruct i' as [->|]; [|tauto]. rewrite Nat.eqb_refl. rewrite (He b (or_introl eq_refl)). reflexivity.
      * destruct (Nat.eqb_spec b q); [|reflexivity]. subst. exfalso. apply n'. left. reflexivity.
Qed.

(** Running the receives of one process. *)
Lemma recv_all_run n p (v : nat -> M) : p < n -> forall l c pr acc k, pr p = recv_all l acc k -> NoDup l ->
  (forall q, In q l -> c q p = [v q]) ->
  exists z, steps n z (Net pr c)
    (Net (upd pr p (k (acc ++ map v l)))
         (fun a b => if (b =? p) && (if in_dec Nat.eq_dec a l then true else false) then [] else c a b)).
Proof.
  intros Hp. induction l as [|q l IH]; intros c pr acc k E ND He.
  - exists 0. simpl in E. cbn [map]. rewrite app_nil_r, <- E, upd_id.
    match goal with |- steps _ _ _ (Net _ ?x) => replace x with c; [constructor|] end.
    apply functional_extensionality. intros a. apply functional_extensionality. intros b.
    simpl. rewrite andb_false_r. reflexivity.
  - inversion ND; subst. cbn [recv_all] in E.
    destruct (IH (upd2 c q p []) (upd pr p (recv_all l (acc ++ [v q]) k)) (acc ++ [v q]) k) as (z & Z).
    + apply upd_same.
    + assumption.
    + intros q' Hq'. rewrite upd2_get. destruct (Nat.eqb_spec q' q); [congruence|]. cbn [andb].
      apply He. right. exact Hq'.
    + exists (S z). eapply steps_cons; [exact Hp|eapply step_recv; [exact E|apply He; left; reflexivity]|].
      cbn [procs chan]. rewrite upd_twice in Z. cbn [map].
      rewrite <- app_assoc in Z. cbn [app] in Z.
      match type of Z with steps _ _ _ (Net _ ?x) => match goal with |- steps _ _ _ (Net _ ?y) => replace y with x; [exact Z|] end end.
      apply functional_extensionality. intros a. apply functional_extensionality. intros b.
      rewrite upd2_get. destruct (Nat.eqb_spec b p) as [->|]; cbn [andb]; [|rewrite andb_false_r; reflexivity].
      rewrite andb_true_r.
      destruct (in_dec Nat.eq_dec a l), (in_dec Nat.eq_dec a (q :: l)) as [i'|n']; try reflexivity.
      * exfalso. apply n'. right. auto.
      * destruct i' as [->|]; [|tauto]. rewrite Nat.eqb_refl. reflexivity.
      * destruct (Nat.eqb_spec a q); [|reflexivity]. subst. exfalso. apply n'. left. reflexivity.
Qed.

Lemma others_NoDup n p : NoDup (others n p).
Proof. apply NoDup_filter, seq_NoDup. Qed.
Lemma others_In n p q : In q (others n p) <-> q < n /\ q <> p.
Proof.
  unfold others. rewrite filter_In, in_seq. destruct (Nat.eqb_spec q p); simpl; split; intros; try lia; intuition congruence.
Qed.

(** Sending to all and then receiving from all gives every process the values
    of the others. *)
Theorem exchange_bulk_runs n (v : nat -> M) (k : nat -> list M -> prog) (pr : nat -> prog) :
  (forall p, p < n -> pr p = exchange_bulk (v p) (others n p) (k p)) ->
  exists c pr', steps n c (Net pr no_messages) (Net pr' no_messages) /\
    (forall p, p < n -> pr' p = k p (map v (others n p))) /\ (forall p, n <= p -> pr' p = pr p).
Proof.
  intros H.
  (* after the first m processes have sent *)
  assert (S1 : forall m, m <= n -> exists c, steps n c (Net pr no_messages)
    (Net (fun p => if p <? m then recv_all (others n p) [] (k p) else pr p)
         (fun a b => if (a <? m) && (b <? n) && negb (b =? a) then [v a] else []))).
  { induction m as [|m IH]; intros Hm.
    - exists 0. constructor.
    - destruct IH as (c & C); [lia|].
      destruct (send_all_run n m (v m) (recv_all (others n m) [] (k m)) ltac:(lia) (others n m)
        (fun a b => if (a <? m) && (b <? n) && negb (b =? a) then [v a] else [])
        (fun p => if p <? m then recv_all (others n p) [] (k p) else pr p)) as (z & Z).
      + destruct (Nat.ltb_spec m m); [lia|]. apply H. lia.
      + apply others_NoDup.
      + intros q _. destruct (Nat.ltb_spec m m); [lia|]. reflexivity.
      + exists (c + z). eapply steps_trans; [exact C|].
        match type of Z with steps _ _ _ ?x => match goal with |- steps _ _ _ ?y => replace y with x; [exact Z|] end end.
        f_equal.
        * apply functional_extensionality. intros p. unfold upd.
          destruct (Nat.eqb_spec p m) as [e|], (Nat.ltb_spec p m), (Nat.ltb_spec p (S m));
            try lia; try subst p; reflexivity.
        * apply functional_extensionality. intros a. apply functional_extensionality. intros b.
          destruct (in_dec Nat.eq_dec b (others n m)) as [i|ni]; rewrite others_In in *.
          -- destruct (Nat.eqb_spec a m) as [->|].
             ++ destruct (Nat.ltb_spec m (S m)), (Nat.ltb_spec b n), (Nat.eqb_spec b m); try lia. reflexivity.
             ++ destruct (Nat.ltb_spec a (S m)), (Nat.ltb_spec a m); try lia; reflexivity.
          -- destruct (Nat.eqb_spec a m) as [->|]; cbn [andb].
             ++ destruct (Nat.ltb_spec m (S m)), (Nat.ltb_spec m m), (Nat.ltb_spec b n), (Nat.eqb_spec b m);
                  try lia; reflexivity.
             ++ destruct (Nat.ltb_spec a (S m)), (Nat.ltb_spec a m); try lia; reflexivity. }
  (* after the first m processes have received *)
  assert (S2 : forall m, m <= n -> exists c, steps n c
    (Net (fun p => if p <? n then recv_all (others n p) [] (k p) else pr p)
         (fun a b => if (a <? n) && (b <? n) && negb (b =? a) then [v a] else []))
    (Net (fun p => if p <? m then k p (map v (others n p)) else
                   if p <? n then recv_all (others n p) [] (k p) else pr p)
         (fun a b => if (m <=? b) && (a <? n) && (b <? n) && negb (b =? a) then [v a] else []))).
  { induction m as [|m IH]; intros Hm.
    - exists 0. constructor.
    - destruct IH as (c & C); [lia|].
      destruct (recv_all_run n m v ltac:(lia) (others n m)
        (fun a b => if (m <=? b) && (a <? n) && (b <? n) && negb (b =? a) then [v a] else [])
        (fun p => if p <? m then k p (map v (others n p)) else
                   if p <? n then recv_all (others n p) [] (k p) else pr p) [] (k m)) as (z & Z).
      + destruct (Nat.ltb_spec m m), (Nat.ltb_spec m n); try lia. reflexivity.
      + apply others_NoDup.
      + intros q Hq. apply others_In in Hq.
        destruct (Nat.leb_spec m m), (Nat.ltb_spec q n), (Nat.ltb_spec m n), (Nat.eqb_spec m q); try lia. reflexivity.
      + exists (c + z). eapply steps_trans; [exact C|]. cbn [app] in Z.
        match type of Z with steps _ _ _ ?x => match goal with |- steps _ _ _ ?y => replace y with x; [exact Z|] end end.
        f_equal.
        * apply functional_extensionality. intros p. unfold upd.
          destruct (Nat.eqb_spec p m) as [e|], (Nat.ltb_spec p m), (Nat.ltb_spec p (S m));
            try lia; try subst p; reflexivity.
        * apply functional_extensionality. intros a. apply functional_extensionality. intros b.
          destruct (in_dec Nat.eq_dec a (others n m)) as [i|ni]; rewrite others_In in *.
          -- destruct (Nat.eqb_spec b m) as [->|].
             ++ destruct (Nat.leb_spec (S m) m); try lia. reflexivity.
             ++ destruct (Nat.leb_spec (S m) b), (Nat.leb_spec m b); try lia; reflexivity.
          -- destruct (Nat.eqb_spec b m) as [->|]; cbn [andb].
             ++ destruct (Nat.leb_spec (S m) m), (Nat.leb_spec m m), (Nat.ltb_spec a n), (Nat.ltb_spec m n),
                  (Nat.eqb_spec m a); try lia; reflexivity.
             ++ destruct (Nat.leb_spec (S m) b), (Nat.leb_spec m b); try lia; reflexivity. }
  destruct (S1 n (le_n n)) as (c1 & C1). destruct (S2 n (le_n n)) as (c2 & C2).
  exists (c1 + c2). eexists. split; [|split].
  - eapply steps_trans; [exact C1|].
    match type of C2 with steps _ _ _ (Net ?pp ?x) => replace no_messages with x; [exact C2|] end.
    apply functional_extensionality. intros a. apply functional_extensionality. intros b. unfold no_messages.
    destruct (Nat.leb_spec n b), (Nat.ltb_spec b n); try lia; cbn [andb]; rewrite ?andb_false_r; reflexivity.
  - intros p Hp. cbn beta. destruct (Nat.ltb_spec p n); [reflexivity|lia].
  - intros p Hp. cbn beta. destruct (Nat.ltb_spec p n); [lia|reflexivity].
Qed.

Lemma all_ret_terminal n s (res : nat -> R) : (forall p, p < n -> procs s p = Ret (res p)) -> terminal n s.
Proof. intros H i t Hi St. specialize (H i Hi). destruct St; congruence. Qed.

(** If one execution ends with process [p] returning [res p], then every
    execution is finite and, when nothing more can run, every process has
    returned the same result. *)
Theorem every_schedule n s (res : nat -> R) k t : steps n k s t -> (forall p, p < n -> procs t p = Ret (res p)) ->
  forall l s', steps n l s s' -> l <= k /\ (terminal n s' -> forall p, p < n -> procs s' p = Ret (res p)).
Proof.
  intros H F l s' H'. destruct (schedule_independent n l k s t s' H (all_ret_terminal n t res F) H') as (A & _ & B).
  split; [exact A|]. intros T p Hp. rewrite (B T). apply F, Hp.
Qed.
End Kahn.
Arguments Ret {M R}. Arguments Fail {M R}. Arguments Send {M R}. Arguments Recv {M R}.
Arguments Net {M R}. Arguments procs {M R}. Arguments chan {M R}. Arguments no_messages {M}.
Arguments step {M R}. Arguments steps {M R}. Arguments terminal {M R}.
Arguments exchange_pairwise {M R}. Arguments exchange_bulk {M R}.
