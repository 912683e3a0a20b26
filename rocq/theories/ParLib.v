(** Parallel loops over shared memory.  The iterations of the loop are
    programs that read and write shared locations one access at a time; an
    execution interleaves their accesses in an arbitrary order.  If no
    iteration writes a location that another iteration accesses, every
    execution ends, and all of them end in the memory and with the results of
    the sequential loop.

    An OpenMP [parallel for] gives each thread some of the iterations, which
    the thread runs in turn: its executions are among the ones considered
    here.

    For loops in which iterations read what others write, [rely_guarantee]
    bounds what they can read. *)
From Coq Require Import List Arith Lia Bool.
From Verif Require Import ArrayLib.
Import ListNotations.

Section Par.
Variables loc val A : Type.
Variable eqb : loc -> loc -> bool.
Hypothesis eqb_spec : forall x y, reflect (x = y) (eqb x y).

Inductive prog :=
| Ret (a : A)
| Rd (l : loc) (k : val -> prog)
| Wr (l : loc) (v : val) (p : prog).

Definition mem := loc -> val.
Definition put (m : mem) (l : loc) (v : val) : mem := fun x => if eqb x l then v else m x.

(** One access of iteration [i]. *)
Inductive step (i : nat) : mem * (nat -> prog) -> mem * (nat -> prog) -> Prop :=
| step_rd : forall m ps l k, ps i = Rd l k -> step i (m, ps) (m, upd ps i (k (m l)))
| step_wr : forall m ps l v p, ps i = Wr l v p -> step i (m, ps) (put m l v, upd ps i p).

(** Executions of [n] iterations, with their number of accesses. *)
Inductive steps (n : nat) : nat -> mem * (nat -> prog) -> mem * (nat -> prog) -> Prop :=
| steps_refl : forall s, steps n 0 s s
| steps_snoc : forall i c s t u, steps n c s t -> i < n -> step i t u -> steps n (S c) s u.

Definition finished (n : nat) (ps : nat -> prog) : Prop := forall i, i < n -> exists a, ps i = Ret a.

(** The iteration run alone. *)
Fixpoint alone (p : prog) (m : mem) : mem * A :=
  match p with
  | Ret a => (m, a)
  | Rd l k => alone (k (m l)) m
  | Wr l v p => alone p (put m l v)
  end.

(** The loop run sequentially. *)
Fixpoint sequential (ps : list prog) (m : mem) : mem * list A :=
  match ps with
  | [] => (m, [])
  | p :: ps => let '(m1, a) := alone p m in let '(m2, r) := sequential ps m1 in (m2, a :: r)
  end.

(** Accesses of the iteration run alone. *)
Inductive event := ERd (l : loc) | EWr (l : loc) (v : val).
Fixpoint trace (p : prog) (m : mem) : list event :=
  match p with
  | Ret _ => []
  | Rd l k => ERd l :: trace (k (m l)) m
  | Wr l v p => EWr l v :: trace p (put m l v)
  end.
Definition event_loc (e : event) : loc := match e with ERd l => l | EWr l _ => l end.
Definition is_write (l : loc) (e : event) : bool := match e with EWr x _ => eqb x l | _ => false end.
Definition writes (l : loc) (t : list event) : bool := existsb (is_write l) t.

(** No iteration writes what another one reads or writes. *)
Definition race_free (n : nat) (ps : nat -> prog) (m : mem) : Prop :=
  forall i j l, i < n -> j < n -> i <> j -> writes l (trace (ps i) m) = true ->
  ~ In l (map event_loc (trace (ps j) m)).

(** Memory after the writes of a trace. *)
Fixpoint apply (t : list event) (m : mem) : mem :=
  match t with
  | [] => m
  | ERd _ :: t => apply t m
  | EWr l v :: t => apply t (put m l v)
  end.

Lemma apply_app t u m : apply (t ++ u) m = apply u (apply t m).
Proof. revert m. induction t as [|[l|l v] t IH]; intros; simpl; auto. Qed.
Lemma alone_apply p m : fst (alone p m) = apply (trace p m) m.
Proof. revert m. induction p; intros; simpl; auto. Qed.
Lemma put_same m l v : put m l v l = v.
Proof. unfold put. destruct (eqb_spec l l); congruence. Qed.
Lemma put_other m l v x : x <> l -> put m l v x = m x.
Proof. unfold put. destruct (eqb_spec x l); congruence. Qed.
Lemma apply_unwritten t m l : writes l t = false -> apply t m l = m l.
Proof.
  revert m. induction t as [|[x|x v] t IH]; intros m H; simpl in *; auto.
  apply orb_false_iff in H as [H1 H2]. rewrite IH by exact H2. apply put_other.
  destruct (eqb_spec x l); congruence.
Qed.
Lemma writes_app l t u : writes l (t ++ u) = writes l t || writes l u.
Proof. apply existsb_app. Qed.
Lemma writes_In l t : writes l t = true -> In l (map event_loc t).
Proof.
  unfold writes. rewrite existsb_exists. intros (e & He & W). apply in_map_iff. exists e. split; auto.
  destruct e as [x|x v]; simpl in *; [discriminate|]. destruct (eqb_spec x l); congruence.
Qed.

(** What is known of a reachable state. *)
Definition progress (n : nat) (ps0 : nat -> prog) (m0 : mem) (c : nat) (s : mem * (nat -> prog)) : Prop :=
  exists done : nat -> list event,
    (forall i, i < n -> trace (ps0 i) m0 = done i ++ trace (snd s i) (apply (done i) m0) /\
       snd (alone (ps0 i) m0) = snd (alone (snd s i) (apply (done i) m0))) /\
    (forall i l, i < n -> writes l (done i) = true -> fst s l = apply (done i) m0 l) /\
    (forall l, (forall i, i < n -> writes l (done i) = false) -> fst s l = m0 l) /\
    c = list_sum (map (fun i => length (done i)) (seq 0 n)).

Lemma sum_upd n i (f : nat -> nat) : i < n ->
  list_sum (map (fun j => if j =? i then S (f j) else f j) (seq 0 n)) = S (list_sum (map f (seq 0 n))).
Proof.
  intros H. assert (G : forall a b, list_sum (map (fun j => if j =? i then S (f j) else f j) (seq a b)) =
    (if (a <=? i) && (i <? a + b) then 1 else 0) + list_sum (map f (seq a b))).
  { intros a b. revert a. induction b as [|b IH]; intros a.
    - cbn [seq map list_sum fold_right]. destruct (Nat.leb_spec a i), (Nat.ltb_spec i (a + 0)); cbn [andb]; lia.
    - cbn [seq map list_sum fold_right]. fold (list_sum (map (fun j => if j =? i then S (f j) else f j) (seq (S a) b))).
      fold (list_sum (map f (seq (S a) b))). rewrite IH.
      destruct (Nat.eqb_spec a i), (Nat.leb_spec a i), (Nat.leb_spec (S a) i), (Nat.ltb_spec i (a + S b)),
        (Nat.ltb_spec i (S a + b)); cbn [andb]; lia. }
  rewrite G. destruct (Nat.leb_spec 0 i), (Nat.ltb_spec i (0 + n)); cbn [andb]; lia.
Qed.

Lemma progress_steps n ps0 m0 c s : race_free n ps0 m0 -> steps n c (m0, ps0) s -> progress n ps0 m0 c s.
Proof.
  intros RF H. remember (m0, ps0) as s0 eqn:E. induction H as [s|i c s t u H IH Hi St]; subst.
  - exists (fun _ => []). simpl. repeat split; auto; try discriminate.
    induction (seq 0 n); simpl; auto.
  - destruct (IH eq_refl) as (done & D1 & D2 & D3 & D4). clear IH H.
    inversion St as [m ps l k Ep|m ps l v p Ep]; subst; cbn [fst snd] in *.
    + destruct (D1 i Hi) as [T1 T2]. rewrite Ep in T1, T2. cbn [trace alone] in T1, T2.
      assert (V : m l = apply (done i) m0 l).
      { destruct (writes l (done i)) eqn:W; [apply D2; auto|].
        rewrite (apply_unwritten _ _ _ W). apply D3. intros j Hj.
        destruct (Nat.eq_dec j i) as [->|N]; auto.
        destruct (writes l (done j)) eqn:Wj; auto. exfalso.
        apply (RF j i l Hj Hi N).
        - destruct (D1 j Hj) as [-> _]. rewrite writes_app, Wj. reflexivity.
        - rewrite T1, map_app. apply in_or_app. right. simpl. auto. }
      exists (upd done i (done i ++ [ERd l])). cbn [fst snd]. refine (conj _ (conj _ (conj _ _))).
      * intros j Hj. destruct (Nat.eq_dec j i) as [->|N].
        -- rewrite !upd_same, apply_app. cbn [apply]. rewrite V. rewrite <- app_assoc. simpl. auto.
        -- rewrite !upd_other by auto. auto.
      * intros j x Hj Hw. destruct (Nat.eq_dec j i) as [->|N].
        -- rewrite upd_same in *. rewrite writes_app in Hw. cbn in Hw. rewrite orb_false_r in Hw.
           rewrite apply_app. cbn [apply]. auto.
        -- rewrite upd_other in * by auto. auto.
      * intros x Hx. apply D3. intros j Hj. specialize (Hx j Hj). destruct (Nat.eq_dec j i) as [->|N].
        -- rewrite upd_same, writes_app in Hx. apply orb_false_iff in Hx. tauto.
        -- rewrite upd_other in Hx by auto. auto.
      * rewrite <- (sum_upd n i) by auto. f_equal. apply map_ext_in. intros j _. unfold upd.
        destruct (Nat.eqb_spec j i) as [->|]; [rewrite app_length; simpl; lia|reflexivity].
    + destruct (D1 i Hi) as [T1 T2]. rewrite Ep in T1, T2. cbn [trace alone] in T1, T2.
      exists (upd done i (done i ++ [EWr l v])). cbn [fst snd]. refine (conj _ (conj _ (conj _ _))).
      * intros j Hj. destruct (Nat.eq_dec j i) as [->|N].
        -- rewrite !upd_same, apply_app. cbn [apply]. rewrite <- app_assoc. simpl. auto.
        -- rewrite !upd_other by auto. auto.
      * intros j x Hj Hw. destruct (Nat.eq_dec j i) as [->|N].
        -- rewrite upd_same in *. rewrite writes_app in Hw. rewrite apply_app. cbn [apply].
           destruct (eqb_spec x l) as [->|Nx]; [rewrite !put_same; reflexivity|].
           rewrite !put_other by auto. apply D2; auto.
           cbn in Hw. destruct (eqb_spec l x); [congruence|]. rewrite !orb_false_r in Hw. exact Hw.
        -- rewrite upd_other in * by auto. rewrite put_other; auto. intros ->.
           apply (RF j i l Hj Hi N).
           ++ destruct (D1 j Hj) as [-> _]. rewrite writes_app, Hw. reflexivity.
           ++ rewrite T1, map_app. apply in_or_app. right. simpl. auto.
      * intros x Hx. assert (Nx : x <> l).
        { intros ->. specialize (Hx i Hi). rewrite upd_same, writes_app in Hx. cbn in Hx.
          destruct (eqb_spec l l); [|congruence]. rewrite orb_true_r in Hx. discriminate. }
        rewrite put_other by auto. apply D3. intros j Hj. specialize (Hx j Hj).
        destruct (Nat.eq_dec j i) as [->|N].
        -- rewrite upd_same, writes_app in Hx. apply orb_false_iff in Hx. tauto.
        -- rewrite upd_other in Hx by auto. auto.
      * rewrite <- (sum_upd n i) by auto. f_equal. apply map_ext_in. intros j _. unfold upd.
        destruct (Nat.eqb_spec j i) as [->|]; [rewrite app_length; simpl; lia|reflexivity].
Qed.

(** The number of accesses of the whole loop. *)
Definition total (n : nat) (ps : nat -> prog) (m : mem) : nat :=
  list_sum (map (fun i => length (trace (ps i) m)) (seq 0 n)).

Lemma list_sum_le (f h : nat -> nat) l : (forall i, In i l -> f i <= h i) -> list_sum (map f l) <= list_sum (map h l).
Proof.
  intros H. induction l as [|a l IH]; simpl; auto.
  specialize (H a (or_introl eq_refl)) as Ha. specialize (IH (fun i Hi => H i (or_intror Hi))). unfold list_sum in *. lia.
Qed.

(** Every execution has at most [total] accesses ... *)
Theorem execution_bounded n ps m c s : race_free n ps m -> steps n c (m, ps) s -> c <= total n ps m.
Proof.
  intros RF H. destruct (progress_steps _ _ _ _ _ RF H) as (done & D1 & _ & _ & ->).
  apply list_sum_le. intros i Hi. apply in_seq in Hi. destruct (D1 i ltac:(lia)) as [-> _].
  rewrite app_length. lia.
Qed.
(** ... and can go on until all the iterations are finished. *)
Theorem execution_continues n (s : mem * (nat -> prog)) :
  finished n (snd s) \/ exists i t, i < n /\ step i s t.
Proof.
  destruct s as [m ps]. cbn [snd]. unfold finished. induction n as [|n IH].
  - left. intros i Hi. lia.
  - destruct IH as [IH|(i & t & Hi & St)]; [|right; exists i, t; split; [lia|exact St]].
    destruct (ps n) as [a|l k|l v p] eqn:E.
    + left. intros i Hi. destruct (Nat.eq_dec i n) as [->|N]; [eauto|apply IH; lia].
    + right. exists n, (m, upd ps n (k (m l))). split; [lia|]. constructor. exact E.
    + right. exists n, (put m l v, upd ps n p). split; [lia|]. constructor. exact E.
Qed.

(** All finished executions agree with each iteration run alone. *)
Theorem race_free_result n ps m c m' ps' :
  race_free n ps m -> steps n c (m, ps) (m', ps') -> finished n ps' ->
  (forall i, i < n -> ps' i = Ret (snd (alone (ps i) m))) /\
  (forall i l, i < n -> writes l (trace (ps i) m) = true -> m' l = fst (alone (ps i) m) l) /\
  (forall l, (forall i, i < n -> writes l (trace (ps i) m) = false) -> m' l = m l).
Proof.
  intros RF H F. destruct (progress_steps _ _ _ _ _ RF H) as (done & D1 & D2 & D3 & _). cbn [fst snd] in *.
  assert (E : forall i, i < n -> trace (ps i) m = done i /\ ps' i = Ret (snd (alone (ps i) m))).
  { intros i Hi. destruct (D1 i Hi) as [T1 T2]. destruct (F i Hi) as [a Ea].
    rewrite Ea in *. cbn in T1, T2. rewrite app_nil_r in T1. split; congruence. }
  refine (conj _ (conj _ _)).
  - intros i Hi. apply E. exact Hi.
  - intros i l Hi W. destruct (E i Hi) as [Et _]. rewrite Et in W. rewrite (D2 i l Hi W), alone_apply, Et.
    reflexivity.
  - intros l W. apply D3. intros i Hi. destruct (E i Hi) as [<- _]. auto.
Qed.

(** ** The sequential loop is one of the executions *)

Lemma steps_trans n a b s t u : steps n a s t -> steps n b t u -> steps n (a + b) s u.
Proof.
  intros H H2. revert H. induction H2 as [s'|i c s' t' u' H' IH Hi St]; intros H; [rewrite Nat.add_0_r; exact H|].
  replace (a + S c) with (S (a + c)) by lia. econstructor; eauto.
Qed.

Lemma upd_upd {X} (f : nat -> X) i a b j : upd (upd f i a) i b j = upd f i b j.
Proof. unfold upd. destruct (j =? i); reflexivity. Qed.

Lemma run_alone n i p : forall m ps, i < n -> ps i = p ->
  exists c ps', steps n c (m, ps) (fst (alone p m), ps') /\ ps' i = Ret (snd (alone p m)) /\
    forall j, j <> i -> ps' j = ps j.
Proof.
  induction p as [a|l k IH|l v p IH]; intros m ps Hi E; simpl.
  - exists 0, ps. repeat split; auto. constructor.
  - destruct (IH (m l) m (upd ps i (k (m l))) Hi (upd_same _ _ _)) as (c & ps' & S1 & S2 & S3).
    exists (1 + c), ps'. repeat split; auto.
    + eapply steps_trans; [|exact S1]. eapply steps_snoc; [constructor|exact Hi|]. constructor. exact E.
    + intros j N. rewrite S3 by auto. apply upd_other. auto.
  - destruct (IH (put m l v) (upd ps i p) Hi (upd_same _ _ _)) as (c & ps' & S1 & S2 & S3).
    exists (1 + c), ps'. repeat split; auto.
    + eapply steps_trans; [|exact S1]. eapply steps_snoc; [constructor|exact Hi|]. constructor. exact E.
    + intros j N. rewrite S3 by auto. apply upd_other. auto.
Qed.

(** The first accesses of an iteration. *)
Fixpoint advance (j : nat) (p : prog) (m : mem) : mem * prog :=
  match j, p with
  | S j, Rd l k => advance j (k (m l)) m
  | S j, Wr l v p => advance j p (put m l v)
  | _, _ => (m, p)
  end.
Lemma run_advance n i j : forall p m ps, i < n -> ps i = p ->
  exists c ps', steps n c (m, ps) (fst (advance j p m), ps') /\ ps' i = snd (advance j p m) /\
    forall k, k <> i -> ps' k = ps k.
Proof.
  induction j as [|j IH]; intros p m ps Hi E; [exists 0, ps; repeat split; auto; constructor|].
  destruct p as [a|l k|l v p]; cbn [advance].
  - exists 0, ps. repeat split; auto. constructor.
  - destruct (IH (k (m l)) m (upd ps i (k (m l))) Hi (upd_same _ _ _)) as (c & ps' & S1 & S2 & S3).
    exists (1 + c), ps'. repeat split; auto.
    + eapply steps_trans; [|exact S1]. eapply steps_snoc; [constructor|exact Hi|]. constructor. exact E.
    + intros x N. rewrite S3 by auto. apply upd_other. auto.
  - destruct (IH p (put m l v) (upd ps i p) Hi (upd_same _ _ _)) as (c & ps' & S1 & S2 & S3).
    exists (1 + c), ps'. repeat split; auto.
    + eapply steps_trans; [|exact S1]. eapply steps_snoc; [constructor|exact Hi|]. constructor. exact E.
    + intros x N. rewrite S3 by auto. apply upd_other. auto.
Qed.

Lemma sequential_reachable n : forall len a m ps, a + len <= n ->
  exists c ps', steps n c (m, ps) (fst (sequential (map ps (seq a len)) m), ps') /\
    (forall j, a <= j < a + len -> ps' j = nth (j - a) (map Ret (snd (sequential (map ps (seq a len)) m))) (ps j)) /\
    (forall j, ~ a <= j < a + len -> ps' j = ps j).
Proof.
  induction len as [|len IH]; intros a m ps H.
  - exists 0, ps. cbn [seq map sequential fst]. refine (conj (steps_refl _ _) (conj _ _)); [intros; lia|auto].
  - destruct (run_alone n a (ps a) m ps ltac:(lia) eq_refl) as (c & ps1 & S1 & S2 & S3).
    destruct (IH (S a) (fst (alone (ps a) m)) ps1 ltac:(lia)) as (c' & ps2 & T1 & T2 & T3).
    assert (E : map ps1 (seq (S a) len) = map ps (seq (S a) len)).
    { apply map_ext_in. intros j Hj. apply in_seq in Hj. apply S3. lia. }
    rewrite E in *. exists (c + c'), ps2. cbn [seq map sequential].
    destruct (alone (ps a) m) as [m1 r1] eqn:E1. cbn [fst snd] in *.
    destruct (sequential (map ps (seq (S a) len)) m1) as [m2 rs] eqn:E2. cbn [fst snd map] in *.
    refine (conj _ (conj _ _)).
    + eapply steps_trans; eauto.
    + intros j Hj. destruct (Nat.eq_dec j a) as [->|N].
      * rewrite T3 by lia. rewrite Nat.sub_diag. cbn. exact S2.
      * rewrite T2 by lia. replace (j - a) with (S (j - S a)) by lia. cbn [nth]. rewrite S3 by auto. reflexivity.
    + intros j Hj. rewrite T3 by lia. apply S3. lia.
Qed.

Lemma sequential_length ps m : length (snd (sequential ps m)) = length ps.
Proof.
  revert m. induction ps as [|p ps IH]; intros m; simpl; auto.
  destruct (alone p m) as [m1 a]. specialize (IH m1). destruct (sequential ps m1). simpl in *. auto.
Qed.

Lemma sequential_execution n ps m :
  exists c ps', steps n c (m, ps) (fst (sequential (map ps (seq 0 n)) m), ps') /\ finished n ps'.
Proof.
  destruct (sequential_reachable n n 0 m ps (le_n _)) as (c & ps' & S1 & S2 & _).
  exists c, ps'. split; [exact S1|]. intros i Hi. rewrite S2 by lia. rewrite Nat.sub_0_r.
  destruct (nth_error (snd (sequential (map ps (seq 0 n)) m)) i) as [a|] eqn:E.
  - exists a. erewrite nth_error_nth; [reflexivity|]. rewrite nth_error_map, E. reflexivity.
  - apply nth_error_None in E. rewrite sequential_length, map_length, seq_length in E. lia.
Qed.

(** Every finished execution of a race free loop ends like the sequential
    loop. *)
Theorem race_free_sequential n ps m c m' ps' :
  race_free n ps m -> steps n c (m, ps) (m', ps') -> finished n ps' ->
  (forall l, m' l = fst (sequential (map ps (seq 0 n)) m) l) /\
  (forall i, i < n -> nth_error (snd (sequential (map ps (seq 0 n)) m)) i = Some (snd (alone (ps i) m)) /\
                      ps' i = Ret (snd (alone (ps i) m))).
Proof.
  intros RF H F.
  destruct (sequential_reachable n n 0 m ps ltac:(lia)) as (c2 & ps2 & S1 & S2 & _).
  assert (L : length (snd (sequential (map ps (seq 0 n)) m)) = n).
  { rewrite sequential_length, map_length, seq_length. reflexivity. }
  assert (F2 : finished n ps2).
  { intros i Hi. rewrite S2 by lia. rewrite Nat.sub_0_r.
    destruct (nth_error (snd (sequential (map ps (seq 0 n)) m)) i) as [a|] eqn:E.
    - exists a. erewrite nth_error_nth; [reflexivity|]. rewrite nth_error_map, E. reflexivity.
    - apply nth_error_None in E. lia. }
  destruct (race_free_result _ _ _ _ _ _ RF H F) as (A1 & A2 & A3).
  destruct (race_free_result _ _ _ _ _ _ RF S1 F2) as (B1 & B2 & B3).
  split.
  - intros l. destruct (existsb (fun i => writes l (trace (ps i) m)) (seq 0 n)) eqn:E.
    + apply existsb_exists in E as (i & Hi & W). apply in_seq in Hi.
      rewrite (A2 i l) by (auto; lia). rewrite (B2 i l) by (auto; lia). reflexivity.
    + assert (N : forall i, i < n -> writes l (trace (ps i) m) = false).
      { intros i Hi. destruct (writes l (trace (ps i) m)) eqn:W; auto. exfalso.
        rewrite <- not_true_iff_false in E. apply E. apply existsb_exists. exists i. split; auto. apply in_seq. lia. }
      rewrite (A3 l N), (B3 l N). reflexivity.
  - intros i Hi. split; [|apply A1; exact Hi].
    specialize (S2 i ltac:(lia)). rewrite B1 in S2 by exact Hi. rewrite Nat.sub_0_r in S2.
    destruct (nth_error (snd (sequential (map ps (seq 0 n)) m)) i) as [a|] eqn:E.
    + erewrite nth_error_nth in S2 by (rewrite nth_error_map, E; reflexivity). congruence.
    + apply nth_error_None in E. lia.
Qed.

(** ** Rely and guarantee *)

(** Every location has an owner, the only iteration that may write it, and a
    set of values that are ever stored in it.  An iteration knows exactly the
    contents of its own locations, and that the others hold one of their
    possible values. *)
Variable owner : loc -> nat.
Variable possible : loc -> val -> Prop.
Variable goal : nat -> A -> mem -> Prop.

Fixpoint safe (i : nat) (p : prog) (m : mem) : Prop :=
  match p with
  | Ret a => goal i a m
  | Rd l k => if owner l =? i then safe i (k (m l)) m else forall v, possible l v -> safe i (k v) m
  | Wr l v p => owner l = i /\ possible l v /\ safe i p (put m l v)
  end.

Theorem rely_guarantee n ps m c m' ps' :
  (forall l, possible l (m l)) -> (forall i, i < n -> safe i (ps i) m) ->
  steps n c (m, ps) (m', ps') -> finished n ps' ->
  forall i, i < n -> exists a mi, ps' i = Ret a /\ goal i a mi /\ forall l, owner l = i -> m' l = mi l.
Proof.
  intros P0 S0 H F.
  assert (Inv : forall c s, steps n c (m, ps) s -> (forall l, possible l (fst s l)) /\
    forall i, i < n -> exists mi, safe i (snd s i) mi /\ forall l, owner l = i -> fst s l = mi l).
  { clear H F. intros d s H. remember (m, ps) as s0 eqn:E0. induction H as [s|i d s t u H IH Hi St]; subst.
    - cbn [fst snd]. split; auto. intros i Hi. exists m. auto.
    - destruct (IH eq_refl) as [IP IS]. clear IH. inversion St as [m1 ps1 l k Ep|m1 ps1 l v p Ep]; subst; cbn [fst snd] in *.
      + split; auto. intros j Hj. destruct (IS j Hj) as (mj & Sj & Oj). exists mj. split; auto.
        destruct (Nat.eq_dec j i) as [->|N]; [|rewrite upd_other by auto; auto].
        rewrite upd_same. rewrite Ep in Sj. cbn [safe] in Sj. destruct (Nat.eqb_spec (owner l) i) as [O|O]; [|auto].
        rewrite (Oj l O). exact Sj.
      + destruct (IS i Hi) as (mi & Si & Oi). rewrite Ep in Si. cbn [safe] in Si. destruct Si as (O & Pv & Si). split.
        * intros x. unfold put. destruct (eqb_spec x l) as [->|]; auto.
        * intros j Hj. destruct (Nat.eq_dec j i) as [->|N].
          -- exists (put mi l v). rewrite upd_same. split; auto. intros x Ox. unfold put. destruct (eqb x l); auto.
          -- destruct (IS j Hj) as (mj & Sj & Oj). exists mj. rewrite upd_other by auto. split; auto.
             intros x Ox. rewrite put_other; [auto|]. intros ->. congruence. }
  intros i Hi. destruct (Inv _ _ H) as [_ IS]. destruct (IS i Hi) as (mi & Si & Oi). cbn [fst snd] in *.
  destruct (F i Hi) as [a Ea]. rewrite Ea in Si. exists a, mi. auto.
Qed.
End Par.

Arguments Ret {loc val A}. Arguments Rd {loc val A}. Arguments Wr {loc val A}.
Arguments put {loc val}. Arguments alone {loc val A}. Arguments sequential {loc val A}.
Arguments trace {loc val A}. Arguments writes {loc val}. Arguments race_free {loc val A}.
Arguments steps {loc val A}. Arguments step {loc val A}. Arguments finished {loc val A}. Arguments total {loc val A}.
Arguments event_loc {loc val}. Arguments safe {loc val A}. Arguments advance {loc val A}.
