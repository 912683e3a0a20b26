(** Invariant of the ghost exchange. *)
From Coq Require Import List Arith Lia Bool FinFun.
From Verif Require Import ArrayLib GhostModel.
Import ListNotations.

Definition rank (o : op) : nat :=
  match o with
  | Enter => 0 | Fill _ => 1 | PostRecv _ => 2 | PostSend _ => 3 | WaitRecvs => 4
  | WaitSends => 5 | Put _ => 6 | Compute => 7 | Barrier => 8
  end.

Definition fin (o : op) (l : list op) : nat := if in_dec op_dec o l then 0 else 1.

Lemma set2_get {A} (f : nat -> nat -> A) a b v x y :
  set2 f a b v x y = if (x =? a) && (y =? b) then v else f x y.
Proof. unfold set2, upd. destruct (Nat.eqb_spec x a) as [->|]; [|reflexivity]. destruct (y =? b); reflexivity. Qed.
Lemma upd_get {A} (f : nat -> A) a v x : upd f a v x = if x =? a then v else f x.
Proof. reflexivity. Qed.

Lemma fin_head o l : fin o (o :: l) = 0.
Proof. unfold fin. destruct (in_dec op_dec o (o :: l)) as [|N]; [reflexivity|]. exfalso. apply N. left. reflexivity. Qed.
Lemma fin_notin o l : ~ In o l -> fin o l = 1.
Proof. intros N. unfold fin. destruct (in_dec op_dec o l); [contradiction|reflexivity]. Qed.
Lemma fin_in o l : In o l -> fin o l = 0.
Proof. intros N. unfold fin. destruct (in_dec op_dec o l); [reflexivity|contradiction]. Qed.
Lemma fin_other o o' l : o' <> o -> fin o' (o :: l) = fin o' l.
Proof.
  intros N. unfold fin. destruct (in_dec op_dec o' (o :: l)) as [[E|E]|E], (in_dec op_dec o' l); try reflexivity; try congruence; try contradiction.
  exfalso. apply E. right. assumption.
Qed.
Lemma fin_le o l : fin o l <= 1.
Proof. unfold fin. destruct (in_dec op_dec o l); lia. Qed.
Lemma fin_nil o : fin o [] = 1.
Proof. reflexivity. Qed.

(** Lists sorted by rank. *)
Inductive ranked : list op -> Prop :=
| ranked_nil : ranked []
| ranked_cons : forall o l, (forall x, In x l -> rank o <= rank x) -> ranked l -> ranked (o :: l).

Lemma ranked_app l1 l2 : ranked l1 -> ranked l2 ->
  (forall x y, In x l1 -> In y l2 -> rank x <= rank y) -> ranked (l1 ++ l2).
Proof.
  induction 1 as [|o l Ho Hl IH]; intros H2 H; [exact H2|]. simpl. constructor.
  - intros x Hx. apply in_app_iff in Hx as [Hx|Hx]; [apply Ho, Hx|apply H; [left; reflexivity|exact Hx]].
  - apply IH; [exact H2|]. intros x y Hx Hy. apply H; [right; exact Hx|exact Hy].
Qed.
Lemma ranked_const l k : (forall x, In x l -> rank x = k) -> ranked l.
Proof.
  induction l as [|o l IH]; intros H; constructor.
  - intros x Hx. rewrite (H o), (H x); [lia|right; auto|left; auto].
  - apply IH. intros x Hx. apply H. right. exact Hx.
Qed.

Section Inv.
Variable V : Type.
Variable n : nat.
Variable sends recvs : nat -> list nat.
Variable sid rid : nat -> nat -> list nat.
Variable wait_sends : bool.
Variable sync : nat -> bool.
Notation round := (round sends recvs wait_sends sync).
Notation state := (state V).
Notation do_move := (do_move V n sends recvs sid rid wait_sends sync).
Notation reachable := (reachable V n sends recvs sid rid wait_sends sync).
Notation exec := (exec V n sends recvs sid rid).
Hypothesis M : matching n sends recvs sid rid.

Lemma in_round p r o : In o (round p r) <->
  match o with
  | Fill q | PostSend q => In q (sends p)
  | PostRecv q | Put q => In q (recvs p)
  | WaitSends => wait_sends = true
  | Barrier => sync r = true
  | _ => True
  end.
Proof.
  unfold GhostModel.round. repeat rewrite in_app_iff.
  assert (Hs : forall (A : Prop), In o (if wait_sends then [WaitSends] else []) <-> (o = WaitSends /\ wait_sends = true)).
  { intros _. destruct wait_sends; simpl; intuition congruence. }
  assert (Hb : In o (if sync r then [Barrier] else []) <-> (o = Barrier /\ sync r = true)).
  { destruct (sync r); simpl; intuition congruence. }
  rewrite Hb, (Hs True). rewrite !in_map_iff. simpl.
  destruct o; split; intros H; 
   repeat match goal with
   | H : _ \/ _ |- _ => destruct H as [H|H]
   | H : exists _, _ |- _ => destruct H as (? & ? & ?)
   | H : _ /\ _ |- _ => destruct H as (? & ?)
   end; try congruence; try tauto;
   try match goal with H : _ = _ |- In _ _ => injection H as <-; assumption end; eauto 12.
Qed.

Lemma round_ranked p r : ranked (round p r).
Proof.
  unfold GhostModel.round.
  assert (C : forall (f : nat -> op) l k, (forall x, rank (f x) = k) -> forall y, In y (map f l) -> rank y = k).
  { intros f l k H y Hy. apply in_map_iff in Hy as (x & <- & _). apply H. }
  assert (D : forall y, In y (if wait_sends then [WaitSends] else []) -> rank y = 5).
  { intros y. destruct wait_sends; simpl; [intros [<-|[]]; reflexivity|tauto]. }
  assert (E : forall y, In y (if sync r then [Barrier] else []) -> rank y = 8).
  { intros y. destruct (sync r); simpl; [intros [<-|[]]; reflexivity|tauto]. }
  assert (S1 : forall o y, In y [o] -> rank y = rank o) by (intros o y [<-|[]]; reflexivity).
  pose proof (C Fill (sends p) 1 (fun _ => eq_refl)) as C1.
  pose proof (C PostRecv (recvs p) 2 (fun _ => eq_refl)) as C2.
  pose proof (C PostSend (sends p) 3 (fun _ => eq_refl)) as C3.
  pose proof (C Put (recvs p) 6 (fun _ => eq_refl)) as C4.
  pose proof (S1 Enter) as C5. pose proof (S1 WaitRecvs) as C6. pose proof (S1 Compute) as C7.
  cbn [rank] in *.
  repeat (apply ranked_app; [eapply ranked_const; eassumption| |]).
  - eapply ranked_const. eassumption.
  - intros x y Hx Hy. apply C7 in Hx. apply E in Hy. lia.
  - intros x y Hx Hy. apply C4 in Hx. rewrite in_app_iff in Hy. destruct Hy as [Hy|Hy]; [apply C7 in Hy|apply E in Hy]; lia.
  - intros x y Hx Hy. apply D in Hx. rewrite !in_app_iff in Hy. destruct Hy as [Hy|[Hy|Hy]]; [apply C4 in Hy|apply C7 in Hy|apply E in Hy]; lia.
  - intros x y Hx Hy. apply C6 in Hx. rewrite !in_app_iff in Hy.
    destruct Hy as [Hy|[Hy|[Hy|Hy]]]; [apply D in Hy|apply C4 in Hy|apply C7 in Hy|apply E in Hy]; lia.
  - intros x y Hx Hy. apply C3 in Hx. rewrite !in_app_iff in Hy.
    destruct Hy as [Hy|[Hy|[Hy|[Hy|Hy]]]]; [apply C6 in Hy|apply D in Hy|apply C4 in Hy|apply C7 in Hy|apply E in Hy]; lia.
  - intros x y Hx Hy. apply C2 in Hx. rewrite !in_app_iff in Hy.
    destruct Hy as [Hy|[Hy|[Hy|[Hy|[Hy|Hy]]]]]; [apply C3 in Hy|apply C6 in Hy|apply D in Hy|apply C4 in Hy|apply C7 in Hy|apply E in Hy]; lia.
  - intros x y Hx Hy. apply C1 in Hx. rewrite !in_app_iff in Hy.
    destruct Hy as [Hy|[Hy|[Hy|[Hy|[Hy|[Hy|Hy]]]]]]; [apply C2 in Hy|apply C3 in Hy|apply C6 in Hy|apply D in Hy|apply C4 in Hy|apply C7 in Hy|apply E in Hy]; lia.
  - intros x y Hx Hy. apply C5 in Hx. lia.
Qed.

Lemma NoDup_app_intro {A} (l1 l2 : list A) : NoDup l1 -> NoDup l2 -> (forall x, In x l1 -> In x l2 -> False) -> NoDup (l1 ++ l2).
Proof.
  induction 1 as [|x l1 Hx H1 IH]; intros H2 H; [exact H2|]. simpl. constructor.
  - rewrite in_app_iff. intros [Hi|Hi]; [contradiction|]. apply (H x); [left; reflexivity|exact Hi].
  - apply IH; [exact H2|]. intros y Hy. apply H. right. exact Hy.
Qed.

Lemma round_nodup p r : p < n -> NoDup (round p r).
Proof.
  intros Hp. destruct (keys_nodup _ _ _ _ _ M p Hp) as [N1 N2]. unfold GhostModel.round.
  assert (Q : forall (f : nat -> op) l, NoDup l -> (forall x y, f x = f y -> x = y) -> NoDup (map f l)).
  { intros f l H Hf. apply FinFun.Injective_map_NoDup; [exact Hf|exact H]. }
  assert (S1 : forall o : op, NoDup [o]) by (intros; constructor; [simpl; tauto|constructor]).
  repeat (apply NoDup_app_intro;
    [first [apply S1 | apply Q; [assumption|intros; congruence] | destruct wait_sends; [apply S1|constructor]]| |]).
  - destruct (sync r); [apply S1|constructor].
  - intros x Hx. destruct Hx as [<-|[]]. destruct (sync r); simpl; intuition congruence.
  - intros x Hx. apply in_map_iff in Hx as (y & <- & _). rewrite in_app_iff. destruct (sync r); simpl; intuition congruence.
  - intros x Hx Hy. assert (x = WaitSends) by (destruct wait_sends; simpl in Hx; intuition congruence). subst x.
    rewrite !in_app_iff, in_map_iff in Hy. destruct Hy as [(? & ? & ?)|[Hy|Hy]]; try discriminate.
    + simpl in Hy. intuition congruence.
    + destruct (sync r); simpl in Hy; intuition congruence.
  - intros x [<-|[]] Hy. rewrite !in_app_iff, in_map_iff in Hy.
    destruct Hy as [Hy|[(? & ? & ?)|[Hy|Hy]]]; try discriminate;
      [destruct wait_sends|simpl in Hy|destruct (sync r)]; simpl in *; intuition congruence.
  - intros x Hx Hy. apply in_map_iff in Hx as (z & <- & _). rewrite !in_app_iff, !in_map_iff in Hy.
    destruct Hy as [Hy|[Hy|[(? & ? & ?)|[Hy|Hy]]]]; try discriminate;
      [simpl in Hy|destruct wait_sends|simpl in Hy|destruct (sync r)]; simpl in *; intuition congruence.
  - intros x Hx Hy. apply in_map_iff in Hx as (z & <- & _). rewrite !in_app_iff, !in_map_iff in Hy.
    destruct Hy as [(? & ? & ?)|[Hy|[Hy|[(? & ? & ?)|[Hy|Hy]]]]]; try discriminate;
      [simpl in Hy|destruct wait_sends|simpl in Hy|destruct (sync r)]; simpl in *; intuition congruence.
  - intros x Hx Hy. apply in_map_iff in Hx as (z & <- & _). rewrite !in_app_iff, !in_map_iff in Hy.
    destruct Hy as [(? & ? & ?)|[(? & ? & ?)|[Hy|[Hy|[(? & ? & ?)|[Hy|Hy]]]]]]; try discriminate;
      [simpl in Hy|destruct wait_sends|simpl in Hy|destruct (sync r)]; simpl in *; intuition congruence.
  - intros x [<-|[]] Hy. rewrite !in_app_iff, !in_map_iff in Hy.
    destruct Hy as [(? & ? & ?)|[(? & ? & ?)|[(? & ? & ?)|[Hy|[Hy|[(? & ? & ?)|[Hy|Hy]]]]]]]; try discriminate;
      [simpl in Hy|destruct wait_sends|simpl in Hy|destruct (sync r)]; simpl in *; intuition congruence.
Qed.

(** What the head of the rest of a round says about the other operations. *)
Lemma ranked_split pre o l : ranked (pre ++ o :: l) ->
  (forall x, In x pre -> rank x <= rank o) /\ (forall x, In x l -> rank o <= rank x).
Proof.
  induction pre as [|y pre IH]; simpl; intros H; inversion H as [|? ? Hy Hl]; subst.
  - split; [simpl; tauto|exact Hy].
  - destruct (IH Hl) as [A B]. split; [|exact B]. intros x [->|Hx]; [|apply A, Hx].
    apply Hy. rewrite in_app_iff. right. left. reflexivity.
Qed.

(** Number of times [p] has performed [o]. *)
Definition cnt (s : state) (o : op) (p : nat) : nat := rd V s p + fin o (todo V s p).

Definition suffix (s : state) (p : nat) : Prop := exists pre, round p (rd V s p) = pre ++ todo V s p.

Lemma head_facts s p o l : p < n -> suffix s p -> todo V s p = o :: l ->
  In o (round p (rd V s p)) /\ ~ In o l /\
  (forall x, In x (round p (rd V s p)) -> rank o < rank x -> In x l) /\
  (forall x, rank x < rank o -> ~ In x (o :: l)).
Proof.
  intros Hp (pre & E) T. rewrite T in E.
  pose proof (round_nodup p (rd V s p) Hp) as ND. pose proof (round_ranked p (rd V s p)) as RK.
  rewrite E in *. destruct (ranked_split _ _ _ RK) as [A B].
  refine (conj _ (conj _ (conj _ _))).
  - apply in_app_iff. right. left. reflexivity.
  - apply NoDup_remove_2 in ND. intros H. apply ND. apply in_app_iff. right. exact H.
  - intros x Hx Hr. apply in_app_iff in Hx as [Hx|[Hx|Hx]]; [apply A in Hx; lia|subst; lia|exact Hx].
  - intros x Hr [<-|Hx]; [lia|]. apply B in Hx. lia.
Qed.

Lemma head_cnt s p o l : p < n -> suffix s p -> todo V s p = o :: l ->
  cnt s o p = rd V s p /\
  (forall x, In x (round p (rd V s p)) -> rank o < rank x -> cnt s x p = rd V s p) /\
  (forall x, rank x < rank o -> cnt s x p = S (rd V s p)).
Proof.
  intros Hp Sf T. destruct (head_facts s p o l Hp Sf T) as (A & B & C & D). unfold cnt. rewrite T.
  refine (conj _ (conj _ _)).
  - rewrite fin_head. lia.
  - intros x Hx Hr. rewrite fin_in; [lia|]. right. apply C; assumption.
  - intros x Hr. rewrite fin_notin; [lia|]. apply D. exact Hr.
Qed.

(** Operations of lower rank are ahead, by at most one. *)
Lemma cnt_order s p a b : p < n -> suffix s p -> In b (round p (rd V s p)) -> rank a < rank b ->
  cnt s b p <= cnt s a p <= S (cnt s b p).
Proof.
  intros Hp Sf Hb Hr. unfold cnt. pose proof (fin_le a (todo V s p)). pose proof (fin_le b (todo V s p)).
  split; [|lia]. destruct (todo V s p) as [|o l] eqn:T; [rewrite !fin_nil; lia|].
  destruct (head_facts s p o l Hp Sf T) as (A & B & C & D).
  destruct (le_lt_dec (rank b) (rank o)).
  - rewrite (fin_notin a); [lia|]. apply D. lia.
  - rewrite (fin_in b); [lia|]. right. apply C; assumption.
Qed.

Lemma cnt_rd s p o : rd V s p <= cnt s o p <= S (rd V s p).
Proof. unfold cnt. pose proof (fin_le o (todo V s p)). lia. Qed.

Definition b2n (b : bool) : nat := if b then 1 else 0.
Notation sent s p q := (cnt s (PostSend q) p).
Notation filled s p q := (cnt s (Fill q) p).
Notation posts s q p := (cnt s (PostRecv p) q).

(** The invariant for a pair of processes, [p] sending to [q]. *)
Record pair_inv (s : state) (p q : nat) : Prop := PairInv {
  pi_count : posts s q p + length (queue V s p q) = sent s p q + b2n (posted V s q p);
  pi_posted : posted V s q p = true -> posts s q p = S (cnt s WaitRecvs q);
  pi_xout : forall k i, nth_error (sid p q) k = Some i -> 1 <= filled s p q ->
    xout V s p q k = calls V s p (filled s p q - 1) i;
  pi_msg : forall j m k i v, nth_error (queue V s p q) j = Some m -> nth_error (sid p q) k = Some i ->
    m k = Some v -> v = calls V s p (sent s p q - length (queue V s p q) + j) i;
  pi_open : forall j m k i, nth_error (queue V s p q) j = Some m -> nth_error (sid p q) k = Some i ->
    m k = None -> S j = length (queue V s p q) /\ filled s p q = sent s p q;
  pi_xin : forall k i, nth_error (sid p q) k = Some i -> posted V s q p = false -> 1 <= posts s q p ->
    xin V s q p k = calls V s p (posts s q p - 1) i;
  pi_wait : wait_sends = true -> sent s p q = cnt s WaitSends p ->
    forall j m k i, nth_error (queue V s p q) j = Some m -> nth_error (sid p q) k = Some i -> m k <> None;
  pi_ghost : forall k i g, nth_error (sid p q) k = Some i -> nth_error (rid q p) k = Some g ->
    cnt s Compute q < cnt s (Put p) q -> cv V s q g = calls V s p (cnt s Compute q) i
}.

Record inv (s : state) : Prop := Inv {
  iv_suffix : forall p, p < n -> suffix s p;
  iv_pairs : forall p q, p < n -> q < n -> In q (sends p) -> pair_inv s p q;
  iv_entered : forall p, p < n -> cnt s Compute p < cnt s Enter p -> cnt s WaitRecvs p = cnt s Compute p ->
    forall i, cv V s p i = calls V s p (cnt s Compute p) i;
  iv_full : forall p, p < n -> cnt s Compute p < cnt s Enter p ->
    forall i, ~ In i (flat_map (rid p) (recvs p)) -> cv V s p i = calls V s p (cnt s Compute p) i;
  iv_barrier : forall p r, p < n -> sync r = true ->
    (r < rd V s p \/ (rd V s p = r /\ todo V s p = [])) -> forall q, q < n -> r < cnt s Compute q
}.

Lemma cnt_round_start s p o r : In o (round p r) -> rd V s p = r -> todo V s p = round p r -> cnt s o p = r.
Proof. intros H E T. unfold cnt. rewrite T, fin_in by exact H. lia. Qed.

Lemma inv_initial s : initial V sends recvs wait_sends sync s -> inv s.
Proof.
  intros (R0 & T0 & Q0 & P0).
  assert (Z : forall o p, In o (round p 0) -> cnt s o p = 0).
  { intros o p H. apply cnt_round_start; auto. }
  split.
  - intros p Hp. exists []. rewrite R0, T0. reflexivity.
  - intros p q Hp Hq Hs.
    assert (Hr : In p (recvs q)) by (apply (keys_match _ _ _ _ _ M p q Hp Hq), Hs).
    assert (Z1 : sent s p q = 0) by (apply Z, in_round; exact Hs).
    assert (Z2 : filled s p q = 0) by (apply Z, in_round; exact Hs).
    assert (Z3 : posts s q p = 0) by (apply Z, in_round; exact Hr).
    assert (Z4 : cnt s (Put p) q = 0) by (apply Z, in_round; exact Hr).
    split.
    + rewrite Z1, Z3, Q0, P0. reflexivity.
    + rewrite P0. discriminate.
    + intros. lia.
    + rewrite Q0. intros [|j]; discriminate.
    + rewrite Q0. intros [|j]; discriminate.
    + intros. lia.
    + rewrite Q0. intros _ _ [|j]; discriminate.
    + intros. lia.
  - intros p Hp H. rewrite (Z Enter p) in H by (apply in_round; exact I). lia.
  - intros p Hp H. rewrite (Z Enter p) in H by (apply in_round; exact I). lia.
  - intros p r Hp _ [H|[_ H]].
    + rewrite R0 in H. lia.
    + rewrite T0 in H. unfold GhostModel.round in H. discriminate.
Qed.

Lemma cnt_after s s' p o l : todo V s p = o :: l -> suffix s p -> p < n ->
  rd V s' p = rd V s p -> todo V s' p = l ->
  cnt s' o p = S (cnt s o p) /\ forall x, x <> o -> cnt s' x p = cnt s x p.
Proof.
  intros T Sf Hp R E. destruct (head_facts s p o l Hp Sf T) as (A & B & _). unfold cnt. rewrite R, E, T. split.
  - rewrite fin_head, fin_notin by exact B. lia.
  - intros x Hx. rewrite fin_other by exact Hx. reflexivity.
Qed.
Lemma cnt_same s s' p o : rd V s' p = rd V s p -> todo V s' p = todo V s p -> cnt s' o p = cnt s o p.
Proof. intros R T. unfold cnt. rewrite R, T. reflexivity. Qed.
Lemma suffix_same s s' p : rd V s' p = rd V s p -> todo V s' p = todo V s p -> suffix s p -> suffix s' p.
Proof. intros R T. unfold suffix. rewrite R, T. auto. Qed.
Lemma suffix_after s s' p o l : todo V s p = o :: l -> suffix s p ->
  rd V s' p = rd V s p -> todo V s' p = l -> suffix s' p.
Proof. intros T (pre & E) R T'. exists (pre ++ [o]). rewrite R, T', <- app_assoc. simpl. rewrite <- T. exact E. Qed.

(** Arrival at the Allreduce, in terms of counts. *)
Lemma arrived_cnt s q r : suffix s q -> q < n -> arrived V s q r = true -> r < cnt s Compute q.
Proof.
  intros Sf Hq H. unfold arrived in H. apply orb_true_iff in H as [H|H].
  - apply Nat.ltb_lt in H. pose proof (cnt_rd s q Compute). lia.
  - apply andb_true_iff in H as [H1 H2]. apply Nat.eqb_eq in H1. subst r. unfold cnt.
    destruct (todo V s q) as [|o l]; [rewrite fin_nil; lia|].
    destruct o; try discriminate. destruct l; [|discriminate]. rewrite fin_notin; [lia|].
    simpl. intuition congruence.
Qed.

(** The send buffer may be refilled: every entry of every pending message has
    been read. *)
Lemma refill_safe s p q l : (wait_sends = true \/ forall r, sync r = true) -> inv s ->
  p < n -> q < n -> In q (sends p) -> todo V s p = Fill q :: l ->
  forall j m k i, nth_error (queue V s p q) j = Some m -> nth_error (sid p q) k = Some i -> m k <> None.
Proof.
  intros HW I Hp Hq Hs T. destruct (iv_pairs s I p q Hp Hq Hs) as [P1 P2 P3 P4 P5 P6 P7 P8].
  assert (Hr : In p (recvs q)) by (apply (keys_match _ _ _ _ _ M p q Hp Hq), Hs).
  destruct (head_cnt s p _ l Hp (iv_suffix s I p Hp) T) as (_ & H1 & _).
  assert (Sn : sent s p q = rd V s p) by (apply H1; [apply in_round; exact Hs|simpl; lia]).
  destruct HW as [W|W].
  - apply P7; [exact W|]. rewrite Sn. symmetry. apply H1; [apply in_round; exact W|simpl; lia].
  - assert (L : length (queue V s p q) = 0).
    { destruct (rd V s p) as [|r] eqn:R.
      - pose proof (cnt_rd s q (PostRecv p)). destruct (posted V s q p) eqn:P; simpl in P1; [|lia].
        specialize (P2 eq_refl). lia.
      - assert (C : r < cnt s Compute q).
        { apply (iv_barrier s I p r Hp (W r)); [left; lia|exact Hq]. }
        assert (Ic : In Compute (round q (rd V s q))) by (apply in_round; exact Logic.I).
        pose proof (cnt_order s q WaitRecvs Compute Hq (iv_suffix s I q Hq) Ic ltac:(simpl; lia)).
        pose proof (cnt_order s q (PostRecv p) Compute Hq (iv_suffix s I q Hq) Ic ltac:(simpl; lia)).
        destruct (posted V s q p) eqn:P; simpl in P1; [|lia]. specialize (P2 eq_refl). lia. }
    intros [|j] m k i; destruct (queue V s p q); try discriminate; simpl in L; lia.
Qed.

(** ** Preservation *)

Lemma op_common s s' p0 o l : inv s -> p0 < n -> todo V s p0 = o :: l ->
  rd V s' = rd V s -> todo V s' = upd (todo V s) p0 l ->
  (o = Barrier -> forall q, q < n -> arrived V s q (rd V s p0) = true) ->
  (forall p, p < n -> suffix s' p) /\
  (forall x p, p < n -> cnt s' x p = cnt s x p + if p =? p0 then if op_dec x o then 1 else 0 else 0) /\
  (forall p r, p < n -> sync r = true ->
    (r < rd V s' p \/ (rd V s' p = r /\ todo V s' p = [])) -> forall q, q < n -> r < cnt s' Compute q).
Proof.
  intros I Hp T R E HB.
  assert (Cn : forall x p, p < n -> cnt s' x p = cnt s x p + if p =? p0 then if op_dec x o then 1 else 0 else 0).
  { intros x p Hpn. destruct (Nat.eqb_spec p p0) as [->|N].
    - destruct (cnt_after s s' p0 o l T (iv_suffix s I p0 Hp) Hp) as [A B].
      + rewrite R. reflexivity.
      + rewrite E. apply upd_same.
      + destruct (op_dec x o) as [->|Nx]; [lia|]. rewrite B by exact Nx. lia.
    - rewrite (cnt_same s s' p x); [lia|rewrite R; reflexivity|rewrite E; apply upd_other; exact N]. }
  refine (conj _ (conj Cn _)).
  - intros p Hpn. destruct (Nat.eq_dec p p0) as [->|N].
    + eapply suffix_after; [exact T|apply (iv_suffix s I p0 Hp)|rewrite R; reflexivity|rewrite E; apply upd_same].
    + eapply suffix_same; [rewrite R; reflexivity|rewrite E; apply upd_other; exact N|apply (iv_suffix s I p Hpn)].
  - intros p r Hpn Sy H q Hq. rewrite Cn by exact Hq. rewrite R, E in H.
    destruct H as [H|[H1 H2]].
    + pose proof (iv_barrier s I p r Hpn Sy (or_introl H) q Hq). lia.
    + destruct (Nat.eq_dec p p0) as [->|N].
      * rewrite upd_same in H2. subst l.
        destruct (head_facts s p0 o [] Hp (iv_suffix s I p0 Hp) T) as (A & _ & C & _).
        assert (o = Barrier).
        { destruct (op_dec o Barrier) as [|Nb]; [assumption|exfalso].
          apply (C Barrier); [apply in_round; rewrite H1; exact Sy|]. destruct o; simpl; try lia. congruence. }
        pose proof (arrived_cnt s q (rd V s p0) (iv_suffix s I q Hq) Hq (HB H q Hq)). lia.
      * rewrite upd_other in H2 by exact N.
        pose proof (iv_barrier s I p r Hpn Sy (or_intror (conj H1 H2)) q Hq). lia.
Qed.

(** Bounds on the counts of a pair. *)
Lemma pair_bounds s p q : inv s -> p < n -> q < n -> In q (sends p) ->
  In p (recvs q) /\
  length (queue V s p q) <= sent s p q /\
  filled s p q <= cnt s Enter p /\ sent s p q <= filled s p q /\ sent s p q <= cnt s Enter p /\
  (posted V s q p = false -> posts s q p <= sent s p q) /\
  (cnt s Compute q < cnt s (Put p) q -> cnt s Compute q < sent s p q) /\
  cnt s (Put p) q <= cnt s WaitRecvs q /\ cnt s WaitRecvs q <= posts s q p.
Proof.
  intros I Hp Hq Hs. destruct (iv_pairs s I p q Hp Hq Hs) as [P1 P2 _ _ _ _ _ _].
  assert (Hr : In p (recvs q)) by (apply (keys_match _ _ _ _ _ M p q Hp Hq), Hs).
  assert (I1 : In (PostSend q) (round p (rd V s p))) by (apply in_round; exact Hs).
  assert (I2 : In (Fill q) (round p (rd V s p))) by (apply in_round; exact Hs).
  assert (I3 : In (Put p) (round q (rd V s q))) by (apply in_round; exact Hr).
  assert (I4 : In WaitRecvs (round q (rd V s q))) by (apply in_round; exact Logic.I).
  pose proof (cnt_order s p (Fill q) (PostSend q) Hp (iv_suffix s I p Hp) I1 ltac:(simpl; lia)).
  pose proof (cnt_order s p Enter (PostSend q) Hp (iv_suffix s I p Hp) I1 ltac:(simpl; lia)).
  pose proof (cnt_order s p Enter (Fill q) Hp (iv_suffix s I p Hp) I2 ltac:(simpl; lia)).
  pose proof (cnt_order s q WaitRecvs (Put p) Hq (iv_suffix s I q Hq) I3 ltac:(simpl; lia)).
  pose proof (cnt_order s q (PostRecv p) WaitRecvs Hq (iv_suffix s I q Hq) I4 ltac:(simpl; lia)).
  destruct (posted V s q p) eqn:P; cbn [b2n] in P1.
  - specialize (P2 eq_refl). repeat (split; [first [assumption|lia|intros; first [discriminate|lia]]|]). lia.
  - repeat (split; [first [assumption|lia|intros; first [discriminate|lia]]|]). lia.
Qed.

Ltac op_if := repeat match goal with
  | |- context [op_dec ?a ?b] => destruct (op_dec a b); try congruence
  | H : context [op_dec ?a ?b] |- _ => destruct (op_dec a b); try congruence
  | |- context [?a =? ?b] => destruct (Nat.eqb_spec a b); try congruence
  | H : context [?a =? ?b] |- _ => destruct (Nat.eqb_spec a b); try congruence
  end.

Lemma exec_enter s p0 l : inv s -> p0 < n -> todo V s p0 = Enter :: l ->
  forall s', exec Enter p0 l s = Some s' -> inv s'.
Proof.
  intros I Hp T s' H.
  pose proof (f_equal (fun o => match o with Some x => x | None => s end) H) as Es. cbn in Es. clear H.
  destruct (op_common s s' p0 Enter l I Hp T) as (Sf & Cn & Br); try (rewrite <- Es; reflexivity); [discriminate|].
  destruct (head_cnt s p0 Enter l Hp (iv_suffix s I p0 Hp) T) as (H0 & H1 & _).
  split; [exact Sf| | | |exact Br].
  - intros p q Hpn Hqn Hs.
    destruct (pair_bounds s p q I Hpn Hqn Hs) as (Hr & B1 & B2 & B3 & B4 & B5 & B6 & B7 & B8).
    destruct (iv_pairs s I p q Hpn Hqn Hs) as [P1 P2 P3 P4 P5 P6 P7 P8].
    assert (C1 : forall x pp, pp < n -> x <> Enter -> cnt s' x pp = cnt s x pp).
    { intros x pp Hpp Nx. rewrite Cn by exact Hpp. destruct (pp =? p0), (op_dec x Enter); try congruence; lia. }
    assert (Ca : forall r i, r < sent s p q \/ r < filled s p q -> calls V s' p r i = calls V s p r i).
    { intros r i Hri. rewrite <- Es. cbn [calls]. rewrite set2_get. cbn [rd set_todo].
      destruct (Nat.eqb_spec p p0) as [->|]; cbn [andb]; [|reflexivity].
      destruct (Nat.eqb_spec r (rd V s p0)); [|reflexivity]. rewrite H0 in *. lia. }
    assert (Eq : queue V s' = queue V s) by (rewrite <- Es; reflexivity).
    assert (Ep : posted V s' = posted V s) by (rewrite <- Es; reflexivity).
    assert (Eo : xout V s' = xout V s) by (rewrite <- Es; reflexivity).
    assert (Ei : xin V s' = xin V s) by (rewrite <- Es; reflexivity).
    assert (Ec : cv V s' = cv V s) by (rewrite <- Es; reflexivity).
    split; rewrite ?Eq, ?Ep, ?Eo, ?Ei, ?Ec, ?C1 by (auto; discriminate).
    + exact P1.
    + exact P2.
    + intros k i Hk Hf. rewrite Ca by lia. apply P3; assumption.
    + intros j m k i v Hj Hk Hm. assert (j < length (queue V s p q)) by (apply nth_error_Some; congruence).
      rewrite Ca by lia. eapply P4; eassumption.
    + exact P5.
    + intros k i Hk Hf Hn. specialize (B5 Hf). rewrite Ca by lia. apply P6; assumption.
    + exact P7.
    + intros k i g Hk Hg Hlt. rewrite Ca by lia. eapply P8; eassumption.
  - intros p Hpn Hlt Hw i.
    rewrite (Cn Compute), (Cn Enter), (Cn WaitRecvs) in * by exact Hpn. rewrite <- Es. cbn [cv calls set_todo rd].
    rewrite set2_get.
    destruct (Nat.eqb_spec p p0) as [->|].
    + destruct (op_dec Compute Enter); [congruence|]. rewrite Nat.add_0_r.
      rewrite (H1 Compute) by (try apply in_round; simpl; try lia; exact Logic.I).
      rewrite Nat.eqb_refl. reflexivity.
    + cbn [andb]. rewrite !Nat.add_0_r in *. apply (iv_entered s I p Hpn); assumption.
  - intros p Hpn Hlt i Hi.
    rewrite (Cn Compute), (Cn Enter) in * by exact Hpn. rewrite <- Es. cbn [cv calls set_todo rd].
    rewrite set2_get.
    destruct (Nat.eqb_spec p p0) as [->|].
    + destruct (op_dec Compute Enter); [congruence|]. rewrite Nat.add_0_r.
      rewrite (H1 Compute) by (try apply in_round; simpl; try lia; exact Logic.I).
      rewrite Nat.eqb_refl. reflexivity.
    + cbn [andb]. rewrite !Nat.add_0_r in *. apply (iv_full s I p Hpn); assumption.
Qed.

(** A pair is not concerned by a change elsewhere. *)
Lemma frame_pair s s' p q : pair_inv s p q ->
  posts s' q p = posts s q p -> sent s' p q = sent s p q -> filled s' p q = filled s p q ->
  cnt s' WaitRecvs q = cnt s WaitRecvs q -> (wait_sends = true -> cnt s' WaitSends p = cnt s WaitSends p) ->
  cnt s' Compute q = cnt s Compute q -> cnt s' (Put p) q = cnt s (Put p) q ->
  queue V s' p q = queue V s p q -> posted V s' q p = posted V s q p ->
  xout V s' p q = xout V s p q -> xin V s' q p = xin V s q p ->
  calls V s' p = calls V s p -> 
  (forall g, In g (rid q p) -> cv V s' q g = cv V s q g) -> pair_inv s' p q.
Proof.
  intros [P1 P2 P3 P4 P5 P6 P7 P8] A1 A2 A3 A4 A5 A6 A7 A8 A9 A10 A11 A12 A13.
  split; rewrite ?A1, ?A2, ?A3, ?A4, ?A6, ?A7, ?A8, ?A9, ?A10, ?A11, ?A12; try assumption.
  - intros W. rewrite A5 by exact W. apply P7, W.
  - intros k i g Hk Hg Hl. rewrite A13 by (eapply nth_error_In; exact Hg). eapply P8; eassumption.
Qed.

Lemma frame_procs s s' p0 o l : inv s -> p0 < n -> todo V s p0 = o :: l -> o <> Enter -> o <> Compute ->
  cv V s' = cv V s -> calls V s' = calls V s ->
  (forall x p, p < n -> cnt s' x p = cnt s x p + if p =? p0 then if op_dec x o then 1 else 0 else 0) ->
  (forall p, p < n -> cnt s' Compute p < cnt s' Enter p -> cnt s' WaitRecvs p = cnt s' Compute p ->
    forall i, cv V s' p i = calls V s' p (cnt s' Compute p) i) /\
  (forall p, p < n -> cnt s' Compute p < cnt s' Enter p ->
    forall i, ~ In i (flat_map (rid p) (recvs p)) -> cv V s' p i = calls V s' p (cnt s' Compute p) i).
Proof.
  intros I Hp T N1 N2 Ec Ea Cn.
  assert (C1 : forall p, p < n -> cnt s' Enter p = cnt s Enter p).
  { intros p Hpn. rewrite Cn by exact Hpn. op_if; lia. }
  assert (C2 : forall p, p < n -> cnt s' Compute p = cnt s Compute p).
  { intros p Hpn. rewrite Cn by exact Hpn. op_if; lia. }
  split.
  - intros p Hpn Hl Hw i. rewrite Ec, Ea, C2 by exact Hpn. rewrite C1, C2 in * by exact Hpn.
    apply (iv_entered s I p Hpn); [exact Hl|].
    rewrite Cn in Hw by exact Hpn.
    assert (Ic : In Compute (round p (rd V s p))) by (apply in_round; exact Logic.I).
    pose proof (cnt_order s p WaitRecvs Compute Hpn (iv_suffix s I p Hpn) Ic ltac:(simpl; lia)). lia.
  - intros p Hpn Hl i Hi. rewrite Ec, Ea, C2 by exact Hpn. rewrite C1, C2 in * by exact Hpn.
    apply (iv_full s I p Hpn); assumption.
Qed.

Lemma exec_fill s p0 l q0 : (wait_sends = true \/ forall r, sync r = true) ->
  inv s -> p0 < n -> todo V s p0 = Fill q0 :: l ->
  forall s', exec (Fill q0) p0 l s = Some s' -> inv s'.
Proof.
  intros HW I Hp T s' H.
  pose proof (f_equal (fun o => match o with Some x => x | None => s end) H) as Es. cbn in Es. clear H.
  destruct (op_common s s' p0 _ l I Hp T) as (Sf & Cn & Br); try (rewrite <- Es; reflexivity); [discriminate|].
  destruct (head_cnt s p0 _ l Hp (iv_suffix s I p0 Hp) T) as (H0 & H1 & H2).
  assert (Ec : cv V s' = cv V s) by (rewrite <- Es; reflexivity).
  assert (Ea : calls V s' = calls V s) by (rewrite <- Es; reflexivity).
  assert (Eq : queue V s' = queue V s) by (rewrite <- Es; reflexivity).
  assert (Ep : posted V s' = posted V s) by (rewrite <- Es; reflexivity).
  assert (Ei : xin V s' = xin V s) by (rewrite <- Es; reflexivity).
  destruct (frame_procs s s' p0 _ l I Hp T ltac:(discriminate) ltac:(discriminate) Ec Ea Cn) as [F1 F2].
  split; [exact Sf| |exact F1|exact F2|exact Br].
  intros p q Hpn Hqn Hs.
  assert (C1 : forall x pp, pp < n -> x <> Fill q0 -> cnt s' x pp = cnt s x pp).
  { intros x pp Hpp Nx. rewrite Cn by exact Hpp. op_if; lia. }
  pose proof (iv_pairs s I p q Hpn Hqn Hs) as P.
  destruct (Nat.eq_dec p p0) as [e1|N1]; [destruct (Nat.eq_dec q q0) as [e2|N2]|].
  - subst p q.
    assert (Cf : filled s' p0 q0 = S (rd V s p0)).
    { rewrite Cn, Nat.eqb_refl by exact Hpn. destruct (op_dec (Fill q0) (Fill q0)); [lia|congruence]. }
    pose proof (refill_safe s p0 q0 l HW I Hpn Hqn Hs T) as RS.
    destruct P as [P1 P2 P3 P4 P5 P6 P7 P8].
    split; rewrite ?Eq, ?Ep, ?Ei, ?Ec, ?Ea, ?Cf, ?C1 by (auto; discriminate).
    + exact P1.
    + exact P2.
    + intros k i Hk _. rewrite <- Es. cbn [xout]. rewrite set2_get, !Nat.eqb_refl. cbn [andb].
      unfold take_into. rewrite Hk. cbn [cv set_todo].
      replace (S (rd V s p0) - 1) with (cnt s Compute p0).
      * apply (iv_entered s I p0 Hpn).
        -- rewrite (H2 Enter) by (simpl; lia). rewrite (H1 Compute) by (first [apply in_round; exact Logic.I|simpl; lia]). lia.
        -- rewrite (H1 Compute), (H1 WaitRecvs) by (first [apply in_round; exact Logic.I|simpl; lia]). reflexivity.
      * rewrite (H1 Compute) by (first [apply in_round; exact Logic.I|simpl; lia]). lia.
    + exact P4.
    + intros j m k i Hj Hk Hn. exfalso. eapply RS; eassumption.
    + exact P6.
    + exact P7.
    + exact P8.
  - apply (frame_pair s); rewrite ?Eq, ?Ep, ?Ei, ?Ec, ?Ea; auto; try (apply C1; [assumption|congruence]).
    + intros _. apply C1; [assumption|congruence].
    + rewrite <- Es. cbn [xout]. rewrite set2_get. op_if; rewrite ?andb_false_r; reflexivity.
  - apply (frame_pair s); rewrite ?Eq, ?Ep, ?Ei, ?Ec, ?Ea; auto; try (apply C1; [assumption|congruence]).
    + rewrite Cn by exact Hpn. op_if; lia.
    + intros _. apply C1; [assumption|congruence].
    + rewrite <- Es. cbn [xout]. rewrite set2_get. op_if; rewrite ?andb_false_r; reflexivity.
Qed.

Lemma exec_postrecv s p0 l q0 : inv s -> p0 < n -> todo V s p0 = PostRecv q0 :: l ->
  forall s', exec (PostRecv q0) p0 l s = Some s' -> inv s'.
Proof.
  intros I Hp T s' H.
  pose proof (f_equal (fun o => match o with Some x => x | None => s end) H) as Es. cbn in Es. clear H.
  destruct (op_common s s' p0 _ l I Hp T) as (Sf & Cn & Br); try (rewrite <- Es; reflexivity); [discriminate|].
  destruct (head_cnt s p0 _ l Hp (iv_suffix s I p0 Hp) T) as (H0 & H1 & H2).
  assert (Ec : cv V s' = cv V s) by (rewrite <- Es; reflexivity).
  assert (Ea : calls V s' = calls V s) by (rewrite <- Es; reflexivity).
  assert (Eq : queue V s' = queue V s) by (rewrite <- Es; reflexivity).
  assert (Eo : xout V s' = xout V s) by (rewrite <- Es; reflexivity).
  assert (Ei : xin V s' = xin V s) by (rewrite <- Es; reflexivity).
  destruct (frame_procs s s' p0 _ l I Hp T ltac:(discriminate) ltac:(discriminate) Ec Ea Cn) as [F1 F2].
  split; [exact Sf| |exact F1|exact F2|exact Br].
  intros p q Hpn Hqn Hs.
  assert (C1 : forall x pp, pp < n -> x <> PostRecv q0 -> cnt s' x pp = cnt s x pp).
  { intros x pp Hpp Nx. rewrite Cn by exact Hpp. op_if; lia. }
  pose proof (iv_pairs s I p q Hpn Hqn Hs) as P.
  destruct (Nat.eq_dec q p0) as [e1|N1]; [destruct (Nat.eq_dec p q0) as [e2|N2]|].
  - subst p q.
    assert (Cf : posts s' p0 q0 = S (rd V s p0)).
    { rewrite Cn, Nat.eqb_refl by exact Hqn. destruct (op_dec (PostRecv q0) (PostRecv q0)); [lia|congruence]. }
    assert (Wc : cnt s WaitRecvs p0 = rd V s p0) by (apply H1; [apply in_round; exact Logic.I|simpl; lia]).
    assert (Ep : posted V s' p0 q0 = true).
    { rewrite <- Es. cbn [posted]. rewrite set2_get, !Nat.eqb_refl. reflexivity. }
    destruct P as [P1 P2 P3 P4 P5 P6 P7 P8].
    assert (P0 : posted V s p0 q0 = false).
    { destruct (posted V s p0 q0); [|reflexivity]. specialize (P2 eq_refl). lia. }
    split; rewrite ?Eq, ?Ep, ?Ei, ?Eo, ?Ec, ?Ea, ?Cf, ?C1 by (auto; discriminate).
    + rewrite P0 in P1. cbn [b2n] in *. lia.
    + intros _. lia.
    + exact P3.
    + exact P4.
    + exact P5.
    + discriminate.
    + exact P7.
    + exact P8.
  - apply (frame_pair s); rewrite ?Eq, ?Eo, ?Ei, ?Ec, ?Ea; auto; try (apply C1; [assumption|congruence]).
    + intros _. apply C1; [assumption|congruence].
    + rewrite <- Es. cbn [posted]. rewrite set2_get. op_if; reflexivity.
  - apply (frame_pair s); rewrite ?Eq, ?Eo, ?Ei, ?Ec, ?Ea; auto; try (apply C1; [assumption|congruence]).
    + rewrite Cn by exact Hqn. op_if; lia.
    + intros _. apply C1; [assumption|congruence].
    + rewrite <- Es. cbn [posted]. rewrite set2_get. op_if; reflexivity.
Qed.

Lemma exec_postsend s p0 l q0 : inv s -> p0 < n -> todo V s p0 = PostSend q0 :: l ->
  forall s', exec (PostSend q0) p0 l s = Some s' -> inv s'.
Proof.
  intros I Hp T s' H.
  pose proof (f_equal (fun o => match o with Some x => x | None => s end) H) as Es. cbn in Es. clear H.
  destruct (op_common s s' p0 _ l I Hp T) as (Sf & Cn & Br); try (rewrite <- Es; reflexivity); [discriminate|].
  destruct (head_cnt s p0 _ l Hp (iv_suffix s I p0 Hp) T) as (H0 & H1 & H2).
  assert (Ec : cv V s' = cv V s) by (rewrite <- Es; reflexivity).
  assert (Ea : calls V s' = calls V s) by (rewrite <- Es; reflexivity).
  assert (Ep : posted V s' = posted V s) by (rewrite <- Es; reflexivity).
  assert (Eo : xout V s' = xout V s) by (rewrite <- Es; reflexivity).
  assert (Ei : xin V s' = xin V s) by (rewrite <- Es; reflexivity).
  destruct (frame_procs s s' p0 _ l I Hp T ltac:(discriminate) ltac:(discriminate) Ec Ea Cn) as [F1 F2].
  split; [exact Sf| |exact F1|exact F2|exact Br].
  intros p q Hpn Hqn Hs.
  assert (C1 : forall x pp, pp < n -> x <> PostSend q0 -> cnt s' x pp = cnt s x pp).
  { intros x pp Hpp Nx. rewrite Cn by exact Hpp. op_if; lia. }
  pose proof (iv_pairs s I p q Hpn Hqn Hs) as P.
  destruct (Nat.eq_dec p p0) as [e1|N1]; [destruct (Nat.eq_dec q q0) as [e2|N2]|].
  - subst p q. destruct (pair_bounds s p0 q0 I Hpn Hqn Hs) as (Hr & B1 & _).
    assert (Cf : sent s' p0 q0 = S (rd V s p0)).
    { rewrite Cn, Nat.eqb_refl by exact Hpn. destruct (op_dec (PostSend q0) (PostSend q0)); [lia|congruence]. }
    assert (Fc : filled s p0 q0 = S (rd V s p0)) by (apply H2; simpl; lia).
    assert (Eq : queue V s' p0 q0 = queue V s p0 q0 ++ [fun _ => None]).
    { rewrite <- Es. cbn [queue]. rewrite set2_get, !Nat.eqb_refl. reflexivity. }
    destruct P as [P1 P2 P3 P4 P5 P6 P7 P8].
    split; rewrite ?Eq, ?Ep, ?Ei, ?Eo, ?Ec, ?Ea, ?Cf, ?C1 by (auto; discriminate).
    + rewrite app_length. cbn [length]. lia.
    + exact P2.
    + exact P3.
    + intros j m k i v Hj Hk Hm. rewrite app_length. cbn [length].
      assert (HL : j < length (queue V s p0 q0 ++ [fun _ : nat => @None V])) by (apply nth_error_Some; congruence).
      rewrite app_length in HL. cbn [length] in HL.
      destruct (Nat.eq_dec j (length (queue V s p0 q0))) as [->|Nj].
      * rewrite nth_error_app2, Nat.sub_diag in Hj by lia. cbn in Hj. injection Hj as <-. discriminate.
      * rewrite nth_error_app1 in Hj by lia. rewrite (P4 j m k i v Hj Hk Hm). f_equal. lia.
    + intros j m k i Hj Hk Hm. rewrite app_length. cbn [length]. split; [|lia].
      assert (HL : j < length (queue V s p0 q0 ++ [fun _ : nat => @None V])) by (apply nth_error_Some; congruence).
      rewrite app_length in HL. cbn [length] in HL.
      destruct (Nat.eq_dec j (length (queue V s p0 q0))) as [->|Nj]; [lia|].
      rewrite nth_error_app1 in Hj by lia. destruct (P5 j m k i Hj Hk Hm). lia.
    + exact P6.
    + intros W. rewrite (H1 WaitSends) by (first [apply in_round; exact W|simpl; lia]). intros. lia.
    + exact P8.
  - apply (frame_pair s); rewrite ?Ep, ?Eo, ?Ei, ?Ec, ?Ea; auto; try (apply C1; [assumption|congruence]).
    + intros _. apply C1; [assumption|congruence].
    + rewrite <- Es. cbn [queue]. rewrite set2_get. op_if; rewrite ?andb_false_r; reflexivity.
  - apply (frame_pair s); rewrite ?Ep, ?Eo, ?Ei, ?Ec, ?Ea; auto; try (apply C1; [assumption|congruence]).
    + rewrite Cn by exact Hpn. op_if; lia.
    + intros _. apply C1; [assumption|congruence].
    + rewrite <- Es. cbn [queue]. rewrite set2_get. op_if; reflexivity.
Qed.

Lemma exec_waitrecvs s p0 l : inv s -> p0 < n -> todo V s p0 = WaitRecvs :: l ->
  forall s', exec WaitRecvs p0 l s = Some s' -> inv s'.
Proof.
  intros I Hp T s' H. unfold GhostModel.exec in H.
  destruct (forallb (fun q => negb (posted V s p0 q)) (recvs p0)) eqn:HF; [|discriminate].
  pose proof (f_equal (fun o => match o with Some x => x | None => s end) H) as Es. cbn beta iota in Es. clear H.
  destruct (op_common s s' p0 _ l I Hp T) as (Sf & Cn & Br); try (rewrite <- Es; reflexivity); [discriminate|].
  assert (Ec : cv V s' = cv V s) by (rewrite <- Es; reflexivity).
  assert (Ea : calls V s' = calls V s) by (rewrite <- Es; reflexivity).
  assert (Eq : queue V s' = queue V s) by (rewrite <- Es; reflexivity).
  assert (Ep : posted V s' = posted V s) by (rewrite <- Es; reflexivity).
  assert (Eo : xout V s' = xout V s) by (rewrite <- Es; reflexivity).
  assert (Ei : xin V s' = xin V s) by (rewrite <- Es; reflexivity).
  destruct (frame_procs s s' p0 _ l I Hp T ltac:(discriminate) ltac:(discriminate) Ec Ea Cn) as [F1 F2].
  split; [exact Sf| |exact F1|exact F2|exact Br].
  intros p q Hpn Hqn Hs.
  assert (C1 : forall x pp, pp < n -> x <> WaitRecvs -> cnt s' x pp = cnt s x pp).
  { intros x pp Hpp Nx. rewrite Cn by exact Hpp. op_if; lia. }
  pose proof (iv_pairs s I p q Hpn Hqn Hs) as P.
  destruct (Nat.eq_dec q p0) as [e1|N1].
  - subst q. assert (Hr : In p (recvs p0)) by (apply (keys_match _ _ _ _ _ M p p0 Hpn Hqn), Hs).
    rewrite forallb_forall in HF. specialize (HF p Hr). apply negb_true_iff in HF.
    destruct P as [P1 P2 P3 P4 P5 P6 P7 P8].
    split; rewrite ?Eq, ?Ep, ?Ei, ?Eo, ?Ec, ?Ea, ?C1 by (auto; discriminate); try assumption.
    rewrite HF. discriminate.
  - apply (frame_pair s); rewrite ?Eq, ?Ep, ?Eo, ?Ei, ?Ec, ?Ea; auto; try (apply C1; [assumption|congruence]).
    + rewrite Cn by exact Hqn. op_if; lia.
    + intros _. apply C1; [assumption|congruence].
Qed.

Lemma exec_waitsends s p0 l : inv s -> p0 < n -> todo V s p0 = WaitSends :: l ->
  forall s', exec WaitSends p0 l s = Some s' -> inv s'.
Proof.
  intros I Hp T s' H. unfold GhostModel.exec in H.
  destruct (forallb (fun q => forallb (captured V (length (sid p0 q))) (queue V s p0 q)) (sends p0)) eqn:HF; [|discriminate].
  pose proof (f_equal (fun o => match o with Some x => x | None => s end) H) as Es. cbn beta iota in Es. clear H.
  destruct (op_common s s' p0 _ l I Hp T) as (Sf & Cn & Br); try (rewrite <- Es; reflexivity); [discriminate|].
  assert (Ec : cv V s' = cv V s) by (rewrite <- Es; reflexivity).
  assert (Ea : calls V s' = calls V s) by (rewrite <- Es; reflexivity).
  assert (Eq : queue V s' = queue V s) by (rewrite <- Es; reflexivity).
  assert (Ep : posted V s' = posted V s) by (rewrite <- Es; reflexivity).
  assert (Eo : xout V s' = xout V s) by (rewrite <- Es; reflexivity).
  assert (Ei : xin V s' = xin V s) by (rewrite <- Es; reflexivity).
  destruct (frame_procs s s' p0 _ l I Hp T ltac:(discriminate) ltac:(discriminate) Ec Ea Cn) as [F1 F2].
  split; [exact Sf| |exact F1|exact F2|exact Br].
  intros p q Hpn Hqn Hs.
  assert (C1 : forall x pp, pp < n -> x <> WaitSends -> cnt s' x pp = cnt s x pp).
  { intros x pp Hpp Nx. rewrite Cn by exact Hpp. op_if; lia. }
  pose proof (iv_pairs s I p q Hpn Hqn Hs) as P.
  destruct (Nat.eq_dec p p0) as [e1|N1].
  - subst p. rewrite forallb_forall in HF. specialize (HF q Hs). rewrite forallb_forall in HF.
    destruct P as [P1 P2 P3 P4 P5 P6 P7 P8].
    split; rewrite ?Eq, ?Ep, ?Ei, ?Eo, ?Ec, ?Ea, ?C1 by (auto; discriminate); try assumption.
    intros _ _ j m k i Hj Hk. specialize (HF m (nth_error_In _ _ Hj)). unfold captured in HF.
    rewrite forallb_forall in HF. assert (Hlt : k < length (sid p0 q)) by (apply nth_error_Some; congruence).
    specialize (HF k). rewrite in_seq in HF. specialize (HF ltac:(lia)). destruct (m k); [discriminate|discriminate].
  - apply (frame_pair s); rewrite ?Eq, ?Ep, ?Eo, ?Ei, ?Ec, ?Ea; auto; try (apply C1; [assumption|congruence]).
    intros _. rewrite Cn by exact Hpn. op_if; lia.
Qed.

Lemma exec_barrier s p0 l : inv s -> p0 < n -> todo V s p0 = Barrier :: l ->
  forall s', exec Barrier p0 l s = Some s' -> inv s'.
Proof.
  intros I Hp T s' H. unfold GhostModel.exec in H.
  destruct (forallb (fun q => arrived V s q (rd V s p0)) (seq 0 n)) eqn:HF; [|discriminate].
  pose proof (f_equal (fun o => match o with Some x => x | None => s end) H) as Es. cbn beta iota in Es. clear H.
  destruct (op_common s s' p0 _ l I Hp T) as (Sf & Cn & Br); try (rewrite <- Es; reflexivity).
  { intros _ q Hq. rewrite forallb_forall in HF. apply HF. apply in_seq. lia. }
  assert (Ec : cv V s' = cv V s) by (rewrite <- Es; reflexivity).
  assert (Ea : calls V s' = calls V s) by (rewrite <- Es; reflexivity).
  assert (Eq : queue V s' = queue V s) by (rewrite <- Es; reflexivity).
  assert (Ep : posted V s' = posted V s) by (rewrite <- Es; reflexivity).
  assert (Eo : xout V s' = xout V s) by (rewrite <- Es; reflexivity).
  assert (Ei : xin V s' = xin V s) by (rewrite <- Es; reflexivity).
  destruct (frame_procs s s' p0 _ l I Hp T ltac:(discriminate) ltac:(discriminate) Ec Ea Cn) as [F1 F2].
  split; [exact Sf| |exact F1|exact F2|exact Br].
  intros p q Hpn Hqn Hs.
  assert (C1 : forall x pp, pp < n -> x <> Barrier -> cnt s' x pp = cnt s x pp).
  { intros x pp Hpp Nx. rewrite Cn by exact Hpp. op_if; lia. }
  pose proof (iv_pairs s I p q Hpn Hqn Hs) as P.
  apply (frame_pair s); rewrite ?Eq, ?Ep, ?Eo, ?Ei, ?Ec, ?Ea; auto; try (apply C1; [assumption|congruence]).
  intros _. apply C1; [assumption|congruence].
Qed.

(** Writing received values. *)
Lemma put_other c ids x : forall k g, ~ In g ids -> put_from V c ids k x g = c g.
Proof.
  revert c. induction ids as [|i ids IH]; intros c k g H; [reflexivity|]. cbn [put_from].
  rewrite IH by (intros Hi; apply H; right; exact Hi). apply upd_other. intros ->. apply H. left. reflexivity.
Qed.
Lemma put_get x : forall ids c k j g, NoDup ids -> nth_error ids j = Some g -> put_from V c ids k x g = x (k + j).
Proof.
  induction ids as [|i ids IH]; intros c k j g ND H; [destruct j; discriminate|]. inversion ND; subst. cbn [put_from].
  destruct j as [|j]; cbn in H.
  - injection H as ->. rewrite put_other by assumption. rewrite upd_same, Nat.add_0_r. reflexivity.
  - rewrite (IH (upd c i (x k)) (S k) j g) by assumption. f_equal. lia.
Qed.

Lemma flat_map_nodup_in {A B} (f : A -> list B) l a : NoDup (flat_map f l) -> In a l -> NoDup (f a).
Proof.
  induction l as [|x l IH]; intros H Hi; [destruct Hi|]. cbn [flat_map] in H.
  assert (NoDup (f x) /\ NoDup (flat_map f l)) as [H1 H2].
  { clear -H. split.
    - induction (f x) as [|y m IHm]; [constructor|]. inversion H; subst. constructor; [|apply IHm; assumption].
      intros Hi. apply H2. apply in_app_iff. left. exact Hi.
    - induction (f x) as [|y m IHm]; [exact H|]. inversion H; subst. apply IHm. assumption. }
  destruct Hi as [->|Hi]; [exact H1|apply IH; assumption].
Qed.
Lemma flat_map_nodup_disj {A B} (f : A -> list B) l a b g : NoDup (flat_map f l) -> In a l -> In b l ->
  In g (f a) -> In g (f b) -> a = b.
Proof.
  induction l as [|x l IH]; intros H Ha Hb Ga Gb; [destruct Ha|]. cbn [flat_map] in H.
  assert (D : forall m1 m2 : list B, NoDup (m1 ++ m2) -> In g m1 -> In g m2 -> False).
  { induction m1 as [|y m1 IHm]; intros m2 Hn H1 H2; [destruct H1|]. inversion Hn as [|? ? Hy0 Hn0]; subst. destruct H1 as [->|H1].
    - apply Hy0. apply in_app_iff. right. exact H2.
    - eapply IHm; eassumption. }
  assert (T : NoDup (flat_map f l)).
  { clear -H. induction (f x) as [|y m IHm]; [exact H|]. inversion H; subst. apply IHm. assumption. }
  destruct Ha as [->|Ha], Hb as [->|Hb]; [reflexivity| | |apply IH; assumption].
  - exfalso. eapply D; [exact H|exact Ga|]. apply in_flat_map. exists b. split; assumption.
  - exfalso. eapply D; [exact H|exact Gb|]. apply in_flat_map. exists a. split; assumption.
Qed.

Lemma exec_put s p0 l q0 : inv s -> p0 < n -> todo V s p0 = Put q0 :: l ->
  forall s', exec (Put q0) p0 l s = Some s' -> inv s'.
Proof.
  intros I Hp T s' H.
  pose proof (f_equal (fun o => match o with Some x => x | None => s end) H) as Es. cbn in Es. clear H.
  destruct (op_common s s' p0 _ l I Hp T) as (Sf & Cn & Br); try (rewrite <- Es; reflexivity); [discriminate|].
  destruct (head_cnt s p0 _ l Hp (iv_suffix s I p0 Hp) T) as (H0 & H1 & H2).
  destruct (head_facts s p0 _ l Hp (iv_suffix s I p0 Hp) T) as (Hin & _).
  apply in_round in Hin.
  assert (Ec : cv V s' = upd (cv V s) p0 (put_from V (cv V s p0) (rid p0 q0) 0 (xin V s p0 q0))) by (rewrite <- Es; reflexivity).
  assert (Ea : calls V s' = calls V s) by (rewrite <- Es; reflexivity).
  assert (Eq : queue V s' = queue V s) by (rewrite <- Es; reflexivity).
  assert (Ep : posted V s' = posted V s) by (rewrite <- Es; reflexivity).
  assert (Eo : xout V s' = xout V s) by (rewrite <- Es; reflexivity).
  assert (Ei : xin V s' = xin V s) by (rewrite <- Es; reflexivity).
  assert (C1 : forall x pp, pp < n -> x <> Put q0 -> cnt s' x pp = cnt s x pp).
  { intros x pp Hpp Nx. rewrite Cn by exact Hpp. op_if; lia. }
  assert (Wc : cnt s WaitRecvs p0 = S (rd V s p0)) by (apply H2; simpl; lia).
  assert (Cc : cnt s Compute p0 = rd V s p0) by (apply H1; [apply in_round; exact Logic.I|simpl; lia]).
  pose proof (ghosts_nodup _ _ _ _ _ M p0 Hp) as GN.
  split; [exact Sf| | | |exact Br].
  - intros p q Hpn Hqn Hs. pose proof (iv_pairs s I p q Hpn Hqn Hs) as P.
    destruct (pair_bounds s p q I Hpn Hqn Hs) as (Hr & B1 & B2 & B3 & B4 & B5 & B6 & B7 & B8).
    destruct (Nat.eq_dec q p0) as [e1|N1]; [destruct (Nat.eq_dec p q0) as [e2|N2]|].
    + subst p q. destruct P as [P1 P2 P3 P4 P5 P6 P7 P8].
      split; rewrite ?Eq, ?Ep, ?Ei, ?Eo, ?Ea, ?(C1 (PostRecv _)), ?(C1 (PostSend _)), ?(C1 (Fill _)),
        ?(C1 WaitRecvs), ?(C1 WaitSends), ?(C1 Compute) by (auto; discriminate); try assumption.
      intros k i g Hk Hg _. rewrite Ec, upd_same.
      rewrite (put_get _ _ _ _ k g) by (first [exact Hg|eapply flat_map_nodup_in; eassumption]). cbn [Nat.add].
      pose proof (cnt_rd s p0 (PostRecv q0)).
      assert (Pf : posted V s p0 q0 = false).
      { destruct (posted V s p0 q0); [|reflexivity]. specialize (P2 eq_refl). lia. }
      rewrite (P6 k i Hk Pf ltac:(lia)). f_equal. lia.
    + subst q. apply (frame_pair s); rewrite ?Eq, ?Ep, ?Eo, ?Ei, ?Ea; auto; try (apply C1; [assumption|congruence]).
      * intros _. apply C1; [assumption|congruence].
      * intros g Hg. rewrite Ec, upd_same. apply put_other. intros Hg'. apply N2.
        eapply flat_map_nodup_disj; eassumption.
    + apply (frame_pair s); rewrite ?Eq, ?Ep, ?Eo, ?Ei, ?Ea; auto; try (apply C1; [assumption|congruence]).
      * intros _. apply C1; [assumption|congruence].
      * rewrite Cn by exact Hqn. op_if; lia.
      * intros g Hg. rewrite Ec, upd_other by exact N1. reflexivity.
  - intros p Hpn. rewrite !C1 by (auto; discriminate). intros Hl Hw i. rewrite Ea, Ec.
    destruct (Nat.eq_dec p p0) as [->|N]; [lia|]. rewrite upd_other by exact N. apply (iv_entered s I p Hpn); assumption.
  - intros p Hpn. rewrite !C1 by (auto; discriminate). intros Hl i Hi. rewrite Ea, Ec.
    destruct (Nat.eq_dec p p0) as [->|N].
    + rewrite upd_same, put_other; [apply (iv_full s I p0 Hpn); assumption|].
      intros Hg. apply Hi. apply in_flat_map. exists q0. split; assumption.
    + rewrite upd_other by exact N. apply (iv_full s I p Hpn); assumption.
Qed.

Lemma move_compute s p0 c s' : inv s -> do_move (MCompute V p0 c) s = Some s' -> inv s'.
Proof.
  intros I H. unfold GhostModel.do_move in H.
  destruct (Nat.ltb_spec p0 n) as [Hp|]; [|discriminate].
  destruct (todo V s p0) as [|o l] eqn:T; [discriminate|]. destruct o; try discriminate.
  pose proof (f_equal (fun o => match o with Some x => x | None => s end) H) as Es. cbn in Es. clear H.
  destruct (op_common s s' p0 _ l I Hp T) as (Sf & Cn & Br); try (rewrite <- Es; reflexivity); [discriminate|].
  destruct (head_cnt s p0 _ l Hp (iv_suffix s I p0 Hp) T) as (H0 & H1 & H2).
  assert (Ec : cv V s' = upd (cv V s) p0 c) by (rewrite <- Es; reflexivity).
  assert (Ea : calls V s' = calls V s) by (rewrite <- Es; reflexivity).
  assert (Eq : queue V s' = queue V s) by (rewrite <- Es; reflexivity).
  assert (Ep : posted V s' = posted V s) by (rewrite <- Es; reflexivity).
  assert (Eo : xout V s' = xout V s) by (rewrite <- Es; reflexivity).
  assert (Ei : xin V s' = xin V s) by (rewrite <- Es; reflexivity).
  assert (C1 : forall x pp, pp < n -> x <> Compute -> cnt s' x pp = cnt s x pp).
  { intros x pp Hpp Nx. rewrite Cn by exact Hpp. op_if; lia. }
  assert (Cs : cnt s' Compute p0 = S (rd V s p0)).
  { rewrite Cn, Nat.eqb_refl by exact Hp. destruct (op_dec Compute Compute); [lia|congruence]. }
  assert (Co : forall p, p < n -> p <> p0 -> cnt s' Compute p = cnt s Compute p).
  { intros p Hpn N. rewrite Cn by exact Hpn. op_if; lia. }
  split; [exact Sf| | | |exact Br].
  - intros p q Hpn Hqn Hs. pose proof (iv_pairs s I p q Hpn Hqn Hs) as P.
    destruct (Nat.eq_dec q p0) as [e1|N1].
    + subst q. destruct P as [P1 P2 P3 P4 P5 P6 P7 P8].
      split; rewrite ?Eq, ?Ep, ?Ei, ?Eo, ?Ea, ?(C1 (PostRecv _)), ?(C1 (PostSend _)), ?(C1 (Fill _)),
        ?(C1 WaitRecvs), ?(C1 WaitSends), ?(C1 (Put _)) by (auto; discriminate); try assumption.
      intros k i g Hk Hg Hl. pose proof (cnt_rd s p0 (Put p)). lia.
    + apply (frame_pair s); rewrite ?Eq, ?Ep, ?Eo, ?Ei, ?Ea; auto; try (apply C1; [assumption|congruence]).
      * intros _. apply C1; [assumption|congruence].
      * intros g Hg. rewrite Ec, upd_other by exact N1. reflexivity.
  - intros p Hpn. rewrite !(C1 Enter), (C1 WaitRecvs) by (auto; discriminate). intros Hl Hw i. rewrite Ea, Ec.
    destruct (Nat.eq_dec p p0) as [->|N].
    + pose proof (cnt_rd s p0 Enter). lia.
    + rewrite upd_other by exact N. rewrite (Co p Hpn N) in *. apply (iv_entered s I p Hpn); assumption.
  - intros p Hpn. rewrite !(C1 Enter) by (auto; discriminate). intros Hl i Hi. rewrite Ea, Ec.
    destruct (Nat.eq_dec p p0) as [->|N].
    + pose proof (cnt_rd s p0 Enter). lia.
    + rewrite upd_other by exact N. rewrite (Co p Hpn N) in *. apply (iv_full s I p Hpn); assumption.
Qed.

Lemma move_next s p0 s' : inv s -> do_move (MNext V p0) s = Some s' -> inv s'.
Proof.
  intros I H. unfold GhostModel.do_move in H.
  destruct (Nat.ltb_spec p0 n) as [Hp|]; [|discriminate].
  destruct (todo V s p0) as [|o l] eqn:T; [|discriminate].
  pose proof (f_equal (fun o => match o with Some x => x | None => s end) H) as Es. cbn beta iota in Es. clear H.
  assert (Ec : cv V s' = cv V s) by (rewrite <- Es; reflexivity).
  assert (Ea : calls V s' = calls V s) by (rewrite <- Es; reflexivity).
  assert (Eq : queue V s' = queue V s) by (rewrite <- Es; reflexivity).
  assert (Ep : posted V s' = posted V s) by (rewrite <- Es; reflexivity).
  assert (Eo : xout V s' = xout V s) by (rewrite <- Es; reflexivity).
  assert (Ei : xin V s' = xin V s) by (rewrite <- Es; reflexivity).
  assert (Er : rd V s' = upd (rd V s) p0 (S (rd V s p0))) by (rewrite <- Es; reflexivity).
  assert (Et : todo V s' = upd (todo V s) p0 (round p0 (S (rd V s p0)))) by (rewrite <- Es; reflexivity).
  clear Es.
  assert (C1 : forall x p, p < n -> (forall r, In x (round p r)) -> cnt s' x p = cnt s x p).
  { intros x p Hpn Hx. unfold cnt. rewrite Er, Et, !upd_get. destruct (Nat.eqb_spec p p0) as [->|]; [|reflexivity].
    rewrite T, fin_nil, fin_in by apply Hx. lia. }
  assert (Sf : forall p, p < n -> suffix s' p).
  { intros p Hpn. unfold suffix. rewrite Er, Et, !upd_get. destruct (Nat.eqb_spec p p0) as [->|].
    - exists []. reflexivity.
    - apply (iv_suffix s I p Hpn). }
  split; [exact Sf| | | |].
  - intros p q Hpn Hqn Hs. pose proof (iv_pairs s I p q Hpn Hqn Hs) as P.
    assert (Hr : In p (recvs q)) by (apply (keys_match _ _ _ _ _ M p q Hpn Hqn), Hs).
    apply (frame_pair s); rewrite ?Eq, ?Ep, ?Eo, ?Ei, ?Ea, ?Ec; auto;
      try (apply C1; [assumption|intros; apply in_round; first [assumption|exact Logic.I]]).
    intros W. apply C1; [assumption|intros; apply in_round; assumption].
  - intros p Hpn. rewrite !C1 by (try exact Hpn; intros; apply in_round; exact Logic.I). rewrite Ec, Ea.
    apply (iv_entered s I p Hpn).
  - intros p Hpn. rewrite !C1 by (try exact Hpn; intros; apply in_round; exact Logic.I). rewrite Ec, Ea.
    apply (iv_full s I p Hpn).
  - intros p r Hpn Sy HH q Hq. rewrite C1 by (try exact Hq; intros; apply in_round; exact Logic.I).
    apply (iv_barrier s I p r Hpn Sy); [|exact Hq].
    rewrite Er, Et, !upd_get in HH. destruct (Nat.eqb_spec p p0) as [->|]; [|exact HH].
    destruct HH as [HH|[_ HH]]; [|unfold GhostModel.round in HH; discriminate].
    destruct (Nat.eq_dec r (rd V s p0)); [right; auto|left; lia].
Qed.

(** Moves of the library leave the programs alone. *)
Lemma lib_frame s s' : inv s -> rd V s' = rd V s -> todo V s' = todo V s -> cv V s' = cv V s -> calls V s' = calls V s ->
  (forall p q, p < n -> q < n -> In q (sends p) -> pair_inv s' p q) -> inv s'.
Proof.
  intros I Er Et Ec Ea HP.
  assert (Cn : forall x p, cnt s' x p = cnt s x p) by (intros; apply cnt_same; rewrite ?Er, ?Et; reflexivity).
  split.
  - intros p Hp. eapply suffix_same; [rewrite Er; reflexivity|rewrite Et; reflexivity|apply (iv_suffix s I p Hp)].
  - exact HP.
  - intros p Hp. rewrite !Cn, Ec, Ea. apply (iv_entered s I p Hp).
  - intros p Hp. rewrite !Cn, Ec, Ea. apply (iv_full s I p Hp).
  - intros p r Hp. rewrite Er, Et. intros Sy H q Hq. rewrite Cn. exact (iv_barrier s I p r Hp Sy H q Hq).
Qed.

Lemma set_nth_msg_length l i k v : length (set_nth_msg V l i k v) = length l.
Proof. unfold set_nth_msg. rewrite map_length, combine_length, seq_length. lia. Qed.
Lemma set_nth_msg_nth l i k v j : nth_error (set_nth_msg V l i k v) j =
  match nth_error l j with Some m => Some (if j =? i then upd m k (Some v) else m) | None => None end.
Proof.
  unfold set_nth_msg. rewrite nth_error_map.
  assert (G : forall b, nth_error (combine (seq b (length l)) l) j =
    match nth_error l j with Some m => Some (b + j, m) | None => None end).
  { revert j. induction l as [|m l IH]; intros j b; [destruct j; reflexivity|].
    destruct j as [|j]; cbn; [rewrite Nat.add_0_r; reflexivity|]. rewrite IH.
    replace (S b + j) with (b + S j) by lia. reflexivity. }
  rewrite G. destruct (nth_error l j); reflexivity.
Qed.

Lemma move_capture s p0 q0 j0 k0 s' : inv s -> do_move (MCapture V p0 q0 j0 k0) s = Some s' -> inv s'.
Proof.
  intros I H. unfold GhostModel.do_move in H.
  destruct (nth_error (queue V s p0 q0) j0) as [m0|] eqn:N0; [|discriminate].
  destruct (m0 k0) eqn:M0; [discriminate|].
  pose proof (f_equal (fun o => match o with Some x => x | None => s end) H) as Es. cbn beta iota in Es. clear H.
  assert (Er : rd V s' = rd V s) by (rewrite <- Es; reflexivity).
  assert (Et : todo V s' = todo V s) by (rewrite <- Es; reflexivity).
  assert (Ec : cv V s' = cv V s) by (rewrite <- Es; reflexivity).
  assert (Ea : calls V s' = calls V s) by (rewrite <- Es; reflexivity).
  assert (Ep : posted V s' = posted V s) by (rewrite <- Es; reflexivity).
  assert (Eo : xout V s' = xout V s) by (rewrite <- Es; reflexivity).
  assert (Ei : xin V s' = xin V s) by (rewrite <- Es; reflexivity).
  assert (Eq : forall p q, queue V s' p q = if (p =? p0) && (q =? q0) then set_nth_msg V (queue V s p0 q0) j0 k0 (xout V s p0 q0 k0) else queue V s p q)
    by (intros p q; rewrite <- Es; apply set2_get).
  clear Es. apply (lib_frame s s' I Er Et Ec Ea).
  assert (Cn : forall x p, cnt s' x p = cnt s x p) by (intros; apply cnt_same; rewrite ?Er, ?Et; reflexivity).
  intros p q Hp Hq Hs. pose proof (iv_pairs s I p q Hp Hq Hs) as P.
  destruct ((p =? p0) && (q =? q0)) eqn:B.
  - apply andb_true_iff in B as [e1 e2]. apply Nat.eqb_eq in e1, e2. subst p q.
    destruct (pair_bounds s p0 q0 I Hp Hq Hs) as (Hr & B1 & _).
    assert (Eq' : queue V s' p0 q0 = set_nth_msg V (queue V s p0 q0) j0 k0 (xout V s p0 q0 k0)).
    { rewrite Eq, !Nat.eqb_refl. reflexivity. }
    destruct P as [P1 P2 P3 P4 P5 P6 P7 P8].
    split; rewrite ?Eq', ?set_nth_msg_length, ?Cn, ?Ec, ?Ea, ?Ep, ?Eo, ?Ei; try assumption.
    + intros j m k i v Hj Hk Hm. rewrite set_nth_msg_nth in Hj.
      destruct (nth_error (queue V s p0 q0) j) as [m1|] eqn:N1; [|discriminate]. injection Hj as <-.
      destruct (Nat.eqb_spec j j0) as [->|Nj]; [|eapply P4; eassumption].
      rewrite N0 in N1. injection N1 as <-. rewrite upd_get in Hm.
      destruct (Nat.eqb_spec k k0) as [->|Nk]; [|eapply P4; eassumption].
      injection Hm as <-. destruct (P5 j0 m0 k0 i N0 Hk M0) as [Q1 Q2].
      rewrite (P3 k0 i Hk ltac:(lia)). f_equal. lia.
    + intros j m k i Hj Hk Hm. rewrite set_nth_msg_nth in Hj.
      destruct (nth_error (queue V s p0 q0) j) as [m1|] eqn:N1; [|discriminate]. injection Hj as <-.
      destruct (Nat.eqb_spec j j0) as [->|Nj]; [|eapply P5; eassumption].
      rewrite N0 in N1. injection N1 as <-. rewrite upd_get in Hm.
      destruct (Nat.eqb_spec k k0) as [->|Nk]; [discriminate|eapply P5; eassumption].
    + intros W Sw j m k i Hj Hk. rewrite set_nth_msg_nth in Hj.
      destruct (nth_error (queue V s p0 q0) j) as [m1|] eqn:N1; [|discriminate]. injection Hj as <-.
      destruct (Nat.eqb_spec j j0) as [->|Nj]; [|eapply P7; eassumption].
      rewrite upd_get. destruct (k =? k0); [discriminate|]. eapply P7; eassumption.
  - apply (frame_pair s); rewrite ?Cn, ?Ec, ?Ea, ?Ep, ?Eo, ?Ei; auto. rewrite Eq, B. reflexivity.
Qed.

Lemma captured_get len m : captured V len m = true -> forall k, k < len -> exists v, m k = Some v.
Proof.
  unfold captured. rewrite forallb_forall. intros H k Hk. specialize (H k). rewrite in_seq in H. specialize (H ltac:(lia)).
  destruct (m k) as [v|]; [exists v; reflexivity|discriminate].
Qed.

Lemma move_deliver s p0 q0 s' : inv s -> do_move (MDeliver V p0 q0) s = Some s' -> inv s'.
Proof.
  intros I H. unfold GhostModel.do_move in H.
  destruct (queue V s p0 q0) as [|m0 ms] eqn:Q0; [discriminate|].
  destruct (posted V s q0 p0) eqn:P0; [|discriminate]. cbn [andb] in H.
  destruct (captured V (length (sid p0 q0)) m0) eqn:Cp; [|discriminate].
  pose proof (f_equal (fun o => match o with Some x => x | None => s end) H) as Es. cbn beta iota in Es. clear H.
  assert (Er : rd V s' = rd V s) by (rewrite <- Es; reflexivity).
  assert (Et : todo V s' = todo V s) by (rewrite <- Es; reflexivity).
  assert (Ec : cv V s' = cv V s) by (rewrite <- Es; reflexivity).
  assert (Ea : calls V s' = calls V s) by (rewrite <- Es; reflexivity).
  assert (Eo : xout V s' = xout V s) by (rewrite <- Es; reflexivity).
  assert (Ei : forall q p, xin V s' q p = if (q =? q0) && (p =? p0) then (fun k => match m0 k with Some v => v | None => xin V s q0 p0 k end) else xin V s q p)
    by (intros q p; rewrite <- Es; apply set2_get).
  assert (Ep : forall q p, posted V s' q p = if (q =? q0) && (p =? p0) then false else posted V s q p)
    by (intros q p; rewrite <- Es; apply set2_get).
  assert (Eq : forall p q, queue V s' p q = if (p =? p0) && (q =? q0) then ms else queue V s p q)
    by (intros p q; rewrite <- Es; apply set2_get).
  clear Es. apply (lib_frame s s' I Er Et Ec Ea).
  assert (Cn : forall x p, cnt s' x p = cnt s x p) by (intros; apply cnt_same; rewrite ?Er, ?Et; reflexivity).
  intros p q Hp Hq Hs. pose proof (iv_pairs s I p q Hp Hq Hs) as P.
  destruct ((p =? p0) && (q =? q0)) eqn:B.
  - apply andb_true_iff in B as [e1 e2]. apply Nat.eqb_eq in e1, e2. subst p q.
    destruct (pair_bounds s p0 q0 I Hp Hq Hs) as (Hr & B1 & _).
    assert (Eq' : queue V s' p0 q0 = ms) by (rewrite Eq, !Nat.eqb_refl; reflexivity).
    assert (Ep' : posted V s' q0 p0 = false) by (rewrite Ep, !Nat.eqb_refl; reflexivity).
    assert (Ei' : xin V s' q0 p0 = (fun k => match m0 k with Some v => v | None => xin V s q0 p0 k end)) by (rewrite Ei, !Nat.eqb_refl; reflexivity).
    destruct P as [P1 P2 P3 P4 P5 P6 P7 P8]. rewrite Q0 in *. rewrite P0 in *. cbn [length b2n] in *.
    split; rewrite ?Eq', ?Ep', ?Ei', ?Cn, ?Ec, ?Ea, ?Eo; try assumption.
    + cbn [b2n]. lia.
    + discriminate.
    + intros j m k i v Hj Hk Hm. rewrite (P4 (S j) m k i v Hj Hk Hm). f_equal. lia.
    + intros j m k i Hj Hk Hm. destruct (P5 (S j) m k i Hj Hk Hm). split; [lia|assumption].
    + intros k i Hk _ _. destruct (captured_get _ _ Cp k) as (v & Ev); [apply nth_error_Some; congruence|].
      rewrite Ev. rewrite (P4 0 m0 k i v eq_refl Hk Ev). f_equal. lia.
    + intros W Sw j m k i Hj Hk. apply (P7 W Sw (S j) m k i Hj Hk).
  - apply (frame_pair s); rewrite ?Cn, ?Ec, ?Ea, ?Eo, ?Eq, ?B; auto.
    + rewrite Ep, andb_comm, B. reflexivity.
    + rewrite Ei, andb_comm, B. reflexivity.
Qed.

Lemma move_scribble s q0 p0 x s' : inv s -> do_move (MScribble V q0 p0 x) s = Some s' -> inv s'.
Proof.
  intros I H. unfold GhostModel.do_move in H.
  destruct (posted V s q0 p0) eqn:P0; [|discriminate].
  pose proof (f_equal (fun o => match o with Some x => x | None => s end) H) as Es. cbn beta iota in Es. clear H.
  assert (Er : rd V s' = rd V s) by (rewrite <- Es; reflexivity).
  assert (Et : todo V s' = todo V s) by (rewrite <- Es; reflexivity).
  assert (Ec : cv V s' = cv V s) by (rewrite <- Es; reflexivity).
  assert (Ea : calls V s' = calls V s) by (rewrite <- Es; reflexivity).
  assert (Eo : xout V s' = xout V s) by (rewrite <- Es; reflexivity).
  assert (Ep : posted V s' = posted V s) by (rewrite <- Es; reflexivity).
  assert (Eq : queue V s' = queue V s) by (rewrite <- Es; reflexivity).
  assert (Ei : forall q p, xin V s' q p = if (q =? q0) && (p =? p0) then x else xin V s q p)
    by (intros q p; rewrite <- Es; apply set2_get).
  clear Es. apply (lib_frame s s' I Er Et Ec Ea).
  assert (Cn : forall x p, cnt s' x p = cnt s x p) by (intros; apply cnt_same; rewrite ?Er, ?Et; reflexivity).
  intros p q Hp Hq Hs. pose proof (iv_pairs s I p q Hp Hq Hs) as P.
  destruct ((q =? q0) && (p =? p0)) eqn:B.
  - apply andb_true_iff in B as [e1 e2]. apply Nat.eqb_eq in e1, e2. subst p q.
    destruct P as [P1 P2 P3 P4 P5 P6 P7 P8].
    split; rewrite ?Eq, ?Ep, ?Cn, ?Ec, ?Ea, ?Eo; try assumption.
    rewrite P0. discriminate.
  - apply (frame_pair s); rewrite ?Cn, ?Ec, ?Ea, ?Eo, ?Eq, ?Ep; auto. rewrite Ei, B. reflexivity.
Qed.

Theorem inv_move s m s' : (wait_sends = true \/ forall r, sync r = true) ->
  inv s -> do_move m s = Some s' -> inv s'.
Proof.
  intros HW I H. destruct m as [p|p c|p|p q i k|p q|q p x].
  - unfold GhostModel.do_move in H. destruct (Nat.ltb_spec p n) as [Hp|]; [|discriminate].
    destruct (todo V s p) as [|o l] eqn:T; [discriminate|].
    destruct o; [eapply exec_enter|eapply exec_fill|eapply exec_postrecv|eapply exec_postsend|eapply exec_waitrecvs|
      eapply exec_waitsends|eapply exec_put|discriminate|eapply exec_barrier]; eassumption.
  - eapply move_compute; eassumption.
  - eapply move_next; eassumption.
  - eapply move_capture; eassumption.
  - eapply move_deliver; eassumption.
  - eapply move_scribble; eassumption.
Qed.

Theorem inv_reachable s : (wait_sends = true \/ forall r, sync r = true) -> reachable s -> inv s.
Proof.
  intros HW. induction 1; [apply inv_initial; assumption|]. eapply inv_move; eassumption.
Qed.

(** When [q] has returned from its call, every ghost holds the value its owner
    had when it made the same call. *)
Theorem ghosts_current s q l : inv s -> q < n -> todo V s q = Compute :: l ->
  (forall p k i g, In p (recvs q) -> nth_error (sid p q) k = Some i -> nth_error (rid q p) k = Some g ->
    cv V s q g = calls V s p (rd V s q) i) /\
  (forall i, ~ In i (flat_map (rid q) (recvs q)) -> cv V s q i = calls V s q (rd V s q) i).
Proof.
  intros I Hq T. destruct (head_cnt s q _ l Hq (iv_suffix s I q Hq) T) as (H0 & H1 & H2).
  split.
  - intros p k i g Hr Hk Hg.
    assert (Hp : p < n) by (eapply (keys_range _ _ _ _ _ M q p Hq); right; exact Hr).
    assert (Hs : In q (sends p)) by (apply (keys_match _ _ _ _ _ M p q Hp Hq), Hr).
    rewrite <- H0. apply (pi_ghost s p q (iv_pairs s I p q Hp Hq Hs) k i g Hk Hg).
    rewrite H0, (H2 (Put p)) by (simpl; lia). lia.
  - intros i Hi. rewrite <- H0. apply (iv_full s I q Hq); [|exact Hi].
    rewrite H0, (H2 Enter) by (simpl; lia). lia.
Qed.

(** The owner has made that call, and the recorded values do not change any more. *)
Lemma calls_frozen s m s' p r i : do_move m s = Some s' -> suffix s p -> p < n -> r < cnt s Enter p ->
  calls V s' p r i = calls V s p r i.
Proof.
  intros H Sf Hp Hr. destruct m as [p'|p' c|p'|p' q j k|p' q|q p' x]; unfold GhostModel.do_move in H.
  - destruct (Nat.ltb_spec p' n); [|discriminate]. destruct (todo V s p') as [|o l] eqn:T; [discriminate|].
    destruct o; unfold GhostModel.exec in H;
      try (match type of H with (if ?b then _ else _) = _ => destruct b; [|discriminate] end);
      try discriminate;
      match type of H with Some ?a = _ => assert (Es : a = s') by congruence end; rewrite <- Es; try reflexivity.
    cbn [calls set_todo rd cv]. rewrite set2_get. destruct (Nat.eqb_spec p p') as [<-|]; cbn [andb]; [|reflexivity].
    destruct (Nat.eqb_spec r (rd V s p)); [|reflexivity].
    destruct (head_cnt s p _ l Hp Sf T) as (Hh & _). lia.
  - destruct (Nat.ltb_spec p' n); [|discriminate]. destruct (todo V s p') as [|[] l]; try discriminate.
    match type of H with Some ?a = _ => assert (Es : a = s') by congruence end; rewrite <- Es; reflexivity.
  - destruct (Nat.ltb_spec p' n); [|discriminate]. destruct (todo V s p') as [|]; try discriminate.
    match type of H with Some ?a = _ => assert (Es : a = s') by congruence end; rewrite <- Es; reflexivity.
  - destruct (nth_error (queue V s p' q) j) as [m|]; [|discriminate]. destruct (m k); [discriminate|].
    match type of H with Some ?a = _ => assert (Es : a = s') by congruence end; rewrite <- Es; reflexivity.
  - destruct (queue V s p' q) as [|m ms]; [discriminate|].
    match type of H with (if ?b then _ else _) = _ => destruct b; [|discriminate] end.
    match type of H with Some ?a = _ => assert (Es : a = s') by congruence end; rewrite <- Es; reflexivity.
  - destruct (posted V s q p'); [|discriminate].
    match type of H with Some ?a = _ => assert (Es : a = s') by congruence end; rewrite <- Es; reflexivity.
Qed.

Theorem owner_called s q l p : inv s -> q < n -> todo V s q = Compute :: l -> In p (recvs q) ->
  rd V s q < cnt s Enter p.
Proof.
  intros I Hq T Hr. destruct (head_cnt s q _ l Hq (iv_suffix s I q Hq) T) as (H0 & H1 & H2).
  assert (Hp : p < n) by (eapply (keys_range _ _ _ _ _ M q p Hq); right; exact Hr).
  assert (Hs : In q (sends p)) by (apply (keys_match _ _ _ _ _ M p q Hp Hq), Hr).
  destruct (pair_bounds s p q I Hp Hq Hs) as (_ & B1 & B2 & B3 & B4 & B5 & B6 & B7 & B8).
  rewrite (H2 (Put p)) in B6 by (simpl; lia). lia.
Qed.

(** ** No deadlock *)

Definition weight (s : state) (p : nat) : nat :=
  10 * rd V s p + match todo V s p with [] => 9 | o :: _ => rank o end.

Lemma least (f : nat -> nat) m : 0 < m -> exists p, p < m /\ forall q, q < m -> f p <= f q.
Proof.
  induction m as [|m IH]; intros H; [lia|]. destruct m as [|m].
  - exists 0. split; [lia|]. intros q Hq. replace q with 0 by lia. lia.
  - destruct IH as (p & Hp & Hmin); [lia|]. destruct (le_lt_dec (f p) (f (S m))).
    + exists p. split; [lia|]. intros q Hq. destruct (Nat.eq_dec q (S m)) as [->|]; [exact l|apply Hmin; lia].
    + exists (S m). split; [lia|]. intros q Hq. destruct (Nat.eq_dec q (S m)) as [->|]; [lia|].
      specialize (Hmin q ltac:(lia)). lia.
Qed.

Lemma weight_behind s p o r : p < n -> suffix s p -> In o (round p (rd V s p)) -> cnt s o p <= r ->
  weight s p <= 10 * r + rank o.
Proof.
  intros Hp Sf Ho Hc. unfold weight. destruct (todo V s p) as [|h l] eqn:T.
  - unfold cnt in Hc. rewrite T, fin_nil in Hc. lia.
  - destruct (head_facts s p h l Hp Sf T) as (_ & _ & C & D).
    destruct (le_lt_dec (rank h) (rank o)).
    + pose proof (cnt_rd s p o). lia.
    + assert (cnt s o p = S (rd V s p)).
      { unfold cnt. rewrite T, fin_notin; [lia|]. apply D. exact l0. }
      assert (rank h <= 8) by (destruct h; simpl; lia). lia.
Qed.

Lemma not_captured len m : captured V len m = false -> exists k, k < len /\ m k = None.
Proof.
  unfold captured. intros H.
  assert (G : forall l, forallb (fun k => match m k with Some _ => true | None => false end) l = false -> exists k, In k l /\ m k = None).
  { induction l as [|k l IH]; [discriminate|]. cbn [forallb]. destruct (m k) eqn:E.
    - cbn [andb]. intros Hl. destruct (IH Hl) as (k' & ? & ?). exists k'. split; [right; assumption|assumption].
    - intros _. exists k. split; [left; reflexivity|exact E]. }
  destruct (G _ H) as (k & Hk & E). apply in_seq in Hk. exists k. split; [lia|exact E].
Qed.

Lemma forallb_false {A} (f : A -> bool) l : forallb f l = false -> exists x, In x l /\ f x = false.
Proof.
  induction l as [|x l IH]; [discriminate|]. cbn [forallb]. destruct (f x) eqn:E; cbn [andb].
  - intros H. destruct (IH H) as (y & ? & ?). exists y. split; [right; assumption|assumption].
  - intros _. exists x. split; [left; reflexivity|exact E].
Qed.

Definition is_scribble (m : move V) : bool := match m with MScribble _ _ _ _ => true | _ => false end.

Theorem no_deadlock s : inv s -> 0 < n -> exists m s', do_move m s = Some s' /\ is_scribble m = false.
Proof.
  intros I Hn. destruct (least (weight s) n Hn) as (p & Hp & Hmin).
  destruct (todo V s p) as [|o l] eqn:T.
  - exists (MNext V p). eexists. split; [|reflexivity]. unfold GhostModel.do_move.
    destruct (Nat.ltb_spec p n); [|lia]. rewrite T. reflexivity.
  - assert (Go : forall s', exec o p l s = Some s' -> exists m s', do_move m s = Some s' /\ is_scribble m = false).
    { intros s' H. exists (MOp V p), s'. split; [|reflexivity]. unfold GhostModel.do_move.
      destruct (Nat.ltb_spec p n); [|lia]. rewrite T. exact H. }
    destruct (head_cnt s p o l Hp (iv_suffix s I p Hp) T) as (H0 & H1 & H2).
    destruct o; try (eapply Go; reflexivity).
    + (* WaitRecvs *)
      destruct (forallb (fun q => negb (posted V s p q)) (recvs p)) eqn:F.
      { eapply Go. unfold GhostModel.exec. rewrite F. reflexivity. }
      apply forallb_false in F as (q & Hr & Pq). apply negb_false_iff in Pq.
      assert (Hq : q < n) by (eapply (keys_range _ _ _ _ _ M p q Hp); right; exact Hr).
      assert (Hs : In p (sends q)) by (apply (keys_match _ _ _ _ _ M q p Hq Hp), Hr).
      destruct (iv_pairs s I q p Hq Hp Hs) as [P1 P2 _ _ _ _ _ _]. specialize (P2 Pq). rewrite Pq in P1. cbn [b2n] in P1.
      destruct (queue V s q p) as [|m0 ms] eqn:Q.
      * cbn [length] in P1.
        assert (Hb : weight s q <= 10 * rd V s p + rank (PostSend p)).
        { apply weight_behind; [exact Hq|apply (iv_suffix s I q Hq)|apply in_round; exact Hs|lia]. }
        specialize (Hmin q Hq). unfold weight at 1 in Hmin. rewrite T in Hmin. cbn [rank] in *. lia.
      * destruct (captured V (length (sid q p)) m0) eqn:Cp.
        -- exists (MDeliver V q p). eexists. split; [|reflexivity]. unfold GhostModel.do_move. rewrite Q, Pq, Cp. reflexivity.
        -- apply not_captured in Cp as (k & _ & Ek). exists (MCapture V q p 0 k). eexists. split; [|reflexivity].
           unfold GhostModel.do_move. rewrite Q. cbn [nth_error]. rewrite Ek. reflexivity.
    + (* WaitSends *)
      destruct (forallb (fun q => forallb (captured V (length (sid p q))) (queue V s p q)) (sends p)) eqn:F.
      { eapply Go. unfold GhostModel.exec. rewrite F. reflexivity. }
      apply forallb_false in F as (q & Hs & F). apply forallb_false in F as (m0 & Hm & Cp).
      apply not_captured in Cp as (k & _ & Ek). apply In_nth_error in Hm as (j & Hj).
      exists (MCapture V p q j k). eexists. split; [|reflexivity].
      unfold GhostModel.do_move. rewrite Hj, Ek. reflexivity.
    + (* Compute *)
      exists (MCompute V p (cv V s p)). eexists. split; [|reflexivity]. unfold GhostModel.do_move.
      destruct (Nat.ltb_spec p n); [|lia]. rewrite T. reflexivity.
    + (* Barrier *)
      destruct (forallb (fun q => arrived V s q (rd V s p)) (seq 0 n)) eqn:F.
      { eapply Go. unfold GhostModel.exec. rewrite F. reflexivity. }
      apply forallb_false in F as (q & Hq & F). apply in_seq in Hq.
      specialize (Hmin q ltac:(lia)). unfold weight in Hmin. rewrite T in Hmin. cbn [rank] in Hmin.
      unfold arrived in F. apply orb_false_iff in F as [F1 F2]. apply Nat.ltb_ge in F1.
      assert (Hlt : match todo V s q with [] => 9 | o :: _ => rank o end <= 9) by (destruct (todo V s q) as [|[]]; simpl; lia).
      assert (R : rd V s q = rd V s p) by lia. rewrite R, Nat.eqb_refl in F2. cbn [andb] in F2.
      destruct (todo V s q) as [|h l'] eqn:T'; [discriminate|].
      destruct h; cbn [rank] in Hmin; try lia.
      destruct l' as [|h' l']; [discriminate|exfalso].
      assert (Hq' : q < n) by lia.
      destruct (iv_suffix s I q Hq') as (pre & E). rewrite T' in E.
      pose proof (round_ranked q (rd V s q)) as RK. pose proof (round_nodup q (rd V s q) Hq') as ND.
      rewrite E in RK, ND. destruct (ranked_split _ _ _ RK) as [_ RB].
      specialize (RB h' (or_introl eq_refl)). destruct h'; cbn [rank] in RB; try lia.
      apply NoDup_remove_2 in ND. apply ND. apply in_app_iff. right. left. reflexivity.
Qed.
End Inv.
