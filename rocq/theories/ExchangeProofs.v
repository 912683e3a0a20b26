(** Proofs about the exchange of ghost values with blocking messages. *)
From Coq Require Import List Arith Bool Lia FunctionalExtensionality Sorted.
From Verif Require Import ArrayLib GhostModel KahnLib SyncLib SwapLib ExchangeModel.
Import ListNotations.

(** ** Keys *)
Lemma has_key_true x l : has_key x l = true <-> In x l.
Proof.
  unfold has_key. rewrite existsb_exists. split.
  - intros (y & H & E). apply Nat.eqb_eq in E. subst. exact H.
  - intros H. exists x. split; [exact H|apply Nat.eqb_refl].
Qed.
Lemma has_key_false x l : has_key x l = false <-> ~ In x l.
Proof. rewrite <- has_key_true. destruct (has_key x l); split; congruence. Qed.
Lemma insert_in x y l : In y (insert_key x l) <-> y = x \/ In y l.
Proof.
  induction l as [|z l IH]; cbn; [intuition|]. destruct (x <=? z); cbn; [intuition|]. rewrite IH. intuition.
Qed.
Lemma sort_in x l : In x (sort_keys l) <-> In x l.
Proof. induction l as [|y l IH]; cbn; [reflexivity|]. rewrite insert_in, IH. intuition. Qed.
Lemma insert_sorted x l : ~ In x l -> StronglySorted lt l -> StronglySorted lt (insert_key x l).
Proof.
  induction l as [|z l IH]; intros N H; cbn; [repeat constructor|]. inversion H as [|? ? H1 H2]; subst. destruct (Nat.leb_spec x z) as [L|L].
  - assert (x < z) by (cbn in N; assert (z <> x) by tauto; lia). constructor; [exact H|]. constructor; [assumption|]. rewrite Forall_forall in *. intros y Hy. specialize (H2 y Hy). lia.
  - constructor; [apply IH; [cbn in N; tauto|exact H1]|]. rewrite Forall_forall in *. intros y Hy. apply insert_in in Hy. destruct Hy as [Hy | Hy]; [lia|auto].
Qed.
Lemma sort_sorted l : NoDup l -> StronglySorted lt (sort_keys l).
Proof. induction 1 as [|x l N ND IH]; cbn; [constructor|]. apply insert_sorted; [rewrite sort_in; exact N|exact IH]. Qed.
Lemma sorted_unique a b : StronglySorted lt a -> StronglySorted lt b -> (forall x, In x a <-> In x b) -> a = b.
Proof.
  intros Ha. revert b. induction Ha as [|x a Ha IH Fa]; intros b Hb H.
  - destruct b as [|y b]; [reflexivity|]. exfalso. apply (H y). left. reflexivity.
  - destruct b as [|y b]; [exfalso; apply (H x); left; reflexivity|]. inversion Hb as [|? ? Hb' Fb]; subst. rewrite Forall_forall in Fa, Fb.
    assert (x = y).
    { destruct (proj1 (H x) (or_introl eq_refl)) as [E | E]; [congruence|]. destruct (proj2 (H y) (or_introl eq_refl)) as [E' | E']; [congruence|]. specialize (Fa y E'). specialize (Fb x E). lia. }
    subst y. f_equal. apply IH; [exact Hb'|]. intros z. split; intros Hz.
    + destruct (proj1 (H z) (or_intror Hz)) as [E | E]; [|exact E]. subst. specialize (Fa z Hz). lia.
    + destruct (proj2 (H z) (or_intror Hz)) as [E | E]; [|exact E]. subst. specialize (Fb z Hz). lia.
Qed.
Lemma seq_sorted a k : StronglySorted lt (seq a k).
Proof. revert a. induction k as [|k IH]; intros a; cbn; constructor; [apply IH|]. rewrite Forall_forall. intros x Hx. apply in_seq in Hx. lia. Qed.
Lemma filter_sorted f l : StronglySorted lt l -> StronglySorted lt (filter f l).
Proof.
  induction 1 as [|x l H IH F]; cbn; [constructor|]. destruct (f x); [|exact IH]. constructor; [exact IH|]. rewrite Forall_forall in *. intros y Hy. apply filter_In in Hy. apply F, Hy.
Qed.
Lemma sort_keys_filter n l : NoDup l -> (forall x, In x l -> x < n) -> sort_keys l = filter (fun x => has_key x l) (seq 0 n).
Proof.
  intros ND B. apply sorted_unique; [apply sort_sorted; exact ND|apply filter_sorted, seq_sorted|]. intros x. rewrite sort_in, filter_In, in_seq, has_key_true. split; [|tauto].
  intros H. specialize (B x H). split; [lia|exact H].
Qed.
Lemma same_keys_refl l : same_keys l l = true.
Proof. induction l as [|x l IH]; [reflexivity|]. cbn. rewrite Nat.eqb_refl. exact IH. Qed.

(** ** Writing ghost values *)
Section Puts.
Variable V : Type.
Lemma put_miss (ids : list nat) : forall x c i, ~ In i ids -> put V c ids x i = c i.
Proof.
  unfold put. induction ids as [|j ids IH]; intros x c i N; [reflexivity|]. destruct x as [|v x]; [reflexivity|]. cbn [combine fold_left fst snd]. rewrite IH by (cbn in N; tauto).
  apply upd_other. cbn in N. intuition.
Qed.
Lemma put_hit (ids : list nat) : forall x c i k v, NoDup ids -> nth_error ids k = Some i -> nth_error x k = Some v -> put V c ids x i = v.
Proof.
  induction ids as [|j ids IH]; intros x c i k v ND Hi Hv; [destruct k; discriminate|]. inversion ND as [|? ? N ND']; subst. destruct x as [|w x]; [destruct k; discriminate|].
  destruct k as [|k]; cbn in Hi, Hv.
  - injection Hi as ->. injection Hv as ->. change (put V (upd c i v) ids x i = v). rewrite put_miss by exact N. apply upd_same.
  - change (put V (upd c j w) ids x i = v). eapply IH; eassumption.
Qed.
Definition puts (ids : nat -> list nat) (x : nat -> list V) (qs : list nat) (c : nat -> V) : nat -> V :=
  fold_left (fun c q => put V c (ids q) (x q)) qs c.
Lemma puts_miss ids x qs : forall c i, ~ In i (flat_map ids qs) -> puts ids x qs c i = c i.
Proof.
  unfold puts. induction qs as [|q qs IH]; intros c i N; [reflexivity|]. cbn [fold_left flat_map] in *. rewrite in_app_iff in N. rewrite IH by tauto. apply put_miss. tauto.
Qed.
Lemma NoDup_app_l {A} (a b : list A) : NoDup (a ++ b) -> NoDup a /\ NoDup b /\ forall x, In x a -> ~ In x b.
Proof.
  induction a as [|y a IH]; cbn; intros H; [split; [constructor|]; split; [exact H|intros x []]|]. inversion H as [|? ? N H']; subst. rewrite in_app_iff in N.
  destruct (IH H') as (A1 & A2 & A3). split; [constructor; tauto|]. split; [exact A2|]. intros x [<- | Hx]; [tauto|auto].
Qed.
Lemma puts_hit ids x qs : forall c q i k v, NoDup (flat_map ids qs) -> In q qs -> nth_error (ids q) k = Some i -> nth_error (x q) k = Some v -> puts ids x qs c i = v.
Proof.
  unfold puts. induction qs as [|q' qs IH]; intros c q i k v ND Hq Hi Hv; [destruct Hq|]. cbn [flat_map fold_left] in *. destruct (NoDup_app_l _ _ ND) as (N1 & N2 & N3).
  destruct Hq as [-> | Hq]; [|eapply IH; eassumption]. fold (puts ids x qs (put V c (ids q) (x q))). rewrite puts_miss; [eapply put_hit; eassumption|].
  apply N3. eapply nth_error_In. exact Hi.
Qed.
(** The order of the sources does not matter. *)
Lemma puts_order ids x qs qs' c : NoDup (flat_map ids qs) -> NoDup (flat_map ids qs') -> (forall q, In q qs <-> In q qs') ->
  (forall q, In q qs -> length (x q) = length (ids q)) -> puts ids x qs c = puts ids x qs' c.
Proof.
  intros N N' E L. apply functional_extensionality. intros i. destruct (in_dec Nat.eq_dec i (flat_map ids qs)) as [H|H].
  - apply in_flat_map in H. destruct H as (q & Hq & Hi). destruct (In_nth_error _ _ Hi) as (k & Hk).
    assert (Hv : exists v, nth_error (x q) k = Some v).
    { destruct (nth_error (x q) k) eqn:Ev; [eauto|]. apply nth_error_None in Ev. rewrite (L q Hq) in Ev. apply nth_error_None in Ev. congruence. }
    destruct Hv as (v & Hv). rewrite (puts_hit ids x qs c q i k v), (puts_hit ids x qs' c q i k v); auto. apply E, Hq.
  - rewrite !puts_miss; [reflexivity| |exact H]. rewrite in_flat_map in *. intros (q & Hq & Hi). apply H. exists q. split; [apply E, Hq|exact Hi].
Qed.
Lemma NoDup_flat_map_filter (ids : nat -> list nat) f qs : NoDup (flat_map ids qs) -> NoDup (flat_map ids (filter f qs)).
Proof.
  induction qs as [|q qs IH]; cbn; intros H; [constructor|]. destruct (NoDup_app_l _ _ H) as (N1 & N2 & N3). destruct (f q); [|exact (IH N2)]. cbn.
  specialize (IH N2). assert (D : forall y, In y (ids q) -> ~ In y (flat_map ids (filter f qs))).
  { intros y Hy Hin. apply (N3 y Hy). rewrite in_flat_map in *. destruct Hin as (z & Hz & Hy'). apply filter_In in Hz. exists z. tauto. }
  clear H N3. induction N1 as [|y l Hy N1' IHl]; cbn; [exact IH|]. constructor; [rewrite in_app_iff; intros [X | X]; [contradiction|]; exact (D y (or_introl eq_refl) X)|].
  apply IHl. intros z Hz. apply D. right. exact Hz.
Qed.
Lemma NoDup_flat_map_perm (ids : nat -> list nat) qs qs' : NoDup qs' -> (forall q, In q qs' -> In q qs) -> NoDup qs -> NoDup (flat_map ids qs) -> NoDup (flat_map ids qs').
Proof.
  intros ND' S ND H. assert (P : forall q, In q qs -> NoDup (ids q)).
  { intros q Hq. clear - H Hq. induction qs as [|z qs IH]; [destruct Hq|]. cbn in H. destruct (NoDup_app_l _ _ H) as (N1 & N2 & _). destruct Hq as [-> | Hq]; auto. }
  assert (D : forall q q' y, In q qs -> In q' qs -> q <> q' -> In y (ids q) -> ~ In y (ids q')).
  { clear - H. induction qs as [|z qs IH]; intros q q' y Hq Hq' N Hy; [destruct Hq|]. cbn in H. destruct (NoDup_app_l _ _ H) as (N1 & N2 & N3).
    destruct Hq as [-> | Hq], Hq' as [-> | Hq']; [contradiction|..].
    - intros Hy'. apply (N3 y Hy). apply in_flat_map. exists q'. tauto.
    - intros Hy'. apply (N3 y Hy'). apply in_flat_map. exists q. tauto.
    - exact (IH N2 q q' y Hq Hq' N Hy). }
  clear H ND. induction ND' as [|q qs' Nq ND' IH]; cbn; [constructor|].
  assert (IH' : NoDup (flat_map ids qs')) by (apply IH; intros; apply S; right; assumption).
  assert (D' : forall y, In y (ids q) -> ~ In y (flat_map ids qs')).
  { intros y Hy Hin. apply in_flat_map in Hin. destruct Hin as (z & Hz & Hy'). apply (D q z y); auto; [apply S; left; reflexivity|apply S; right; exact Hz|intros ->; contradiction]. }
  pose proof (P q (S q (or_introl eq_refl))) as Pq. clear - IH' D' Pq. induction Pq as [|y l Hy Pq IHl]; cbn; [exact IH'|].
  constructor; [rewrite in_app_iff; intros [X | X]; [contradiction|]; exact (D' y (or_introl eq_refl) X)|]. apply IHl. intros z Hz. apply D'. right. exact Hz.
Qed.
End Puts.

Section Exchange.
Variable V : Type.
Variable n : nat.
Variable sends recvs : nat -> list nat.
Variable sid rid : nat -> nat -> list nat.
Variable compute : nat -> nat -> (nat -> V) -> (nat -> V).
Variable stale : nat -> nat -> nat -> list V.
Hypothesis Match : matching n sends recvs sid rid.

Lemma exchanged_puts cv p : exchanged V recvs sid rid cv p = puts V (rid p) (fun q => take V (cv q) (sid q p)) (recvs p) (cv p).
Proof. reflexivity. Qed.

(** ** Sendrecv *)
Hypothesis Symmetric : forall p q, p < n -> (In q (sends p) <-> In q (recvs p)).

Definition all_partners : list (nat * nat) :=
  flat_map (fun a => map (pair a) (filter (fun b => has_key b (recvs a)) (seq a (n - a)))) (seq 0 n).

Lemma keys_sym p q : p < n -> q < n -> has_key q (recvs p) = has_key p (recvs q).
Proof.
  intros Hp Hq. pose proof (keys_match _ _ _ _ _ Match p q Hp Hq) as K1. pose proof (Symmetric p q Hp) as K2.
  destruct (has_key q (recvs p)) eqn:E1, (has_key p (recvs q)) eqn:E2; try reflexivity; [apply has_key_true in E1; apply has_key_false in E2|apply has_key_false in E1; apply has_key_true in E2]; tauto.
Qed.
Lemma partners_app r a b : partners r (a ++ b) = partners r a ++ partners r b.
Proof. induction a as [|(x, y) a IH]; [reflexivity|]. cbn. destruct (r =? x); [cbn; rewrite IH; reflexivity|]. destruct (r =? y); [cbn; rewrite IH; reflexivity|exact IH]. Qed.
Lemma partners_row_own r l : partners r (map (pair r) l) = l.
Proof. induction l as [|x l IH]; [reflexivity|]. cbn. rewrite Nat.eqb_refl, IH. reflexivity. Qed.
Lemma partners_row_other r a l : r <> a -> NoDup l -> partners r (map (pair a) l) = if has_key r l then [a] else [].
Proof.
  intros N ND. induction ND as [|x l Nx ND IH]; [reflexivity|]. cbn [map partners]. destruct (Nat.eqb_spec r a); [contradiction|]. cbn [has_key existsb].
  destruct (Nat.eqb_spec r x) as [->|Nr].
  - cbn [orb]. rewrite IH. apply has_key_false in Nx. fold (has_key x l). rewrite Nx. reflexivity.
  - exact IH.
Qed.
Lemma partners_all r : r < n -> partners r all_partners = sort_keys (recvs r).
Proof.
  intros Hr. destruct (keys_nodup _ _ _ _ _ Match r Hr) as (_ & ND).
  rewrite (sort_keys_filter n) by (first [exact ND|intros x Hx; eapply (keys_range _ _ _ _ _ Match r x Hr); right; exact Hx]).
  assert (Sn : seq 0 n = seq 0 r ++ [r] ++ seq (r + 1) (n - r - 1)).
  { replace n with (r + (1 + (n - r - 1))) at 1 by lia. rewrite !seq_app. reflexivity. }
  unfold all_partners. rewrite Sn, !flat_map_app, !partners_app, !filter_app. cbn [flat_map].
  assert (A : forall k, k <= r -> partners r (flat_map (fun a => map (pair a) (filter (fun b => has_key b (recvs a)) (seq a (n - a)))) (seq 0 k)) = filter (fun x => has_key x (recvs r)) (seq 0 k)).
  { induction k as [|k IH]; intros Hk; [reflexivity|]. replace (S k) with (k + 1) by lia. rewrite !seq_app, flat_map_app, partners_app, filter_app, IH by lia. f_equal. cbn [seq flat_map plus filter].
    rewrite app_nil_r, partners_row_other; [|lia|apply NoDup_filter, seq_NoDup].
    assert (E : has_key r (filter (fun b => has_key b (recvs k)) (seq k (n - k))) = has_key k (recvs r)).
    { rewrite <- (keys_sym k r) by lia. destruct (has_key r (recvs k)) eqn:E; [apply has_key_true; apply filter_In; split; [apply in_seq; lia|exact E]|].
      apply has_key_false. intros H. apply filter_In in H. destruct H as (_ & H). congruence. }
    rewrite E. destruct (has_key k (recvs r)); reflexivity. }
  rewrite (A r) by lia. f_equal. rewrite app_nil_r, partners_row_own.
  assert (B : forall k a, r < a -> partners r (flat_map (fun a => map (pair a) (filter (fun b => has_key b (recvs a)) (seq a (n - a)))) (seq a k)) = []).
  { induction k as [|k IH]; intros a Ha; [reflexivity|]. cbn [seq flat_map]. rewrite partners_app, IH by lia. rewrite app_nil_r, partners_row_other; [|lia|apply NoDup_filter, seq_NoDup].
    destruct (has_key r (filter (fun b => has_key b (recvs a)) (seq a (n - a)))) eqn:E; [|reflexivity]. apply has_key_true, filter_In in E. destruct E as (E & _). apply in_seq in E. lia. }
  rewrite (B (n - r - 1) (r + 1)) by lia. rewrite app_nil_r, <- filter_app. f_equal.
  cbn [app]. rewrite Nat.add_1_r. destruct (n - r) as [|k] eqn:E; [lia|]. cbn [seq]. do 2 f_equal. lia.
Qed.

Lemma fold_upd_get {A} (f : nat -> A) l : forall x q, NoDup l -> In q l -> fold_left (fun x q => upd x q (f q)) l x q = f q.
Proof.
  induction l as [|a l IH]; intros x q ND Hq; [destruct Hq|]. inversion ND as [|? ? N ND']; subst. cbn [fold_left]. destruct Hq as [-> | Hq]; [|apply IH; assumption].
  assert (G : forall l x, ~ In q l -> fold_left (fun x q => upd x q (f q)) l x q = x q).
  { clear. induction l as [|a l IH]; intros x N; [reflexivity|]. cbn [fold_left]. rewrite IH by (cbn in N; tauto). apply upd_other. cbn in N. intuition. }
  rewrite G by exact N. apply upd_same.
Qed.
Lemma sort_nodup l : NoDup l -> NoDup (sort_keys l).
Proof.
  intros H. pose proof (sort_sorted l H) as S. induction S as [|x m S IH F]; constructor; [|exact IH]. intros X. rewrite Forall_forall in F. specialize (F x X). lia.
Qed.

Lemma sendrecv_run calls : forall r cv s, quiet s -> (forall p, p < n -> pg s p = sendrecv V sends recvs sid rid compute stale p calls r (cv p)) ->
  exists c t, history (unbuffered n) c s t /\ quiet t /\ forall p, p < n -> pg t p = XRet (ideal V recvs sid rid compute calls r cv p).
Proof.
  induction calls as [|calls IH]; intros r cv s Q H.
  - exists 0, s. split; [apply hist_nil|]. split; [exact Q|exact H].
  - assert (Keys : forall p, p < n -> sort_keys (recvs p) = sort_keys (sends p)).
    { intros p Hp. destruct (keys_nodup _ _ _ _ _ Match p Hp) as (N1 & N2). apply sorted_unique; [apply sort_sorted; assumption..|]. intros x. rewrite !sort_in. symmetry. apply Symmetric, Hp. }
    destruct (swap_all_run n (fun p q => take V (cv p) (sid p q)) (fun _ x q m => upd x q m)
      (fun p x => sendrecv V sends recvs sid rid compute stale p calls (S r) (compute p r (fold_left (fun c q => put V c (rid p q) (x q)) (recvs p) (cv p))))
      all_partners s (fun p => stale p r)) as (c1 & s1 & R1 & Q1 & P1).
    + intros a b Hab. unfold all_partners in Hab. apply in_flat_map in Hab. destruct Hab as (a' & Ha & Hb). apply in_seq in Ha. apply in_map_iff in Hb. destruct Hb as (b' & E & Hb). injection E as -> ->.
      apply filter_In in Hb. destruct Hb as (Hb & _). apply in_seq in Hb. lia.
    + exact Q.
    + intros p Hp. rewrite (H p Hp). cbn [sendrecv]. rewrite (Keys p Hp), same_keys_refl, <- (Keys p Hp), partners_all by exact Hp. reflexivity.
    + destruct (IH (S r) (fun p => compute p r (exchanged V recvs sid rid cv p)) s1 Q1) as (c2 & t & R2 & Q2 & P2).
      * intros p Hp. rewrite (P1 p Hp). f_equal. f_equal. unfold exchanged. rewrite partners_all by exact Hp. destruct (keys_nodup _ _ _ _ _ Match p Hp) as (_ & ND).
        assert (G : forall l c, incl l (recvs p) ->
          fold_left (fun c q => put V c (rid p q) (fold_left (fun x q => upd x q (take V (cv q) (sid q p))) (sort_keys (recvs p)) (stale p r) q)) l c =
          fold_left (fun c q => put V c (rid p q) (take V (cv q) (sid q p))) l c).
        { induction l as [|q l IHl]; intros c Hl; [reflexivity|]. cbn [fold_left]. rewrite (fold_upd_get (fun q => take V (cv q) (sid q p))) by (first [apply sort_nodup, ND|apply sort_in, Hl; left; reflexivity]). apply IHl. intros z Hz. apply Hl. right. exact Hz. }
        apply G. apply incl_refl.
      * exists (c1 + c2), t. split; [eapply history_trans; eassumption|]. split; [exact Q2|]. intros p Hp. rewrite (P2 p Hp). reflexivity.
Qed.
End Exchange.

(** ** Blocking messages *)
Section Blocking.
Variable V : Type.
Variable n : nat.
Variable sends recvs : nat -> list nat.
Variable sid rid : nat -> nat -> list nat.
Variable compute : nat -> nat -> (nat -> V) -> (nat -> V).
Hypothesis Match : matching n sends recvs sid rid.
(** The triangles that are sent are not ghosts. *)
Hypothesis Full : forall p q q' i, p < n -> In q (sends p) -> In q' (recvs p) -> In i (sid p q) -> ~ In i (rid p q').

Lemma send_turn_scatter p c k keys : send_turn V sid p keys c k = scatter (filter (fun q => negb (q =? p)) keys) (fun q => [take V c (sid p q)]) k.
Proof. induction keys as [|q keys IH]; [reflexivity|]. cbn. destruct (q =? p); cbn; rewrite IH; reflexivity. Qed.

(** The values of [p] after the turns of the processes before [i]. *)
Definition before (cv : nat -> nat -> V) (i p : nat) : nat -> V :=
  puts V (rid p) (fun q => take V (cv q) (sid q p)) (filter (fun q => negb (q =? p) && has_key q (recvs p)) (seq 0 i)) (cv p).

Lemma before_full cv i p q : p < n -> In q (sends p) -> take V (before cv i p) (sid p q) = take V (cv p) (sid p q).
Proof.
  intros Hp Hq. unfold take. apply map_ext_in. intros x Hx. unfold before. apply puts_miss. rewrite in_flat_map. intros (z & Hz & Hxz). apply filter_In in Hz. destruct Hz as (_ & Hz).
  apply andb_true_iff in Hz. destruct Hz as (_ & Hz). apply has_key_true in Hz. exact (Full p q z x Hp Hq Hz Hx Hxz).
Qed.
Lemma before_step cv i p : before cv (S i) p = if negb (i =? p) && has_key i (recvs p) then put V (before cv i p) (rid p i) (take V (cv i) (sid i p)) else before cv i p.
Proof.
  unfold before at 1. replace (S i) with (i + 1) by lia. rewrite seq_app, filter_app. unfold puts. rewrite fold_left_app. cbn [seq plus filter].
  destruct (negb (i =? p) && has_key i (recvs p)); reflexivity.
Qed.

Lemma turns_run cv (K : nat -> (nat -> V) -> bprog V) : forall d i s, i + d = n ->
  (forall p, p < n -> s p = turns V sends recvs sid rid p (seq i d) (before cv i p) (K p)) ->
  exists c t, syncs n c s t /\ (forall p, p < n -> t p = K p (before cv n p)).
Proof.
  induction d as [|d IH]; intros i s E H.
  - exists 0, s. split; [apply syncs_refl|]. replace n with i by lia. replace n with i in H by lia. exact H.
  - assert (Hi : i < n) by lia. cbn [seq] in H. set (l := filter (fun q => negb (q =? i)) (sends i)).
    assert (Hl : forall q, In q l <-> In q (sends i) /\ q <> i).
    { intros q. unfold l. rewrite filter_In. destruct (Nat.eqb_spec q i); cbn; intuition congruence. }
    set (Kq q := fun vs : list (list V) => match vs with [m] => turns V sends recvs sid rid q (seq (S i) d) (put V (before cv i q) (rid q i) m) (K q) | _ => Fail end).
    destruct (scatter_run n i (fun q => [take V (cv i) (sid i q)]) l s (turns V sends recvs sid rid i (seq (S i) d) (before cv i i) (K i)) Kq Hi) as (c1 & s1 & R1 & E1 & E2 & E3).
    + apply NoDup_filter. apply (keys_nodup _ _ _ _ _ Match i Hi).
    + intros q Hq. apply Hl in Hq. split; [|apply Hq]. apply (keys_range _ _ _ _ _ Match i q Hi). left. apply Hq.
    + intros q Hq. apply Hl in Hq. destruct Hq as (Hq & Nq). assert (Hqn : q < n) by (apply (keys_range _ _ _ _ _ Match i q Hi); left; exact Hq).
      rewrite (H q Hqn). cbn [turns]. destruct (Nat.eqb_spec i q); [congruence|].
      assert (Hk : has_key i (recvs q) = true) by (apply has_key_true; apply (keys_match _ _ _ _ _ Match i q Hi Hqn); exact Hq). rewrite Hk. reflexivity.
    + rewrite (H i Hi). cbn [turns]. rewrite Nat.eqb_refl, send_turn_scatter. fold l.
      assert (G : forall l' k, (forall q, In q l' -> In q (sends i)) -> scatter l' (fun q => [take V (before cv i i) (sid i q)]) k = scatter l' (fun q => [take V (cv i) (sid i q)]) k :> bprog V).
      { induction l' as [|q l' IHl]; intros k Hl'; [reflexivity|]. cbn [scatter]. rewrite before_full by (first [exact Hi|apply Hl'; left; reflexivity]). rewrite IHl; [reflexivity|]. intros z Hz. apply Hl'. right. exact Hz. }
      apply G. intros q Hq. apply Hl in Hq. apply Hq.
    + destruct (IH (S i) s1 ltac:(lia)) as (c2 & t & R2 & P2).
      * intros p Hp. rewrite before_step. destruct (Nat.eqb_spec i p) as [->|Np]; cbn [negb andb].
        -- exact E1.
        -- destruct (has_key i (recvs p)) eqn:Hk.
           ++ assert (Hin : In p l) by (apply Hl; split; [apply (keys_match _ _ _ _ _ Match i p Hi Hp); apply has_key_true; exact Hk|congruence]). rewrite (E2 p Hin). reflexivity.
           ++ rewrite E3; [|congruence|intros Hin; apply Hl in Hin; apply has_key_false in Hk; apply Hk; apply (keys_match _ _ _ _ _ Match i p Hi Hp); apply Hin].
              rewrite (H p Hp). cbn [turns]. destruct (Nat.eqb_spec i p); [contradiction|]. rewrite Hk. reflexivity.
      * exists (c1 + c2), t. split; [eapply syncs_trans; eassumption|exact P2].
Qed.

Lemma local_exchanged cv p : p < n -> local_update V sends sid rid p (before cv n p) = exchanged V recvs sid rid cv p.
Proof.
  intros Hp. destruct (keys_nodup _ _ _ _ _ Match p Hp) as (_ & ND). pose proof (ghosts_nodup _ _ _ _ _ Match p Hp) as NG.
  set (x := fun q => take V (cv q) (sid q p)).
  set (qs := filter (fun q => negb (q =? p) && has_key q (recvs p)) (seq 0 n) ++ (if has_key p (sends p) then [p] else [])).
  assert (E : local_update V sends sid rid p (before cv n p) = puts V (rid p) x qs (cv p)).
  { unfold local_update, qs, puts. rewrite fold_left_app. destruct (has_key p (sends p)) eqn:Hk; [|reflexivity]. cbn [fold_left]. unfold before, puts. f_equal.
    apply has_key_true in Hk. change (take V (before cv n p) (sid p p) = take V (cv p) (sid p p)). apply before_full; assumption. }
  rewrite E. unfold exchanged. fold (puts V (rid p) x (recvs p) (cv p)).
  assert (Mem : forall q, In q qs <-> In q (recvs p)).
  { intros q. unfold qs. rewrite in_app_iff, filter_In, in_seq, andb_true_iff, has_key_true, negb_true_iff, Nat.eqb_neq.
    assert (Pp : In p (sends p) <-> In p (recvs p)) by (apply (keys_match _ _ _ _ _ Match p p Hp Hp)).
    destruct (has_key p (sends p)) eqn:Hk; [apply has_key_true in Hk|apply has_key_false in Hk].
    - cbn [In]. destruct (Nat.eq_dec q p) as [->|N]; [tauto|]. split; [intuition congruence|]. intros Hq. left. split; [|split; assumption].
      pose proof (keys_range _ _ _ _ _ Match p q Hp (or_intror Hq)). lia.
    - cbn [In]. split; [tauto|]. intros Hq. left. pose proof (keys_range _ _ _ _ _ Match p q Hp (or_intror Hq)). split; [lia|]. split; [|exact Hq]. intros ->. tauto. }
  assert (NQ : NoDup qs).
  { unfold qs. assert (N1 : NoDup (filter (fun q => negb (q =? p) && has_key q (recvs p)) (seq 0 n))) by apply NoDup_filter, seq_NoDup.
    destruct (has_key p (sends p)); [|rewrite app_nil_r; exact N1]. apply NoDup_rev in N1. rewrite <- rev_involutive. apply NoDup_rev. rewrite rev_app_distr. cbn [rev app]. constructor; [|exact N1].
    rewrite <- in_rev, filter_In, andb_true_iff, negb_true_iff, Nat.eqb_neq. tauto. }
  apply puts_order; [eapply NoDup_flat_map_perm with (qs := recvs p); [exact NQ|intros q Hq; apply Mem, Hq|exact ND|exact NG]|exact NG|exact Mem|].
  intros q Hq. apply Mem in Hq. unfold x, take. rewrite map_length. symmetry. assert (Hqn : q < n) by (eapply (keys_range _ _ _ _ _ Match p q Hp); right; exact Hq).
  apply (ids_length _ _ _ _ _ Match q p Hqn). apply (keys_match _ _ _ _ _ Match q p Hqn Hp). exact Hq.
Qed.

Lemma blocking_run calls : forall r cv s, (forall p, p < n -> s p = blocking V n sends recvs sid rid compute p calls r (cv p)) ->
  exists c t, syncs n c s t /\ forall p, p < n -> t p = Ret (ideal V recvs sid rid compute calls r cv p).
Proof.
  induction calls as [|calls IH]; intros r cv s H.
  - exists 0, s. split; [apply syncs_refl|exact H].
  - destruct (turns_run cv (fun p c => blocking V n sends recvs sid rid compute p calls (S r) (compute p r (local_update V sends sid rid p c))) n 0 s ltac:(lia)) as (c1 & s1 & R1 & P1).
    + intros p Hp. rewrite (H p Hp). reflexivity.
    + destruct (IH (S r) (fun p => compute p r (exchanged V recvs sid rid cv p)) s1) as (c2 & t & R2 & P2).
      * intros p Hp. rewrite (P1 p Hp), local_exchanged by exact Hp. reflexivity.
      * exists (c1 + c2), t. split; [eapply syncs_trans; eassumption|]. intros p Hp. rewrite (P2 p Hp). reflexivity.
Qed.
End Blocking.
