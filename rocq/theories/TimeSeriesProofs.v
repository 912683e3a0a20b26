(** Lemmas on [TimeSeriesModel]. *)
From Coq Require Import Reals List Arith Bool Lia Lra.
From Verif Require Import RealLib TimeSeriesModel.
Import ListNotations.
Open Scope R_scope.

(** The times do not go back. *)
Definition nondecreasing (T : list R) : Prop :=
  forall i a b, nth_error T i = Some a -> nth_error T (S i) = Some b -> a <= b.

Lemma monotone_spec : forall T, monotone T = true <-> nondecreasing T.
Proof.
  induction T as [| a T IH]; [split; [intros _ [|i] x y H; discriminate | reflexivity] |].
  destruct T as [| b T].
  { split; [intros _ [|i] x y H1 H2; [discriminate | destruct i; discriminate] | reflexivity]. }
  cbn [monotone]. rewrite andb_true_iff, IH, Rleb_true. split.
  - intros [H1 H2] [|i] x y E1 E2; cbn in *.
    + injection E1 as <-. injection E2 as <-. lra.
    + exact (H2 i x y E1 E2).
  - intros H. split.
    + pose proof (H 0%nat a b eq_refl eq_refl). lra.
    + intros i x y E1 E2. exact (H (S i) x y E1 E2).
Qed.

Lemma nondecreasing_le : forall T, nondecreasing T -> forall i j a b, (i <= j)%nat ->
  nth_error T i = Some a -> nth_error T j = Some b -> a <= b.
Proof.
  intros T M i j a b L. revert b. induction L as [| j L IH]; intros b E1 E2.
  - rewrite E1 in E2. injection E2 as <-. lra.
  - destruct (nth_error T j) as [c|] eqn:Ec.
    + pose proof (IH c E1 eq_refl). pose proof (M j c b Ec E2). lra.
    + apply nth_error_None in Ec. assert (nth_error T (S j) = None) by (apply nth_error_None; lia). congruence.
Qed.

Lemma nth_error_last : forall (T : list R) d, T <> [] -> nth_error T (length T - 1) = Some (last T d).
Proof.
  intros T d. induction T as [| a T IH]; intros N; [congruence |].
  destruct T as [| b T]; [reflexivity |].
  replace (length (a :: b :: T) - 1)%nat with (S (length (b :: T) - 1)) by (cbn [length]; lia). cbn [nth_error].
  change (last (a :: b :: T) d) with (last (b :: T) d). apply IH. discriminate.
Qed.

Lemma climb_spec : forall T t, (forall i, (i < length T)%nat -> exists x, nth_error T i = Some x) ->
  (exists m, nth_error T (length T - 1) = Some m /\ t <= m) ->
  forall fuel i, (i < length T)%nat -> (length T <= fuel + i)%nat ->
  exists j x, climb fuel T t i = Some j /\ (i <= j)%nat /\ (j < length T)%nat /\ nth_error T j = Some x /\ t <= x /\
    (j = i \/ exists j' y, j = S j' /\ nth_error T j' = Some y /\ y < t).
Proof.
  intros T t G (m & Em & Lm) fuel. induction fuel as [| fuel IH]; intros i Li Lf; [lia |].
  destruct (G i Li) as (x & Ex). cbn [climb]. rewrite Ex. destruct (Rltb x t) eqn:B.
  - apply Rltb_true in B.
    assert (i <> length T - 1)%nat by (intros ->; rewrite Em in Ex; injection Ex as ->; lra).
    destruct (IH (S i)) as (j & y & E1 & E2 & E3 & E4 & E5 & E6); [lia | lia |].
    exists j, y. refine (conj E1 (conj _ (conj E3 (conj E4 (conj E5 _))))); [lia |].
    right. destruct E6 as [-> | E6]; [exists i, x; auto | exact E6].
  - apply Rltb_false in B. exists i, x. refine (conj eq_refl (conj (le_n _) (conj Li (conj Ex (conj B (or_introl eq_refl)))))).
Qed.

Lemma descend_spec : forall T t, (exists m, nth_error T 0 = Some m /\ m <= t) ->
  forall j x, nth_error T j = Some x -> t <= x ->
  exists k y, descend T t j = Some k /\ (k <= j)%nat /\ nth_error T k = Some y /\
    (y = t \/ y < t /\ exists z, nth_error T (S k) = Some z /\ t < z).
Proof.
  intros T t (m & Em & Lm) j. induction j as [| j IH]; intros x Ex Lx.
  - cbn [descend]. rewrite Ex. rewrite Em in Ex. injection Ex as <-.
    rewrite (proj2 (Rltb_false t m) Lm). exists 0%nat, m. refine (conj eq_refl (conj (le_n _) (conj Em _))). left. lra.
  - cbn [descend]. rewrite Ex. destruct (Rltb t x) eqn:B.
    + apply Rltb_true in B. destruct (nth_error T j) as [y|] eqn:Ey.
      * destruct (Rle_dec t y) as [L | L].
        -- destruct (IH y eq_refl L) as (k & z & E1 & E2 & E3 & E4). exists k, z. refine (conj E1 (conj _ (conj E3 E4))). lia.
        -- exists j, y. refine (conj _ (conj _ (conj Ey _))).
           ++ destruct j; cbn [descend]; rewrite Ey; rewrite (proj2 (Rltb_false t y)); reflexivity || lra.
           ++ lia.
           ++ right. split; [lra |]. exists x. split; assumption.
      * apply nth_error_None in Ey. assert (nth_error T (S j) = None) by (apply nth_error_None; lia). congruence.
    + apply Rltb_false in B. exists (S j), x. refine (conj eq_refl (conj (le_n _) (conj Ex _))). left. lra.
Qed.

Lemma all_some_map : forall {A B} (f : A -> option B) l, (forall a, In a l -> exists b, f a = Some b) ->
  exists r, all_some (map f l) = Some r /\ Forall2 (fun a b => f a = Some b) l r.
Proof.
  intros A B f l. induction l as [| a l IH]; intros H.
  - exists []. split; [reflexivity | constructor].
  - destruct (H a (or_introl eq_refl)) as (b & Eb). destruct IH as (r & E1 & E2); [intros c Hc; apply H; right; exact Hc |].
    exists (b :: r). cbn [map all_some]. rewrite Eb, E1. split; [reflexivity | constructor; assumption].
Qed.

Lemma forall2_impl : forall {A B} (P Q : A -> B -> Prop), (forall a b, P a b -> Q a b) -> forall l m, Forall2 P l m -> Forall2 Q l m.
Proof. intros A B P Q H l m F. induction F; constructor; auto. Qed.

(** The value a call reads from one series. *)
Definition reads (T : list R) (t : R) (Q : list val) (v : val) : Prop :=
  exists k a q0, nth_error T k = Some a /\ nth_error Q k = Some q0 /\
    ((a = t /\ v = q0) \/
     exists b q1, nth_error T (S k) = Some b /\ nth_error Q (S k) = Some q1 /\ a < t < b /\ v = lerp q0 q1 ((t - a) / (b - a))).

Definition well_formed (s : series) : Prop :=
  times s <> [] /\ nondecreasing (times s) /\ (index s < length (times s))%nat /\
  Forall (fun Q => (length (times s) <= length Q)%nat) (values s).

Lemma call_inside : forall s t first, well_formed s ->
  nth_error (times s) 0 = Some first -> first <= t -> t <= last (times s) first ->
  exists k q, call s t = (Series (times s) (values s) k, Value q) /\ (k < length (times s))%nat /\
    Forall2 (reads (times s) t) (values s) q.
Proof.
  intros s t first (N & M & I & L) F0 Lo Hi. unfold call.
  destruct (times s) as [| t0 T'] eqn:ET; [congruence |]. cbn in F0. injection F0 as ->.
  rewrite <- ET in *. rewrite (proj2 (Rltb_false t first) Lo).
  assert (EL : nth_error (times s) (length (times s) - 1) = Some (last (times s) first)) by (apply nth_error_last; rewrite ET; discriminate).
  rewrite (proj2 (Rltb_false (last (times s) first) t) Hi).
  destruct (climb_spec (times s) t) with (fuel := length (times s)) (i := index s) as (j & x & E1 & E2 & E3 & E4 & E5 & E6).
  { intros i Li. destruct (nth_error (times s) i) as [y|] eqn:E; [eauto | apply nth_error_None in E; lia]. }
  { exists (last (times s) first). split; assumption. }
  { exact I. } { lia. }
  rewrite E1. destruct (descend_spec (times s) t) with (j := j) (x := x) as (k & y & D1 & D2 & D3 & D4); [| exact E4 | exact E5 |].
  { exists first. split; [rewrite ET; reflexivity | exact Lo]. }
  rewrite D1, D3. assert (Lk : (k < length (times s))%nat) by lia. exists k.
  rewrite Forall_forall in L.
  destruct D4 as [-> | (Dl & z & Ez & Dz)].
  - rewrite (proj2 (Reqb_true t t) eq_refl).
    assert (R0 : match nth_error (times s) (S k) with Some _ => Some 0 | None => Some 0 end = Some 0) by (destruct (nth_error (times s) (S k)); reflexivity).
    rewrite R0.
    destruct (all_some_map (read_value 0 k) (values s)) as (q & Q1 & Q2).
    { intros Q HQ. unfold read_value. destruct (nth_error Q k) as [q0|] eqn:E; [| apply nth_error_None in E; specialize (L Q HQ); lia].
      rewrite (proj2 (Rltb_false 0 0)); [eauto | lra]. }
    rewrite Q1. exists q. refine (conj eq_refl (conj Lk _)).
    eapply forall2_impl; [| exact Q2]. intros Q v. unfold read_value. destruct (nth_error Q k) as [q0|] eqn:E; [| discriminate].
    rewrite (proj2 (Rltb_false 0 0)) by lra. intros H. injection H as <-.
    exists k, t, q0. refine (conj D3 (conj E _)). left. split; reflexivity.
  - rewrite Ez. assert (NE : Reqb t y = false) by (destruct (Reqb t y) eqn:B; [apply Reqb_true in B; lra | reflexivity]).
    rewrite NE. set (r := (t - y) / (z - y)).
    assert (Hr : 0 < r) by (apply Rdiv_lt_0_compat; lra).
    assert (Lk' : (S k < length (times s))%nat) by (apply nth_error_Some; congruence).
    destruct (all_some_map (read_value r k) (values s)) as (q & Q1 & Q2).
    { intros Q HQ. specialize (L Q HQ). unfold read_value.
      destruct (nth_error Q k) as [q0|] eqn:E; [| apply nth_error_None in E; lia].
      rewrite (proj2 (Rltb_true 0 r) Hr).
      destruct (nth_error Q (S k)) as [q1|] eqn:E'; [eauto | apply nth_error_None in E'; lia]. }
    rewrite Q1. exists q. refine (conj eq_refl (conj Lk _)).
    eapply forall2_impl; [| exact Q2]. intros Q v. unfold read_value. destruct (nth_error Q k) as [q0|] eqn:E; [| discriminate].
    rewrite (proj2 (Rltb_true 0 r) Hr). destruct (nth_error Q (S k)) as [q1|] eqn:E'; [| discriminate].
    intros H. injection H as <-. exists k, y, q0. refine (conj D3 (conj E _)). right. exists z, q1.
    refine (conj Ez (conj E' (conj (conj Dl Dz) eq_refl))).
Qed.

Lemma call_keeps : forall s t, well_formed s -> well_formed (fst (call s t)) /\
  times (fst (call s t)) = times s /\ values (fst (call s t)) = values s.
Proof.
  intros s t W. pose proof W as (N & M & I & L).
  destruct (times s) as [| first T'] eqn:ET; [congruence |]. rewrite <- ET in *.
  destruct (Rlt_dec t first) as [E | E].
  { assert (H : call s t = (s, Too_early)) by (unfold call; rewrite ET; rewrite (proj2 (Rltb_true t first) E); reflexivity).
    rewrite H. refine (conj W (conj eq_refl eq_refl)). }
  destruct (Rlt_dec (last (times s) first) t) as [E' | E'].
  { assert (H : call s t = (s, Too_late)).
    { unfold call. rewrite ET. rewrite <- ET. rewrite (proj2 (Rltb_false t first)) by lra. rewrite (proj2 (Rltb_true _ t) E'). reflexivity. }
    rewrite H. refine (conj W (conj eq_refl eq_refl)). }
  destruct (call_inside s t first W) as (k & q & H & Lk & _); [rewrite ET; reflexivity | lra | lra |].
  rewrite H. cbn [fst times values]. refine (conj _ (conj eq_refl eq_refl)).
  refine (conj N (conj M (conj Lk L))).
Qed.

Lemma calls_keep : forall ts s, well_formed s -> well_formed (calls s ts) /\
  times (calls s ts) = times s /\ values (calls s ts) = values s.
Proof.
  induction ts as [| t ts IH]; intros s W; cbn [calls]; [refine (conj W (conj eq_refl eq_refl)) |].
  destruct (call_keeps s t W) as (W' & E1 & E2). destruct (IH _ W') as (W'' & E3 & E4).
  refine (conj W'' (conj _ _)); congruence.
Qed.

(** What is read is determined unless the time is stored twice. *)
Definition stored_once (T : list R) (t : R) : Prop :=
  forall i j, nth_error T i = Some t -> nth_error T j = Some t -> i = j.

Lemma reads_unique : forall T t Q v w, nondecreasing T -> stored_once T t -> reads T t Q v -> reads T t Q w -> v = w.
Proof.
  intros T t Q v w M U (i & a & q0 & E1 & E2 & H) (j & b & q1 & E3 & E4 & H').
  destruct H as [(-> & ->) | (a' & q0' & A1 & A2 & A3 & ->)]; destruct H' as [(-> & ->) | (b' & q1' & B1 & B2 & B3 & ->)].
  - assert (i = j) by (apply U; assumption). subst j. congruence.
  - exfalso. destruct (le_lt_dec i j) as [L | L].
    + pose proof (nondecreasing_le T M i j t b L E1 E3). lra.
    + pose proof (nondecreasing_le T M (S j) i b' t L B1 E1). lra.
  - exfalso. destruct (le_lt_dec j i) as [L | L].
    + pose proof (nondecreasing_le T M j i t a L E3 E1). lra.
    + pose proof (nondecreasing_le T M (S i) j a' t L A1 E3). lra.
  - assert (i = j) as <-.
    { destruct (lt_eq_lt_dec i j) as [[L | L] | L]; [exfalso | exact L | exfalso].
      - pose proof (nondecreasing_le T M (S i) j a' b L A1 E3). lra.
      - pose proof (nondecreasing_le T M (S j) i b' a L B1 E1). lra. }
    congruence.
Qed.

Lemma thin_from_nth : forall {A} (l : list A) k skip i, (0 < k)%nat ->
  nth_error (thin_from k skip l) i = nth_error l (skip + k * i).
Proof.
  intros A l. induction l as [| a l IH]; intros k skip i K.
  - cbn [thin_from]. destruct i, (skip + k * _)%nat; reflexivity.
  - destruct skip as [| skip]; cbn [thin_from].
    + destruct i as [| i].
      * rewrite Nat.mul_0_r. reflexivity.
      * cbn [nth_error]. rewrite IH by exact K. replace (0 + k * S i)%nat with (S (k - 1 + k * i)) by (rewrite Nat.mul_succ_r; lia). reflexivity.
    + rewrite IH by exact K. reflexivity.
Qed.

Lemma thin_nth : forall {A} (l : list A) k i, (0 < k)%nat -> nth_error (thin k l) i = nth_error l (k * i).
Proof. intros A l k i K. unfold thin. rewrite thin_from_nth by exact K. reflexivity. Qed.

Lemma thin_nondecreasing : forall T k, (0 < k)%nat -> nondecreasing T -> nondecreasing (thin k T).
Proof.
  intros T k K M i a b E1 E2. rewrite !thin_nth in * by exact K. eapply nondecreasing_le; [exact M | | exact E1 | exact E2]. nia.
Qed.

Lemma thin_length : forall {A B} (l : list A) (m : list B) k, (0 < k)%nat -> (length l <= length m)%nat -> (length (thin k l) <= length (thin k m))%nat.
Proof.
  intros A B l m k K L. destruct (le_lt_dec (length (thin k l)) (length (thin k m))) as [|X]; [assumption | exfalso].
  apply nth_error_Some in X. rewrite thin_nth in X by exact K.
  assert (E : nth_error (thin k m) (length (thin k m)) = None) by (apply nth_error_None; lia).
  rewrite thin_nth in E by exact K. apply nth_error_Some in X. apply nth_error_None in E. lia.
Qed.

Lemma thin_one : forall {A} (l : list A), thin 1 l = l.
Proof. intros A l. unfold thin. induction l as [| a l IH]; [reflexivity |]. cbn [thin_from]. change (1 - 1)%nat with 0%nat. rewrite IH. reflexivity. Qed.

Lemma thin_nonempty : forall {A} (l : list A) k, l <> [] -> thin k l <> [].
Proof. intros A [| a l] k N; [congruence | discriminate]. Qed.

Lemma reads_shift : forall T t Q v c, reads T t Q v -> reads (map (fun x => x + c) T) (t + c) Q v.
Proof.
  intros T t Q v c (k & a & q0 & E1 & E2 & H). exists k, (a + c), q0.
  refine (conj (map_nth_error _ _ _ E1) (conj E2 _)).
  destruct H as [(-> & ->) | (b & q1 & A1 & A2 & A3 & ->)]; [left; split; reflexivity | right].
  exists (b + c), q1. refine (conj (map_nth_error _ _ _ A1) (conj A2 (conj _ _))); [lra |].
  f_equal. f_equal; ring.
Qed.

Lemma firstn_nth : forall {A} (l : list A) n i a, nth_error (firstn n l) i = Some a -> nth_error l i = Some a.
Proof.
  intros A l. induction l as [| b l IH]; intros [| n] [| i] a H; try discriminate; cbn in *; [exact H |].
  exact (IH n i a H).
Qed.

Lemma reads_firstn : forall T n t Q v, reads (firstn n T) t Q v -> reads T t Q v.
Proof.
  intros T n t Q v (k & a & q0 & E1 & E2 & H). exists k, a, q0. refine (conj (firstn_nth _ _ _ _ E1) (conj E2 _)).
  destruct H as [H | (b & q1 & A1 & A2 & A3 & A4)]; [left; exact H | right].
  exists b, q1. refine (conj (firstn_nth _ _ _ _ A1) (conj A2 (conj A3 A4))).
Qed.

Lemma shift_nondecreasing : forall T c, nondecreasing T -> nondecreasing (map (fun x => x + c) T).
Proof.
  intros T c M i a b E1 E2. rewrite nth_error_map in *.
  destruct (nth_error T i) as [x|] eqn:X; [| discriminate]. destruct (nth_error T (S i)) as [y|] eqn:Y; [| discriminate].
  injection E1 as <-. injection E2 as <-. pose proof (M i x y X Y). lra.
Qed.

Lemma firstn_nondecreasing : forall T n, nondecreasing T -> nondecreasing (firstn n T).
Proof. intros T n M i a b E1 E2. eapply M; eapply firstn_nth; eassumption. Qed.

Lemma outcome_cases : forall s t first, well_formed s -> nth_error (times s) 0 = Some first ->
  match snd (call s t) with
  | Value _ => first <= t <= last (times s) first
  | Too_early => t < first
  | Too_late => last (times s) first < t
  | Error => False
  end.
Proof.
  intros s t first W E0.
  assert (ET : exists T', times s = first :: T') by (destruct (times s); [discriminate | injection E0 as ->; eauto]).
  destruct ET as (T' & ET).
  destruct (Rlt_dec t first) as [E | E].
  { assert (H : call s t = (s, Too_early)) by (unfold call; rewrite ET; rewrite (proj2 (Rltb_true t first) E); reflexivity).
    rewrite H. exact E. }
  destruct (Rlt_dec (last (times s) first) t) as [E' | E'].
  { assert (H : call s t = (s, Too_late)).
    { unfold call. rewrite ET. rewrite <- ET. rewrite (proj2 (Rltb_false t first)) by lra. rewrite (proj2 (Rltb_true _ t) E'). reflexivity. }
    rewrite H. exact E'. }
  destruct (call_inside s t first W E0) as (k & q & H & _); [lra | lra |]. rewrite H. cbn [snd]. lra.
Qed.

Lemma last_map_shift : forall T c d, last (map (fun x => x + c) T) (d + c) = last T d + c.
Proof.
  intros T c d. induction T as [| a T IH]; [reflexivity |]. destruct T as [| b T]; [reflexivity |]. exact IH.
Qed.

Lemma last_default : forall (T : list R) d e, T <> [] -> last T d = last T e.
Proof. intros T d e. induction T as [| a T IH]; intros N; [congruence |]. destruct T as [| b T]; [reflexivity |]. apply IH. discriminate. Qed.
