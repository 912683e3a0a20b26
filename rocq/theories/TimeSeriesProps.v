(** C70: values interpolated in time from a stored series. *)
From Coq Require Import Reals List Arith Bool Lia Lra.
From Verif Require Import RealLib TimeSeriesModel TimeSeriesProofs.
Import ListNotations.
Open Scope R_scope.

(** ** Specification: the piecewise linear interpolant of [(T, Q)] takes the value
    [x] at [t] *)
Definition interpolant (T Q : list R) (t x : R) : Prop :=
  (exists k, nth_error T k = Some t /\ nth_error Q k = Some x) \/
  (exists k a b qa qb, nth_error T k = Some a /\ nth_error T (S k) = Some b /\ a < t < b /\
     nth_error Q k = Some qa /\ nth_error Q (S k) = Some qb /\
     x * (b - a) = qa * (b - t) + qb * (t - a)).

Definition finite (Qs : list (list R)) : list (list val) := map (map Fin) Qs.

(** Times that do not go back, as the constructor checks; at least as many values. *)
Definition data_ok (T : list R) (Qs : list (list R)) : Prop :=
  T <> [] /\ (forall i a b, nth_error T i = Some a -> nth_error T (S i) = Some b -> a <= b) /\
  Forall (fun Q => (length T <= length Q)%nat) Qs.

Lemma data_well_formed : forall T Qs i, data_ok T Qs -> (i < length T)%nat -> well_formed (Series T (finite Qs) i).
Proof.
  intros T Qs i (N & M & L) I. refine (conj N (conj M (conj I _))). cbn [times values].
  rewrite Forall_forall in *. intros Q HQ. unfold finite in HQ. apply in_map_iff in HQ. destruct HQ as (Q' & <- & HQ').
  rewrite map_length. auto.
Qed.

Lemma reads_interpolant : forall T t Q v, reads T t (map Fin Q) v -> exists x, v = Fin x /\ interpolant T Q t x.
Proof.
  intros T t Q v (k & a & q0 & E1 & E2 & H). rewrite nth_error_map in E2.
  destruct (nth_error Q k) as [x0|] eqn:X0; [| discriminate]. injection E2 as <-.
  destruct H as [(-> & ->) | (b & q1 & A1 & A2 & A3 & ->)].
  - exists x0. split; [reflexivity | left; exists k; split; assumption].
  - rewrite nth_error_map in A2. destruct (nth_error Q (S k)) as [x1|] eqn:X1; [| discriminate]. injection A2 as <-.
    cbn [lerp]. eexists. split; [reflexivity | right]. exists k, a, b, x0, x1.
    refine (conj E1 (conj A1 (conj A3 (conj X0 (conj X1 _))))). field. lra.
Qed.

Lemma reads_interpolants : forall T t Qs q, Forall2 (reads T t) (finite Qs) q ->
  exists xs, q = map Fin xs /\ Forall2 (fun Q x => interpolant T Q t x) Qs xs.
Proof.
  intros T t Qs. unfold finite. induction Qs as [| Q Qs IH]; intros q H; inversion H; subst.
  - exists []. split; [reflexivity | constructor].
  - destruct (reads_interpolant _ _ _ _ H2) as (x & -> & Hx). destruct (IH _ H4) as (xs & -> & Hxs).
    exists (x :: xs). split; [reflexivity | constructor; assumption].
Qed.

(** After any calls whatever, a call inside the time interval gives the piecewise
    linear interpolant of every quantity. *)
Theorem C70_interpolates : forall T Qs first, data_ok T Qs -> nth_error T 0 = Some first ->
  forall history t, first <= t <= last T first ->
  exists xs, snd (call (calls (Series T (finite Qs) 0) history) t) = Value (map Fin xs) /\
    Forall2 (fun Q x => interpolant T Q t x) Qs xs.
Proof.
  intros T Qs first D E0 history t (Lo & Hi).
  assert (I : (0 < length T)%nat) by (destruct T; [discriminate | cbn; lia]).
  destruct (calls_keep history _ (data_well_formed T Qs 0 D I)) as (W & K1 & K2). cbn [times values] in K1, K2.
  destruct (call_inside _ t first W) as (k & q & H & _ & R); [rewrite K1; exact E0 | exact Lo | rewrite K1; exact Hi |].
  rewrite H. cbn [snd]. rewrite K1, K2 in R. destruct (reads_interpolants _ _ _ _ R) as (xs & -> & X). exists xs. split; [reflexivity | exact X].
Qed.
Print Assumptions C70_interpolates.

Theorem C70_outside : forall T Qs first, data_ok T Qs -> nth_error T 0 = Some first ->
  forall history t,
  (snd (call (calls (Series T (finite Qs) 0) history) t) = Too_early <-> t < first) /\
  (snd (call (calls (Series T (finite Qs) 0) history) t) = Too_late <-> last T first < t) /\
  snd (call (calls (Series T (finite Qs) 0) history) t) <> Error.
Proof.
  intros T Qs first D E0 history t.
  assert (I : (0 < length T)%nat) by (destruct T; [discriminate | cbn; lia]).
  destruct (calls_keep history _ (data_well_formed T Qs 0 D I)) as (W & K1 & K2). cbn [times values] in K1, K2.
  pose proof (outcome_cases _ t first W) as H. rewrite K1 in H. specialize (H E0).
  assert (FL : first <= last T first).
  { destruct D as (N & M & _). eapply nondecreasing_le with (i := 0%nat) (j := (length T - 1)%nat); [exact M | lia | exact E0 | apply nth_error_last; exact N]. }
  destruct (snd (call (calls (Series T (finite Qs) 0) history) t)).
  - refine (conj (conj _ _) (conj (conj _ _) _)); try discriminate; intros; exfalso; lra.
  - refine (conj (conj _ _) (conj (conj _ _) _)); try discriminate; try (intros; reflexivity); try (intros; exact H); intros; exfalso; lra.
  - refine (conj (conj _ _) (conj (conj _ _) _)); try discriminate; try (intros; reflexivity); try (intros; exact H); intros; exfalso; lra.
  - contradiction.
Qed.
Print Assumptions C70_outside.

(** The result does not depend on earlier calls, except at a time stored twice. *)
Theorem C70_history : forall T Qs first, data_ok T Qs -> nth_error T 0 = Some first ->
  forall t, (forall i j, nth_error T i = Some t -> nth_error T j = Some t -> i = j) ->
  forall history history',
  snd (call (calls (Series T (finite Qs) 0) history) t) = snd (call (calls (Series T (finite Qs) 0) history') t).
Proof.
  intros T Qs first D E0 t U h h'.
  assert (I : (0 < length T)%nat) by (destruct T; [discriminate | cbn; lia]).
  assert (W0 := data_well_formed T Qs 0 D I).
  destruct (calls_keep h _ W0) as (W & K1 & K2). destruct (calls_keep h' _ W0) as (W' & K1' & K2').
  cbn [times values] in K1, K2, K1', K2'.
  pose proof (outcome_cases _ t first W) as H. pose proof (outcome_cases _ t first W') as H'.
  rewrite K1 in H. rewrite K1' in H'. specialize (H E0). specialize (H' E0).
  destruct (Rle_dec first t) as [Lo | Lo]; [destruct (Rle_dec t (last T first)) as [Hi | Hi] |].
  - destruct (call_inside _ t first W) as (k & q & C & _ & R); [rewrite K1; exact E0 | exact Lo | rewrite K1; exact Hi |].
    destruct (call_inside _ t first W') as (k' & q' & C' & _ & R'); [rewrite K1'; exact E0 | exact Lo | rewrite K1'; exact Hi |].
    rewrite C, C'. cbn [snd]. f_equal. rewrite K1, K2 in R. rewrite K1', K2' in R'.
    clear - R R' D U. revert q q' R R'. generalize (finite Qs) as L. destruct D as (_ & M & _).
    intros L. induction L as [| Q L IH]; intros q q' R R'; inversion R; inversion R'; subst; [reflexivity |].
    f_equal; [| apply IH; assumption]. eapply reads_unique; [exact M | exact U | eassumption | eassumption].
  - assert (FL : first <= last T first).
    { destruct D as (N & M & _). eapply nondecreasing_le with (i := 0%nat) (j := (length T - 1)%nat); [exact M | lia | exact E0 | apply nth_error_last; exact N]. }
    destruct (snd (call (calls _ h) t)); destruct (snd (call (calls _ h') t)); try reflexivity; exfalso; lra.
  - assert (FL : first <= last T first).
    { destruct D as (N & M & _). eapply nondecreasing_le with (i := 0%nat) (j := (length T - 1)%nat); [exact M | lia | exact E0 | apply nth_error_last; exact N]. }
    destruct (snd (call (calls _ h) t)); destruct (snd (call (calls _ h') t)); try reflexivity; exfalso; lra.
Qed.
Print Assumptions C70_history.

(** The interpolant is one function when the times increase: stored values at stored
    times, and between them no value outside the neighbouring ones. *)
Theorem C70_stored : forall T Qs first, data_ok T Qs -> nth_error T 0 = Some first ->
  forall history k t, nth_error T k = Some t -> (forall j, nth_error T j = Some t -> j = k) ->
  exists xs, snd (call (calls (Series T (finite Qs) 0) history) t) = Value (map Fin xs) /\
    Forall2 (fun Q x => nth_error Q k = Some x) Qs xs.
Proof.
  intros T Qs first D E0 history k t Ek U. pose proof D as (N & M & L).
  destruct (C70_interpolates T Qs first D E0 history t) as (xs & E & X).
  { split.
    - eapply nondecreasing_le with (i := 0%nat) (j := k); [exact M | lia | exact E0 | exact Ek].
    - assert (k < length T)%nat by (apply nth_error_Some; congruence).
      eapply nondecreasing_le with (i := k) (j := (length T - 1)%nat); [exact M | lia | exact Ek | apply nth_error_last; exact N]. }
  exists xs. split; [exact E |]. eapply forall2_impl; [| exact X].
  intros Q x [(j & A & B) | (j & a & b & qa & qb & A & B & C & _)].
  - rewrite (U j A) in B. exact B.
  - exfalso. destruct (le_lt_dec k j) as [P | P].
    + pose proof (nondecreasing_le T M k j t a P Ek A). lra.
    + pose proof (nondecreasing_le T M (S j) k b t P B Ek). lra.
Qed.
Print Assumptions C70_stored.

Theorem C70_bounds : forall T Qs first, data_ok T Qs -> nth_error T 0 = Some first ->
  forall history t xs lo hi, snd (call (calls (Series T (finite Qs) 0) history) t) = Value (map Fin xs) ->
  Forall (Forall (fun x => lo <= x <= hi)) Qs -> Forall (fun x => lo <= x <= hi) xs.
Proof.
  intros T Qs first D E0 history t xs lo hi E B.
  assert (HI : first <= t <= last T first).
  { assert (I : (0 < length T)%nat) by (destruct T; [discriminate | cbn; lia]).
    destruct (calls_keep history _ (data_well_formed T Qs 0 D I)) as (W & K1 & K2). cbn [times values] in K1, K2.
    pose proof (outcome_cases _ t first W) as H. rewrite K1 in H. specialize (H E0). rewrite E in H. exact H. }
  destruct (C70_interpolates T Qs first D E0 history t HI) as (ys & E' & X). rewrite E in E'. injection E' as E'.
  assert (xs = ys) as ->.
  { clear - E'. revert ys E'. induction xs as [| x xs IH]; intros [| y ys] E; try discriminate; [reflexivity |]. injection E as -> E. f_equal. auto. }
  clear E E'. induction X as [| Q x Qs xs' H X IH]; [constructor |]. inversion B; subst.
  constructor; [| apply IH; [destruct D as (N & M & L); inversion L; subst; refine (conj N (conj M _)); assumption | assumption]].
  assert (P : forall k y, nth_error Q k = Some y -> lo <= y <= hi).
  { intros k y Hy. rewrite Forall_forall in H2. apply H2. eapply nth_error_In. exact Hy. }
  destruct H as [(k & _ & K) | (k & a & b & qa & qb & _ & _ & C & K1 & K2 & K3)]; [exact (P _ _ K) |].
  apply P in K1. apply P in K2. split.
  - apply Rmult_le_reg_r with (b - a); [lra |]. rewrite K3. nra.
  - apply Rmult_le_reg_r with (b - a); [lra |]. rewrite K3. nra.
Qed.
Print Assumptions C70_bounds.

(** At a time stored twice the answer depends on where the previous call was. *)
Theorem C70_repeated_refuted : exists T Qs first t history history', data_ok T Qs /\ nth_error T 0 = Some first /\
  monotone T = true /\ first <= t <= last T first /\
  snd (call (calls (Series T (finite Qs) 0) history) t) <> snd (call (calls (Series T (finite Qs) 0) history') t).
Proof.
  exists [0; 1; 1; 2], [[0; 5; 7; 9]], 0, 1, [], [2].
  assert (D : data_ok [0; 1; 1; 2] [[0; 5; 7; 9]]).
  { refine (conj _ (conj _ _)); [discriminate | | repeat constructor].
    intros i a b. do 4 (destruct i as [| i]; [cbn; intros A B; try discriminate; injection A as <-; injection B as <-; lra |]).
    cbn. destruct i; discriminate. }
  refine (conj D (conj eq_refl (conj _ (conj _ _)))).
  - apply monotone_spec. exact (proj1 (proj2 D)).
  - cbn. lra.
  - Ltac go := repeat match goal with
      | |- context [Rltb ?a ?b] => first [rewrite (proj2 (Rltb_true a b)) by lra | rewrite (proj2 (Rltb_false a b)) by lra]
      | |- context [Reqb ?a ?b] => first [rewrite (proj2 (Reqb_true a b)) by lra]
      end.
    unfold calls, call, fst, snd, finite; cbn -[Rltb Reqb Rdiv Rminus Rmult Rplus].
    go; cbn -[Rltb Reqb Rdiv Rminus Rmult Rplus]. 
    repeat (go; cbn -[Rltb Reqb Rdiv Rminus Rmult Rplus]).
    intros H. injection H. lra.
Qed.
Print Assumptions C70_repeated_refuted.

(** ** Missing data *)

(** Between a missing and a present value the result is not a number, which the
    check for missing data does not recognise. *)
Theorem C70_missing : forall a b r, 0 < r ->
  (lerp Missing Missing r = Missing) /\ (lerp (Fin a) Missing r = Missing) /\
  (missing_found [lerp Missing Missing r] = true) /\ (missing_found [lerp (Fin a) Missing r] = true) /\
  missing_found [lerp (Fin a) (Fin b) r] = false.
Proof. intros a b r _. repeat split. Qed.
Print Assumptions C70_missing.

Theorem C70_missing_refuted : exists s t q, snd (call s t) = Value q /\ well_formed s /\
  Exists (fun Q => Exists (fun v => v = Missing) Q) (values s) /\
  ~ Exists (fun v => exists x, v = Fin x) q /\ missing_found q = false.
Proof.
  exists (Series [0; 1] [[Missing; Fin 3]] 0), (1 / 2), [Nan].
  refine (conj _ (conj _ (conj _ (conj _ eq_refl)))).
  - unfold call, snd; cbn -[Rltb Reqb Rdiv Rminus Rmult Rplus].
    repeat (go; cbn -[Rltb Reqb Rdiv Rminus Rmult Rplus]).
    assert (NE : Reqb (1 / 2) 0 = false) by (destruct (Reqb (1 / 2) 0) eqn:B; [apply Reqb_true in B; lra | reflexivity]).
    rewrite NE. cbn -[Rltb Reqb Rdiv Rminus Rmult Rplus]. unfold read_value. cbn -[Rltb Reqb Rdiv Rminus Rmult Rplus].
    rewrite (proj2 (Rltb_true 0 ((1 / 2 - 0) / (1 - 0)))) by lra. reflexivity.
  - refine (conj _ (conj _ (conj _ _))); [discriminate | | cbn; lia | repeat constructor].
    intros i a b. do 2 (destruct i as [| i]; [cbn; intros A B; try discriminate; injection A as <-; injection B as <-; lra |]).
    cbn. destruct i; discriminate.
  - constructor. constructor. reflexivity.
  - intros H. inversion H as [? ? (x & X) | ? ? H']; [discriminate | inversion H'].
Qed.
Print Assumptions C70_missing_refuted.

(** ** Thinning *)

(** With two dimensions, every kept time still has its own values. *)
Theorem C70_thinned : forall T Qs k s, (0 < k)%nat -> data_ok T Qs -> init true k T (finite Qs) = Some s ->
  (forall i, nth_error (times s) i = nth_error T (k * i)) /\
  forall i t history, nth_error T (k * i) = Some t -> (forall j, nth_error T j = Some t -> j = (k * i)%nat) ->
  exists xs, snd (call (calls s history) t) = Value (map Fin xs) /\ Forall2 (fun Q x => nth_error Q (k * i) = Some x) Qs xs.
Proof.
  intros T Qs k s K D E. unfold init in E. destruct (monotone T) eqn:MT; [| discriminate]. injection E as <-. cbn [times].
  split; [intros i; apply thin_nth; exact K |].
  intros i t history Et U. pose proof D as (N & M & L).
  assert (D' : data_ok (thin k T) (map (thin k) Qs)).
  { refine (conj (thin_nonempty _ _ N) (conj (thin_nondecreasing _ _ K M) _)). rewrite Forall_forall in *.
    intros Q HQ. apply in_map_iff in HQ. destruct HQ as (Q' & <- & HQ'). apply thin_length; [exact K | apply L; exact HQ']. }
  assert (EQ : map (thin k) (finite Qs) = finite (map (thin k) Qs)).
  { unfold finite. rewrite !map_map. apply map_ext. intros Q. unfold thin. generalize 0%nat.
    induction Q as [| x Q IH]; intros n; [reflexivity |]. destruct n; cbn [map thin_from]; rewrite IH; reflexivity. }
  rewrite EQ. destruct (nth_error (thin k T) 0) as [first|] eqn:E0.
  2:{ rewrite thin_nth, Nat.mul_0_r in E0 by exact K. destruct T; [congruence | discriminate]. }
  destruct (C70_stored _ _ first D' E0 history i t) as (xs & E & X).
  - rewrite thin_nth by exact K. exact Et.
  - intros j. rewrite thin_nth by exact K. intros Hj. apply U in Hj. nia.
  - exists xs. split; [exact E |]. clear - X K. revert xs X. induction Qs as [| Q Qs IH]; intros xs X; inversion X; subst; [constructor |].
    constructor; [rewrite thin_nth in H1 by exact K; exact H1 | apply IH; assumption].
Qed.
Print Assumptions C70_thinned.

(** With time alone only the times are thinned: kept times get values of others. *)
Theorem C70_thin_series_refuted : exists T Qs k s t q, data_ok T Qs /\ init false k T (finite Qs) = Some s /\
  snd (call s t) = Value [Fin q] /\ ~ Forall (fun Q => interpolant T Q t q) Qs.
Proof.
  assert (D : data_ok [0; 1; 2] [[0; 10; 20]]).
  { refine (conj _ (conj _ _)); [discriminate | | repeat constructor].
    intros i a b. do 3 (destruct i as [| i]; [cbn; intros A B; try discriminate; injection A as <-; injection B as <-; lra |]).
    cbn. destruct i; discriminate. }
  exists [0; 1; 2], [[0; 10; 20]], 2%nat, (Series [0; 2] (finite [[0; 10; 20]]) 0), 2, 10.
  refine (conj D (conj _ (conj _ _))).
  - unfold init. rewrite (proj2 (monotone_spec _) (proj1 (proj2 D))). reflexivity.
  - unfold call, snd, finite; cbn -[Rltb Reqb Rdiv Rminus Rmult Rplus].
    repeat (go; cbn -[Rltb Reqb Rdiv Rminus Rmult Rplus]). reflexivity.
  - intros H. inversion H as [| ? ? H1 _]; subst. destruct H1 as [(k & A & B) | (k & a & b & qa & qb & A & B & C & _)].
    + do 3 (destruct k as [| k]; [cbn in A, B; first [injection A as A; lra | injection B as B; lra] |]). destruct k; discriminate.
    + do 2 (destruct k as [| k]; [cbn in A, B; injection A as A; injection B as B; lra |]). destruct k as [| [| k]]; discriminate.
Qed.
Print Assumptions C70_thin_series_refuted.

(** ** Non-vacuity *)
Example C70_data : data_ok [0; 1; 3] [[2; 4; 0]; [1; 1; 7]].
Proof.
  refine (conj _ (conj _ _)); [discriminate | | repeat constructor].
  intros i a b. do 3 (destruct i as [| i]; [cbn; intros A B; try discriminate; injection A as <-; injection B as <-; lra |]).
  cbn. destruct i; discriminate.
Qed.

Example C70_example : snd (call (calls (Series [0; 1; 3] (finite [[2; 4; 0]; [1; 1; 7]]) 0) [3]) 2) = Value [Fin 2; Fin 4].
Proof.
  unfold calls, call, fst, snd, finite; cbn -[Rltb Reqb Rdiv Rminus Rmult Rplus].
  repeat (go; cbn -[Rltb Reqb Rdiv Rminus Rmult Rplus]).
  assert (NE : Reqb 2 1 = false) by (destruct (Reqb 2 1) eqn:B; [apply Reqb_true in B; lra | reflexivity]).
  rewrite ?NE. cbn -[Rltb Reqb Rdiv Rminus Rmult Rplus]. unfold read_value. cbn -[Rltb Reqb Rdiv Rminus Rmult Rplus].
  assert (P : Rltb 0 ((2 - 1) / (3 - 1)) = true) by (apply Rltb_true; lra). rewrite P.
  cbn [all_some lerp]. do 2 f_equal; [f_equal; lra | f_equal; f_equal; lra].
Qed.
