(** Lemmas for C23: linear algebra of the conjugate gradient method. *)
From Coq Require Import Reals List Arith Bool Lia Lra.
From Verif Require Import RealLib CGModel.
Import ListNotations.
Local Open Scope R_scope.

Lemma Rsum_swap {A B} (f : A -> B -> R) l m :
  Rsum (map (fun x => Rsum (map (fun y => f x y) m)) l) = Rsum (map (fun y => Rsum (map (fun x => f x y) l)) m).
Proof.
  induction l as [|x l IH]; cbn [map Rsum].
  - symmetry. apply Rsum_map_zero. reflexivity.
  - rewrite IH, <- Rsum_map_plus. reflexivity.
Qed.

Section Vectors.
Variable n : nat.
Implicit Types u v w x y : vec.

Lemma dot_comm u v : dot n u v = dot n v u.
Proof. unfold dot. apply Rsum_map_ext_in. intros. ring. Qed.
Lemma dot_axpy_l alpha x y v : dot n (axpy alpha x y) v = dot n y v + alpha * dot n x v.
Proof. unfold dot, axpy. rewrite <- Rsum_map_scal, <- Rsum_map_plus. apply Rsum_map_ext_in. intros. ring. Qed.
Lemma dot_axpy_r alpha x y v : dot n v (axpy alpha x y) = dot n v y + alpha * dot n v x.
Proof. rewrite dot_comm, dot_axpy_l, (dot_comm y), (dot_comm x). reflexivity. Qed.
Lemma dot_ext u u' v v' : (forall i, (i < n)%nat -> u i = u' i) -> (forall i, (i < n)%nat -> v i = v' i) -> dot n u v = dot n u' v'.
Proof. intros Hu Hv. unfold dot. apply Rsum_map_ext_in. intros i Hi. apply in_seq in Hi. rewrite Hu, Hv by lia. reflexivity. Qed.

Lemma apply_axpy a alpha x y i : apply n a (axpy alpha x y) i = apply n a y i + alpha * apply n a x i.
Proof. unfold apply, axpy. rewrite <- Rsum_map_scal, <- Rsum_map_plus. apply Rsum_map_ext_in. intros. ring. Qed.

Lemma apply_sym a u v : (forall i j, (i < n)%nat -> (j < n)%nat -> a i j = a j i) -> dot n u (apply n a v) = dot n v (apply n a u).
Proof.
  intros Hs. unfold dot, apply.
  transitivity (Rsum (map (fun i => Rsum (map (fun j => u i * (a i j * v j)) (seq 0 n))) (seq 0 n))).
  { apply Rsum_map_ext_in. intros i _. now rewrite Rsum_map_scal. }
  rewrite (Rsum_swap (fun i j => u i * (a i j * v j))).
  apply Rsum_map_ext_in. intros j Hj. rewrite <- Rsum_map_scal. apply Rsum_map_ext_in. intros i Hi.
  apply in_seq in Hj, Hi. rewrite (Hs i j) by lia. ring.
Qed.

Lemma zero_or_not v : (exists i, (i < n)%nat /\ v i <> 0) \/ (forall i, (i < n)%nat -> v i = 0).
Proof.
  induction n as [|m IH]; [right; intros; lia|]. destruct IH as [(i & Hi & Hv)|IH]; [left; exists i; split; [lia|exact Hv]|].
  destruct (Req_dec (v m) 0) as [E|E]; [right|left; exists m; split; [lia|exact E]].
  intros i Hi. destruct (Nat.eq_dec i m) as [->|]; [exact E|]. apply IH. lia.
Qed.

Lemma dot_zero_r u v : (forall i, (i < n)%nat -> v i = 0) -> dot n u v = 0.
Proof. intros H. unfold dot. apply Rsum_map_zero. intros i Hi. apply in_seq in Hi. rewrite H by lia. ring. Qed.

(** ** Orthogonal vectors: at most [n] *)
Section Bessel.
Variable M : vec.
Hypothesis Mpos : forall i, (i < n)%nat -> 0 < M i.
Let dw u v := dot n u (divide M v).

Lemma divide_axpy alpha x y i : divide M (axpy alpha x y) i = divide M y i + alpha * divide M x i.
Proof. unfold divide, axpy. ring. Qed.
Lemma dw_sym u v : dw u v = dw v u.
Proof. unfold dw, dot, divide. apply Rsum_map_ext_in. intros. ring. Qed.
Lemma dw_axpy_l alpha x y v : dw (axpy alpha x y) v = dw y v + alpha * dw x v.
Proof. apply dot_axpy_l. Qed.
Lemma dw_axpy_r alpha x y v : dw v (axpy alpha x y) = dw v y + alpha * dw v x.
Proof. rewrite dw_sym, dw_axpy_l, (dw_sym y), (dw_sym x). reflexivity. Qed.
Lemma dw_nonneg u : 0 <= dw u u.
Proof.
  unfold dw, dot, divide. apply Rsum_nonneg. intros x Hx. apply in_map_iff in Hx as (i & <- & Hi). apply in_seq in Hi.
  pose proof (Rinv_0_lt_compat _ (Mpos i ltac:(lia))). unfold Rdiv. rewrite Rmult_1_l.
  replace (u i * (/ M i * u i)) with (/ M i * (u i * u i)) by ring. apply Rmult_le_pos; [lra|]. apply Rle_0_sqr.
Qed.

Variable r : nat -> vec.
Variable K : nat.
Hypothesis Hpos : forall j, (j < K)%nat -> 0 < dw (r j) (r j).
Hypothesis Horth : forall j k, (j < k)%nat -> (k < K)%nat -> dw (r k) (r j) = 0.

Definition unit_vec (i : nat) : vec := fun k => if (i =? k)%nat then 1 else 0.

Lemma dw_unit i v : (i < n)%nat -> dw (unit_vec i) v = / M i * v i.
Proof.
  intros Hi. unfold dw, dot, unit_vec, divide.
  replace n with (i + S (n - S i))%nat by lia. rewrite seq_app, map_app, Rsum_app. cbn [seq map Rsum plus].
  rewrite Nat.eqb_refl, (Rsum_map_zero (seq 0 i)), (Rsum_map_zero (seq (S i) _)); [unfold Rdiv; ring| |];
    intros j Hj; apply in_seq in Hj; destruct (Nat.eqb_spec i j); try lia; ring.
Qed.

Fixpoint remainder (i k : nat) : vec :=
  match k with
  | O => unit_vec i
  | S k => axpy (- (/ M i * r k i / dw (r k) (r k))) (r k) (remainder i k)
  end.

Lemma remainder_spec i : (i < n)%nat -> forall k, (k <= K)%nat ->
  (forall m, (k <= m < K)%nat -> dw (remainder i k) (r m) = / M i * r m i) /\
  dw (remainder i k) (remainder i k) = / M i - Rsum (map (fun j => (/ M i * r j i) * (/ M i * r j i) / dw (r j) (r j)) (seq 0 k)).
Proof.
  intros Hi. induction k as [|k IH]; intros Hk.
  - cbn [remainder seq map Rsum]. split; [intros; apply dw_unit, Hi|]. rewrite dw_unit by exact Hi. unfold unit_vec. rewrite Nat.eqb_refl. ring.
  - destruct IH as (I1 & I2); [lia|]. pose proof (Hpos k ltac:(lia)) as HN. set (N := dw (r k) (r k)) in *.
    assert (E : dw (remainder i k) (r k) = / M i * r k i) by (apply I1; lia).
    cbn [remainder]. fold N. set (c := / M i * r k i / N). split.
    + intros m Hm. rewrite dw_axpy_l, (I1 m) by lia. rewrite (dw_sym (r k) (r m)), (Horth k m (proj1 Hm) (proj2 Hm)). ring.
    + rewrite seq_S, map_app, Rsum_app. cbn [map Rsum plus]. fold N.
      rewrite dw_axpy_l, !dw_axpy_r, (dw_sym (r k) (remainder i k)), E, I2. fold N. unfold c. pose proof (Mpos i Hi). field. split; lra.
Qed.

Lemma bessel : (K <= n)%nat.
Proof.
  apply INR_le.
  assert (B : forall i, (i < n)%nat -> Rsum (map (fun j => / M i * (r j i * r j i) / dw (r j) (r j)) (seq 0 K)) <= 1).
  { intros i Hi. destruct (remainder_spec i Hi K (le_n K)) as (_ & E). pose proof (dw_nonneg (remainder i K)) as P. rewrite E in P.
    rewrite (Rsum_map_ext_in _ (fun j => / M i * (/ M i * (r j i * r j i) / dw (r j) (r j)))), Rsum_map_scal in P.
    2: { intros j Hj. unfold Rdiv. ring. }
    pose proof (Rinv_0_lt_compat _ (Mpos i Hi)) as Q.
    apply (Rmult_le_reg_l (/ M i)); [exact Q|]. lra. }
  assert (S1 : Rsum (map (fun i => Rsum (map (fun j => / M i * (r j i * r j i) / dw (r j) (r j)) (seq 0 K))) (seq 0 n)) <= INR n).
  { clear - B. assert (G : forall l, (forall i, In i l -> (i < n)%nat) -> Rsum (map (fun i => Rsum (map (fun j => / M i * (r j i * r j i) / dw (r j) (r j)) (seq 0 K))) l) <= INR (length l)).
    { induction l as [|i l IH]; intros Hl; [cbn; lra|]. cbn [map Rsum length]. rewrite S_INR. pose proof (B i (Hl i (or_introl eq_refl))).
      assert (H1 : forall i0, In i0 l -> (i0 < n)%nat) by (intros; apply Hl; now right). specialize (IH H1). lra. }
    specialize (G (seq 0 n)). rewrite seq_length in G. apply G. intros i Hi. apply in_seq in Hi. lia. }
  rewrite (Rsum_swap (fun i j => / M i * (r j i * r j i) / dw (r j) (r j))) in S1.
  rewrite (Rsum_map_ext_in _ (fun _ => 1)) in S1.
  2: { intros j Hj. apply in_seq in Hj. pose proof (Hpos j ltac:(lia)).
       transitivity (/ dw (r j) (r j) * dw (r j) (r j)); [|apply Rinv_l; lra].
       unfold dw at 3, dot. rewrite <- Rsum_map_scal. apply Rsum_map_ext_in. intros i _. unfold divide, Rdiv. ring. }
  assert (C : forall l : list nat, Rsum (map (fun _ => 1) l) = INR (length l)).
  { induction l; [reflexivity|]. cbn [map Rsum length]. rewrite S_INR, IHl. ring. }
  rewrite C, seq_length in S1. exact S1.
Qed.
End Bessel.

(** ** The iteration *)
Section Iteration.
Variable a : nat -> nat -> R.
Variable M b : vec.

Definition consistent (s : state) : Prop := (forall i, rs s i = b i - apply n a (xs s) i) /\ rTr s = dot n (rs s) (divide M (rs s)).

Lemma step_consistent s s' : consistent s -> step n a M s = Some s' -> consistent s'.
Proof.
  intros (E1 & E2) H. unfold step in H. destruct (Reqb _ 0); [discriminate|]. injection H as <-. unfold consistent. cbn [rs xs rTr]. split; [|reflexivity].
  intros i. rewrite apply_axpy. unfold axpy. rewrite E1. ring.
Qed.

Lemma start_consistent x0 : consistent (start n a M b x0).
Proof. split; reflexivity. Qed.
Lemma start_py_consistent x0 : consistent (start_py_precon n a M b x0).
Proof. split; reflexivity. Qed.

Hypothesis a_sym : forall i j, (i < n)%nat -> (j < n)%nat -> a i j = a j i.
Hypothesis a_pos : forall v, (exists i, (i < n)%nat /\ v i <> 0) -> 0 < dot n v (apply n a v).
Hypothesis Mpos : forall i, (i < n)%nat -> 0 < M i.

Definition next (s : state) : state := match step n a M s with Some s' => s' | None => s end.

Variable s0 : state.
Hypothesis s0_ok : consistent s0 /\ ds s0 = divide M (rs s0).

Fixpoint f (k : nat) : state := match k with O => s0 | S k => next (f k) end.

Notation rr k := (rs (f k)).
Notation dd k := (ds (f k)).
Notation zz k := (divide M (rs (f k))).
Notation AA k := (apply n a (ds (f k))).

Definition invariant (k : nat) : Prop :=
  rTr (f k) = dot n (rr k) (zz k) /\
  (forall j, (j < k)%nat -> dot n (rr k) (dd j) = 0) /\
  (forall j, (j < k)%nat -> dot n (rr k) (zz j) = 0) /\
  (forall j, (j < k)%nat -> dot n (dd k) (AA j) = 0) /\
  dot n (rr k) (dd k) = rTr (f k).

Lemma energy_pos k : 0 < rTr (f k) -> dot n (rr k) (dd k) = rTr (f k) -> 0 < dot n (dd k) (AA k).
Proof.
  intros P E. apply a_pos. destruct (zero_or_not (dd k)) as [H|H]; [exact H|]. rewrite (dot_zero_r _ _ H) in E. lra.
Qed.

Lemma next_spec k : 0 < dot n (dd k) (AA k) -> step n a M (f k) = Some (f (S k)) /\
  rr (S k) = axpy (- (rTr (f k) / dot n (dd k) (AA k))) (AA k) (rr k) /\
  dd (S k) = axpy (rTr (f (S k)) / rTr (f k)) (dd k) (zz (S k)) /\
  rTr (f (S k)) = dot n (rr (S k)) (zz (S k)).
Proof.
  intros P. cbn [f]. unfold next, step. destruct (Reqb_spec (dot n (dd k) (AA k)) 0) as [E|E]; [lra|]. cbn [rs ds rTr]. auto.
Qed.

Lemma invariants K : (forall j, (j < K)%nat -> 0 < rTr (f j)) -> forall k, (k <= K)%nat -> forall m, (m <= k)%nat -> invariant m.
Proof.
  intros Pos. induction k as [|k IH]; intros Hk m Hm.
  - replace m with 0%nat by lia. destruct s0_ok as ((_ & E) & D). unfold invariant. cbn [f].
    refine (conj E (conj _ (conj _ (conj _ _)))); try (intros; lia). rewrite D. symmetry. exact E.
  - destruct (Nat.eq_dec m (S k)) as [->|Hne]; [|apply IH; lia].
    assert (Inv : forall m, (m <= k)%nat -> invariant m) by (apply IH; lia).
    assert (En : forall j, (j <= k)%nat -> 0 < dot n (dd j) (AA j)) by (intros j Hj; apply energy_pos; [apply Pos; lia|apply (Inv j Hj)]).
    destruct (Inv k (le_n k)) as (Ik0 & Ik1 & Ik2 & Ik3 & Ik4).
    destruct (next_spec k (En k (le_n k))) as (_ & Er & Ed & Et).
    pose proof (En k (le_n k)) as Ek. pose proof (Pos k ltac:(lia)) as Pk.
    set (al := rTr (f k) / dot n (dd k) (AA k)) in *.
    assert (HD : forall j, (j < S k)%nat -> dot n (rr (S k)) (dd j) = 0).
    { intros j Hj. rewrite Er, dot_axpy_l. destruct (Nat.eq_dec j k) as [->|Hjk].
      - rewrite Ik4, (dot_comm _ (dd k)). unfold al. field. lra.
      - rewrite Ik1 by lia. rewrite (dot_comm _ (dd j)), apply_sym by exact a_sym. rewrite Ik3 by lia. ring. }
    assert (HZ : forall j, (j < S k)%nat -> dot n (rr (S k)) (zz j) = 0).
    { intros [|j] Hj.
      - destruct s0_ok as (_ & D). cbn [f]. rewrite <- D. apply (HD 0%nat). lia.
      - destruct (next_spec j (En j ltac:(lia))) as (_ & _ & Edj & _).
        assert (Hd1 := HD (S j) Hj). rewrite Edj, dot_axpy_r, (HD j) in Hd1 by lia. lra. }
    unfold invariant. refine (conj Et (conj HD (conj HZ (conj _ _)))).
    + intros j Hj. rewrite Ed, dot_axpy_l.
      (* A d_j in terms of residuals *)
      destruct (next_spec j (En j ltac:(lia))) as (_ & Erj & _ & _). set (aj := rTr (f j) / dot n (dd j) (AA j)) in *.
      assert (Haj : 0 < aj) by (apply Rdiv_lt_0_compat; [apply Pos; lia|apply En; lia]).
      assert (RA : forall v, dot n v (AA j) = (dot n v (rr j) - dot n v (rr (S j))) / aj).
      { intros v. rewrite Erj, dot_axpy_r. field. lra. }
      assert (ZR : forall u v, dot n (divide M u) v = dot n u (divide M v)) by (intros; unfold dot, divide; apply Rsum_map_ext_in; intros; ring).
      rewrite (RA (zz (S k))), !ZR. destruct (Nat.eq_dec j k) as [->|Hjk].
      * rewrite HZ, <- Et by lia. unfold aj. field. repeat split; lra.
      * rewrite HZ, HZ, Ik3 by lia. field. lra.
    + rewrite Ed, dot_axpy_r, HD, <- Et by lia. ring.
Qed.

Lemma at_most_n K : (forall j, (j < K)%nat -> 0 < rTr (f j)) -> (K <= n)%nat.
Proof.
  intros Pos. destruct K as [|K]; [lia|]. apply (bessel M Mpos (fun k => rr k) (S K)).
  - intros j Hj. destruct (invariants (S K) Pos j ltac:(lia) j (le_n j)) as (E & _). rewrite <- E. apply Pos, Hj.
  - intros j k Hjk Hk. destruct (invariants (S K) Pos k ltac:(lia) k (le_n k)) as (_ & _ & Z & _). apply Z, Hjk.
Qed.

Lemma step_defined k : (forall j, (j <= k)%nat -> 0 < rTr (f j)) -> step n a M (f k) = Some (f (S k)).
Proof.
  intros Pos. apply next_spec, energy_pos; [apply Pos, le_n|].
  apply (invariants k (fun j Hj => Pos j (Nat.lt_le_incl _ _ Hj)) k (le_n k) k (le_n k)).
Qed.
End Iteration.
End Vectors.
