(** Lemmas for C100: the executions of the loops of cg.c. *)
From Coq Require Import Reals List ZArith Arith Bool Lia Lra Permutation FunctionalExtensionality.
From Verif Require Import RealLib ArrayLib ParLib OmpModel OmpProofs OmpCGModel CGModel CGProofs.
Import ListNotations.
Local Open Scope R_scope.

Lemma vector_eqb_spec a b : reflect (a = b) (vector_eqb a b).
Proof. destruct a, b; cbn; constructor; congruence. Qed.
Lemma place_eqb_spec : forall a b, reflect (a = b) (place_eqb a b).
Proof.
  intros [a i] [b j]. unfold place_eqb. cbn [fst snd].
  destruct (vector_eqb_spec a b), (Nat.eqb_spec i j); cbn; constructor; congruence.
Qed.

(** Iteration [i] of a loop that writes entry [i] of [z] and reads no other
    entry of [z]. *)
Inductive own (z : vector) (i : nat) : prog place R R -> Prop :=
| own_ret a : own z i (Ret a)
| own_rd l k : (fst l = z -> snd l = i) -> (forall v, own z i (k v)) -> own z i (Rd l k)
| own_wr v p : own z i p -> own z i (Wr (z, i) v p).

Lemma own_access z i p : own z i p -> forall m l, In l (map event_loc (trace place_eqb p m)) -> fst l = z -> snd l = i.
Proof.
  induction 1 as [a|l k H _ IH|v p _ IH]; intros m l0; cbn [trace map event_loc In].
  - tauto.
  - intros [<-|Hl]; eauto.
  - intros [<-|Hl]; eauto.
Qed.
Lemma own_writes z i p : own z i p -> forall m l, writes place_eqb l (trace place_eqb p m) = true -> l = (z, i).
Proof.
  induction 1 as [a|l k H _ IH|v p _ IH]; intros m l0; cbn.
  - discriminate.
  - eauto.
  - intros [E|E]%orb_true_iff; [|eauto]. destruct (place_eqb_spec (z, i) l0); congruence.
Qed.

Lemma own_race_free z n b m : (forall i, (i < n)%nat -> own z i (b i)) -> race_free place_eqb n b m.
Proof.
  intros H i j l Hi Hj N W In. apply (own_writes _ _ _ (H i Hi)) in W. subst l.
  pose proof (own_access _ _ _ (H j Hj) _ _ In eq_refl) as E. cbn in E. congruence.
Qed.

(** Memory after a loop that stores [f i] in entry [i] of [z]. *)
Definition after (z : vector) (n : nat) (f : nat -> R) (m : memory) : memory :=
  fun l => if vector_eqb (fst l) z && (snd l <? n)%nat then f (snd l) else m l.

Lemma own_runs z n b m m' values : (forall i, (i < n)%nat -> own z i (b i)) -> runs n b m m' values ->
  m' = after z n (fun i => fst (alone place_eqb (b i) m) (z, i)) m /\
  forall i, (i < n)%nat -> values i = snd (alone place_eqb (b i) m).
Proof.
  intros H (c & ps' & S1 & F).
  assert (Fin : finished n ps') by (intros i Hi; eauto).
  destruct (race_free_result _ _ _ _ place_eqb_spec _ _ _ _ _ _ (own_race_free z n b m H) S1 Fin) as (A1 & A2 & A3).
  split; [|intros i Hi; specialize (A1 i Hi); specialize (F i Hi); congruence].
  apply functional_extensionality. intros [v j]. unfold after. cbn [fst snd].
  destruct (vector_eqb_spec v z) as [->|N]; cbn [andb].
  - destruct (Nat.ltb_spec j n) as [Hj|Hj].
    + destruct (writes place_eqb (z, j) (trace place_eqb (b j) m)) eqn:W; [exact (A2 j _ Hj W)|].
      rewrite alone_apply. rewrite (apply_unwritten _ _ _ place_eqb_spec) by exact W. apply A3.
      intros i Hi. destruct (writes place_eqb (z, j) (trace place_eqb (b i) m)) eqn:W2; [|reflexivity].
      pose proof (own_writes _ _ _ (H i Hi) _ _ W2) as E. injection E as ->. congruence.
    + apply A3. intros i Hi. destruct (writes _ _ _) eqn:W; [|reflexivity]. apply (own_writes _ _ _ (H i Hi)) in W. injection W. lia.
  - apply A3. intros i Hi. destruct (writes _ _ _) eqn:W; [|reflexivity]. apply (own_writes _ _ _ (H i Hi)) in W. congruence.
Qed.

(** ** Each loop *)
Lemma own_dscal c x i : own x i (cg_dscal c x i).
Proof. repeat constructor; auto. Qed.
Lemma own_dcopy x y i : x <> y -> own y i (cg_dcopy x y i).
Proof. intros. repeat constructor; cbn; congruence. Qed.
Lemma own_daxpy c x y i : x <> y -> own y i (cg_daxpy c x y i).
Proof. intros. repeat constructor; cbn; congruence. Qed.
Lemma own_zDx z D x i : D <> z -> x <> z -> own z i (cg_zDx z D x i).
Proof. intros. repeat constructor; cbn; congruence. Qed.
Lemma own_zDinx z D x i : D <> z -> x <> z -> own z i (cg_zDinx z D x i).
Proof. intros. repeat constructor; cbn; congruence. Qed.
Lemma own_add_row P z x f i keys : Vdata <> z -> x <> z -> own z i (add_row P z x f i keys).
Proof. intros D X. induction keys; cbn [add_row]; repeat constructor; cbn; congruence. Qed.
Lemma own_zAx P z x i : Vdata <> z -> x <> z -> own z i (cg_zAx P z x i).
Proof. intros. constructor. apply own_add_row; auto. Qed.
Lemma own_zaAxpy P z c x y i : Vdata <> z -> x <> z -> y <> z -> own z i (cg_zaAxpy P z c x y i).
Proof. intros. repeat constructor; cbn; try congruence. apply own_add_row; auto. Qed.
Lemma own_jacobi P i : own Vprecon i (jacobi_precon P i).
Proof.
  unfold jacobi_precon. generalize 0. generalize (ckeys P i) as keys. induction keys as [|k keys IH]; intros d; cbn [find_diag].
  - repeat constructor.
  - destruct (_ =? _)%nat; auto. constructor; [cbn; congruence|auto].
Qed.
Lemma own_ddot a b z i : a <> z -> b <> z -> own z i (cg_ddot a b i).
Proof. intros. repeat constructor; cbn; congruence. Qed.

Lemma put_here (m : memory) l v : put place_eqb m l v l = v.
Proof. apply put_same. exact place_eqb_spec. Qed.
Lemma put_there (m : memory) l v l' : l' <> l -> put place_eqb m l v l' = m l'.
Proof. apply put_other. exact place_eqb_spec. Qed.

(** What the inner loops of the products add up. *)
Definition row_sum (P : pattern) (x : nat -> R) (f : nat -> R) (keys : list nat) : R :=
  Rsum (map (fun k => f k * x (colind P k)) keys).

Lemma alone_add_row P z x f i : Vdata <> z -> x <> z -> forall keys m,
  fst (alone place_eqb (add_row P z x f i keys) m) (z, i) =
  m (z, i) + row_sum P (fun j => m (x, j)) (fun k => f (m (Vdata, k))) keys.
Proof.
  intros D X. unfold row_sum. induction keys as [|k keys IH]; intros m; cbn [add_row alone map Rsum fold_right].
  - cbn. lra.
  - rewrite IH, put_here. rewrite Rplus_assoc. f_equal. cbn [Rsum fold_right]. f_equal.
    apply Rsum_map_ext_in. intros a _. rewrite !put_there by congruence. reflexivity.
Qed.

Ltac by_own := intros; first [apply own_dscal|apply own_dcopy|apply own_daxpy|apply own_zDx|apply own_zDinx|apply own_zAx|apply own_zaAxpy|apply own_jacobi|apply own_ddot]; congruence.

Lemma after_ext z n f g m : (forall i, (i < n)%nat -> f i = g i) -> after z n f m = after z n g m.
Proof.
  intros H. apply functional_extensionality. intros [v i]. unfold after. cbn [fst snd].
  destruct (vector_eqb v z); cbn [andb]; [|reflexivity]. destruct (Nat.ltb_spec i n); auto.
Qed.

Section Loops.
Variable n : nat.
Variables m m' : memory.
Variable values : nat -> R.

Lemma runs_dscal c x : runs n (cg_dscal c x) m m' values -> m' = after x n (fun i => c * m (x, i)) m.
Proof.
  intros H. apply (own_runs x) in H as [-> _]; [|by_own]. apply after_ext. intros i _. cbn. apply put_here.
Qed.
Lemma runs_dcopy x y : x <> y -> runs n (cg_dcopy x y) m m' values -> m' = after y n (fun i => m (x, i)) m.
Proof.
  intros N H. apply (own_runs y) in H as [-> _]; [|by_own]. apply after_ext. intros i _. cbn. apply put_here.
Qed.
Lemma runs_daxpy c x y : x <> y -> runs n (cg_daxpy c x y) m m' values -> m' = after y n (fun i => m (y, i) + c * m (x, i)) m.
Proof.
  intros N H. apply (own_runs y) in H as [-> _]; [|by_own]. apply after_ext. intros i _. cbn. apply put_here.
Qed.
Lemma runs_zDx z D x : D <> z -> x <> z -> runs n (cg_zDx z D x) m m' values -> m' = after z n (fun i => m (D, i) * m (x, i)) m.
Proof.
  intros N1 N2 H. apply (own_runs z) in H as [-> _]; [|by_own]. apply after_ext. intros i _. cbn. apply put_here.
Qed.
Lemma runs_zDinx z D x : D <> z -> x <> z -> runs n (cg_zDinx z D x) m m' values -> m' = after z n (fun i => 1 / m (D, i) * m (x, i)) m.
Proof.
  intros N1 N2 H. apply (own_runs z) in H as [-> _]; [|by_own]. apply after_ext. intros i _. cbn. apply put_here.
Qed.
Lemma runs_zAx P z x : Vdata <> z -> x <> z -> runs n (cg_zAx P z x) m m' values ->
  m' = after z n (fun i => row_sum P (fun j => m (x, j)) (fun k => m (Vdata, k)) (ckeys P i)) m.
Proof.
  intros N1 N2 H. apply (own_runs z) in H as [-> _]; [|by_own]. apply after_ext. intros i _. unfold cg_zAx. cbn [alone].
  rewrite alone_add_row by auto. rewrite put_here, Rplus_0_l. unfold row_sum. apply Rsum_map_ext_in. intros k _.
  rewrite !put_there by congruence. reflexivity.
Qed.
Lemma runs_zaAxpy P z c x y : Vdata <> z -> x <> z -> y <> z -> runs n (cg_zaAxpy P z c x y) m m' values ->
  m' = after z n (fun i => m (y, i) + c * row_sum P (fun j => m (x, j)) (fun k => m (Vdata, k)) (ckeys P i)) m.
Proof.
  intros N1 N2 N3 H. apply (own_runs z) in H as [-> _]; [|by_own]. apply after_ext. intros i _. unfold cg_zaAxpy. cbn [alone].
  rewrite alone_add_row by auto. rewrite put_here. f_equal. unfold row_sum. rewrite <- Rsum_map_scal. apply Rsum_map_ext_in. intros k _.
  rewrite !put_there by congruence. ring.
Qed.
Lemma runs_jacobi P : runs n (jacobi_precon P) m m' values ->
  m' = after Vprecon n (fun i =>
    let d := fold_left (fun d k => if (i =? colind P k)%nat then m (Vdata, k) else d) (ckeys P i) 0 in
    if Reqb d 0 then 1 else d) m.
Proof.
  intros H. apply (own_runs Vprecon) in H as [-> _]; [|by_own]. apply after_ext. intros i _. unfold jacobi_precon.
  assert (E : forall keys d, fst (alone place_eqb (find_diag P i d keys) m) (Vprecon, i) =
    (let d := fold_left (fun d k => if (i =? colind P k)%nat then m (Vdata, k) else d) keys d in if Reqb d 0 then 1 else d)); [|apply E].
  induction keys as [|k keys IH]; intros d; cbn [find_diag fold_left].
  - cbn [alone fst]. apply put_here.
  - destruct (_ =? _)%nat; cbn [alone]; apply IH.
Qed.
Lemma runs_ddot a b : runs n (cg_ddot a b) m m' values ->
  m' = m /\ forall i, (i < n)%nat -> values i = m (a, i) * m (b, i).
Proof.
  intros H.
  assert (exists z, a <> z /\ b <> z) as (z & Na & Nb).
  { destruct a, b; first [exists Vdata; split; discriminate|exists Vb; split; discriminate|exists Vx; split; discriminate]. }
  destruct (own_runs z n (cg_ddot a b) m m' values) as [-> V]; [by_own|exact H|]. split; [|exact V].
  apply functional_extensionality. intros [v i]. unfold after. cbn [fst snd].
  destruct (vector_eqb_spec v z) as [->|]; cbn [andb]; [|reflexivity]. destruct (i <? n)%nat; reflexivity.
Qed.
Lemma sum_ddot a b total : runs n (cg_ddot a b) m m' values -> reduced n values total ->
  m' = m /\ total = dot n (fun i => m (a, i)) (fun i => m (b, i)).
Proof.
  intros H (th & Pm & ->). apply runs_ddot in H as [-> V]. split; [reflexivity|].
  rewrite (reduce_plus _ _ _ Pm). unfold dot. rewrite Rplus_0_l. apply Rsum_map_ext_in. intros i Hi. apply in_seq in Hi. apply V. lia.
Qed.
End Loops.

(** ** The stored matrix *)

(** Entry (i, j): entries stored several times are added up. *)
Definition matrix (P : pattern) (m : memory) (i j : nat) : R :=
  Rsum (map (fun k => if (colind P k =? j)%nat then m (Vdata, k) else 0) (ckeys P i)).
Definition square (P : pattern) (n : nat) : Prop := forall i k, (i < n)%nat -> In k (ckeys P i) -> (colind P k < n)%nat.
Definition entry (m : memory) (v : vector) : vec := fun i => m (v, i).

Lemma pick (g : nat -> R) d c n : (c < n)%nat -> Rsum (map (fun j => (if (c =? j)%nat then d else 0) * g j) (seq 0 n)) = d * g c.
Proof.
  intros H. assert (E : forall a len, (a <= c < a + len)%nat -> Rsum (map (fun j => (if (c =? j)%nat then d else 0) * g j) (seq a len)) = d * g c).
  { clear. intros a len. revert a. induction len as [|len IH]; intros a L; [lia|]. cbn [seq map Rsum fold_right].
    change (fold_right Rplus 0) with Rsum. destruct (Nat.eqb_spec c a) as [->|N].
    - rewrite Rsum_map_zero; [ring|]. intros j Hj. apply in_seq in Hj. destruct (Nat.eqb_spec a j); [lia|ring].
    - rewrite IH by lia. ring. }
  apply E. lia.
Qed.

Lemma product_row P n m x i : square P n -> (i < n)%nat ->
  row_sum P x (fun k => m (Vdata, k)) (ckeys P i) = CGModel.apply n (matrix P m) x i.
Proof.
  intros Sq Hi. unfold row_sum, CGModel.apply, matrix.
  transitivity (Rsum (map (fun k => Rsum (map (fun j => (if (colind P k =? j)%nat then m (Vdata, k) else 0) * x j) (seq 0 n))) (ckeys P i))).
  - apply Rsum_map_ext_in. intros k Hk. symmetry. apply (pick x). exact (Sq i k Hi Hk).
  - rewrite Rsum_swap. apply Rsum_map_ext_in. intros j _. rewrite Rmult_comm, <- Rsum_map_scal. apply Rsum_map_ext_in. intros. ring.
Qed.

(** ** The solver follows the sequential one *)
Lemma loop_inv n b k m a m' : executes n (Loop b k) m a m' -> exists values m1, runs n b m m1 values /\ executes n k m1 a m'.
Proof. inversion 1; eauto. Qed.
Lemma sum_inv n b k m a m' : executes n (Sum b k) m a m' ->
  exists values total m1, runs n b m m1 values /\ reduced n values total /\ executes n (k total) m1 a m'.
Proof. inversion 1 as [| |b0 k0 m0 values total m1 a0 m2 R0 T0 H0]; subst. exists values, total, m1. auto. Qed.
Definition input (v : vector) : bool := match v with Vdata | Vb | Vprecon => true | _ => false end.
Definition kept (m m' : memory) : Prop := forall v i, input v = true -> m' (v, i) = m (v, i).

Definition agrees (n : nat) (o : outcome) (a : answer) (m' : memory) : Prop :=
  match o with
  | Converged x => a = Status 0 /\ forall i, (i < n)%nat -> m' (Vx, i) = x i
  | NotConverged => a = Status (-1)
  | Undefined => a = Breakdown
  end.

Lemma kept_after z n f m : input z = false -> kept m (after z n f m).
Proof. intros H v i E. unfold after. cbn [fst snd]. destruct (vector_eqb_spec v z); [congruence|reflexivity]. Qed.
Lemma kept_trans m1 m2 m3 : kept m1 m2 -> kept m2 m3 -> kept m1 m3.
Proof. intros H1 H2 v i E. rewrite H2, H1 by exact E. reflexivity. Qed.

Lemma after_in z n f m i : (i < n)%nat -> after z n f m (z, i) = f i.
Proof. intros H. unfold after. cbn [fst snd]. destruct (vector_eqb_spec z z); [|congruence]. apply Nat.ltb_lt in H. rewrite H. reflexivity. Qed.
Lemma after_out z n f m v i : vector_eqb v z = false -> after z n f m (v, i) = m (v, i).
Proof. intros H. unfold after. cbn [fst snd]. rewrite H. reflexivity. Qed.

Section Solver.
Variables (n : nat) (P : pattern) (pre : bool) (tol atol : R).
Hypothesis Sq : square P n.

Lemma apply_ext a x y i : (forall j, (j < n)%nat -> x j = y j) -> CGModel.apply n a x i = CGModel.apply n a y i.
Proof. intros H. unfold CGModel.apply. apply Rsum_map_ext_in. intros j Hj. apply in_seq in Hj. rewrite H by lia. reflexivity. Qed.

Ltac look := repeat first [rewrite after_in by assumption | rewrite after_out by reflexivity].
Ltac look_in H := repeat first [rewrite after_in in H by assumption | rewrite after_out in H by reflexivity].

Lemma iterate_follows A M rTr0 : forall todo m s r a m',
  (forall i, (i < n)%nat -> M i = if pre then m (Vprecon, i) else 1) -> A = matrix P m ->
  (forall i, (i < n)%nat -> m (Vx, i) = xs s i /\ m (Vr, i) = rs s i /\ m (Vd, i) = ds s i) -> r = rTr s ->
  executes n (cg_iterate P pre tol atol rTr0 todo r) m a m' ->
  agrees n (c_loop n A M tol atol rTr0 todo s) a m' /\ kept m m'.
Proof.
  induction todo as [|todo IH]; intros m s r a m' HM HA Hs Hr H; cbn [cg_iterate c_loop] in *.
  - inversion H; subst. split; [reflexivity|intros v i _; reflexivity].
  - unfold going. rewrite <- Hr. destruct (Rltb (tol ^ 2 * rTr0) r && Rltb (atol ^ 2) r) eqn:G.
    2:{ inversion H; subst. split; [|intros v i _; reflexivity]. cbn [agrees]. split; [reflexivity|]. intros i Hi. apply Hs, Hi. }
    apply loop_inv in H as (v0 & m1 & R0 & H0).
    apply runs_zAx in R0; [|discriminate|discriminate]. 
    apply sum_inv in H0 as (v1 & dq & m2 & R1 & T1 & H1).
    destruct (sum_ddot _ _ _ _ _ _ _ R1 T1) as [-> Edq]. clear R1 T1.
    assert (Q : forall i, (i < n)%nat -> m1 (Vq, i) = CGModel.apply n A (ds s) i).
    { intros i Hi. rewrite R0, after_in by exact Hi. rewrite (product_row P n) by assumption. rewrite HA. apply apply_ext.
      intros j Hj. apply Hs, Hj. }
    assert (Dq : dq = dot n (ds s) (CGModel.apply n A (ds s))).
    { rewrite Edq. apply dot_ext; [|exact Q]. intros i Hi. rewrite R0, after_out by reflexivity. apply Hs, Hi. }
    unfold step. cbv zeta. rewrite <- Dq. destruct (Reqb dq 0) eqn:Z0.
    { inversion H1; subst. split; [reflexivity|]. apply kept_after. reflexivity. }
    rewrite <- Hr. set (alpha := r / dq) in *.
    apply loop_inv in H1 as (v2 & m3 & R2 & H2). apply runs_dcopy in R2; [|discriminate].
    apply loop_inv in H2 as (v3 & m4 & R3 & H3). apply runs_daxpy in R3; [|discriminate].
    apply loop_inv in H3 as (v4 & m5 & R4 & H4). apply runs_daxpy in R4; [|discriminate].
    set (r' := axpy (- alpha) (CGModel.apply n A (ds s)) (rs s)).
    assert (Hr' : forall i, (i < n)%nat -> m5 (Vr, i) = r' i).
    { intros i Hi. rewrite R4, after_in by exact Hi. unfold r', axpy. rewrite R3, !after_out by reflexivity.
      rewrite R2, !after_out by reflexivity. rewrite (Q i Hi), R0, after_out by reflexivity.
      destruct (Hs i Hi) as (_ & -> & _). reflexivity. }
    assert (Hx' : forall i, (i < n)%nat -> m5 (Vx, i) = axpy alpha (ds s) (xs s) i).
    { intros i Hi. rewrite R4, after_out by reflexivity. rewrite R3, after_in by exact Hi. unfold axpy.
      rewrite R2, !after_out by reflexivity. rewrite R0, !after_out by reflexivity. destruct (Hs i Hi) as (-> & _ & ->). reflexivity. }
    assert (Hd' : forall i, (i < n)%nat -> m5 (Vd, i) = ds s i).
    { intros i Hi. rewrite R4, after_out, R3, after_out, R2, after_out, R0, after_out by reflexivity. apply Hs, Hi. }
    assert (K5 : kept m m5).
    { rewrite R4. eapply kept_trans; [|apply kept_after; reflexivity]. rewrite R3. eapply kept_trans; [|apply kept_after; reflexivity].
      rewrite R2. eapply kept_trans; [|apply kept_after; reflexivity]. rewrite R0. apply kept_after. reflexivity. }
    assert (exists m6, kept m5 m6 /\ (forall i, (i < n)%nat -> m6 (Vx, i) = m5 (Vx, i) /\ m6 (Vr, i) = m5 (Vr, i) /\ m6 (Vd, i) = m5 (Vd, i) /\
        m6 (if pre then Vrhat else Vr, i) = divide M r' i) /\
      executes n (Sum (cg_ddot Vr (if pre then Vrhat else Vr)) (fun rTr' =>
          Loop (cg_dscal (rTr' / r) Vd) (
          Loop (cg_daxpy 1 (if pre then Vrhat else Vr) Vd) (
          cg_iterate P pre tol atol rTr0 todo rTr')))) m6 a m') as (m6 & K6 & S6 & H6).
    { destruct pre.
      - apply loop_inv in H4 as (v5 & m6 & R5 & H5). apply runs_zDinx in R5; [|discriminate|discriminate].
        exists m6. split; [|split; [|exact H5]].
        + rewrite R5. apply kept_after. reflexivity.
        + intros i Hi. rewrite R5, !after_out by reflexivity. rewrite after_in by exact Hi. repeat split; auto.
          unfold divide. rewrite (Hr' i Hi), (HM i Hi), K5 by reflexivity. reflexivity.
      - exists m5. split; [intros v i _; reflexivity|]. split; [|exact H4]. intros i Hi. repeat split; auto.
        rewrite (Hr' i Hi). unfold divide. rewrite (HM i Hi). field. }
    clear H4. apply sum_inv in H6 as (v6 & rT' & m7 & R6 & T6 & H7).
    destruct (sum_ddot _ _ _ _ _ _ _ R6 T6) as [-> ErT]. clear R6 T6.
    assert (HrT : rT' = dot n r' (divide M r')).
    { rewrite ErT. apply dot_ext; intros i Hi; destruct (S6 i Hi) as (_ & E1 & _ & E2); [rewrite E1; auto|exact E2]. }
    apply loop_inv in H7 as (v7 & m8 & R7 & H8). apply runs_dscal in R7.
    apply loop_inv in H8 as (v8 & m9 & R8 & H9).
    apply runs_daxpy in R8; [|destruct pre; discriminate].
    assert (K9 : kept m m9).
    { eapply kept_trans; [exact K5|]. eapply kept_trans; [exact K6|]. rewrite R8. eapply kept_trans; [|apply kept_after; reflexivity].
      rewrite R7. apply kept_after. reflexivity. }
    apply IH with (m := m9) (s := State (axpy alpha (ds s) (xs s)) r' (axpy (rT' / r) (ds s) (divide M r')) rT') in H9.
    { destruct H9 as [H9 K]. split; [|eapply kept_trans; eassumption]. fold r'. rewrite <- HrT. exact H9. }
    + intros i Hi. rewrite (HM i Hi). destruct pre; [|reflexivity]. symmetry. apply K9. reflexivity.
    + rewrite HA. unfold matrix. apply functional_extensionality. intros i. apply functional_extensionality. intros j.
      apply Rsum_map_ext_in. intros k _. rewrite K9 by reflexivity. reflexivity.
    + assert (NV : vector_eqb (if pre then Vrhat else Vr) Vd = false) by (destruct pre; reflexivity).
      intros i Hi. cbn [xs rs ds]. destruct (S6 i Hi) as (E1 & E2 & E3 & E4).
      rewrite R8, !(after_out Vd) by reflexivity. rewrite after_in by exact Hi. rewrite R7, !(after_out Vd) by (reflexivity || exact NV).
      rewrite after_in by exact Hi. rewrite (after_out Vd n _ m6 _ i NV). rewrite E1, E2, E3, E4, (Hx' i Hi), (Hr' i Hi), (Hd' i Hi). unfold axpy. fold r'.
      repeat split. ring.
    + reflexivity.
Qed.

Lemma solve_follows M imax m a m' :
  (forall i, (i < n)%nat -> M i = if pre then m (Vprecon, i) else 1) ->
  executes n (cg_solve P pre imax tol atol) m a m' ->
  agrees n (cg_solve_c n (matrix P m) M (entry m Vb) (entry m Vx) imax tol atol) a m' /\ kept m m'.
Proof.
  intros HM H. unfold cg_solve in H.
  apply loop_inv in H as (v0 & m1 & R0 & H0).
  apply runs_zaAxpy in R0; [|discriminate|discriminate|discriminate].
  set (r := residual n (matrix P m) (entry m Vb) (entry m Vx)).
  assert (Hr : forall i, (i < n)%nat -> m1 (Vr, i) = r i).
  { intros i Hi. rewrite R0, after_in by exact Hi. rewrite (product_row P n) by assumption. unfold r, residual, entry. ring. }
  assert (K1 : kept m m1) by (rewrite R0; apply kept_after; reflexivity).
  assert (X1 : forall i, m1 (Vx, i) = m (Vx, i)) by (intros i; rewrite R0, after_out by reflexivity; reflexivity).
  cbv zeta in H0.
  assert (exists m2, kept m1 m2 /\ (forall i, (i < n)%nat -> m2 (Vx, i) = m1 (Vx, i) /\ m2 (Vr, i) = m1 (Vr, i) /\
      m2 (if pre then Vrhat else Vr, i) = divide M r i) /\
    executes n (Loop (cg_dcopy (if pre then Vrhat else Vr) Vd) (
      Sum (cg_ddot Vr (if pre then Vrhat else Vr)) (fun rTr => cg_iterate P pre tol atol rTr (imax - 1) rTr))) m2 a m')
    as (m2 & K2 & S2 & H2).
  { destruct pre.
    - apply loop_inv in H0 as (v1 & m2 & R1 & H1). apply runs_zDinx in R1; [|discriminate|discriminate].
      exists m2. split; [rewrite R1; apply kept_after; reflexivity|]. split; [|exact H1].
      intros i Hi. rewrite R1, !after_out by reflexivity. rewrite after_in by exact Hi. repeat split.
      unfold divide. rewrite (Hr i Hi), (HM i Hi), K1 by reflexivity. reflexivity.
    - exists m1. split; [intros v i _; reflexivity|]. split; [|exact H0]. intros i Hi. repeat split.
      rewrite (Hr i Hi). unfold divide. rewrite (HM i Hi). field. }
  apply loop_inv in H2 as (v2 & m3 & R2 & H3).
  apply runs_dcopy in R2; [|destruct pre; discriminate].
  apply sum_inv in H3 as (v3 & rT & m4 & R3 & T3 & H4).
  destruct (sum_ddot _ _ _ _ _ _ _ R3 T3) as [-> ErT]. clear R3 T3.
  assert (HrT : rT = dot n r (divide M r)).
  { rewrite ErT. apply dot_ext; intros i Hi; rewrite R2, after_out by (try destruct pre; reflexivity);
      destruct (S2 i Hi) as (_ & E1 & E2); [rewrite E1; auto|exact E2]. }
  assert (K3 : kept m m3).
  { eapply kept_trans; [exact K1|]. eapply kept_trans; [exact K2|]. rewrite R2. apply kept_after. reflexivity. }
  unfold cg_solve_c, start. cbv zeta. fold r. cbn [rTr]. rewrite <- HrT.
  eapply iterate_follows with (A := matrix P m) (M := M) in H4.
  { destruct H4 as [H4 K]. split; [exact H4|]. eapply kept_trans; eassumption. }
  - intros i Hi. rewrite (HM i Hi). destruct pre; [|reflexivity]. symmetry. apply K3. reflexivity.
  - unfold matrix. apply functional_extensionality. intros i. apply functional_extensionality. intros j.
    apply Rsum_map_ext_in. intros k _. rewrite K3 by reflexivity. reflexivity.
  - intros i Hi. cbn [xs rs ds]. destruct (S2 i Hi) as (E1 & E2 & E3). rewrite R2, !(after_out Vd) by reflexivity.
    rewrite after_in by exact Hi. rewrite E1, E2, E3, X1, (Hr i Hi). repeat split.
  - reflexivity.
Qed.
End Solver.
