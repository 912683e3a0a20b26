(** C100: the parallel loops of the linear solver (cg.c) give the result of
    the sequential solver in every execution. *)
From Coq Require Import Reals List ZArith Arith Bool Lia Lra Permutation FunctionalExtensionality.
From Coq Require Import Floats.SpecFloat.
From Verif Require Import RealLib ArrayLib ParLib OmpModel OmpProofs SparseModel SparseProps OmpCGModel OmpCGProofs CGModel CGProofs CGProps.
Import ListNotations.
Local Open Scope R_scope.

(** Executions of the loop over [n] iterations cannot go on for ever, there is
    one, and all that finish have stored [f m i] in entry [i] of [z] for every
    iteration, and changed nothing else. *)
Definition stores (n : nat) (b : body) (z : vector) (f : memory -> nat -> R) : Prop :=
  forall m,
  (exists bound, forall c s, steps place_eqb n c (m, b) s -> (c <= bound)%nat) /\
  (forall c s, steps place_eqb n c (m, b) s -> finished n (snd s) \/ exists i t, (i < n)%nat /\ ParLib.step place_eqb i s t) /\
  (exists m' values, runs n b m m' values) /\
  (forall m' values, runs n b m m' values ->
     (forall i, (i < n)%nat -> m' (z, i) = f m i) /\
     (forall v i, v <> z \/ (n <= i)%nat -> m' (v, i) = m (v, i))).

Lemma runs_exist n b m : exists m' values, runs n b m m' values.
Proof.
  destruct (sequential_execution _ _ _ place_eqb n b m) as (c & ps' & S1 & F). eexists _, (fun i => match ps' i with Ret a => a | _ => 0 end).
  exists c, ps'. split; [exact S1|]. intros i Hi. destruct (F i Hi) as [a ->]. reflexivity.
Qed.

Lemma stores_own n b z f : (forall i, own z i (b i)) ->
  (forall m m' values, runs n b m m' values -> m' = after z n (f m) m) -> stores n b z f.
Proof.
  intros O H m. split; [|split; [|split]].
  - exists (total place_eqb n b m). intros c s. apply execution_bounded; [exact place_eqb_spec|]. apply (own_race_free z). auto.
  - intros c s _. apply execution_continues.
  - apply runs_exist.
  - intros m' values E. rewrite (H _ _ _ E). split.
    + intros i Hi. apply after_in, Hi.
    + intros v i N. unfold after. cbn [fst snd]. destruct (vector_eqb_spec v z) as [->|]; [|reflexivity].
      destruct (Nat.ltb_spec i n); [|reflexivity]. destruct N; [congruence|lia].
Qed.

(** Row [i] of the stored matrix times [x]. *)
Definition times_row (P : pattern) (data x : nat -> R) (i : nat) : R :=
  Rsum (map (fun ckey => data ckey * x (colind P ckey)) (seq (rowptr P i) (rowptr P (S i) - rowptr P i))).
(** The last diagonal entry stored in row [i]. *)
Definition last_diagonal (P : pattern) (data : nat -> R) (i : nat) : R :=
  last (map data (filter (fun ckey => Nat.eqb (colind P ckey) i) (seq (rowptr P i) (rowptr P (S i) - rowptr P i)))) 0.

Lemma fold_last (c : nat -> bool) (g : nat -> R) : forall l d,
  fold_left (fun d k => if c k then g k else d) l d = last (map g (filter c l)) d.
Proof.
  induction l as [|k l IH]; intros d; [reflexivity|]. cbn [fold_left filter]. rewrite IH.
  destruct (c k); [|reflexivity]. cbn [map]. destruct (map g (filter c l)) as [|y t]; [reflexivity|].
  cbn [last]. assert (E : forall (l : list R) d e, l <> [] -> last l d = last l e).
  { clear. induction l as [|a l IH]; intros d e N; [congruence|]. cbn [last]. destruct l; [reflexivity|]. apply IH. discriminate. }
  change (last (y :: t) (g k) = last (y :: t) d). apply E. discriminate.
Qed.

(** Every parallel loop of cg.c. *)
Theorem C100_loops : forall n P c x y z D, x <> z -> y <> z -> D <> z -> Vdata <> z -> x <> y ->
  stores n (cg_dscal c x) x (fun m i => c * m (x, i)) /\
  stores n (cg_dcopy x y) y (fun m i => m (x, i)) /\
  stores n (cg_daxpy c x y) y (fun m i => m (y, i) + c * m (x, i)) /\
  stores n (cg_zAx P z x) z (fun m => times_row P (entry m Vdata) (entry m x)) /\
  stores n (cg_zDx z D x) z (fun m i => m (D, i) * m (x, i)) /\
  stores n (cg_zDinx z D x) z (fun m i => 1 / m (D, i) * m (x, i)) /\
  stores n (cg_zaAxpy P z c x y) z (fun m i => c * times_row P (entry m Vdata) (entry m x) i + m (y, i)) /\
  stores n (jacobi_precon P) Vprecon (fun m i =>
    let d := last_diagonal P (entry m Vdata) i in if Reqb d 0 then 1 else d).
Proof.
  intros n P c x y z D Nx Ny ND Nd Nxy.
  repeat match goal with |- _ /\ _ => split end; apply stores_own; try (by_own); intros m m' values H.
  - apply runs_dscal in H; auto.
  - apply runs_dcopy in H; auto.
  - apply runs_daxpy in H; auto.
  - apply runs_zAx in H; auto.
  - apply runs_zDx in H; auto.
  - apply runs_zDinx in H; auto.
  - apply runs_zaAxpy in H; auto. rewrite H. apply after_ext. intros i _. apply Rplus_comm.
  - apply runs_jacobi in H. rewrite H. apply after_ext. intros i _. cbv zeta. unfold last_diagonal, entry, ckeys.
    rewrite <- fold_last. assert (E : forall l d, fold_left (fun d k => if (i =? colind P k)%nat then m (Vdata, k) else d) l d =
      fold_left (fun d k => if (colind P k =? i)%nat then m (Vdata, k) else d) l d).
    { clear. induction l as [|k l IH]; intros d; [reflexivity|]. cbn [fold_left]. rewrite Nat.eqb_sym. apply IH. }
    rewrite E. reflexivity.
Qed.
Print Assumptions C100_loops.

(** The reduction: whatever the interleaving, the distribution of the
    iterations over threads and the order in which threads are added. *)
Theorem C100_dot : forall n a b m m' values total,
  runs n (cg_ddot a b) m m' values -> reduced n values total ->
  total = Rsum (map (fun i => m (a, i) * m (b, i)) (seq 0 n)) /\ m' = m.
Proof.
  intros n a b m m' values total H T. destruct (sum_ddot _ _ _ _ _ _ _ H T) as [-> ->]. split; reflexivity.
Qed.
Print Assumptions C100_dot.

(** Every execution of the parallel solver ends as the sequential solver (the
    subject of C23) does: with the same status and, if it converged, the same
    solution; the matrix, the right hand side and the preconditioner are not
    changed. *)
Theorem C100_solver : forall n P pre imax tol atol m a m', square P n ->
  executes n (cg_solve P pre imax tol atol) m a m' ->
  match cg_solve_c n (matrix P m) (if pre then entry m Vprecon else ones) (entry m Vb) (entry m Vx) imax tol atol with
  | Converged x => a = Status 0 /\ forall i, (i < n)%nat -> m' (Vx, i) = x i
  | NotConverged => a = Status (-1)
  | Undefined => a = Breakdown
  end /\
  (forall i, m' (Vdata, i) = m (Vdata, i) /\ m' (Vb, i) = m (Vb, i) /\ m' (Vprecon, i) = m (Vprecon, i)).
Proof.
  intros n P pre imax tol atol m a m' Sq H.
  destruct (solve_follows n P pre tol atol Sq (if pre then entry m Vprecon else ones) imax m a m') as [A K]; [|exact H|].
  - intros i _. destruct pre; reflexivity.
  - split; [exact A|]. intros i. split; [|split]; apply K; reflexivity.
Qed.
Print Assumptions C100_solver.

(** There is an execution of every program of parallel loops. *)
Theorem C100_runs : forall n r m, exists a m', executes n r m a m'.
Proof.
  intros n. induction r as [a|b r IH|b k IH]; intros m.
  - exists a, m. constructor.
  - destruct (runs_exist n b m) as (m1 & v & H). destruct (IH m1) as (a & m' & E). exists a, m'. econstructor; eauto.
  - destruct (runs_exist n b m) as (m1 & v & H).
    set (total := omp_reduce Rplus 0 0 [map v (seq 0 n)]).
    destruct (IH total m1) as (a & m' & E). exists a, m'. apply (Ex_sum n b k m v total m1 a m'); auto.
    exists [map v (seq 0 n)]. split; [|reflexivity]. cbn [concat]. rewrite app_nil_r. apply Permutation_refl.
Qed.
Print Assumptions C100_runs.

(** ** With the matrix formats of sparse.py *)

(** A memory that holds the arrays of a [Sparse_CSR]. *)
Definition pattern_of (C : csr) : pattern := Pattern (fun k => fst (nth k (entries C) (0%nat, 0))) (row_ptr C).
Definition holds (C : csr) (m : memory) : Prop := forall k, m (Vdata, k) = snd (nth k (entries C) (0%nat, 0)).

Lemma row_entries_pattern C m i : holds C m ->
  row_entries C i = map (fun k => (colind (pattern_of C) k, m (Vdata, k))) (ckeys (pattern_of C) i).
Proof.
  intros H. unfold row_entries, ckeys, pattern_of. cbn [colind rowptr]. apply map_ext. intros k. rewrite H. apply surjective_pairing.
Qed.

Lemma distinct_last (l : list (nat * R)) j : NoDup (map fst l) ->
  Rsum (map (fun e => if (fst e =? j)%nat then snd e else 0) l) =
  fold_left (fun d (e : nat * R) => if (fst e =? j)%nat then snd e else d) l 0.
Proof.
  assert (Z : forall l d, ~ In j (map fst l) -> fold_left (fun d (e : nat * R) => if (fst e =? j)%nat then snd e else d) l d = d /\
     Rsum (map (fun e => if (fst e =? j)%nat then snd e else 0) l) = 0).
  { clear. induction l as [|e l IH]; intros d N; [split; reflexivity|]. cbn [map] in N. apply not_in_cons in N as [N1 N2].
    cbn [fold_left map Rsum fold_right]. destruct (Nat.eqb_spec (fst e) j); [congruence|]. change (fold_right Rplus 0) with Rsum.
    destruct (IH d N2) as [-> ->]. split; [reflexivity|ring]. }
  induction l as [|e l IH]; intros N; [reflexivity|]. cbn [map] in N. apply NoDup_cons_iff in N as [N1 N2].
  cbn [fold_left map Rsum fold_right]. change (fold_right Rplus 0) with Rsum. destruct (Nat.eqb_spec (fst e) j) as [<-|E].
  - destruct (Z l (snd e) N1) as [-> ->]. ring.
  - rewrite IH by exact N2. ring.
Qed.

(** Without entries stored twice, the matrix is the one [todense] gives, and
    the preconditioner is its diagonal, with 1 for 0. *)
Theorem C100_matrix : forall C m i, holds C m -> NoDup (map fst (row_entries C i)) ->
  (forall j, matrix (pattern_of C) m i j = csr_dense C i j) /\
  last_diagonal (pattern_of C) (entry m Vdata) i = csr_dense C i i.
Proof.
  intros C m i H N. rewrite (row_entries_pattern C m i H) in N.
  assert (E : forall j, matrix (pattern_of C) m i j = csr_dense C i j).
  { intros j. unfold csr_dense. rewrite (row_entries_pattern C m i H), <- distinct_last by exact N. rewrite map_map. reflexivity. }
  split; [exact E|]. unfold last_diagonal. rewrite <- fold_last. unfold csr_dense. rewrite (row_entries_pattern C m i H).
  fold (ckeys (pattern_of C) i). generalize 0. clear. unfold entry. intros r. revert r.
  induction (ckeys (pattern_of C) i) as [|k l IH]; intros r; [reflexivity|]. cbn [fold_left map fst snd]. apply IH.
Qed.
Print Assumptions C100_matrix.

Lemma c_loop_M n a M M' tol atol r0 : (forall i, (i < n)%nat -> M i = M' i) -> forall todo s s',
  (forall i, (i < n)%nat -> xs s i = xs s' i /\ rs s i = rs s' i /\ ds s i = ds s' i) -> rTr s = rTr s' ->
  match c_loop n a M tol atol r0 todo s, c_loop n a M' tol atol r0 todo s' with
  | Converged x, Converged y => forall i, (i < n)%nat -> x i = y i
  | NotConverged, NotConverged | Undefined, Undefined => True
  | _, _ => False
  end.
Proof.
  intros HM. induction todo as [|todo IH]; intros s s' Hs Hr; cbn [c_loop]; [exact I|].
  unfold going. rewrite Hr. destruct (_ && _); [|intros i Hi; apply Hs, Hi].
  unfold CGModel.step. cbv zeta.
  assert (Q : forall i, CGModel.apply n a (ds s) i = CGModel.apply n a (ds s') i).
  { intros i. apply apply_ext. intros j Hj. apply Hs, Hj. }
  assert (Edq : dot n (ds s) (CGModel.apply n a (ds s)) = dot n (ds s') (CGModel.apply n a (ds s'))).
  { apply dot_ext; intros i Hi; [apply Hs, Hi|apply Q]. }
  rewrite Edq. destruct (Reqb _ 0); [exact I|]. rewrite Hr. apply IH; cbn [xs rs ds rTr].
  - intros i Hi. destruct (Hs i Hi) as (E1 & E2 & E3). unfold axpy, divide. rewrite Q, E1, E2, E3, (HM i Hi).
    repeat split. f_equal. f_equal. f_equal. apply dot_ext; intros j Hj; destruct (Hs j Hj) as (F1 & F2 & F3); rewrite ?(HM j Hj), Q, F2; reflexivity.
  - apply dot_ext; intros j Hj; destruct (Hs j Hj) as (F1 & F2 & F3); unfold axpy, divide; rewrite ?(HM j Hj), Q, F2; reflexivity.
Qed.

Lemma cg_solve_c_M n a M M' b x0 imax tol atol : (forall i, (i < n)%nat -> M i = M' i) ->
  match cg_solve_c n a M b x0 imax tol atol, cg_solve_c n a M' b x0 imax tol atol with
  | Converged x, Converged y => forall i, (i < n)%nat -> x i = y i
  | NotConverged, NotConverged | Undefined, Undefined => True
  | _, _ => False
  end.
Proof.
  intros HM. unfold cg_solve_c. set (s := start n a M b x0). set (s' := start n a M' b x0).
  assert (Er : rTr s = rTr s').
  { unfold s, s', start. cbn [rTr]. apply dot_ext; [reflexivity|]. intros i Hi. unfold divide. rewrite (HM i Hi). reflexivity. }
  rewrite Er. apply c_loop_M; auto. intros i Hi. unfold s, s', start. cbn [xs rs ds]. repeat split. unfold divide. rewrite (HM i Hi). reflexivity.
Qed.

(** [conjugate_gradient(A, b, precon='Jacobi', use_c_cg=True)] on a symmetric
    positive definite matrix: every execution, whatever the interleaving and
    the reduction orders, returns 0 (so no ConvergenceError is raised) and a
    solution that meets the tolerance; with tolerances 0 it is the exact
    solution. *)
Theorem C100_jacobi : forall n C imax tol atol m a m', holds C m ->
  (forall i, (i < n)%nat -> NoDup (map fst (row_entries C i)) /\ forall e, In e (row_entries C i) -> (fst e < n)%nat) ->
  spd n (csr_dense C) -> (n + 2 <= imax)%nat ->
  (forall i, (i < n)%nat -> m (Vx, i) = m (Vb, i)) ->
  executes n (jacobi_solve (pattern_of C) imax tol atol) m a m' ->
  a = Status 0 /\
  (forall i, (i < n)%nat -> m' (Vprecon, i) = csr_dense C i i) /\
  residual_precon n (csr_dense C) (fun i => csr_dense C i i) (entry m Vb) (entry m' Vx) <=
    Rmax (tol ^ 2 * residual_precon n (csr_dense C) (fun i => csr_dense C i i) (entry m Vb) (entry m Vb)) (atol ^ 2).
Proof.
  intros n C imax tol atol m a m' HC Hrow Hspd Himax Hx H.
  apply loop_inv in H as (v & m1 & R1 & H).
  pose proof (C100_loops n (pattern_of C) 0 Vb Vx Vq Vd ltac:(discriminate) ltac:(discriminate) ltac:(discriminate) ltac:(discriminate) ltac:(discriminate))
    as (_ & _ & _ & _ & _ & _ & _ & J).
  destruct (J m) as (_ & _ & _ & J1). destruct (J1 _ _ R1) as [Jp Jo]. clear J J1.
  assert (Hm : forall i j, (i < n)%nat -> matrix (pattern_of C) m1 i j = csr_dense C i j).
  { intros i j Hi. destruct (C100_matrix C m1 i) as [E _]; [|apply Hrow, Hi|apply E].
    intros k. rewrite Jo by (left; discriminate). apply HC. }
  assert (Sq : square (pattern_of C) n).
  { intros i k Hi Hk. destruct (Hrow i Hi) as [_ B]. rewrite (row_entries_pattern C m i HC) in B.
    apply (B (colind (pattern_of C) k, m (Vdata, k))). apply in_map_iff. eauto. }
  assert (Hpos : forall i, (i < n)%nat -> 0 < csr_dense C i i).
  { intros i Hi. pose proof (C23_jacobi n (csr_dense C) i Hspd Hi) as Pj. destruct Hspd as [_ Hpd].
    unfold jacobi in Pj. destruct (Reqb_spec (csr_dense C i i) 0) as [E|E]; [|exact Pj]. exfalso.
    specialize (Hpd (fun k => if (i =? k)%nat then 1 else 0)). cbv beta in Hpd.
    assert (Q : exists k, (k < n)%nat /\ (if (i =? k)%nat then 1 else 0) <> 0) by (exists i; rewrite Nat.eqb_refl; split; [exact Hi|lra]).
    specialize (Hpd Q). rewrite (pick (fun k => Rsum (map (fun j => csr_dense C k j * (if (i =? j)%nat then 1 else 0)) (seq 0 n))) 1 i n Hi) in Hpd.
    assert (E2 : Rsum (map (fun j => csr_dense C i j * (if (i =? j)%nat then 1 else 0)) (seq 0 n)) = 1 * csr_dense C i i).
    { rewrite <- (pick (fun j => csr_dense C i j) 1 i n Hi). apply Rsum_map_ext_in. intros. ring. }
    rewrite E2, E in Hpd. lra. }
  assert (Hp : forall i, (i < n)%nat -> m1 (Vprecon, i) = csr_dense C i i).
  { intros i Hi. rewrite (Jp i Hi). cbv zeta. destruct (C100_matrix C m i HC (proj1 (Hrow i Hi))) as [_ ->].
    destruct (Reqb_spec (csr_dense C i i) 0) as [E|]; [|reflexivity]. specialize (Hpos i Hi). lra. }
  pose proof (C100_solver n _ true imax tol atol m1 a m' Sq H) as [A K].
  assert (Hs1 : spd n (matrix (pattern_of C) m1)).
  { destruct Hspd as [S1 S2]. split.
    - intros i j Hi Hj. rewrite !Hm by assumption. auto.
    - intros w Hw. specialize (S2 w Hw). erewrite Rsum_map_ext_in; [exact S2|]. intros i Hi. apply in_seq in Hi. cbv beta. f_equal.
      apply Rsum_map_ext_in. intros j _. rewrite Hm by lia. reflexivity. }
  destruct (C23_converges n (matrix (pattern_of C) m1) (entry m1 Vprecon) (entry m1 Vb) (entry m1 Vx) imax tol atol Hs1) as [_ [x Ex]];
    [intros i Hi; unfold entry; rewrite (Hp i Hi); auto|exact Himax|].
  rewrite Ex in A. destruct A as [-> Ax]. split; [reflexivity|]. split.
  { intros i Hi. destruct (K i) as (_ & _ & ->). apply Hp, Hi. }
  pose proof (C23_precon _ _ _ _ _ _ _ _ _ (or_introl Ex)) as Rs.
  assert (E : forall y y', (forall i, (i < n)%nat -> y i = y' i) ->
    residual_precon n (matrix (pattern_of C) m1) (entry m1 Vprecon) (entry m1 Vb) y =
    residual_precon n (csr_dense C) (fun i => csr_dense C i i) (entry m Vb) y').
  { intros y y' Hy. unfold residual_precon. apply Rsum_map_ext_in. intros i Hi. apply in_seq in Hi.
    unfold entry. rewrite (Hp i) by lia. rewrite Jo by (left; discriminate). f_equal. f_equal. f_equal.
    apply Rsum_map_ext_in. intros j Hj. apply in_seq in Hj. rewrite Hm, Hy by lia. reflexivity. }
  rewrite (E x (entry m' Vx)) in Rs by (intros; symmetry; apply Ax; assumption).
  rewrite (E (entry m1 Vx) (entry m Vb)) in Rs; [exact Rs|].
  intros i Hi. unfold entry. rewrite Jo by (left; discriminate). apply Hx, Hi.
Qed.
Print Assumptions C100_jacobi.

(** ** Binary64 *)

(** In floating point the order of the reduction shows: two distributions of
    the same products over the threads give different values of rTr, so
    results need not be reproducible bit by bit. *)
Theorem C100_bitwise_refuted : exists r threads1 threads2,
  let squares := map (fun v => SFmul 53 1024 v v) r in
  Permutation (concat threads1) squares /\ Permutation (concat threads2) squares /\
  SFltb (omp_reduce (SFadd 53 1024) (S754_zero false) (S754_zero false) threads1)
        (omp_reduce (SFadd 53 1024) (S754_zero false) (S754_zero false) threads2) = true.
Proof.
  set (one := S754_finite false 4503599627370496 (-52)). set (big := S754_finite false 4503599627370496 (-25)).
  exists [big; one; one; one; one].
  exists [[S754_finite false 4503599627370496 2; one; one; one; one]].
  exists [[S754_finite false 4503599627370496 2]; [one; one; one; one]].
  vm_compute. split; [|split; [|reflexivity]]; apply Permutation_refl.
Qed.
Print Assumptions C100_bitwise_refuted.

(** ** An instance: the matrix ((2, 1), (1, 2)), b = (3, 3) *)
Definition ex_csr : csr := CSR 2 2 (fun i => match i with 0 => 0 | 1 => 2 | _ => 4 end)%nat [(0%nat, 2); (1%nat, 1); (0%nat, 1); (1%nat, 2)].
Definition ex_memory : memory := fun l =>
  match l with
  | (Vdata, k) => snd (nth k (entries ex_csr) (0%nat, 0))
  | (Vb, _) | (Vx, _) => 3
  | _ => 0
  end.
Example C100_case : forall a m', executes 2 (jacobi_solve (pattern_of ex_csr) 10 0 0) ex_memory a m' ->
  a = Status 0 /\ m' (Vprecon, 0%nat) = 2 /\ m' (Vx, 0%nat) = 1 /\ m' (Vx, 1%nat) = 1.
Proof.
  intros a m' H.
  destruct (C100_jacobi 2 ex_csr 10 0 0 ex_memory a m') as (A & Pj & Rs); auto.
  - intros k. reflexivity.
  - intros i Hi. destruct i as [|[|i]]; [| |lia]; cbn; (split; [repeat constructor; cbn; intuition discriminate|intros e [<-|[<-|[]]]; cbn; lia]).
  - split.
    + intros i j Hi Hj. destruct i as [|[|i]], j as [|[|j]]; try lia; cbn; lra.
    + intros v (i & Hi & Hv). cbn.
      replace (_ + _) with (v 0%nat * v 0%nat + v 1%nat * v 1%nat + (v 0%nat + v 1%nat) * (v 0%nat + v 1%nat)) by ring.
      pose proof (Rle_0_sqr (v 0%nat)). pose proof (Rle_0_sqr (v 1%nat)). pose proof (Rle_0_sqr (v 0%nat + v 1%nat)). unfold Rsqr in *.
      destruct i as [|[|i]]; [| |lia]; pose proof (Rsqr_pos_lt _ Hv) as Q; unfold Rsqr in Q; lra.
  - lia.
  - split; [exact A|]. split; [rewrite Pj by lia; cbn; lra|].
    unfold residual_precon, entry in Rs. cbn in Rs. rewrite Rmax_left in Rs by nra.
    assert (E0 : 3 - (2 * m' (Vx, 0%nat) + (1 * m' (Vx, 1%nat) + 0)) = 0 /\ 3 - (1 * m' (Vx, 0%nat) + (2 * m' (Vx, 1%nat) + 0)) = 0).
    { set (p := 3 - (2 * m' (Vx, 0%nat) + (1 * m' (Vx, 1%nat) + 0))) in *. set (q := 3 - (1 * m' (Vx, 0%nat) + (2 * m' (Vx, 1%nat) + 0))) in *.
      pose proof (Rle_0_sqr p). pose proof (Rle_0_sqr q). unfold Rsqr in *. split; apply Rsqr_0_uniq; unfold Rsqr; lra. }
    lra.
Qed.
