(** C23: the conjugate gradient solvers. *)
From Coq Require Import Reals List Arith Bool Lia Lra.
From Verif Require Import RealLib CGModel CGProofs.
Import ListNotations.
Local Open Scope R_scope.

(** |b - A x|^2 *)
Definition residual_norm2 (n : nat) (a : nat -> nat -> R) (b x : vec) : R :=
  Rsum (map (fun i => (b i - Rsum (map (fun j => a i j * x j) (seq 0 n))) ^ 2) (seq 0 n)).
(** (b - A x) . M^-1 (b - A x) *)
Definition residual_precon (n : nat) (a : nat -> nat -> R) (M b x : vec) : R :=
  Rsum (map (fun i => (b i - Rsum (map (fun j => a i j * x j) (seq 0 n))) ^ 2 / M i) (seq 0 n)).

Lemma consistent_norm n a M b s : consistent n a M b s -> rTr s = residual_precon n a M b (xs s).
Proof.
  intros (E1 & ->). unfold residual_precon, dot, divide. apply Rsum_map_ext_in. intros i _. rewrite E1. unfold apply, Rdiv. ring.
Qed.
Lemma residual_ones n a b x : residual_precon n a ones b x = residual_norm2 n a b x.
Proof. unfold residual_precon, residual_norm2, ones. apply Rsum_map_ext_in. intros. field. Qed.

Lemma not_going tol atol rTr0 s : going tol atol rTr0 s = false -> rTr s <= Rmax (tol ^ 2 * rTr0) (atol ^ 2).
Proof.
  unfold going. intros H. apply andb_false_iff in H as [H|H]; apply Rltb_false in H.
  - eapply Rle_trans; [apply H|apply Rmax_l].
  - eapply Rle_trans; [apply H|apply Rmax_r].
Qed.

Lemma py_loop_sound n a M b tol atol rTr0 : forall todo s x, consistent n a M b s -> (0 < todo)%nat ->
  py_loop n a M tol atol rTr0 todo s = Converged x -> residual_precon n a M b x <= Rmax (tol ^ 2 * rTr0) (atol ^ 2).
Proof.
  induction todo as [|todo IH]; intros s x C Ht H; [lia|]. cbn [py_loop] in H. destruct (going tol atol rTr0 s) eqn:G.
  - destruct (step n a M s) as [s'|] eqn:E; [|discriminate]. destruct todo as [|todo']; [discriminate|].
    apply (IH s'); [eapply step_consistent; eauto|lia|exact H].
  - injection H as <-. rewrite <- (consistent_norm n a M b s C). apply not_going, G.
Qed.
Lemma c_loop_sound n a M b tol atol rTr0 : forall todo s x, consistent n a M b s ->
  c_loop n a M tol atol rTr0 todo s = Converged x -> residual_precon n a M b x <= Rmax (tol ^ 2 * rTr0) (atol ^ 2).
Proof.
  induction todo as [|todo IH]; intros s x C H; [discriminate|]. cbn [c_loop] in H. destruct (going tol atol rTr0 s) eqn:G.
  - destruct (step n a M s) as [s'|] eqn:E; [|discriminate]. apply (IH s'); [eapply step_consistent; eauto|exact H].
  - injection H as <-. rewrite <- (consistent_norm n a M b s C). apply not_going, G.
Qed.

(** For any matrix and imax >= 2: a returned vector meets the tolerance. *)
Theorem C23_python : forall n a b x0 imax tol atol x, (2 <= imax)%nat ->
  conjugate_gradient_py n a b x0 imax tol atol = Converged x ->
  residual_norm2 n a b x <= Rmax (tol ^ 2 * residual_norm2 n a b x0) (atol ^ 2).
Proof.
  intros n a b x0 imax tol atol x Hi H. rewrite <- !residual_ones.
  pose proof (consistent_norm n a ones b (start n a ones b x0) (start_consistent n a ones b x0)) as EN. change (xs (start n a ones b x0)) with x0 in EN. rewrite <- EN.
  apply (py_loop_sound n a ones b tol atol _ (imax - 1) _ x (start_consistent n a ones b x0)); [lia|exact H].
Qed.
Print Assumptions C23_python.

(** The C routine, for every imax. *)
Theorem C23_c : forall n a b x0 imax tol atol x,
  cg_solve_c n a ones b x0 imax tol atol = Converged x ->
  residual_norm2 n a b x <= Rmax (tol ^ 2 * residual_norm2 n a b x0) (atol ^ 2).
Proof.
  intros n a b x0 imax tol atol x H. rewrite <- !residual_ones.
  pose proof (consistent_norm n a ones b (start n a ones b x0) (start_consistent n a ones b x0)) as EN. change (xs (start n a ones b x0)) with x0 in EN. rewrite <- EN.
  apply (c_loop_sound n a ones b tol atol _ (imax - 1) _ x (start_consistent n a ones b x0)). exact H.
Qed.
Print Assumptions C23_c.

(** With a preconditioner the tolerance is met in the norm of M^-1. *)
Theorem C23_precon : forall n a M b x0 imax tol atol x,
  cg_solve_c n a M b x0 imax tol atol = Converged x \/
  ((2 <= imax)%nat /\ conjugate_gradient_py_precon n a M b x0 imax tol atol = Converged x) ->
  residual_precon n a M b x <= Rmax (tol ^ 2 * residual_precon n a M b x0) (atol ^ 2).
Proof.
  intros n a M b x0 imax tol atol x [H|(Hi & H)].
  - pose proof (consistent_norm n a M b (start n a M b x0) (start_consistent n a M b x0)) as EN. change (xs (start n a M b x0)) with x0 in EN. rewrite <- EN.
    apply (c_loop_sound n a M b tol atol _ (imax - 1) _ x (start_consistent n a M b x0)). exact H.
  - pose proof (consistent_norm n a M b (start_py_precon n a M b x0) (start_py_consistent n a M b x0)) as EN. change (xs (start_py_precon n a M b x0)) with x0 in EN. rewrite <- EN.
    apply (py_loop_sound n a M b tol atol _ (imax - 1) _ x (start_py_consistent n a M b x0)); [lia|exact H].
Qed.
Print Assumptions C23_precon.

Definition spd (n : nat) (a : nat -> nat -> R) : Prop :=
  (forall i j, (i < n)%nat -> (j < n)%nat -> a i j = a j i) /\
  (forall v : nat -> R, (exists i, (i < n)%nat /\ v i <> 0) ->
     0 < Rsum (map (fun i => v i * Rsum (map (fun j => a i j * v j) (seq 0 n))) (seq 0 n))).

Lemma going_pos tol atol rTr0 s : going tol atol rTr0 s = true -> 0 < rTr s.
Proof.
  unfold going. intros H. apply andb_true_iff in H as (_ & H). apply Rltb_true in H. pose proof (pow2_ge_0 atol). lra.
Qed.

Lemma loops_converge n a M b s0 tol atol rTr0 : spd n a -> (forall i, (i < n)%nat -> 0 < M i) ->
  consistent n a M b s0 /\ ds s0 = divide M (rs s0) ->
  forall todo k, (forall j, (j < k)%nat -> 0 < rTr (f n a M s0 j)) -> (n + 1 <= todo + k)%nat ->
  (exists x, py_loop n a M tol atol rTr0 todo (f n a M s0 k) = Converged x) /\
  (exists x, c_loop n a M tol atol rTr0 todo (f n a M s0 k) = Converged x).
Proof.
  intros (Sym & Pd) Mp S0. induction todo as [|todo IH]; intros k Pos Hk.
  - exfalso. pose proof (at_most_n n a M b Sym Pd Mp s0 S0 k Pos). lia.
  - cbn [py_loop c_loop]. destruct (going tol atol rTr0 (f n a M s0 k)) eqn:G; [|eauto].
    assert (Pos' : forall j, (j < S k)%nat -> 0 < rTr (f n a M s0 j)).
    { intros j Hj. destruct (Nat.eq_dec j k) as [->|]; [eapply going_pos; eauto|]. apply Pos. lia. }
    rewrite (step_defined n a M b Sym Pd s0 S0 k) by (intros j Hj; apply Pos'; lia).
    destruct (IH (S k) Pos' ltac:(lia)) as (P1 & P2). split; [|exact P2].
    destruct todo as [|todo']; [|exact P1]. exfalso. pose proof (at_most_n n a M b Sym Pd Mp s0 S0 (S k) Pos'). lia.
Qed.

(** For a symmetric positive definite matrix of size n and imax >= n + 2 the
    plain routines and the C routine with positive preconditioner do return
    (in exact arithmetic): after at most n iterations the residual is zero,
    and no division by zero happens. *)
Theorem C23_converges : forall n a M b x0 imax tol atol, spd n a -> (forall i, (i < n)%nat -> 0 < M i) -> (n + 2 <= imax)%nat ->
  (exists x, conjugate_gradient_py n a b x0 imax tol atol = Converged x) /\
  (exists x, cg_solve_c n a M b x0 imax tol atol = Converged x).
Proof.
  intros n a M b x0 imax tol atol Hs Mp Hi. split.
  - apply (loops_converge n a ones b (start n a ones b x0) tol atol (rTr (start n a ones b x0)) Hs) with (k := 0%nat) (todo := (imax - 1)%nat).
    + intros i _. unfold ones. lra.
    + split; [apply start_consistent|reflexivity].
    + intros; lia.
    + lia.
  - apply (loops_converge n a M b (start n a M b x0) tol atol (rTr (start n a M b x0)) Hs Mp) with (k := 0%nat) (todo := (imax - 1)%nat).
    + split; [apply start_consistent|reflexivity].
    + intros; lia.
    + lia.
Qed.
Print Assumptions C23_converges.

(** The Jacobi preconditioner of a positive definite matrix is positive. *)
Theorem C23_jacobi : forall n a i, spd n a -> (i < n)%nat -> 0 < jacobi a i.
Proof.
  intros n a i (_ & Pd) Hi. unfold jacobi. destruct (Reqb_spec (a i i) 0) as [E|E]; [lra|].
  specialize (Pd (unit_vec i)). assert (K : exists k, (k < n)%nat /\ unit_vec i k <> 0) by (exists i; split; [exact Hi|unfold unit_vec; rewrite Nat.eqb_refl; lra]).
  specialize (Pd K). pose proof (dw_unit n ones i (apply n a (unit_vec i)) Hi) as D1. pose proof (dw_unit n ones i (fun j => a i j) Hi) as D2. unfold ones in *.
  assert (E1 : dot n (unit_vec i) (apply n a (unit_vec i)) = a i i).
  { transitivity (dot n (unit_vec i) (divide (fun _ => 1) (apply n a (unit_vec i)))).
    - apply dot_ext; [reflexivity|]. intros. unfold divide. field.
    - rewrite D1. transitivity (dot n (unit_vec i) (divide (fun _ => 1) (fun j => a i j))); [|rewrite D2; field].
      unfold apply, dot, divide. rewrite Rinv_1, Rmult_1_l. apply Rsum_map_ext_in. intros. field. }
  unfold dot, apply in E1. rewrite E1 in Pd. exact Pd.
Qed.
Print Assumptions C23_jacobi.

(** ** What fails *)

(** imax = 1: the Python routine returns its argument unchecked. *)
Theorem C23_imax_one_refuted : exists n a b x0 tol atol, exists x,
  conjugate_gradient_py n a b x0 1 tol atol = Converged x /\ Rmax (tol ^ 2 * residual_norm2 n a b x0) (atol ^ 2) < residual_norm2 n a b x.
Proof.
  exists 1%nat, (fun _ _ => 1), (fun _ => 1), (fun _ => 0), 0, 0, (fun _ => 0). split; [reflexivity|].
  unfold residual_norm2. cbn [seq map Rsum]. apply Rmax_lub_lt; lra.
Qed.
Print Assumptions C23_imax_one_refuted.

(** A zero denominator: singular or indefinite matrices end in infinities or
    nans, for which no comparison holds, and these are returned. *)
Theorem C23_breakdown_refuted : forall n b x0 tol atol imax, (2 <= imax)%nat ->
  Rmax (tol ^ 2 * residual_norm2 n (fun _ _ => 0) b x0) (atol ^ 2) < residual_norm2 n (fun _ _ => 0) b x0 ->
  conjugate_gradient_py n (fun _ _ => 0) b x0 imax tol atol = Undefined.
Proof.
  intros n b x0 tol atol imax Hi H. unfold conjugate_gradient_py. destruct imax as [|[|imax]]; try lia. cbn [Nat.sub py_loop].
  set (s := start n (fun _ _ => 0) ones b x0).
  assert (E : rTr s = residual_norm2 n (fun _ _ => 0) b x0) by (rewrite <- residual_ones; apply consistent_norm, start_consistent).
  unfold going. rewrite E. pose proof (Rmax_l (tol ^ 2 * residual_norm2 n (fun _ _ => 0) b x0) (atol ^ 2)). pose proof (Rmax_r (tol ^ 2 * residual_norm2 n (fun _ _ => 0) b x0) (atol ^ 2)).
  destruct (Rltb_spec (tol ^ 2 * residual_norm2 n (fun _ _ => 0) b x0) (residual_norm2 n (fun _ _ => 0) b x0)); [|lra].
  destruct (Rltb_spec (atol ^ 2) (residual_norm2 n (fun _ _ => 0) b x0)); [|lra]. cbn [andb]. unfold step.
  rewrite (dot_zero_r n (ds s) (apply n (fun _ _ => 0) (ds s))).
  - destruct (Reqb_spec 0 0); [reflexivity|congruence].
  - intros i _. unfold apply. apply Rsum_map_zero. intros. ring.
Qed.
Print Assumptions C23_breakdown_refuted.

(** Several right hand sides with the C routine: only the last status is
    looked at, so a column that did not converge goes unnoticed. *)
Theorem C23_columns_refuted : exists n a b1 b2 imax tol atol, spd n a /\ 0 < tol < 1 / 100 /\
  cg_solve_c n a ones b1 b1 imax tol atol = NotConverged /\
  forall junk, exists xs, columns_c n a ones [(b1, b1); (b2, b2)] imax tol atol junk = Some xs.
Proof.
  set (a := fun i j : nat => if (i =? j)%nat then (if (i =? 0)%nat then 2 else 4) else 0).
  exists 2%nat, a, (fun _ => 1), (fun _ => 0), 2%nat, (1 / 1000), (1 / 1000).
  assert (N : cg_solve_c 2 a ones (fun _ => 1) (fun _ => 1) 2 (1 / 1000) (1 / 1000) = NotConverged).
  { unfold cg_solve_c. cbn [Nat.sub c_loop]. destruct (going _ _ _ _) eqn:G.
    - unfold step. destruct (Reqb_spec (dot 2 (ds (start 2 a ones (fun _ => 1) (fun _ => 1))) (apply 2 a (ds (start 2 a ones (fun _ => 1) (fun _ => 1))))) 0) as [E|E]; [|reflexivity].
      exfalso. revert E. unfold dot, start, residual, apply, divide, ones, a. cbn [ds seq map Rsum Nat.eqb]. lra.
    - exfalso. revert G. unfold going, start, dot, residual, apply, divide, ones, a. cbn [rTr seq map Rsum Nat.eqb].
      destruct (Rltb_spec ((1 / 1000) ^ 2 * ((1 - (2 * 1 + (0 * 1 + 0))) * (1 / 1 * (1 - (2 * 1 + (0 * 1 + 0)))) + ((1 - (0 * 1 + (4 * 1 + 0))) * (1 / 1 * (1 - (0 * 1 + (4 * 1 + 0)))) + 0)))
        ((1 - (2 * 1 + (0 * 1 + 0))) * (1 / 1 * (1 - (2 * 1 + (0 * 1 + 0)))) + ((1 - (0 * 1 + (4 * 1 + 0))) * (1 / 1 * (1 - (0 * 1 + (4 * 1 + 0)))) + 0))); [|lra].
      destruct (Rltb_spec ((1 / 1000) ^ 2) ((1 - (2 * 1 + (0 * 1 + 0))) * (1 / 1 * (1 - (2 * 1 + (0 * 1 + 0)))) + ((1 - (0 * 1 + (4 * 1 + 0))) * (1 / 1 * (1 - (0 * 1 + (4 * 1 + 0)))) + 0))); [discriminate|lra]. }
  split; [|split; [lra|split; [exact N|]]].
  - split.
    + intros i j Hi Hj. unfold a. destruct i as [|[|]], j as [|[|]]; try lia; reflexivity.
    + intros v (i & Hi & Hv). unfold a. cbn [seq map Rsum Nat.eqb]. pose proof (Rle_0_sqr (v 0%nat)) as P0. pose proof (Rle_0_sqr (v 1%nat)) as P1. unfold Rsqr in *.
      destruct i as [|[|]]; try lia; pose proof (Rsqr_pos_lt _ Hv) as P; unfold Rsqr in P; lra.
  - intros junk. unfold columns_c. cbn [map last fst snd].
    assert (C : cg_solve_c 2 a ones (fun _ => 0) (fun _ => 0) 2 (1 / 1000) (1 / 1000) = Converged (fun _ => 0)).
    { unfold cg_solve_c. cbn [Nat.sub c_loop]. destruct (going _ _ _ _) eqn:G; [|reflexivity]. exfalso. apply going_pos in G. revert G.
      unfold start, dot, residual, apply, divide, ones, a. cbn [rTr seq map Rsum Nat.eqb]. lra. }
    rewrite C. eauto.
Qed.
Print Assumptions C23_columns_refuted.

(** Non-vacuity. *)
Example C23_example : spd 1 (fun _ _ => 2) /\ exists x, conjugate_gradient_py 1 (fun _ _ => 2) (fun _ => 1) (fun _ => 0) 3 (1 / 10) (1 / 10) = Converged x.
Proof.
  assert (S1 : spd 1 (fun _ _ => 2)).
  { split; [reflexivity|]. intros v (i & Hi & Hv). destruct i; [|lia]. cbn. pose proof (Rsqr_pos_lt _ Hv). unfold Rsqr in *. lra. }
  split; [exact S1|]. apply (C23_converges 1 (fun _ _ => 2) ones (fun _ => 1) (fun _ => 0) 3 (1 / 10) (1 / 10) S1); [intros; unfold ones; lra|lia].
Qed.
