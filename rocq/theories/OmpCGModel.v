(** Model of the parallel loops of anuga/utilities/cg.c and of the solvers
    made of them.

    Every iteration of a [parallel for] is a program of [ParLib] that accesses
    the arrays of doubles one entry at a time; [colind] and [row_ptr], which no
    loop writes, come from the stored matrix.  Variables of a [private] clause
    are local to the iteration.  The routines are programs whose instructions
    are parallel loops and reductions. *)
From Coq Require Import Reals List ZArith Arith Bool Permutation.
From Verif Require Import RealLib ArrayLib ParLib OmpModel SparseModel.
Import ListNotations.
Local Open Scope R_scope.

(** The arrays of doubles, cg.c lines 232-250 and 303-323 ([temp] is never
    used). *)
Inductive vector := Vdata | Vb | Vx | Vd | Vr | Vq | Vxold | Vrhat | Vprecon.
Definition vector_eqb (a b : vector) : bool :=
  match a, b with
  | Vdata, Vdata | Vb, Vb | Vx, Vx | Vd, Vd | Vr, Vr | Vq, Vq | Vxold, Vxold | Vrhat, Vrhat | Vprecon, Vprecon => true
  | _, _ => false
  end.
Definition place : Type := (vector * nat)%type.
Definition place_eqb (a b : place) : bool := vector_eqb (fst a) (fst b) && Nat.eqb (snd a) (snd b).
Definition memory : Type := place -> R.
Definition body : Type := nat -> prog place R R.

(** The integer arrays of the matrix: [colind] and [row_ptr]. *)
Record pattern := Pattern { colind : nat -> nat; rowptr : nat -> nat }.
(** The indices of [for (ckey=row_ptr[i]; ckey<row_ptr[i+1]; ckey++)]. *)
Definition ckeys (P : pattern) (i : nat) : list nat := seq (rowptr P i) (rowptr P (S i) - rowptr P i).

(** ** The loops *)

(** [cg_ddot], lines 36-47: what one iteration adds to [ret] *)
Definition cg_ddot (a b : vector) : body := fun i => Rd (a, i) (fun v => Rd (b, i) (fun w => Ret (v * w))).
(** [cg_dscal], lines 53-62 *)
Definition cg_dscal (c : R) (x : vector) : body := fun i => Rd (x, i) (fun v => Wr (x, i) (c * v) (Ret 0)).
(** [cg_dcopy], lines 68-76 *)
Definition cg_dcopy (x y : vector) : body := fun i => Rd (x, i) (fun v => Wr (y, i) v (Ret 0)).
(** [cg_daxpy], lines 83-91 *)
Definition cg_daxpy (c : R) (x y : vector) : body :=
  fun i => Rd (y, i) (fun w => Rd (x, i) (fun v => Wr (y, i) (w + c * v) (Ret 0))).
(** The inner loops of lines 111-114 and 174-177: [z[i] += f(data[ckey])*x[j]] *)
Fixpoint add_row (P : pattern) (z x : vector) (f : R -> R) (i : nat) (keys : list nat) : prog place R R :=
  match keys with
  | [] => Ret 0
  | ckey :: keys =>
      Rd (z, i) (fun s => Rd (Vdata, ckey) (fun v => Rd (x, colind P ckey) (fun w =>
      Wr (z, i) (s + f v * w) (add_row P z x f i keys))))
  end.
(** [cg_zAx], lines 100-119 *)
Definition cg_zAx (P : pattern) (z x : vector) : body :=
  fun i => Wr (z, i) 0 (add_row P z x (fun v => v) i (ckeys P i)).
(** [cg_zDx], lines 125-137, which no solver uses *)
Definition cg_zDx (z D x : vector) : body :=
  fun i => Rd (D, i) (fun v => Rd (x, i) (fun w => Wr (z, i) (v * w) (Ret 0))).
(** [cg_zDinx], lines 143-155 *)
Definition cg_zDinx (z D x : vector) : body :=
  fun i => Rd (D, i) (fun v => Rd (x, i) (fun w => Wr (z, i) (1 / v * w) (Ret 0))).
(** [cg_zaAxpy], lines 167-183 *)
Definition cg_zaAxpy (P : pattern) (z : vector) (c : R) (x y : vector) : body :=
  fun i => Rd (y, i) (fun v => Wr (z, i) v (add_row P z x (fun w => c * w) i (ckeys P i))).
(** [_jacobi_precon_c], lines 191-219 *)
Fixpoint find_diag (P : pattern) (i : nat) (diag : R) (keys : list nat) : prog place R R :=
  match keys with
  | [] => Wr (Vprecon, i) (if Reqb diag 0 then 1 else diag) (Ret 0)
  | ckey :: keys =>
      if Nat.eqb i (colind P ckey) then Rd (Vdata, ckey) (fun v => find_diag P i v keys)
      else find_diag P i diag keys
  end.
Definition jacobi_precon (P : pattern) : body := fun i => find_diag P i 0 (ckeys P i).

(** ** Programs of loops *)

(** What a routine returns; [Breakdown]: a division by zero, after which the
    values are infinities and nans. *)
Inductive answer := Status (z : Z) | Breakdown.
Inductive routine :=
| Done (a : answer)
| Loop (b : body) (next : routine)
| Sum (b : body) (next : R -> routine).       (* ret = cg_ddot(..) *)

(** Executions of a parallel loop of [n] iterations: any interleaving of the
    accesses of the iterations. *)
Definition runs (n : nat) (b : body) (m m' : memory) (values : nat -> R) : Prop :=
  exists c ps', steps place_eqb n c (m, b) (m', ps') /\ forall i, (i < n)%nat -> ps' i = Ret (values i).
(** [reduction(+:ret)] with [ret = 0]: the iterations are dealt to the
    threads, every thread adds up its own, and the sums of the threads are
    added in some order. *)
Definition reduced (n : nat) (values : nat -> R) (total : R) : Prop :=
  exists threads, Permutation (concat threads) (map values (seq 0 n)) /\ total = omp_reduce Rplus 0 0 threads.

Inductive executes (n : nat) : routine -> memory -> answer -> memory -> Prop :=
| Ex_done a m : executes n (Done a) m a m
| Ex_loop b k m values m1 a m2 : runs n b m m1 values -> executes n k m1 a m2 -> executes n (Loop b k) m a m2
| Ex_sum b k m values total m1 a m2 : runs n b m m1 values -> reduced n values total ->
    executes n (k total) m1 a m2 -> executes n (Sum b k) m a m2.

(** ** The solvers *)

(** The while loop, lines 256-274 and 331-350: [todo] is imax - i.  [pre]
    selects [_cg_solve_c_precon]. *)
Fixpoint cg_iterate (P : pattern) (pre : bool) (tol atol rTr0 : R) (todo : nat) (rTr : R) : routine :=
  match todo with
  | O => Done (Status (-1))
  | S todo =>
      if Rltb (tol ^ 2 * rTr0) rTr && Rltb (atol ^ 2) rTr then
        Loop (cg_zAx P Vq Vd) (
        Sum (cg_ddot Vd Vq) (fun dq =>
        if Reqb dq 0 then Done Breakdown else
        let alpha := rTr / dq in
        Loop (cg_dcopy Vx Vxold) (
        Loop (cg_daxpy alpha Vd Vx) (
        Loop (cg_daxpy (- alpha) Vq Vr) (
        let rest :=
          Sum (cg_ddot Vr (if pre then Vrhat else Vr)) (fun rTr' =>
          let bt := rTr' / rTr in
          Loop (cg_dscal bt Vd) (
          Loop (cg_daxpy 1 (if pre then Vrhat else Vr) Vd) (
          cg_iterate P pre tol atol rTr0 todo rTr'))) in
        if pre then Loop (cg_zDinx Vrhat Vprecon Vr) rest else rest)))))
      else Done (Status 0)
  end.

(** [_cg_solve_c], lines 232-290, and [_cg_solve_c_precon], lines 303-366 *)
Definition cg_solve (P : pattern) (pre : bool) (imax : nat) (tol atol : R) : routine :=
  Loop (cg_zaAxpy P Vr (- 1) Vx Vb) (
  let rest :=
    Loop (cg_dcopy (if pre then Vrhat else Vr) Vd) (
    Sum (cg_ddot Vr (if pre then Vrhat else Vr)) (fun rTr =>
    cg_iterate P pre tol atol rTr (imax - 1) rTr)) in
  if pre then Loop (cg_zDinx Vrhat Vprecon Vr) rest else rest).

(** [_jacobi_precon_c], lines 191-219 *)
Definition jacobi_precon_c (P : pattern) : routine := Loop (jacobi_precon P) (Done (Status 0)).
(** [conjugate_gradient] with [precon='Jacobi'] and [use_c_cg] for an array
    [b] of one column, cg_solve.py lines 79-83 and 104: the preconditioner is
    computed and the solver called; [x0] is a copy of [b]. *)
Definition jacobi_solve (P : pattern) (imax : nat) (tol atol : R) : routine :=
  Loop (jacobi_precon P) (cg_solve P true imax tol atol).
