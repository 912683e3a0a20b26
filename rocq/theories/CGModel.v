(** Model of anuga/utilities/cg_solve.py and anuga/utilities/cg.c: the
    conjugate gradient solvers.  The matrix is given by its entries; that the
    CSR products compute the product with these entries is C16 and C49. *)
From Coq Require Import Reals List Arith Bool.
From Verif Require Import RealLib.
Import ListNotations.
Local Open Scope R_scope.

Definition vec := nat -> R.

(** [num.dot], [cg_ddot] (cg.c lines 36-47) *)
Definition dot (n : nat) (u v : vec) : R := Rsum (map (fun i => u i * v i) (seq 0 n)).
(** [A * x], [cg_zAx] (cg.c lines 98-116) *)
Definition apply (n : nat) (a : nat -> nat -> R) (x : vec) : vec := fun i => Rsum (map (fun j => a i j * x j) (seq 0 n)).
(** [y + alpha * x], [cg_daxpy] (cg.c lines 81-89) *)
Definition axpy (alpha : R) (x y : vec) : vec := fun i => y i + alpha * x i.
(** [D * r] with D[i,i] = 1/M[i], cg_solve.py lines 246-249; [cg_zDinx] (cg.c lines 139-150) *)
Definition divide (M r : vec) : vec := fun i => 1 / M i * r i.
(** No preconditioner: r itself is used. *)
Definition ones : vec := fun _ => 1.

(** [_jacobi_precon_c], cg.c lines 191-219, for a row stored without
    duplicates *)
Definition jacobi (a : nat -> nat -> R) : vec := fun i => if Reqb (a i i) 0 then 1 else a i i.

Record state := State { xs : vec; rs : vec; ds : vec; rTr : R }.

(** One iteration, cg_solve.py lines 182-209 and 279-306, cg.c lines 259-274
    and 330-347.  [None]: the denominator is zero, the results are infinities
    and nans. *)
Definition step (n : nat) (a : nat -> nat -> R) (M : vec) (s : state) : option state :=
  let q := apply n a (ds s) in
  let dq := dot n (ds s) q in
  if Reqb dq 0 then None else
  let alpha := rTr s / dq in
  let x := axpy alpha (ds s) (xs s) in
  let r := axpy (- alpha) q (rs s) in
  let z := divide M r in
  let rTr' := dot n r z in
  let bt := rTr' / rTr s in
  Some (State x r (axpy bt (ds s) z) rTr').

Inductive outcome := Converged (x : vec) | NotConverged | Undefined.

(** The while condition without the count. *)
Definition going (tol atol rTr0 : R) (s : state) : bool := Rltb (tol ^ 2 * rTr0) (rTr s) && Rltb (atol ^ 2) (rTr s).

(** The Python loops, cg_solve.py lines 181-216 and 278-311: [todo] is
    imax - i. *)
Fixpoint py_loop (n : nat) (a : nat -> nat -> R) (M : vec) (tol atol rTr0 : R) (todo : nat) (s : state) : outcome :=
  match todo with
  | O => Converged (xs s)
  | S todo =>
      if going tol atol rTr0 s then
        match step n a M s with
        | None => Undefined
        | Some s' => match todo with O => NotConverged | _ => py_loop n a M tol atol rTr0 todo s' end
        end
      else Converged (xs s)
  end.

(** The C loops, cg.c lines 257-290 and 328-365: [todo] is imax - i. *)
Fixpoint c_loop (n : nat) (a : nat -> nat -> R) (M : vec) (tol atol rTr0 : R) (todo : nat) (s : state) : outcome :=
  match todo with
  | O => NotConverged
  | S todo =>
      if going tol atol rTr0 s then
        match step n a M s with
        | None => Undefined
        | Some s' => c_loop n a M tol atol rTr0 todo s'
        end
      else Converged (xs s)
  end.

Definition residual (n : nat) (a : nat -> nat -> R) (b x : vec) : vec := fun i => b i - apply n a x i.

(** Lines before the loops: [M] is the preconditioner and the first direction
    is the preconditioned residual (C routines and the plain Python one). *)
Definition start (n : nat) (a : nat -> nat -> R) (M b x0 : vec) : state :=
  let r := residual n a b x0 in
  State x0 r (divide M r) (dot n r (divide M r)).
(** [_conjugate_gradient_preconditioned], lines 269-274: the first direction
    is the residual itself. *)
Definition start_py_precon (n : nat) (a : nat -> nat -> R) (M b x0 : vec) : state :=
  let r := residual n a b x0 in
  State x0 r r (dot n r (divide M r)).

(** [_conjugate_gradient], cg_solve.py lines 142-223 *)
Definition conjugate_gradient_py (n : nat) (a : nat -> nat -> R) (b x0 : vec) (imax : nat) (tol atol : R) : outcome :=
  let s := start n a ones b x0 in
  py_loop n a ones tol atol (rTr s) (imax - 1) s.

(** [_conjugate_gradient_preconditioned], lines 226-318 *)
Definition conjugate_gradient_py_precon (n : nat) (a : nat -> nat -> R) (M b x0 : vec) (imax : nat) (tol atol : R) : outcome :=
  let s := start_py_precon n a M b x0 in
  py_loop n a M tol atol (rTr s) (imax - 1) s.

(** [_cg_solve_c] and [_cg_solve_c_precon], cg.c lines 231-290 and 303-366 *)
Definition cg_solve_c (n : nat) (a : nat -> nat -> R) (M b x0 : vec) (imax : nat) (tol atol : R) : outcome :=
  let s := start n a M b x0 in
  c_loop n a M tol atol (rTr s) (imax - 1) s.

(** [conjugate_gradient] with the C routine for an array [b] of several
    columns, lines 87-99, 113-121 and 133-137 (Jacobi preconditioner or
    [ones]): [x0] is the right hand side (line 81) or, without
    preconditioner, the given array; only the status of the last column is
    looked at.  [None]: ConvergenceError.  A column that did not converge or
    broke down holds whatever was computed: [junk]. *)
Definition column_value (junk : vec) (o : outcome) : vec := match o with Converged x => x | _ => junk end.
Definition columns_c (n : nat) (a : nat -> nat -> R) (M : vec) (columns : list (vec * vec)) (imax : nat) (tol atol : R) (junk : vec) : option (list vec) :=
  let results := map (fun c : vec * vec => cg_solve_c n a M (fst c) (snd c) imax tol atol) columns in
  match last results (Converged ones) with
  | NotConverged => None
  | _ => Some (map (column_value junk) results)
  end.
