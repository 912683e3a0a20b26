(** Model of anuga/fit_interpolate/interpolate2d.py: [interpolate2d] (lines
    30-212), [interpolate_raster] (214-253) and [check_inputs] (258-352).
    A float is [Some r], NaN is [None]; an exception is an outer [None]. *)
From Coq Require Import Reals List Arith Bool.
From Verif Require Import RealLib.
Import ListNotations.
Local Open Scope R_scope.

(** Floats with NaN, without infinities. *)
Definition flt := option R.
Definition lift2 (f : R -> R -> R) (a b : flt) : flt :=
  match a, b with Some x, Some y => Some (f x y) | _, _ => None end.
Definition fadd := lift2 Rplus.
Definition fsub := lift2 Rminus.
Definition fmul := lift2 Rmult.
(** Division: on the axes admitted below only 0/0 arises, which is NaN. *)
Definition fdiv (a b : flt) : flt :=
  match a, b with
  | Some x, Some y => if Reqb y 0 then None else Some (x / y)
  | _, _ => None
  end.
(** Comparison with NaN is false. *)
Definition flt_ltb (a b : flt) : bool :=
  match a, b with Some x, Some y => Rltb x y | _, _ => false end.

(** Line 173: equation (5), over an arbitrary arithmetic. *)
Definition bilinear {A} (add sub mul : A -> A -> A) (alpha beta z00 z01 z10 z11 : A) : A :=
  let dx := sub z10 z00 in
  let dy := sub z01 z00 in
  add (add (add z00 (mul alpha dx)) (mul beta dy))
      (mul (mul alpha beta) (sub (sub (sub z11 dx) dy) z00)).

(** [numpy.searchsorted(x, v, side='left')] on a sorted array. *)
Fixpoint searchsorted (x : list R) (v : R) : nat :=
  match x with [] => 0%nat | y :: x => if Rltb y v then S (searchsorted x v) else 0%nat end.

(** The index [idx - 1], where [-1] is the last position (line 154). *)
Definition before (n idx : nat) : nat :=
  match idx with O => (n - 1)%nat | S k => k end.

Definition at_ (x : list R) (i : nat) : R := nth i x 0.
Definition last_ (x : list R) : R := at_ x (length x - 1).

Inductive mode := Linear | Constant.

(** The outside mask, lines 139-140. *)
Definition outside (x y : list R) (p : flt * flt) : bool :=
  match p with
  | (Some xi, Some eta) =>
      Rltb xi (at_ x 0) || Rltb eta (at_ y 0) || Rltb (last_ x) xi || Rltb (last_ y) eta
  | _ => true
  end.

(** The value at a point inside the grid, lines 150-199. *)
Definition value (m : mode) (x y : list R) (Z : nat -> nat -> flt) (xi eta : R) : flt :=
  let idx := searchsorted x xi in
  let idy := searchsorted y eta in
  let ix0 := before (length x) idx in
  let iy0 := before (length y) idy in
  let x0 := at_ x ix0 in
  let x1 := at_ x idx in
  let y0 := at_ y iy0 in
  let y1 := at_ y idy in
  let z00 := Z ix0 iy0 in
  let z01 := Z ix0 idy in
  let z10 := Z idx iy0 in
  let z11 := Z idx idy in
  let alpha := fdiv (Some (xi - x0)) (Some (x1 - x0)) in
  let beta := fdiv (Some (eta - y0)) (Some (y1 - y0)) in
  match m with
  | Linear => bilinear fadd fsub fmul alpha beta z00 z01 z10 z11
  | Constant =>
      let left_ := flt_ltb alpha (Some (1/2)) in
      let lower := flt_ltb beta (Some (1/2)) in
      if lower && left_ then z00
      else if lower && negb left_ then z10
      else if negb lower && left_ then z01
      else z11
  end.

(** The checks on one axis, lines 276-298: the first entry is the minimum and
    the last the maximum ([min] of an empty axis raises). *)
Definition axis_ok (x : list R) : bool :=
  negb (Nat.eqb (length x) 0) &&
  forallb (fun v => Rleb (at_ x 0) v) x && forallb (fun v => Rleb v (last_ x)) x.

(** Lines 318-350: with [bounds_error] some known coordinate outside the grid
    raises (a NameError, [BoundsError] being undefined), and so does
    [nanmin] of an empty array. *)
Definition out_of_bounds (x y : list R) (points : list (flt * flt)) : bool :=
  let bad a c := match c with Some v => Rltb v (at_ a 0) || Rltb (last_ a) v | None => false end in
  Nat.eqb (length points) 0 ||
  existsb (fun p => bad x (fst p) || bad y (snd p)) points.

(** [interpolate2d]; [shape] is the shape of Z. *)
Definition interpolate2d (m : mode) (bounds_error : bool) (x y : list R) (shape : nat * nat)
    (Z : nat -> nat -> flt) (points : list (flt * flt)) : option (list flt) :=
  if negb (axis_ok x && axis_ok y) then None
  else if negb (Nat.eqb (length x) (fst shape) && Nat.eqb (length y) (snd shape)) then None
  else if bounds_error && out_of_bounds x y points then None
  else Some (map (fun p =>
    if outside x y p then None
    else match p with
         | (Some xi, Some eta) => value m x y Z xi eta
         | _ => None
         end) points).

(** [interpolate_raster], lines 243-252: [flipud] then [transpose]. *)
Definition interpolate_raster (m : mode) (bounds_error : bool) (x y : list R) (shape : nat * nat)
    (z : nat -> nat -> flt) (points : list (flt * flt)) : option (list flt) :=
  interpolate2d m bounds_error x y (snd shape, fst shape)
    (fun i j => z (fst shape - 1 - j)%nat i) points.
