(** Model of the recording of extreme values during a run:
    [Generic_Domain.update_extrema] (anuga/abstract_2d_finite_volumes/
    generic_domain.py lines 1442-1490) with the [Quantity] methods it calls
    (quantity.py lines 1801-1922), and of the two operators
    operators/collect_max_stage_operator.py and
    operators/collect_max_quantities_operator.py. *)
From Coq Require Import Reals List ZArith Bool.
From Verif Require Import RealLib.
Import ListNotations.
Local Open Scope R_scope.

(** ** Quantity.get_extremum_index *)

(** numpy's argmax / argmin: the first index holding the extreme value, an
    exception ([None]) on an empty array.  [better a b]: a beats b. *)
Fixpoint argbest_from (better : R -> R -> bool) (l : list R) (i : nat) (bi : nat) (bv : R) : nat :=
  match l with
  | [] => bi
  | v :: rest => if better v bv then argbest_from better rest (S i) i v
                 else argbest_from better rest (S i) bi bv
  end.

Definition argbest (better : R -> R -> bool) (l : list R) : option nat :=
  match l with
  | [] => None
  | v :: rest => Some (argbest_from better rest 1 0 v)
  end.

Definition greater (a b : R) : bool := Rltb b a.
Definition smaller (a b : R) : bool := Rltb a b.

(** [num.take(values, indices)]; [None] is the IndexError. *)
Fixpoint take (values : list R) (indices : list nat) : option (list R) :=
  match indices with
  | [] => Some []
  | i :: rest =>
      match nth_error values i, take values rest with
      | Some v, Some r => Some (v :: r)
      | _, _ => None
      end
  end.

(** [get_extremum_index], lines 1801-1832 *)
Definition get_extremum_index (better : R -> R -> bool) (V : list R) (indices : option (list nat)) : option nat :=
  match indices with
  | None => argbest better V
  | Some ids =>
      match take V ids with
      | None => None
      | Some W => match argbest better W with None => None | Some i => nth_error ids i end
      end
  end.

(** [get_maximum_value] / [get_minimum_value], lines 1839-1855 and 1884-1899 *)
Definition get_extremum_value (better : R -> R -> bool) (V : list R) (indices : option (list nat)) : option R :=
  match get_extremum_index better V indices with None => None | Some i => nth_error V i end.

(** [get_maximum_location] / [get_minimum_location], lines 1857-1877 and
    1902-1922 *)
Definition get_extremum_location (better : R -> R -> bool) (coords : list (R * R)) (V : list R)
  (indices : option (list nat)) : option (R * R) :=
  match get_extremum_index better V indices with None => None | Some i => nth_error coords i end.

(** ** update_extrema *)

(** [single_precision] of config.py, used as tolerance. *)
Definition eps6 : R := / 10 ^ 6.

(** One half (maximum or minimum) of the info block of generic_domain.py lines
    1141-1146: value, location, time. *)
Record extremum := Extremum { x_val : R; x_loc : R * R; x_time : R }.
Definition half := option extremum.
Record info := Info { i_max : half; i_min : half }.
Definition info0 : info := Info None None.

(** Lines 1472-1480 and 1483-1490; [tol a b]: a beats b by more than the
    tolerance.  [None] is an exception. *)
Definition update_half (better tol : R -> R -> bool) (coords : list (R * R)) (indices : option (list nat))
  (t : R) (V : list R) (h : half) : option half :=
  match get_extremum_value better V indices with
  | None => None
  | Some v =>
      if (match h with None => true | Some e => tol v (x_val e) end) then
        match get_extremum_location better coords V None with
        | None => None
        | Some loc => Some (Some {| x_val := v; x_loc := loc; x_time := t |})
        end
      else Some h
  end.

Definition max_tol (a b : R) : bool := Rltb (b + eps6) a.
Definition min_tol (a b : R) : bool := Rltb a (b - eps6).

(** One call for one monitored quantity, lines 1449-1490. *)
Definition update_extrema (coords : list (R * R)) (interval : option (R * R)) (indices : option (list nat))
  (i : info) (tV : R * list R) : option info :=
  let '(t, V) := tV in
  if (match interval with Some (a, b) => Rltb t a || Rltb b t | None => false end) then Some i
  else
    match update_half greater max_tol coords indices t V (i_max i) with
    | None => None
    | Some mx =>
        match update_half smaller min_tol coords indices t V (i_min i) with
        | None => None
        | Some mn => Some (Info mx mn)
        end
    end.

(** A run: the calls made during it, oldest first. *)
Fixpoint run_extrema (coords : list (R * R)) (interval : option (R * R)) (indices : option (list nat))
  (i : info) (history : list (R * list R)) : option info :=
  match history with
  | [] => Some i
  | h :: rest =>
      match update_extrema coords interval indices i h with
      | None => None
      | Some i' => run_extrema coords interval indices i' rest
      end
  end.

(** ** Collect_max_stage_operator, lines 40 and 50-55: [Quantity.maximum] of
    quantity.py lines 255-278 on the centroid values. *)

Fixpoint maximum (xs ys : list R) : list R :=
  match xs, ys with
  | x :: xs, y :: ys => Rmax x y :: maximum xs ys
  | _, _ => []
  end.

Definition max_stage_init (n : nat) : list R := repeat (- 10 ^ 100) n.
Definition max_stage_call (m : list R) (stage : list R) : list R := maximum m stage.

(** ** Collect_max_quantities_operator, lines 84-114 *)

Record cmax := CMax { m_stage : list R; m_depth : list R; m_speed : list R; m_uh : list R; m_counter : nat }.
(** What one call reads: the time, and stage, elevation, xmomentum, ymomentum
    of each triangle. *)
Record obs := Obs { o_t : R; o_cells : list (R * R * R * R) }.

Section CollectMax.
Variables (update_frequency : nat) (start_time minimum_allowed_height velocity_zero_height max_float : R).

(** Lines 53-56 and 67. *)
Definition cmax_init (n : nat) : cmax :=
  CMax (repeat (0 - max_float) n) (repeat 0 n) (repeat 0 n) (repeat 0 n) 0.

Definition ob_stage (c : R * R * R * R) : R := fst (fst (fst c)).
Definition ob_mom (c : R * R * R * R) : R := let '(_, _, uh, vh) := c in sqrt (uh * uh + vh * vh).
Definition ob_depth (c : R * R * R * R) : R := let '(w, z, _, _) := c in Rmax (w - z) minimum_allowed_height.
Definition ob_speed (c : R * R * R * R) : R :=
  (ob_mom c / ob_depth c) * (if Rltb velocity_zero_height (ob_depth c) then 1 else 0).

(** [__call__], lines 84-114 *)
Definition cmax_call (m : cmax) (o : obs) : cmax :=
  if Rltb start_time (o_t o) then
    let counter := S (m_counter m) in
    if Nat.eqb counter update_frequency then
      CMax (maximum (m_stage m) (map ob_stage (o_cells o)))
           (maximum (m_depth m) (map ob_depth (o_cells o)))
           (maximum (m_speed m) (map ob_speed (o_cells o)))
           (maximum (m_uh m) (map ob_mom (o_cells o))) 0
    else CMax (m_stage m) (m_depth m) (m_speed m) (m_uh m) counter
  else m.
End CollectMax.
