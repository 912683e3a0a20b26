(** Model of anuga/utilities/function_utils.py: the type of a function and the
    evaluation of a function of time *)
From Coq Require Import Reals Bool.
Local Open Scope R_scope.

(** What a call gives: a value, or one of the exceptions the code knows, or
    another *)
Inductive outcome (V : Type) := Value (v : V) | Type_error | Value_error | Too_early | Too_late | Other.
Arguments Value {V}. Arguments Type_error {V}. Arguments Value_error {V}. Arguments Too_early {V}. Arguments Too_late {V}. Arguments Other {V}.

(** The argument [function]: None, a number, a list or array, something that can
    be called with the test arguments x, y and t, with x and y, and with a time,
    or something else *)
Inductive thing (V : Type) :=
| Nothing | Number (v : V) | Sequence (v : V) | Callable (xyt xy : outcome V) (time : R -> outcome V) | Object.
Arguments Nothing {V}. Arguments Number {V}. Arguments Sequence {V}. Arguments Callable {V}. Arguments Object {V}.

Inductive kind := Is_none | Is_scalar | Is_array | Is_t | Is_xy | Is_xyt.
(** Lines 50-68: the call with a time, at time 0; the exception raised for a
    TypeError is [Other]. *)
Definition time_kind {V} (o : outcome V) : outcome kind :=
  match o with Type_error => Other | Other => Other | _ => Value Is_t end.
(** [determine_function_type], lines 12-82; the failed assertion is [Other]. *)
Definition determine_function_type {V} (f : thing V) : outcome kind :=
  match f with
  | Nothing => Value Is_none
  | Object => Other
  | Number _ => Value Is_scalar
  | Sequence _ => Value Is_array
  | Callable xyt xy time =>
      match xyt with
      | Value _ | Value_error => Value Is_xyt
      | Type_error =>
          match xy with
          | Value _ | Value_error => Value Is_xy
          | Type_error => time_kind (time 0)
          | Too_early => Too_early
          | Too_late => Too_late
          | Other => Other
          end
      | Too_early => Too_early
      | Too_late => Too_late
      | Other => Other
      end
  end.

(** A default value: None, a value or a function, lines 91-104 *)
Inductive default (V : Type) := No_default | Constant (v : V) | Function (g : R -> outcome V).
Arguments No_default {V}. Arguments Constant {V}. Arguments Function {V}.
Definition use_default {V} (raised : outcome V) (d : default V) (t : R) : outcome V :=
  match d with No_default => raised | Constant v => Value v | Function g => g t end.
(** [evaluate_temporal_function], lines 85-119, for a function of time or a
    value *)
Definition evaluate_temporal_function {V} (f : V + (R -> outcome V)) (t : R) (left right : default V) : outcome V :=
  match f with
  | inl v => Value v
  | inr g =>
      match g t with
      | Too_early => use_default Too_early left t
      | Too_late => use_default Too_late right t
      | o => o
      end
  end.
