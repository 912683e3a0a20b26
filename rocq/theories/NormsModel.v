(** Model of anuga/utilities/norms.py.  A vector is a list of real numbers. *)
From Coq Require Import Reals List.
Import ListNotations.
Local Open Scope R_scope.

(** [l1_norm], lines 8-10 *)
Definition l1_norm (v : list R) : R := fold_left Rplus (map Rabs v) 0.
(** [l2_norm], lines 12-14 *)
Definition l2_norm (v : list R) : R := sqrt (fold_left Rplus (map (fun x => x * x) v) 0).
(** [max] of a list that is not empty *)
Definition list_max (l : list R) : R := match l with [] => 0 | x :: l => fold_left Rmax l x end.
(** [linf_norm], lines 16-18 *)
Definition linf_norm (v : list R) : R := list_max (map Rabs (v ++ [0])).
