(** Model of histogram and create_bins in anuga/utilities/numerical_tools.py
    (lines 269-306). *)
From Coq Require Import Reals List Arith Bool ZArith.
From Verif Require Import RealLib.
Import ListNotations.
Local Open Scope R_scope.

(** [np.sort] *)
Fixpoint insert (x : R) (l : list R) : list R :=
  match l with [] => [x] | y :: l' => if Rleb x y then x :: l else y :: insert x l' end.
Definition sort (l : list R) : list R := fold_right insert [] l.

(** [np.searchsorted(a, x)]: the position of the first entry of the sorted
    array that is not less than [x]. *)
Fixpoint searchsorted (a : list R) (x : R) : nat :=
  match a with [] => 0 | y :: a => if Rltb y x then S (searchsorted a x) else 0 end.

(** [n[1:] - n[:-1]] *)
Fixpoint differences (n : list nat) : list Z :=
  match n with
  | a :: (b :: _) as t => (Z.of_nat b - Z.of_nat a)%Z :: differences t
  | _ => []
  end.

(** [histogram(a, bins)], lines 276-279 *)
Definition histogram (a bins : list R) : list Z :=
  differences (map (searchsorted (sort a)) bins ++ [length a]).

(** Lines 281-282: [None] when the sum is zero (numpy gives nans). *)
Definition relative_histogram (a bins : list R) : option (list R) :=
  let hist := histogram a bins in
  let total := fold_right Z.add 0%Z hist in
  if Z.eqb total 0 then None else Some (map (fun h => IZR h / IZR total) hist).

Definition list_max (x : R) (l : list R) : R := fold_right Rmax x l.
Definition list_min (x : R) (l : list R) : R := fold_right Rmin x l.

(** [create_bins], lines 286-304, for non-empty data; [np.arange(mn, mx, s)]
    with s = (mx - mn)/k has k entries. *)
Definition create_bins (x : R) (data : list R) (number_of_bins : nat) : list R :=
  let mx := list_max x data in
  let mn := list_min x data in
  if Reqb mx mn then [mn]
  else map (fun i => mn + INR i * ((mx - mn) / INR number_of_bins)) (seq 0 number_of_bins).
