(** Model of [get_min_max_indices], anuga/file_conversion/file_conversion.py
    lines 258-330: the slices of the latitudes and longitudes of a grid that cover an extent.
    [None] is a failed assertion. *)
From Coq Require Import Reals List Arith Bool.
From Verif Require Import RealLib.
Import ListNotations.
Local Open Scope R_scope.

(** [num.allclose(num.sort(l), l)], with exact comparison: lines 281 and 288-292 *)
Fixpoint sorted (l : list R) : bool :=
  match l with x :: ((y :: _) as t) => Rleb x y && sorted t | _ => true end.
(** [num.searchsorted] in a sorted array *)
Definition searchsorted (l : list R) (v : R) : nat := length (filter (fun x => Rltb x v) l).
Definition largest (l : list R) : nat := (length l - 1)%nat.
(** The lower index, of latitudes and longitudes alike: lines 297-302 and 311-316 *)
Definition min_index (l : list R) (lo : option R) : nat :=
  match lo with None => 0%nat | Some v => (searchsorted l v - 1)%nat end.
(** The upper index of the latitudes: lines 304-309 *)
Definition max_index (l : list R) (hi : option R) : nat :=
  match hi with None => largest l | Some v => Nat.min (searchsorted l v) (largest l) end.
(** The slice of the latitudes, in ascending or descending order: lines 324-327 *)
Definition latitudes_slice (l : list R) (lo hi : option R) : option (nat * nat) :=
  if sorted l then Some (min_index l lo, max_index l hi + 1)%nat
  else if sorted (rev l) then
    let (a, b) := (min_index (rev l) lo, max_index (rev l) hi) in Some (largest l - b, largest l - a + 1)%nat
  else None.
(** The slice of the longitudes, whose upper index is not cut: lines 318-321 and 328 *)
Definition longitudes_slice (l : list R) (lo hi : option R) : option (nat * nat) :=
  if sorted l then Some (min_index l lo, (match hi with None => length l | Some v => searchsorted l v end) + 1)%nat else None.
(** The whole function *)
Definition get_min_max_indices (lat lon : list R) (minlat maxlat minlon maxlon : option R) : option (nat * nat * nat * nat) :=
  match longitudes_slice lon minlon maxlon, latitudes_slice lat minlat maxlat with
  | Some (a, b), Some (c, d) => Some (c, d, a, b)
  | _, _ => None
  end.
