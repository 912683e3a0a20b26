(** Model of [decimate_polygon], anuga/geometry/polygon.py lines 1032-1066. [None]
    is the exception for a polygon without points. *)
From Coq Require Import Reals List Arith Bool.
From Verif Require Import RealLib.
Import ListNotations.
Local Open Scope R_scope.

Definition point := (R * R)%type.
Definition greatest (x : R) (l : list R) : R := fold_left Rmax l x.
Definition smallest (x : R) (l : list R) : R := fold_left Rmin l x.
(** The test of line 1059 *)
Definition is_corner (min_x max_x min_y max_y : R) (p : point) : bool :=
  (Reqb (fst p) min_x || Reqb (fst p) max_x) && (Reqb (snd p) min_y || Reqb (snd p) max_y).
(** The loop of lines 1057-1064, at index [i] with [kept] points kept *)
Fixpoint keep (corner : point -> bool) (factor : nat) (i kept : nat) (l : list point) : list point :=
  match l with
  | [] => []
  | p :: t =>
      if corner p then p :: keep corner factor (S i) (S kept) t
      else if Nat.ltb (kept * factor) i then p :: keep corner factor (S i) (S kept) t
      else keep corner factor (S i) kept t
  end.
(** The whole function *)
Definition decimate_polygon (factor : nat) (polygon : list point) : option (list point) :=
  match polygon with
  | [] => None
  | p :: t =>
      let max_x := greatest (fst p) (map fst t) in
      let max_y := greatest (snd p) (map snd t) in
      let min_x := smallest (fst p) (map fst t) in
      let min_y := smallest (snd p) (map snd t) in
      Some (keep (is_corner min_x max_x min_y max_y) factor 0 0 polygon)
  end.
