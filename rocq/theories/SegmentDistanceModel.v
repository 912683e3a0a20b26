(** Model of [compute_squared_distance_to_segment] and [find_nearest_segment],
    anuga/utilities/spatialInputUtil.py lines 383-462: the squared distance of a
    point from a line segment, and the nearest segment of a polyline. [None] is a
    raised exception. *)
From Coq Require Import Reals List Arith Bool.
From Verif Require Import RealLib.
Import ListNotations.
Local Open Scope R_scope.

Definition point := (R * R)%type.
(** The distance before the tests of its sign, lines 393-420 *)
Definition raw_distance (pt p0 p1 : point) : option R :=
  let ux := fst p1 - fst p0 in
  let uy := snd p1 - snd p0 in
  let segLen := sqrt (ux ^ 2 + uy ^ 2) in
  if Reqb segLen 0 then None
  else
    let vx := ux / segLen in
    let vy := uy / segLen in
    let wx := fst pt - fst p0 in
    let wy := snd pt - snd p0 in
    let w2 := wx ^ 2 + wy ^ 2 in
    let dot := wx * vx + wy * vy in
    if Rltb dot segLen && Rltb 0 dot then Some (w2 - dot ^ 2)
    else Some (Rmin w2 ((fst pt - fst p1) ^ 2 + (snd pt - snd p1) ^ 2)).
(** Lines 422-433 *)
Definition squared_distance (pt p0 p1 : point) : option R :=
  match raw_distance pt p0 p1 with
  | None => None
  | Some d => if Rltb d (- (1 / 1000000)) then None else if Rltb d 0 then Some 0 else Some d
  end.
(** The distances from the segments, lines 457-460 *)
Fixpoint distances (pt : point) (l : list point) : option (list R) :=
  match l with
  | a :: ((b :: _) as t) =>
      match squared_distance pt a b, distances pt t with Some d, Some ds => Some (d :: ds) | _, _ => None end
  | _ => Some []
  end.
(** [min] and [argmin], the first index of the least entry; an array without
    entries has none *)
Fixpoint argmin (l : list R) : option (R * nat) :=
  match l with
  | [] => None
  | x :: t => match argmin t with None => Some (x, 0%nat) | Some (m, i) => if Rleb x m then Some (x, 0%nat) else Some (m, S i) end
  end.
(** Lines 453-462 *)
Definition find_nearest_segment (pt : point) (segments : list point) : option (R * nat) :=
  match distances pt segments with Some ds => argmin ds | None => None end.
