(** Model of [Polygon_function], anuga/geometry/polygon_function.py.  Real
    arithmetic; [None] is an exception.  The arrays of a call are kept apart
    from each other, since a default function may return one of its
    arguments. *)
From Coq Require Import Reals List Arith Bool.
From Verif Require Import RealLib ArrayLib PolygonModel GeoRefModel GridModel.
Import ListNotations.
Local Open Scope R_scope.

(** The value of a region, and the default: a number or a function; a default
    function makes a new array of floats or of integers, or returns its first
    or its second argument itself. *)
Inductive value := Number (c : R) | Callable (f : point -> R).
Inductive default := Plain (c : R) | Floats (f : point -> R) | Integers (f : point -> Z) | First | Second.

(** [__init__], lines 45-89: the first region is looked at, and the polygons
    are made relative to the georeference. *)
Definition relative (g : georef) (polygon : list point) : list point :=
  match change_points_geo_ref g (Table polygon) None with Some (Table rows) => rows | _ => [] end.
Definition make (g : georef) (regions : list (list point * value)) : option (list (list point * value)) :=
  match regions with
  | [] => None
  | _ => Some (map (fun r => (relative g (fst r), snd r)) regions)
  end.

(** The arrays [pts_x], [pts_y] and [result], and which array [result] is *)
Record arrays := { xs : nat -> R; ys : nat -> R; own : nat -> R }.
Inductive target := Own | Own_integers | Is_x | Is_y.
Definition fetch (t : target) (a : arrays) (i : nat) : R :=
  match t with Own | Own_integers => own a i | Is_x => xs a i | Is_y => ys a i end.
Definition store (t : target) (a : arrays) (i : nat) (v : R) : arrays :=
  match t with
  | Own => {| xs := xs a; ys := ys a; own := upd (own a) i v |}
  | Own_integers => {| xs := xs a; ys := ys a; own := upd (own a) i (IZR (trunc v)) |}
  | Is_x => {| xs := upd (xs a) i v; ys := ys a; own := own a |}
  | Is_y => {| xs := xs a; ys := upd (ys a) i v; own := own a |}
  end.

(** Lines 109-112 *)
Definition begin (d : default) (points : list point) : target * arrays :=
  let x i := px (nth i points (0, 0)) in
  let y i := py (nth i points (0, 0)) in
  match d with
  | Plain c => (Own, {| xs := x; ys := y; own := fun _ => 1 * c |})
  | Floats f => (Own, {| xs := x; ys := y; own := fun i => f (x i, y i) |})
  | Integers f => (Own_integers, {| xs := x; ys := y; own := fun i => IZR (f (x i, y i)) |})
  | First => (Is_x, {| xs := x; ys := y; own := fun _ => 0 |})
  | Second => (Is_y, {| xs := x; ys := y; own := fun _ => 0 |})
  end.
(** Lines 114-125 *)
Definition set_region (t : target) (points : list point) (a : arrays) (r : list point * value) : arrays :=
  fold_left (fun a i => store t a i (match snd r with Number c => c | Callable f => f (xs a i, ys a i) end))
    (inside_polygon points (fst r) true) a.
(** [__call__], lines 91-133: for no points, the extent in the warning raises. *)
Definition call (d : default) (regions : list (list point * value)) (points : list point) : option (list R) :=
  let '(t, a) := begin d points in
  let a := fold_left (set_region t points) regions a in
  match points with
  | [] => None
  | _ => Some (map (fetch t a) (seq 0 (length points)))
  end.
