(** Model of [anuga/abstract_2d_finite_volumes/region.py]: the set of triangles
    to which an operator applies.  Coordinates are reals; triangle numbers are
    natural numbers (negative numbers, which Python counts from the end, are
    not modelled).  The selection functions are those of [PolygonModel]. *)
From Coq Require Import Reals List Arith Bool.
From Verif Require Import RealLib PolygonModel.
Import ListNotations.
Open Scope R_scope.

(** The parts of the domain that are used: lines 69-75, 207, 238-239, 271. *)
Record domain := { centroids : list point; triangles : list triangle; is_full : nat -> bool; parallel : bool }.

(** The arguments, lines 27-36 ([None] where the argument is not given). *)
Record arguments := { arg_indices : option (list nat); arg_center : option point; arg_radius : option R;
  arg_polygon : option (list point); arg_line : option (list point); arg_poly : option (list point); expand_polygon : bool }.

Inductive kind := FullRegion | Empty | IndicesSpecified | Circle | Polygon | Line.

(** What can go wrong: an [assert], the exceptions of lines 228 and 281, an
    index beyond the end of [tri_full_flag], an array without a second (or
    first) point, of which the C code reads beyond the end. *)
Inductive failure := Assertion | NothingFound | IndexError | ReadsOutside.

Record region := { kind_of : kind; indices : option (list nat); full_indices : list nat }.

Definition given {A : Type} (x : option A) : bool := match x with Some _ => true | None => false end.

(** [_setup_indices_circle], lines 203-229 *)
Definition in_circle (c : point) (r : R) (p : point) : bool :=
  Rltb ((px p - px c) * (px p - px c) + (py p - py c) * (py p - py c)) (r * r).
Definition circle_indices (d : domain) (c : point) (r : R) : list nat :=
  filter (fun k => nth k (map (in_circle c r) (centroids d)) false) (seq 0 (length (centroids d))).
Definition setup_circle (d : domain) (c : point) (r : R) : failure + list nat :=
  let l := circle_indices d c r in
  if negb (parallel d) && match l with [] => true | _ => false end then inl NothingFound else inr l.

(** [num.union1d]: the sorted array of the different entries. *)
Fixpoint insert (k : nat) (l : list nat) : list nat :=
  match l with
  | [] => [k]
  | x :: l' => if (k <? x)%nat then k :: l else if (k =? x)%nat then l else x :: insert k l'
  end.
Definition union1d (a b : list nat) : list nat := fold_right insert [] (a ++ b).

(** [_setup_indices_polygon], lines 232-262 (the warning leaves the result as it
    is).  An array without points has no first element for the C code. *)
Definition polygon_indices (d : domain) (polygon : list point) (expand : bool) : list nat :=
  let l := inside_polygon (centroids d) polygon true in
  if expand then
    fold_left (fun l j => union1d (line_intersect (triangles d) (nth j polygon (0, 0)) (nth ((j + 1) mod length polygon) polygon (0, 0))) l)
      (seq 0 (length polygon)) l
  else l.
Definition setup_polygon (d : domain) (polygon : list point) (expand : bool) : failure + list nat :=
  match polygon with [] => inl ReadsOutside | _ => inr (polygon_indices d polygon expand) end.

(** [_setup_indices_line], lines 266-281; the C code takes the four numbers from
    the start of the array of points ([__line_intersect], polygon.c 527-556). *)
Definition setup_line (d : domain) (line : list point) : failure + list nat :=
  match line with
  | p0 :: p1 :: _ =>
      let l := line_intersect (triangles d) p0 p1 in
      if negb (parallel d) && match l with [] => true | _ => false end then inl NothingFound else inr l
  | _ => inl ReadsOutside
  end.

(** Lines 143-148 *)
Definition finish (d : domain) (k : kind) (l : option (list nat)) : failure + region :=
  match l with
  | None => inr {| kind_of := k; indices := None; full_indices := filter (is_full d) (seq 0 (length (triangles d))) |}
  | Some l =>
      if forallb (fun i => (i <? length (triangles d))%nat) l
      then inr {| kind_of := k; indices := Some l; full_indices := filter (is_full d) l |} else inl IndexError
  end.

Definition finish_with (d : domain) (k : kind) (r : failure + list nat) : failure + region :=
  match r with inl e => inl e | inr l => finish d k (Some l) end.

(** [Region.__init__], lines 27-148 *)
Definition make_region (d : domain) (a : arguments) : failure + region :=
  match arg_indices a with
  | Some l =>
      if given (arg_radius a) || given (arg_center a) || given (arg_polygon a) || given (arg_line a) then inl Assertion
      else match l with [] => finish d Empty (Some []) | _ => finish d IndicesSpecified (Some l) end
  | None =>
      match arg_center a, arg_radius a with
      | Some c, Some r =>
          if given (arg_polygon a) || given (arg_line a) then inl Assertion
          else finish_with d Circle (setup_circle d c r)
      | _, _ =>
          match arg_polygon a with
          | Some polygon =>
              if given (arg_radius a) || given (arg_center a) || given (arg_line a) then inl Assertion
              else finish_with d Polygon (setup_polygon d polygon (expand_polygon a))
          | None =>
              match arg_line a with
              | Some line =>
                  if given (arg_radius a) || given (arg_center a) then inl Assertion
                  else finish_with d Line (setup_line d line)
              | None =>
                  match arg_poly a with
                  | Some poly =>
                      if given (arg_radius a) || given (arg_center a) then inl Assertion
                      else if (2 <? length poly)%nat then finish_with d Polygon (setup_polygon d poly (expand_polygon a))
                      else finish_with d Line (setup_line d poly)
                  | None => finish d FullRegion None
                  end
              end
          end
      end
  end.

(** [get_indices], lines 284-289 ([None] stands for the whole domain). *)
Definition get_indices (r : region) (full_only : bool) : option (list nat) :=
  if full_only then Some (full_indices r) else indices r.
