(** Model of the Python quad tree: anuga/geometry/aabb.py and
    anuga/geometry/quad.py (a binary tree of overlapping boxes).
    Coordinates are reals; [None] is an exception. *)
From Coq Require Import Reals List Bool.
From Verif Require Import RealLib.
Import ListNotations.
Local Open Scope R_scope.

(** ** AABB, aabb.py *)

Record aabb := { xmin : R; xmax : R; ymin : R; ymax : R }.

(** [include], aabb.py lines 119-134 *)
Definition include1 (b : aabb) (p : R * R) : aabb :=
  let '(pt_x, pt_y) := p in
  {| xmin := if Rltb pt_x (xmin b) then pt_x else xmin b;
     xmax := if Rltb (xmax b) pt_x then pt_x else xmax b;
     ymin := if Rltb pt_y (ymin b) then pt_y else ymin b;
     ymax := if Rltb (ymax b) pt_y then pt_y else ymax b |}.
Definition include (b : aabb) (pts : list (R * R)) : aabb := fold_left include1 pts b.

(** [__init__] with a point list, lines 35-43: [None] if it is empty. *)
Definition aabb_of_points (pts : list (R * R)) : option aabb :=
  match pts with
  | [] => None
  | (x, y) :: pts => Some (include {| xmin := x; xmax := x; ymin := y; ymax := y |} pts)
  end.

(** [grow], lines 57-64: the four assignments in order (the lower bounds are
    moved by the already enlarged size). *)
Definition grow (b : aabb) (amount : R) : aabb :=
  let ymax' := ymax b + (ymax b - ymin b) * amount in
  let xmax' := xmax b + (xmax b - xmin b) * amount in
  let ymin' := ymin b - (ymax' - ymin b) * amount in
  let xmin' := xmin b - (xmax' - xmin b) * amount in
  {| xmin := xmin'; xmax := xmax'; ymin := ymin'; ymax := ymax' |}.

(** [size], lines 67-69 *)
Definition width (b : aabb) : R := xmax b - xmin b.
Definition height (b : aabb) : R := ymax b - ymin b.

(** SPLIT_BORDER_RATIO, line 12 *)
Definition border : R := 55 / 100.

(** [split], lines 72-96: [None] for the failed assertion. *)
Definition split (b : aabb) : option (aabb * aabb) :=
  if Rleb 0 (width b) && Rleb 0 (height b) then
    if Rltb (height b) (width b) then
      let split1 := xmin b + width b * border in
      let split2 := xmax b - width b * border in
      Some ({| xmin := xmin b; xmax := split1; ymin := ymin b; ymax := ymax b |},
            {| xmin := split2; xmax := xmax b; ymin := ymin b; ymax := ymax b |})
    else
      let split1 := ymin b + height b * border in
      let split2 := ymax b - height b * border in
      Some ({| xmin := xmin b; xmax := xmax b; ymin := ymin b; ymax := split1 |},
            {| xmin := xmin b; xmax := xmax b; ymin := split2; ymax := ymax b |})
  else None.

(** [is_trivial_in], lines 99-109 *)
Definition is_trivial_in (self test : aabb) : bool :=
  if Rltb (xmin test) (xmin self) || Rltb (xmax self) (xmax test) then false else
  if Rltb (ymin test) (ymin self) || Rltb (ymax self) (ymax test) then false else true.

(** [contains], lines 111-117 *)
Definition contains (b : aabb) (p : R * R) : bool :=
  (Rleb (xmin b) (fst p) && Rleb (fst p) (xmax b)) && (Rleb (ymin b) (snd p) && Rleb (snd p) (ymax b)).

(** ** Cell, quad.py *)
Section Data.
Context {D : Type}.

Inductive cell :=
| Cell (extents : aabb) (leaves : list (aabb * D)) (children : option (cell * cell)).

Definition extents_of (c : cell) : aabb := let 'Cell e _ _ := c in e.

(** [__init__], quad.py lines 26-38 *)
Definition new_cell (extents : aabb) : cell := Cell extents [] None.

(** [insert_item], lines 62-103; [fuel] bounds the depth of recursion. *)
Fixpoint insert_item (fuel : nat) (c : cell) (new_leaf : aabb * D) : option cell :=
  match fuel with
  | O => None
  | S fuel =>
      let '(Cell extents leaves children) := c in
      let new_region := fst new_leaf in
      match children with
      | Some (c1, c2) =>
          if is_trivial_in (extents_of c1) new_region then
            match insert_item fuel c1 new_leaf with
            | Some c1' => Some (Cell extents leaves (Some (c1', c2)))
            | None => None
            end
          else if is_trivial_in (extents_of c2) new_region then
            match insert_item fuel c2 new_leaf with
            | Some c2' => Some (Cell extents leaves (Some (c1, c2')))
            | None => None
            end
          else Some (Cell extents (leaves ++ [new_leaf]) children)
      | None =>
          match split extents with
          | None => None
          | Some (subregion1, subregion2) =>
              if is_trivial_in subregion1 new_region then
                match insert_item fuel (new_cell subregion1) new_leaf with
                | Some c1' => Some (Cell extents leaves (Some (c1', new_cell subregion2)))
                | None => None
                end
              else if is_trivial_in subregion2 new_region then
                match insert_item fuel (new_cell subregion2) new_leaf with
                | Some c2' => Some (Cell extents leaves (Some (new_cell subregion1, c2')))
                | None => None
                end
              else Some (Cell extents (leaves ++ [new_leaf]) None)
          end
      end
  end.

(** [insert] of a list, lines 50-59 *)
Fixpoint insert (fuel : nat) (c : cell) (new_leaves : list (aabb * D)) : option cell :=
  match new_leaves with
  | [] => Some c
  | leaf :: new_leaves =>
      match insert_item fuel c leaf with
      | Some c' => insert fuel c' new_leaves
      | None => None
      end
  end.

(** [retrieve], lines 106-119 *)
Fixpoint retrieve (c : cell) : list (aabb * D) :=
  let '(Cell _ leaves children) := c in
  match children with
  | None => leaves
  | Some (c1, c2) => leaves ++ retrieve c1 ++ retrieve c2
  end.

(** [count], lines 121-134 *)
Fixpoint count (c : cell) : nat :=
  let '(Cell _ leaves children) := c in
  match children with
  | None => length leaves
  | Some (c1, c2) => length leaves + count c1 + count c2
  end.

(** [test_leaves], lines 165-179 (the data of each pair) *)
Definition test_leaves (leaves : list (aabb * D)) (point : R * R) : list D :=
  fold_left (fun found leaf => if contains (fst leaf) point then found ++ [snd leaf] else found) leaves [].

(** [search], lines 148-162 *)
Fixpoint search (c : cell) (point : R * R) : list D :=
  let '(Cell _ leaves children) := c in
  let found := test_leaves leaves point in
  match children with
  | None => found
  | Some (c1, c2) =>
      let found := if contains (extents_of c1) point then found ++ search c1 point else found in
      if contains (extents_of c2) point then found ++ search c2 point else found
  end.

End Data.
Arguments cell : clear implicits.
