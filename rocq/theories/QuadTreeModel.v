(** Model of the C quad tree used for interpolation and fitting:
    anuga/utilities/quad_tree.c.  Real arithmetic; [None] for a recursion
    that does not end within the given depth (a stack overflow in C). *)
From Coq Require Import Reals List Arith Bool.
From Verif Require Import RealLib PolygonModel.
Import ListNotations.
Local Open Scope R_scope.

(** ** Triangles *)

Record ctriangle := { index : nat; corners : triangle;
                      nx1 : R; ny1 : R; nx2 : R; ny2 : R; nx3 : R; ny3 : R }.

(** [dot_points], lines 15-20 *)
Definition dot_points (p1x p1y p2x p2y : R) : R := p1x * p2x + p1y * p2y.

(** Lines 36-46 (and 48-56, 58-66): the unit normal of the side from [p] to
    [q], turned away from the third corner [r]. *)
Definition side_normal (p q r : point) : R * R :=
  let ny_temp := px q - px p in
  let nx_temp := - (py q - py p) in
  let dot_temp := dot_points nx_temp ny_temp nx_temp ny_temp in
  let nx := nx_temp / sqrt dot_temp in
  let ny := ny_temp / sqrt dot_temp in
  if Rltb 0 (dot_points nx ny (px r - px q) (py r - py q)) then (- nx, - ny) else (nx, ny).

(** [new_triangle], lines 26-69 *)
Definition new_triangle (i : nat) (a b c : point) : ctriangle :=
  let '(n3x, n3y) := side_normal a b c in
  let '(n1x, n1y) := side_normal b c a in
  let '(n2x, n2y) := side_normal c a b in
  {| index := i; corners := (a, b, c);
     nx1 := n1x; ny1 := n1y; nx2 := n2x; ny2 := n2y; nx3 := n3x; ny3 := n3y |}.

(** [calculate_sigma], lines 82-95 *)
Definition calculate_sigma (T : ctriangle) (x y : R) : R * R * R :=
  let '((x1, y1), (x2, y2), (x3, y3)) := corners T in
  (dot_points (x - x2) (y - y2) (nx1 T) (ny1 T) / dot_points (x1 - x2) (y1 - y2) (nx1 T) (ny1 T),
   dot_points (x - x3) (y - y3) (nx2 T) (ny2 T) / dot_points (x2 - x3) (y2 - y3) (nx2 T) (ny2 T),
   dot_points (x - x1) (y - y1) (nx3 T) (ny3 T) / dot_points (x3 - x1) (y3 - y1) (nx3 T) (ny3 T)).

(** [__point_on_line], lines 103-171 (not the version of polygon.c: the
    length test compares squares and has no tolerance) *)
Definition qt_point_on_line (x y x0 y0 x1 y1 rtol atol : R) : bool :=
  let a0 := x - x0 in
  let a1 := y - y0 in
  let a_normal0 := a1 in
  let a_normal1 := - a0 in
  let b0 := x1 - x0 in
  let b1 := y1 - y0 in
  let nominator := Rabs (a_normal0 * b0 + a_normal1 * b1) in
  let denominator := b0 * b0 + b1 * b1 in
  let is_parallel := if Reqb denominator 0 then Rleb nominator atol else Rleb (nominator / denominator) rtol in
  if is_parallel then
    if Rleb 0 (a0 * b0 + a1 * b1) then Rleb (a0 * a0 + a1 * a1) denominator else false
  else false.

(** [triangle_contains_point], lines 249-285; [__is_inside_triangle], lines
    173-247, is the same text as in polygon.c. *)
Definition tol : R := / 10 ^ 12.
Definition triangle_contains_point (T : ctriangle) (p : point) : bool :=
  is_inside_triangle_with qt_point_on_line p (corners T) true tol tol.

(** ** The tree *)

Record extent := { exmin : R; exmax : R; eymin : R; eymax : R }.

(** [leaves] in list order; [children] is q[0..3]; [number] is the count. *)
Inductive tree :=
| Tree (e : extent) (leaves : list ctriangle) (children : option (tree * tree * tree * tree)) (number : nat).

(** [new_quad_tree], lines 295-310 *)
Definition new_tree (e : extent) : tree := Tree e [] None 0.

(** [quad_tree_make_children], lines 351-373 *)
Definition border : R := 55 / 100.
Definition child_extents (e : extent) : extent * extent * extent * extent :=
  let width := exmax e - exmin e in
  let height := eymax e - eymin e in
  ({| exmin := exmax e - width * border; exmax := exmax e; eymin := eymax e - height * border; eymax := eymax e |},
   {| exmin := exmin e; exmax := exmin e + width * border; eymin := eymax e - height * border; eymax := eymax e |},
   {| exmin := exmin e; exmax := exmin e + width * border; eymin := eymin e; eymax := eymin e + height * border |},
   {| exmin := exmax e - width * border; exmax := exmax e; eymin := eymin e; eymax := eymin e + height * border |}).
Definition make_children (e : extent) : tree * tree * tree * tree :=
  let '(e1, e2, e3, e4) := child_extents e in (new_tree e1, new_tree e2, new_tree e3, new_tree e4).

(** [trivial_contain_split_point], lines 430-454 *)
Definition split_point (e : extent) (p : point) : nat :=
  let midx := (exmin e + exmax e) / 2 in
  let midy := (eymin e + eymax e) / 2 in
  if Rltb midx (px p) then
    if Rltb midy (py p) then 1 else if Rltb (py p) midy then 4 else 0
  else if Rltb (px p) midx then
    if Rltb midy (py p) then 2 else if Rltb (py p) midy then 3 else 0
  else 0.

(** [trivial_contain_split], lines 419-428 *)
Definition split_triangle (e : extent) (T : ctriangle) : nat :=
  let '(a, b, c) := corners T in
  let p1 := split_point e a in let p2 := split_point e b in let p3 := split_point e c in
  if (p1 =? p2)%nat && (p2 =? p3)%nat then p1 else 0%nat.

(** [q[quad-1]] *)
Definition child {A} (q : A * A * A * A) (quad : nat) : A :=
  let '(q0, q1, q2, q3) := q in
  match quad with 1%nat => q0 | 2%nat => q1 | 3%nat => q2 | _ => q3 end.
Definition set_child {A} (q : A * A * A * A) (quad : nat) (t : A) : A * A * A * A :=
  let '(q0, q1, q2, q3) := q in
  match quad with 1%nat => (t, q1, q2, q3) | 2%nat => (q0, t, q2, q3) | 3%nat => (q0, q1, t, q3) | _ => (q0, q1, q2, t) end.

(** [quad_tree_insert_triangle], lines 388-416 *)
Fixpoint insert_triangle (fuel : nat) (node : tree) (T : ctriangle) : option tree :=
  match fuel with
  | O => None
  | S fuel =>
      let '(Tree e leaves children number) := node in
      let quad := split_triangle e T in
      let number := S number in
      if negb (quad =? 0)%nat then
        let q := match children with Some q => q | None => make_children e end in
        match insert_triangle fuel (child q quad) T with
        | Some t => Some (Tree e leaves (Some (set_child q quad t)) number)
        | None => None
        end
      else Some (Tree e (leaves ++ [T]) children number)
  end.

(** [_build_quad_tree], fitsmooth.c lines 143-172 *)
Fixpoint insert_all (fuel : nat) (node : tree) (Ts : list ctriangle) : option tree :=
  match Ts with
  | [] => Some node
  | T :: Ts => match insert_triangle fuel node T with Some node' => insert_all fuel node' Ts | None => None end
  end.
Definition number_triangles (triangles : list triangle) : list ctriangle :=
  map (fun kt => let '(k, (a, b, c)) := kt in new_triangle k a b c) (combine (seq 0 (length triangles)) triangles).
Definition build_quad_tree (fuel : nat) (e : extent) (triangles : list triangle) : option tree :=
  insert_all fuel (new_tree e) (number_triangles triangles).

(** [search], lines 473-502, with [search_triangles_of_quad_tree], lines
    456-468 *)
Fixpoint search (node : tree) (p : point) : option ctriangle :=
  let '(Tree e leaves children _) := node in
  match find (fun T => triangle_contains_point T p) leaves with
  | Some T => Some T
  | None =>
      match children with
      | None => None
      | Some (q0, q1, q2, q3) =>
          match split_point e p with
          | 0%nat => None
          | 1%nat => search q0 p
          | 2%nat => search q1 p
          | 3%nat => search q2 p
          | _ => search q3 p
          end
      end
  end.

(** [quad_tree_node_count], lines 504-514; [items_in_tree] reads the count *)
Fixpoint node_count (t : tree) : nat :=
  let '(Tree _ _ children _) := t in
  match children with
  | None => 1
  | Some (q0, q1, q2, q3) => 1 + node_count q0 + node_count q1 + node_count q2 + node_count q3
  end.
Definition items_in_tree (t : tree) : nat := let '(Tree _ _ _ n) := t in n.
