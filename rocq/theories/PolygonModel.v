(** Model of anuga/geometry/polygon.c and of the functions of
    anuga/geometry/polygon.py built on it.  Real arithmetic. *)
From Coq Require Import Reals List Arith Bool.
From Verif Require Import RealLib ArrayLib.
Import ListNotations.
Local Open Scope R_scope.

Definition point := (R * R)%type.
Definition px (p : point) : R := fst p.
Definition py (p : point) : R := snd p.

(** [dist], polygon.c lines 22-26 *)
Definition dist (x y : R) : R := sqrt (x * x + y * y).

(** The constants of lines 85: 1.0e-308 and 1.0e-15. *)
Definition tiny_dot : R := / 10 ^ 308.
Definition tiny_len : R := / 10 ^ 15.

(** [__point_on_line], polygon.c lines 29-95 *)
Definition point_on_line (x y x0 y0 x1 y1 rtol atol : R) : bool :=
  let a0 := x - x0 in
  let a1 := y - y0 in
  let a_normal0 := a1 in
  let a_normal1 := - a0 in
  let b0 := x1 - x0 in
  let b1 := y1 - y0 in
  let nominator := Rabs (a_normal0 * b0 + a_normal1 * b1) in
  let denominator := b0 * b0 + b1 * b1 in
  let is_parallel := if Reqb denominator 0 then Rleb nominator atol else Rleb (nominator / denominator) rtol in
  if is_parallel then
    let len_a := dist a0 a1 in
    let len_b := dist b0 b1 in
    let a_dot_b := a0 * b0 + a1 * b1 in
    Rleb (- tiny_dot) a_dot_b && Rleb (- tiny_len) (len_b - len_a)
  else false.

(** [__line_segment_intersection], lines 108-162; [None] is NO. *)
Definition line_segment_intersection (A B C D : point) : option point :=
  let '(Ax, Ay) := A in let '(Bx, By) := B in
  let '(Cx, Cy) := C in let '(Dx, Dy) := D in
  if (Reqb Ax Bx && Reqb Ay By) || (Reqb Cx Dx && Reqb Cy Dy) then None else
  if (Reqb Ax Cx && Reqb Ay Cy) || (Reqb Bx Cx && Reqb By Cy)
     || (Reqb Ax Dx && Reqb Ay Dy) || (Reqb Bx Dx && Reqb By Dy) then None else
  let Bx := Bx - Ax in let By := By - Ay in
  let Cx := Cx - Ax in let Cy := Cy - Ay in
  let Dx := Dx - Ax in let Dy := Dy - Ay in
  let distAB := sqrt (Bx * Bx + By * By) in
  let theCos := Bx / distAB in
  let theSin := By / distAB in
  let newX := Cx * theCos + Cy * theSin in
  let Cy := Cy * theCos - Cx * theSin in
  let Cx := newX in
  let newX := Dx * theCos + Dy * theSin in
  let Dy := Dy * theCos - Dx * theSin in
  let Dx := newX in
  if (Rltb Cy 0 && Rltb Dy 0) || (Rleb 0 Cy && Rleb 0 Dy) then None else
  let ABpos := Dx + (Cx - Dx) * Dy / (Dy - Cy) in
  if Rltb ABpos 0 || Rltb distAB ABpos then None else
  Some (Ax + ABpos * theCos, Ay + ABpos * theSin).

Definition triangle := (point * point * point)%type.

(** [__is_inside_triangle], lines 560-639; [on_line] is [__point_on_line]
    (polygon.c and quad_tree.c carry different versions of it). *)
Definition is_inside_triangle_with (on_line : R -> R -> R -> R -> R -> R -> R -> R -> bool)
    (p : point) (t : triangle) (closed : bool) (rtol atol : R) : bool :=
  let '(x, y) := p in
  let '((t0, t1), (t2, t3), (t4, t5)) := t in
  if Rltb x t0 && Rltb x t2 && Rltb x t4 then false else
  if Rltb t0 x && Rltb t2 x && Rltb t4 x then false else
  if Rltb y t1 && Rltb y t3 && Rltb y t5 then false else
  if Rltb t1 y && Rltb t3 y && Rltb t5 y then false else
  let v0x := t4 - t0 in let v0y := t5 - t1 in
  let v1x := t2 - t0 in let v1y := t3 - t1 in
  let a00 := v0x * v0x + v0y * v0y in
  let a01 := v0x * v1x + v0y * v1y in
  let a10 := a01 in
  let a11 := v1x * v1x + v1y * v1y in
  let denom := a11 * a00 - a01 * a10 in
  let vx := x - t0 in let vy := y - t1 in
  let b0 := v0x * vx + v0y * vy in
  let b1 := v1x * vx + v1y * vy in
  let alpha := (b0 * a11 - b1 * a01) / denom in
  let beta := (b1 * a00 - b0 * a10) / denom in
  if Rltb 0 (Rabs denom) && (Rltb 0 alpha && Rltb 0 beta && Rltb (alpha + beta) 1) then true else
  closed &&
  (on_line x y t0 t1 t2 t3 rtol atol || on_line x y t2 t3 t4 t5 rtol atol || on_line x y t4 t5 t0 t1 rtol atol).

Definition is_inside_triangle := is_inside_triangle_with point_on_line.

(** ** Points and polygons *)

(** Edge test of lines 693-711: [Some b] for "on this edge, stop". *)
Definition crosses_left (x y : R) (pi pj : point) : bool :=
  ((Rltb (py pi) y && Rleb y (py pj)) || (Rltb (py pj) y && Rleb y (py pi)))
  && Rltb (px pi + (y - py pi) / (py pj - py pi) * (px pj - px pi)) x.

Fixpoint check_edges (edges : list (point * point)) (x y : R) (closed inside : bool) : bool :=
  match edges with
  | [] => inside
  | (pi, pj) :: edges =>
      if point_on_line x y (px pi) (py pi) (px pj) (py pj) 0 0 then closed
      else check_edges edges x y closed (if crosses_left x y pi pj then negb inside else inside)
  end.

(** The edges in the order of the loop: vertex [i] to [(i+1) % N]. *)
Definition edges_of (polygon : list point) : list (point * point) :=
  map (fun i => (nth i polygon (0, 0), nth (S i mod length polygon) polygon (0, 0))) (seq 0 (length polygon)).

(** Lines 659-672: bounding box, starting from the first vertex. *)
Definition box (polygon : list point) : R * R * R * R :=
  let p0 := nth 0 polygon (0, 0) in
  fold_left (fun b p => let '(minpx, maxpx, minpy, maxpy) := b in
      (if Rltb (px p) minpx then px p else minpx, if Rltb maxpx (px p) then px p else maxpx,
       if Rltb (py p) minpy then py p else minpy, if Rltb maxpy (py p) then py p else maxpy))
    polygon (px p0, px p0, py p0, py p0).

(** Decision for one point, lines 684-713. *)
Definition point_inside (polygon : list point) (closed : bool) (p : point) : bool :=
  let '(minpx, maxpx, minpy, maxpy) := box polygon in
  let '(x, y) := p in
  if Rltb maxpx x || Rltb x minpx || Rltb maxpy y || Rltb y minpy then false
  else check_edges (edges_of polygon) x y closed false.

(** Main loop, lines 674-728, on the int array [indices]; the C index
    [outside_index] is kept as [outside_index + 1] (it ends at -1 when every
    point is outside). *)
Definition place (st : nat * nat * (nat -> nat)) (kp : nat * bool) : nat * nat * (nat -> nat) :=
  let '(inside_index, outside_next, indices) := st in
  let '(k, inside) := kp in
  if inside then (S inside_index, outside_next, upd indices inside_index k)
  else (inside_index, pred outside_next, upd indices (pred outside_next) k).

Definition separate_flags (flags : list bool) : nat * list nat :=
  let m := length flags in
  let '(count, _, indices) := fold_left place (combine (seq 0 m) flags) (0%nat, m, fun _ => 0%nat) in
  (count, map indices (seq 0 m)).

(** [separate_points_by_polygon], polygon.py lines 591-694 *)
Definition separate_points_by_polygon (points polygon : list point) (closed : bool) : nat * list nat :=
  separate_flags (map (point_inside polygon closed) points).

(** [inside_polygon], lines 444-487 *)
Definition inside_polygon (points polygon : list point) (closed : bool) : list nat :=
  let '(count, indices) := separate_points_by_polygon points polygon closed in firstn count indices.
(** [outside_polygon], lines 508-547 *)
Definition outside_polygon (points polygon : list point) (closed : bool) : list nat :=
  let '(count, indices) := separate_points_by_polygon points polygon closed in
  if count =? length indices then [] else rev (skipn count indices).

(** ** [__triangle_line_intersect], polygon.c lines 446-524 *)
Definition line_vs_edge (p0 p1 t0 t1 : point) : option (R * R) :=
  let ppx := - (py p1 - py p0) in let ppy := px p1 - px p0 in
  let tpx := - (py t1 - py t0) in let tpy := px t1 - px t0 in
  let ux := px p1 - px p0 in let uy := py p1 - py p0 in
  let vx := px t0 - px p0 in let vy := py t0 - py p0 in
  let wx := px t1 - px t0 in let wy := py t1 - py t0 in
  let u_dot_tp := ux * tpx + uy * tpy in
  if negb (Reqb u_dot_tp 0) then
    let v_dot_tp := vx * tpx + vy * tpy in
    let v_dot_pp := vx * ppx + vy * ppy in
    let w_dot_pp := wx * ppx + wy * ppy in
    Some (v_dot_tp / u_dot_tp, - v_dot_pp / w_dot_pp)
  else None.

(** State: the counters A and B; [inr tt] for [return 1]. *)
Fixpoint line_edges (p0 p1 : point) (edges : list (point * point)) (A B : nat) : bool :=
  match edges with
  | [] => (1 <=? A)%nat && (1 <=? B)%nat
  | (t0, t1) :: edges =>
      match line_vs_edge p0 p1 t0 t1 with
      | None => line_edges p0 p1 edges A B
      | Some (a, b) =>
          if Rleb 0 a && Rleb a 1 && Rleb 0 b && Rleb b 1 then true else
          let A := if Rltb 1 a && Rleb 0 b && Rleb b 1 then S A else A in
          let B := if Rltb a 0 && Rleb 0 b && Rleb b 1 then S B else B in
          line_edges p0 p1 edges A B
      end
  end.

Definition tri_edges (t : triangle) : list (point * point) := let '(a, b, c) := t in [(a, b); (b, c); (c, a)].

Definition triangle_line_intersect (p0 p1 : point) (t : triangle) : bool := line_edges p0 p1 (tri_edges t) 0 0.

(** ** [__triangle_polygon_overlap], lines 321-409 *)
Fixpoint overlap_pairs (pairs : list ((point * point) * (point * point))) (A B : nat) : bool :=
  match pairs with
  | [] => false
  | ((p0, p1), (t0, t1)) :: pairs =>
      match line_vs_edge p0 p1 t0 t1 with
      | None => overlap_pairs pairs A B
      | Some (a, b) =>
          if Rleb 0 a && Rleb a 1 && Rleb 0 b && Rleb b 1 then true else
          let A := if Rleb 0 b && Rleb b 1 && Rltb 1 a then S A else A in
          let B := if Rleb 0 a && Rleb a 1 && Rltb 1 b then S B else B in
          if (A =? 4)%nat || (B =? 3)%nat then true else overlap_pairs pairs A B
      end
  end.

Definition triangle_polygon_overlap (polygon : list point) (t : triangle) : bool :=
  overlap_pairs (list_prod (edges_of polygon) (tri_edges t)) 0 0.

(** [polygon_overlap] and [line_intersect], polygon.py lines 221-278: the
    indices of the triangles selected, by the same two-ended array. *)
Definition polygon_overlap (triangles : list triangle) (polygon : list point) : list nat :=
  let '(count, indices) := separate_flags (map (triangle_polygon_overlap polygon) triangles) in firstn count indices.
Definition line_intersect (triangles : list triangle) (p0 p1 : point) : list nat :=
  let '(count, indices) := separate_flags (map (triangle_line_intersect p0 p1) triangles) in firstn count indices.

(** ** [intersection], polygon.py lines 90-186 *)
Inductive value := NoValue | PointValue (p : point) | SegmentValue (p q : point).

(** numpy [allclose(x, 0.0, rtol, atol)]: |x - 0| <= atol + rtol * |0|. *)
Definition close0 (x rtol atol : R) : bool := Rleb (Rabs (x - 0)) (atol + rtol * Rabs 0).
Definition allclose (x y rtol atol : R) : bool := Rleb (Rabs (x - y)) (atol + rtol * Rabs y).

(** [collinear_result], lines 90-109; [None] is the RuntimeError. *)
Definition collinear_result (s0 e0 s1 e1 : bool) (p0 p1 p2 p3 : point) : option (nat * value) :=
  match s0, e0, s1, e1 with
  | false, false, false, false => Some (3%nat, NoValue)
  | false, false, false, true => None
  | false, false, true, false => None
  | false, false, true, true => Some (2%nat, SegmentValue p2 p3)
  | false, true, false, false => None
  | false, true, false, true => Some (2%nat, SegmentValue p3 p1)
  | false, true, true, false => Some (2%nat, SegmentValue p2 p1)
  | false, true, true, true => Some (2%nat, SegmentValue p2 p3)
  | true, false, false, false => None
  | true, false, false, true => Some (2%nat, SegmentValue p0 p3)
  | true, false, true, false => Some (2%nat, SegmentValue p0 p2)
  | true, false, true, true => Some (2%nat, SegmentValue p2 p3)
  | true, true, _, _ => Some (2%nat, SegmentValue p0 p1)
  end.

Definition on_line_py (p : point) (q r : point) (rtol atol : R) : bool :=
  point_on_line (px p) (py p) (px q) (py q) (px r) (py r) rtol atol.

(** [None]: an exception (the RuntimeError or a failed assert). *)
Definition intersection (p0 p1 p2 p3 : point) (rtol atol : R) : option (nat * value) :=
  let '(x0, y0) := p0 in let '(x1, y1) := p1 in
  let '(x2, y2) := p2 in let '(x3, y3) := p3 in
  let denom := (y3 - y2) * (x1 - x0) - (x3 - x2) * (y1 - y0) in
  let u0 := (x3 - x2) * (y0 - y2) - (y3 - y2) * (x0 - x2) in
  let u1 := (x2 - x0) * (y1 - y0) - (y2 - y0) * (x1 - x0) in
  if close0 denom rtol atol then
    if close0 u0 rtol atol && close0 u1 rtol atol then
      collinear_result (on_line_py p0 p2 p3 rtol atol) (on_line_py p1 p2 p3 rtol atol)
                       (on_line_py p2 p0 p1 rtol atol) (on_line_py p3 p0 p1 rtol atol) p0 p1 p2 p3
    else Some (4%nat, NoValue)
  else
    let u0 := u0 / denom in
    let u1 := u1 / denom in
    let x := x0 + u0 * (x1 - x0) in
    let y := y0 + u0 * (y1 - y0) in
    if negb (allclose x (x2 + u1 * (x3 - x2)) rtol atol) then None else
    if negb (allclose y (y2 + u1 * (y3 - y2)) rtol atol) then None else
    if Rleb 0 u0 && Rleb u0 1 && (Rleb 0 u1 && Rleb u1 1) then Some (1%nat, PointValue (x, y))
    else Some (0%nat, NoValue).

(** ** [polygon_area], polygon.py lines 697-729 *)
Definition list_min (l : list R) : R :=
  match l with [] => 0 | x :: l => fold_left (fun m v => if Rltb v m then v else m) l x end.

Definition polygon_area (input_polygon : list point) : R :=
  let min_x := list_min (map px input_polygon) in
  let min_y := list_min (map py input_polygon) in
  let polygon := map (fun p => (px p - min_x, py p - min_y)) input_polygon in
  let n := length polygon in
  let poly_area := fold_left (fun acc i =>
      let pti := nth i polygon (0, 0) in
      let pt1 := if (i =? n - 1)%nat then nth 0 polygon (0, 0) else nth (i + 1) polygon (0, 0) in
      acc + (px pti * py pt1 - px pt1 * py pti)) (seq 0 n) 0 in
  Rabs (poly_area / 2).

(** ** [__interpolate_polyline], polygon.c lines 270-318 *)
Definition interpolate_polyline (data : nat -> R) (nodes : nat -> point) (neighbour : nat -> option nat)
    (number_of_nodes : nat) (rtol atol : R) (p : point) (initial : R) : R :=
  fold_left (fun v j =>
      match neighbour j with
      | None => v                       (* a negative neighbour_id *)
      | Some m =>
          let '(x0, y0) := nodes j in let '(x1, y1) := nodes m in
          let segment_len := dist (x1 - x0) (y1 - y0) in
          let segment_delta := data m - data j in
          let slope := segment_delta / segment_len in
          if point_on_line (px p) (py p) x0 y0 x1 y1 rtol atol
          then slope * dist (px p - x0) (py p - y0) + data j else v
      end) (seq 0 number_of_nodes) initial.
