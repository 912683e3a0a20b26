(** Model of the cross-sections: anuga/abstract_2d_finite_volumes/
    neighbour_mesh.py lines 1216-1462 (segments of a polyline cut out by the
    triangles of a mesh) and anuga/shallow_water/sww_interrogate.py lines
    73-136 and 286-377 (flow and energy through them).  Real arithmetic;
    [None] is an exception. *)
From Coq Require Import Reals List Arith Bool.
From Verif Require Import RealLib ArrayLib PolygonModel.
Import ListNotations.
Local Open Scope R_scope.

(** The default tolerances of [intersection], polygon.py line 112. *)
Definition rtol_default : R := / 10 ^ 5.
Definition atol_default : R := / 10 ^ 8.

(** [Triangle_intersection], lines 1216-1248 *)
Record crossing := { segment : point * point; normal : point; length_of : R; triangle_id : nat }.

(** Equality of the tuples used as keys. *)
Definition point_eqb (p q : point) : bool := Reqb (px p) (px q) && Reqb (py p) (py q).
Definition segment_eqb (s t : point * point) : bool := point_eqb (fst s) (fst t) && point_eqb (snd s) (snd t).

(** [intersections[tuple(value)] = i]: keys in the order of insertion. *)
Definition record_point (d : list point) (p : point) : list point := if existsb (point_eqb p) d then d else d ++ [p].

(** Lines 1293-1319: the points recorded for one edge. *)
Definition edge_points (p0 p1 : point) (edge : point * point) : option (list point) :=
  match intersection p0 p1 (fst edge) (snd edge) rtol_default atol_default with
  | None => None
  | Some (1%nat, PointValue p) => Some [p]
  | Some (2%nat, SegmentValue p q) => Some [p; q]
  | Some _ => Some []
  end.

Fixpoint record_edges (p0 p1 : point) (edges : list (point * point)) (d : list point) : option (list point) :=
  match edges with
  | [] => Some d
  | e :: edges =>
      match edge_points p0 p1 e with
      | None => None
      | Some ps => record_edges p0 p1 edges (fold_left record_point ps d)
      end
  end.

(** [num.sqrt(num.sum(z**2))] for the vector from [p] to [q] *)
Definition distance (p q : point) : R := dist (px q - px p) (py q - py p).

(** Lines 1342-1384: the attributes of the segment between two points. *)
Definition make_crossing (p0 : point) (i : nat) (a b : point) : crossing :=
  let '(a, b) := if Rltb (distance p0 b) (distance p0 a) then (b, a) else (a, b) in
  let vector := (px b - px a, py b - py a) in
  let length := dist (px vector) (py vector) in
  {| segment := (a, b); normal := (py vector / length, - px vector / length); length_of := length; triangle_id := i |}.

(** Body of the loop over the triangles, lines 1281-1384.  [Some None]: no
    segment; [None]: an exception of [intersection] or the assertion that
    there are two or no intersections. *)
Definition triangle_crossing (p0 p1 : point) (i : nat) (t : triangle) : option (option crossing) :=
  match record_edges p0 p1 (tri_edges t) [] with
  | None => None
  | Some d =>
      let '(a, b, c) := t in
      match d with
      | [] => Some None
      | [p] =>
          if point_inside [a; b; c] false p1 then
            match record_point d p1 with [q; r] => Some (Some (make_crossing p0 i q r)) | _ => None end
          else if point_inside [a; b; c] false p0 then
            match record_point d p0 with [q; r] => Some (Some (make_crossing p0 i q r)) | _ => None end
          else Some None
      | [q; r] => Some (Some (make_crossing p0 i q r))
      | _ => None
      end
  end.

(** [_get_intersecting_segments], lines 1252-1395: the dictionary keyed by
    the segment keeps the first triangle. *)
Definition record_crossing (d : list crossing) (T : crossing) : list crossing :=
  if existsb (fun T' => segment_eqb (segment T) (segment T')) d then d else d ++ [T].

Fixpoint line_crossings_from (p0 p1 : point) (i : nat) (ts : list triangle) (d : list crossing) : option (list crossing) :=
  match ts with
  | [] => Some d
  | t :: ts =>
      match triangle_crossing p0 p1 i t with
      | None => None
      | Some None => line_crossings_from p0 p1 (S i) ts d
      | Some (Some T) => line_crossings_from p0 p1 (S i) ts (record_crossing d T)
      end
  end.
Definition line_crossings (p0 p1 : point) (ts : list triangle) : option (list crossing) := line_crossings_from p0 p1 0 ts [].

(** [get_intersecting_segments], lines 1398-1438 *)
Fixpoint polyline_crossings_loop (polyline : list point) (ts : list triangle) : option (list crossing) :=
  match polyline with
  | p0 :: ((p1 :: _) as rest) =>
      match line_crossings p0 p1 ts with
      | None => None
      | Some d => match polyline_crossings_loop rest ts with None => None | Some d' => Some (d ++ d') end
      end
  | _ => Some []
  end.
Definition polyline_crossings (polyline : list point) (ts : list triangle) : option (list crossing) :=
  if (length polyline <? 2)%nat then None else
  match polyline_crossings_loop polyline ts with
  | Some [] => None
  | r => r
  end.

(** [segment_midpoints], lines 1444-1462 *)
Definition midpoint (T : crossing) : point :=
  let '(a, b) := segment T in ((px a + px b) / 2, (py a + py b) / 2).

(** One time of [get_flow_through_cross_section], sww_interrogate.py lines
    113-131; [momentum p] is the interpolated pair (uh, vh) at [p]. *)
Definition flow (momentum : point -> R * R) (Ts : list crossing) : R :=
  fold_left (fun total T =>
    let '(uh, vh) := momentum (midpoint T) in
    let normal_momentum := uh * px (normal T) + vh * py (normal T) in
    total + normal_momentum * length_of T) Ts 0.

Definition flow_through_cross_section (momentum : point -> R * R) (polyline : list point) (ts : list triangle) : option R :=
  match polyline_crossings polyline ts with None => None | Some Ts => Some (flow momentum Ts) end.

(** Lines 340-371: the energy of one segment; [total] for kind='total'. *)
Record water := { w_elevation : R; w_stage : R; w_uh : R; w_vh : R }.
Definition segment_energy (g epsilon h0 : R) (total : bool) (w : water) : R :=
  let h := w_stage w - w_elevation w in
  let '(u, v) := if Rltb epsilon h then (w_uh w / (h + h0 / h), w_vh w / (h + h0 / h)) else (0, 0) in
  let kinetic_energy := 1 / 2 * (u * u + v * v) / g in
  (if total then w_stage w else h) + kinetic_energy.

(** One time of [get_energy_through_cross_section], lines 331-375. *)
Definition energy (g epsilon h0 : R) (total : bool) (water_at : point -> water) (Ts : list crossing) : R :=
  let total_line_length := fold_left (fun s T => s + length_of T) Ts 0 in
  fold_left (fun average T =>
    average + segment_energy g epsilon h0 total (water_at (midpoint T)) * (length_of T / total_line_length)) Ts 0.

(** ** The crossing of an edge in other arithmetics *)

(** The branch of [intersection] for lines that are not parallel, polygon.py
    lines 140-150 and 167-186, over any arithmetic; [None]: parallel, or a
    failed assertion. *)
Record arith := { num : Type; zero : num; one : num; add : num -> num -> num; sub : num -> num -> num;
                  mul : num -> num -> num; div : num -> num -> num; absv : num -> num; leb : num -> num -> bool }.

Definition crossing_point (O : arith) (rtol atol : num O) (p0 p1 p2 p3 : num O * num O) : option (option (num O * num O)) :=
  let '(x0, y0) := p0 in let '(x1, y1) := p1 in
  let '(x2, y2) := p2 in let '(x3, y3) := p3 in
  let denom := sub O (mul O (sub O y3 y2) (sub O x1 x0)) (mul O (sub O x3 x2) (sub O y1 y0)) in
  let u0 := sub O (mul O (sub O x3 x2) (sub O y0 y2)) (mul O (sub O y3 y2) (sub O x0 x2)) in
  let u1 := sub O (mul O (sub O x2 x0) (sub O y1 y0)) (mul O (sub O y2 y0) (sub O x1 x0)) in
  if leb O (absv O (sub O denom (zero O))) (add O atol (mul O rtol (absv O (zero O)))) then None else
  let u0 := div O u0 denom in
  let u1 := div O u1 denom in
  let x := add O x0 (mul O u0 (sub O x1 x0)) in
  let y := add O y0 (mul O u0 (sub O y1 y0)) in
  let x' := add O x2 (mul O u1 (sub O x3 x2)) in
  let y' := add O y2 (mul O u1 (sub O y3 y2)) in
  if negb (leb O (absv O (sub O x x')) (add O atol (mul O rtol (absv O x')))) then None else
  if negb (leb O (absv O (sub O y y')) (add O atol (mul O rtol (absv O y')))) then None else
  if leb O (zero O) u0 && leb O u0 (one O) && (leb O (zero O) u1 && leb O u1 (one O)) then Some (Some (x, y)) else Some None.
