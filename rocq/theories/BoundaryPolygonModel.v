(** Model of [get_boundary_polygon], anuga/abstract_2d_finite_volumes/
    neighbour_mesh.py lines 518-665, with [angle] of
    anuga/utilities/numerical_tools.py (lines 60-96) and [get_extent] of
    general_mesh.py (lines 856-872).  Real arithmetic; printing is left out. *)
From Coq Require Import Reals List Arith Bool.
From Verif Require Import RealLib PolygonModel.
Import ListNotations.
Local Open Scope R_scope.

(** Equality of points, as keys of a dictionary *)
Definition point_dec (p q : point) : {p = q} + {p <> q}.
Proof. decide equality; apply Req_EM_T. Defined.
Definition same (p q : point) : bool := if point_dec p q then true else false.

Definition segment := (point * point)%type.

(** A mesh: the absolute coordinates of the vertex [j] of the triangle [i], and
    the keys of [self.boundary]. *)
Record mesh := { triangles : nat; corner_of : nat -> nat -> point; boundary : list (nat * nat) }.

(** Lines 545-551 *)
Definition segment_of (m : mesh) (key : nat * nat) : segment :=
  let '(i, edge_id) := key in
  match edge_id with
  | 0%nat => (corner_of m i 1, corner_of m i 2)
  | 1%nat => (corner_of m i 2, corner_of m i 0)
  | _ => (corner_of m i 0, corner_of m i 1)
  end.
Definition segments (m : mesh) : list segment := map (segment_of m) (boundary m).

(** [get_extent], of a mesh with triangles *)
Definition all_corners (m : mesh) : list point :=
  flat_map (fun i => [corner_of m i 0; corner_of m i 1; corner_of m i 2]) (seq 0 (triangles m)).
Definition least (f : point -> R) (l : list point) : R :=
  match l with [] => 0 | p :: l => fold_left (fun a q => Rmin a (f q)) l (f p) end.
Definition pmin (m : mesh) : point := (least px (all_corners m), least py (all_corners m)).
Definition pmax (m : mesh) : point := (- least (fun p => - px p) (all_corners m), - least (fun p => - py p) (all_corners m)).

(** Lines 541, 556-557 *)
Definition dist (p q : point) : R := sqrt ((px p - px q) * (px p - px q) + (py p - py q) * (py p - py q)).

(** Lines 560-570, the choice of the starting point; the flag tells that the
    exception of line 570 was not raised. *)
Definition try (low : point) (st : R * option point) (p : point) : R * option point :=
  if Rltb (dist p low) (fst st) then (dist p low, Some p) else st.
Fixpoint choose_start (low : point) (st : R * option point) (segs : list segment) : R * option point * bool :=
  match segs with
  | [] => (st, true)
  | (A, B) :: segs =>
      let st := try low (try low st A) B in
      match snd st with None => (st, false) | Some _ => choose_start low st segs end
  end.
Definition start_of (low high : point) (segs : list segment) : option point :=
  match choose_start low (dist high low, None) segs with ((_, p), true) => p | _ => None end.

(** [segments[tuple(p0)]], lines 573-576 *)
Definition candidates (segs : list segment) (p : point) : list point :=
  map snd (filter (fun s => same (fst s) p) segs).

(** [angle(v1, v2)] and lines 631-635 *)
Definition norm (v : point) : R := sqrt (px v * px v + py v * py v).
Definition angle (v1 v2 : point) : R :=
  let a := (px v1 / norm v1, py v1 / norm v1) in
  let b := (px v2 / norm v2, py v2 / norm v2) in
  let p := px a * px b + py a * py b in
  let c := px a * - py b + py a * px b in
  let theta := acos p in
  if Rltb c 0 then 2 * PI - theta else theta.
Definition turn_angle (v1 v2 : point) : R := let ac := angle v1 v2 in if Rltb PI ac then ac - 2 * PI else ac.
Definition minus (p q : point) : point := (px p - px q, py p - py q).

(** Lines 624-641; every angle is less than 2*pi. *)
Definition rightmost (v_prev p0 : point) (l : list point) : point :=
  snd (fold_left (fun best pc => let ac := turn_angle (minus pc p0) v_prev in if Rltb ac (fst best) then (ac, pc) else best) l (2 * PI, p0)).

(** Lines 590-647: the next point, from [p0] with the point [before] in front of
    it in the polygon; [None]: KeyError. *)
Definition next_point (segs : list segment) (before : option point) (p0 : point) : option point :=
  match candidates segs p0 with
  | [] => None
  | [p1] => Some p1
  | l => Some (rightmost (match before with Some b => minus p0 b | None => (1, 0) end) p0 l)
  end.

(** [num.allclose] *)
Definition rtol : R := / 10 ^ 5.
Definition atol : R := / 10 ^ 8.
Definition allclose (p q : point) : bool :=
  Rleb (Rabs (px p - px q)) (atol + rtol * Rabs (px q)) && Rleb (Rabs (py p - py q)) (atol + rtol * Rabs (py q)).

(** Lines 588-663; [trail] is the polygon, the last point first. *)
Inductive outcome := Polygon (l : list point) | KeyError | NoStart | Running.
Fixpoint follow (fuel : nat) (segs : list segment) (p_start : point) (trail registry : list point) : outcome :=
  match fuel with
  | O => Running
  | S fuel =>
      if (length registry <? length segs)%nat then
        match trail with
        | [] => KeyError
        | p0 :: rest =>
            match next_point segs (hd_error rest) p0 with
            | None => KeyError
            | Some p1 =>
                if in_dec point_dec p1 registry then
                  if allclose p1 p_start then Polygon (rev trail)
                  else follow fuel segs p_start (p1 :: trail) registry
                else follow fuel segs p_start (p1 :: trail) (p1 :: registry)
            end
        end
      else Polygon (rev trail)
  end.

Definition get_boundary_polygon (fuel : nat) (m : mesh) : outcome :=
  match start_of (pmin m) (pmax m) (segments m) with
  | None => NoStart
  | Some p => follow fuel (segments m) p [p] [p]
  end.
