(** Model of the matrix assembly of anuga/fit_interpolate/fitsmooth.c and of
    its use in fitsmooth_ext.pyx and fit.py. *)
From Coq Require Import Reals List Arith Bool.
From Verif Require Import RealLib ArrayLib SparseModel PolygonModel QuadTreeModel.
Import ListNotations.
Local Open Scope R_scope.

(** [js[i]], [sigma[i]] for i = 0, 1, 2 *)
Definition pick {A} (t : A * A * A) (i : nat) : A :=
  let '(a, b, c) := t in match i with 0%nat => a | 1%nat => b | _ => c end.

(** ** _build_smoothing_matrix, fitsmooth.c lines 25-137 *)

(** Lines 64-80: the gradients (a_i, b_i) of the three basis functions. *)
Definition basis_gradients (p0 p1 p2 : point) : (R * R) * (R * R) * (R * R) :=
  let '(x0, y0) := p0 in let '(x1, y1) := p1 in let '(x2, y2) := p2 in
  let det := (y2 - y0) * (x1 - x0) - (y1 - y0) * (x2 - x0) in
  (((((y2 - y0) * (0 - 1) - (y1 - y0) * (0 - 1)) / det), (((x1 - x0) * (0 - 1) - (x2 - x0) * (0 - 1)) / det)),
   ((((y2 - y0) * (1 - 0) - (y1 - y0) * (0 - 0)) / det), (((x1 - x0) * (0 - 0) - (x2 - x0) * (1 - 0)) / det)),
   ((((y2 - y0) * (0 - 0) - (y1 - y0) * (1 - 0)) / det), (((x1 - x0) * (1 - 0) - (x2 - x0) * (0 - 0)) / det))).

(** One triangle: its node numbers, its area as stored and its corners. *)
Record element := Element { nodes : nat * nat * nat; area : R; vertices : triangle }.

Definition dot2 (u v : R * R) : R := fst u * fst v + snd u * snd v.

(** Lines 82-132: the nine entries in the order they are added. *)
Definition smoothing_entries (el : element) : list (key * R) :=
  let '(v0, v1, v2) := nodes el in
  let '(p0, p1, p2) := vertices el in
  let '(g0, g1, g2) := basis_gradients p0 p1 p2 in
  let e01 := dot2 g0 g1 * area el in
  let e12 := dot2 g1 g2 * area el in
  let e20 := dot2 g2 g0 * area el in
  [((v0, v0), dot2 g0 g0 * area el); ((v1, v1), dot2 g1 g1 * area el); ((v2, v2), dot2 g2 g2 * area el);
   ((v0, v1), e01); ((v1, v0), e01); ((v1, v2), e12); ((v2, v1), e12); ((v2, v0), e20); ((v0, v2), e20)].

Definition add_entries (h : dok) (items : list (key * R)) : dok :=
  fold_left (fun h (it : key * R) => add_dok_entry h (fst it) (snd it)) items h.

Definition build_smoothing_matrix (elements : list element) : dok :=
  fold_left (fun h el => add_entries h (smoothing_entries el)) elements make_dok.

(** ** _build_matrix_AtA_Atz_points, lines 176-236 *)

(** A data point and its values, one per attribute. *)
Definition datum := (point * (nat -> R))%type.

(** Atz[w][i] *)
Definition rhs := nat -> nat -> R.

(** Lines 217-231, the critical section: the contributions of one point. *)
Definition critical (js : nat * nat * nat) (sigma : R * R * R) (zdims : nat) (values : nat -> R) (st : dok * rhs) : dok * rhs :=
  fold_left (fun st i =>
      let '(AtA, Atz) := st in
      let Atz := fold_left (fun Atz w => upd Atz w (upd (Atz w) (pick js i) (Atz w (pick js i) + pick sigma i * values w)))
                           (seq 0 zdims) Atz in
      let AtA := fold_left (fun AtA w => add_dok_entry AtA (pick js i, pick js w) (pick sigma i * pick sigma w)) (seq 0 3) AtA in
      (AtA, Atz))
    (seq 0 3) st.

(** Lines 203-233 for one value of [k]. *)
Definition one_point (t : tree) (triangles : nat -> nat * nat * nat) (zdims : nat) (st : dok * rhs) (d : datum) : dok * rhs :=
  let '(p, values) := d in
  match search t p with
  | Some T => critical (triangles (index T)) (calculate_sigma T (px p) (py p)) zdims values st
  | None => st
  end.

(** The whole function.  The iterations run in parallel and only the critical
    section touches shared memory, so the effect is that of some order of the
    points: [order] is the list of points in that order. *)
Definition build_matrix_AtA_Atz (t : tree) (triangles : nat -> nat * nat * nat) (zdims : nat) (order : list datum) : dok * rhs :=
  fold_left (one_point t triangles zdims) order (make_dok, fun _ _ => 0).

(** ** _combine_partial_AtA_Atz, lines 239-251 *)
Definition combine_partial (AtA1 AtA2 : dok) (Atz1 Atz2 : rhs) : dok * dok * rhs :=
  let '(r1, r2) := add_sparse_dok AtA1 1 AtA2 1 in
  (r1, r2, fun w i => Atz1 w i + Atz2 w i).

(** ** The object Fit, fit.py lines 60-360 *)
Record fit_object := Fit { f_AtA : option dok; f_Atz : rhs; f_D : dok }.

(** [__init__], lines 106-121 *)
Definition new_fit (elements : list element) : fit_object :=
  Fit None (fun _ _ => 0) (build_smoothing_matrix elements).

(** [_build_matrix_AtA_Atz], lines 199-274 (one attribute) *)
Definition build_fit_subset (t : tree) (triangles : nat -> nat * nat * nat) (order : list datum) (f : fit_object) : fit_object :=
  let '(AtA, Atz) := build_matrix_AtA_Atz t triangles 1 order in
  match f_AtA f with
  | None => Fit (Some AtA) Atz (f_D f)
  | Some AtA0 => let '(r1, _, z) := combine_partial AtA0 AtA (f_Atz f) Atz in Fit (Some r1) z (f_D f)
  end.

(** [build_matrix_B], fitsmooth_ext.pyx lines 246-268: the tables held by
    [D] and [AtA] are changed in place.  Returns the coefficient matrix that
    is converted to CSR, and the new contents of the object.  [None]: the
    assertion that there is an interpolation matrix fails. *)
Definition build_coefficient_matrix (alpha : R) (f : fit_object) : option (dok * fit_object) :=
  match f_AtA f with
  | None => None
  | Some AtA =>
      let '(B, AtA') := add_sparse_dok (f_D f) alpha AtA 1 in
      Some (B, Fit (Some AtA') (f_Atz f) B)
  end.
