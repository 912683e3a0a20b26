(** Model of the cell-wise kernels applied to centroid values:
    [_protect_new], [_orig_fix_negative_cells], [_manning_friction_flat] and
    [_manning_friction_sloped] of anuga/shallow_water/sw_domain_orig.c, and
    [_update] of anuga/abstract_2d_finite_volumes/quantity.c.

    The arrays, which the kernels index by triangle, are modelled as lists. *)
From Coq Require Import Reals List ZArith Bool.
From Verif Require Import RealLib.
Import ListNotations.
Local Open Scope R_scope.

(** The entries of one triangle read or written by the two protection
    kernels. *)
Record cell := Cell {
  c_stage : R;                 (* stage_centroid_values[k] *)
  c_bed : R;                   (* bed_centroid_values[k] *)
  c_xmom : R; c_ymom : R;      (* xmom/ymom_centroid_values[k] *)
  c_area : R;                  (* areas[k] *)
  c_full : Z;                  (* tri_full_flag[k] *)
  c_wv : R * R * R }.          (* stage_vertex_values[3k..3k+2] *)

(** ** _protect_new, sw_domain_orig.c lines 1215-1281 *)

(** The body of the loop (lines 1246-1272): the new entries and what is added
    to [mass_error]. *)
Definition protect_cell (minimum_allowed_height : R) (c : cell) : cell * option R :=
  let hc := c_stage c - c_bed c in
  if Rltb hc (minimum_allowed_height * 1) then
    let c1 := {| c_stage := c_stage c; c_bed := c_bed c; c_xmom := 0; c_ymom := 0;
                 c_area := c_area c; c_full := c_full c; c_wv := c_wv c |} in
    if Rleb hc 0 then
      let bmin := c_bed c in
      if Rltb (c_stage c) bmin then
        ({| c_stage := bmin; c_bed := c_bed c; c_xmom := 0; c_ymom := 0;
            c_area := c_area c; c_full := c_full c; c_wv := (bmin, bmin, bmin) |},
         Some ((bmin - c_stage c) * c_area c))
      else (c1, None)
    else (c1, None)
  else (c, None).

Fixpoint protect_loop (mah : R) (cells : list cell) (mass_error : R) : list cell * R :=
  match cells with
  | [] => ([], mass_error)
  | c :: rest =>
      let '(c', d) := protect_cell mah c in
      let '(rest', e) := protect_loop mah rest (match d with Some d => mass_error + d | None => mass_error end) in
      (c' :: rest', e)
  end.

Definition protect_new (minimum_allowed_height : R) (cells : list cell) : list cell * R :=
  protect_loop minimum_allowed_height cells 0.

(** ** _orig_fix_negative_cells, sw_domain_orig.c lines 2890-2909 *)

Definition fix_negative_cell (c : cell) : cell * Z :=
  if Rltb (c_stage c - c_bed c) 0 && Z.ltb 0 (c_full c) then
    ({| c_stage := c_bed c; c_bed := c_bed c; c_xmom := 0; c_ymom := 0;
        c_area := c_area c; c_full := c_full c; c_wv := c_wv c |}, 1%Z)
  else (c, 0%Z).

Fixpoint fix_negative_loop (cells : list cell) (n : Z) : list cell * Z :=
  match cells with
  | [] => ([], n)
  | c :: rest =>
      let '(c', d) := fix_negative_cell c in
      let '(rest', n') := fix_negative_loop rest (n + d)%Z in
      (c' :: rest', n')
  end.

Definition fix_negative_cells (cells : list cell) : list cell * Z := fix_negative_loop cells 0%Z.

(** ** _update, quantity.c lines 772-820 *)

(** First loop, lines 786-793, for one index. *)
Definition divide_semi (x s : R) : R := if Reqb x 0 then 0 else s / x.

Fixpoint map2 {A B C} (f : A -> B -> C) (xs : list A) (ys : list B) : list C :=
  match xs, ys with
  | x :: xs, y :: ys => f x y :: map2 f xs ys
  | _, _ => []
  end.

(** Third loop, lines 804-812; the flag is false when it returns early. *)
Fixpoint semi_implicit_loop (dt : R) (xs ss : list R) : list R * bool :=
  match xs, ss with
  | x :: xs', s :: ss' =>
      let denominator := 1 - dt * s in
      if Rleb denominator 0 then (xs, false)
      else let '(r, ok) := semi_implicit_loop dt xs' ss' in (x / denominator :: r, ok)
  | _, _ => ([], true)
  end.

(** The new [centroid_values] and [semi_implicit_update], and the error
    code. *)
Definition update (dt : R) (xs es ss : list R) : list R * list R * Z :=
  let ss1 := map2 divide_semi xs ss in
  let xs1 := map2 (fun x e => x + dt * e) xs es in
  let '(xs2, ok) := semi_implicit_loop dt xs1 ss1 in
  if ok then (xs2, map (fun _ => 0) ss1, 0%Z) else (xs2, ss1, (-1)%Z).

(** ** Manning friction *)

(** [_gradient], anuga/utilities/util_ext.h lines 52-94. *)
Definition gradient (x0 y0 x1 y1 x2 y2 q0 q1 q2 : R) : R * R :=
  let det := (y2 - y0) * (x1 - x0) - (y1 - y0) * (x2 - x0) in
  (((y2 - y0) * (q1 - q0) - (y1 - y0) * (q2 - q0)) / det,
   ((x1 - x0) * (q2 - q0) - (x2 - x0) * (q1 - q0)) / det).

(** The entries of one triangle read by the two friction kernels. *)
Record friction_cell := FrictionCell {
  f_w : R;                      (* w[k], stage *)
  f_z : R;                      (* zv[k] of the flat kernel, bed at the centroid *)
  f_zv : R * R * R;             (* zv[3k..3k+2] of the sloped kernel *)
  f_x : (R * R) * (R * R) * (R * R);  (* x[6k..6k+5], vertex coordinates *)
  f_uh : R; f_vh : R; f_eta : R }.

(** [pow(h, 7.0/3.0)], for h > 0. *)
Definition pow73 (h : R) : R := Rpower h (7 / 3).

(** Loop body of [_manning_friction_flat], lines 2814-2833: the increments of
    [xmom_update[k]] and [ymom_update[k]], [None] if they are not touched. *)
Definition friction_flat_cell (g eps : R) (c : friction_cell) : option (R * R) :=
  if Rltb eps (f_eta c) then
    let h := f_w c - f_z c in
    if Rleb eps h then
      let S := - g * f_eta c * f_eta c * sqrt (f_uh c * f_uh c + f_vh c * f_vh c) in
      let S := S / pow73 h in
      Some (S * f_uh c, S * f_vh c)
    else None
  else None.

(** Loop body of [_manning_friction_sloped], lines 2849-2886. *)
Definition friction_sloped_cell (g eps : R) (c : friction_cell) : option (R * R) :=
  if Rltb eps (f_eta c) then
    let '(z0, z1, z2) := f_zv c in
    let '((x0, y0), (x1, y1), (x2, y2)) := f_x c in
    let '(zx, zy) := gradient x0 y0 x1 y1 x2 y2 z0 z1 z2 in
    let zs := sqrt (1 + zx * zx + zy * zy) in
    let z := (z0 + z1 + z2) * (1 / 3) in
    let h := f_w c - z in
    if Rleb eps h then
      let S := - g * f_eta c * f_eta c * zs * sqrt (f_uh c * f_uh c + f_vh c * f_vh c) in
      let S := S / pow73 h in
      Some (S * f_uh c, S * f_vh c)
    else None
  else None.

Definition add_update (d : option (R * R)) (u : R * R) : R * R :=
  match d with Some (dx, dy) => (fst u + dx, snd u + dy) | None => u end.

(** [manning_friction_implicit_cpu], friction.py lines 33-73, on the
    [semi_implicit_update] arrays of the two momenta. *)
Definition manning_friction_implicit (sloped : bool) (g eps : R) (cells : list friction_cell) (updates : list (R * R))
  : list (R * R) :=
  map2 (fun c u => add_update (if sloped then friction_sloped_cell g eps c else friction_flat_cell g eps c) u) cells updates.
