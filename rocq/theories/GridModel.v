(** Model of the export of results to regular grids:
    anuga/file_conversion/calc_grid_values.c and its wrapper
    calc_grid_values_ext.pyx, sww2dem.py (lines 30-477), [save_to_array] of
    anuga/abstract_2d_finite_volumes/quantity.py (lines 422-547), and of the
    way back, asc2dem.py (lines 58-200) and dem2pts.py (lines 56-353).  Real
    arithmetic; [None] is an exception. *)
From Coq Require Import Reals List ZArith Arith Bool.
From Verif Require Import RealLib ArrayLib PolygonModel.
Import ListNotations.
Local Open Scope R_scope.

(** * calc_grid_values.c *)

(** [modf(x, &intpart); (int64_t) intpart]: towards zero; also Python's [int]
    and the conversion "%d" of a float. *)
Definition trunc (x : R) : Z := if Rltb x 0 then (- Int_part (- x))%Z else Int_part x.

(** Lines 111-136, [init_norms]: unit normal of the side from [p] to [q]. *)
Definition side_norm (p q : point) : R * R :=
  let xn := px q - px p in
  let yn := py q - py p in
  let l := sqrt (xn * xn + yn * yn) in
  let '(xn, yn) := if negb (Reqb l 0) then (xn / l, yn / l) else (xn, yn) in
  (yn, - xn).

(** [_point_on_line], lines 147-199 *)
Definition grid_point_on_line (x y x0 y0 x1 y1 rtol atol : R) : bool :=
  let a0 := x - x0 in
  let a1 := y - y0 in
  let a_normal0 := a1 in
  let a_normal1 := - a0 in
  let b0 := x1 - x0 in
  let b1 := y1 - y0 in
  let nominator := Rabs (a_normal0 * b0 + a_normal1 * b1) in
  let denominator := b0 * b0 + b1 * b1 in
  let is_parallel := if Reqb denominator 0 then Rleb nominator atol else Rleb (nominator / denominator) rtol in
  if is_parallel then
    let len_a := sqrt (a0 * a0 + a1 * a1) in
    let len_b := sqrt (b0 * b0 + b1 * b1) in
    Rleb 0 (a0 * b0 + a1 * b1) && Rleb len_a len_b
  else false.

(** [_is_inside_triangle], lines 201-280, is the same text as in polygon.c but
    for the test above; called with both tolerances 1e-12 (line 373). *)
Definition grid_tol : R := / 10 ^ 12.
Definition accepts (t : triangle) (p : point) : bool :=
  is_inside_triangle_with grid_point_on_line p t true grid_tol grid_tol.

(** Lines 375-391: the weight of the corner [v] opposite to the side that
    starts in [w] and has the normal [n]. *)
Definition weight (p v w : point) (n : R * R) : R :=
  let val1 := (px p - px w) * fst n + (py p - py w) * snd n in
  let val2 := (px v - px w) * fst n + (py v - py w) * snd n in
  if negb (Reqb val2 0) then val1 / val2 else 0.

(** Lines 375-396: the value written for the point [p]. *)
Definition value_at (t : triangle) (f1 f2 f3 : R) (p : point) : R :=
  let '(v1, v2, v3) := t in
  weight p v1 v2 (side_norm v2 v3) * f1 + weight p v2 v3 (side_norm v3 v1) * f2 + weight p v3 v1 (side_norm v1 v2) * f3.

(** Lines 346-360: the range of a loop over the grid points of one axis, for
    a triangle that extends from [lo] to [hi]. *)
Definition range_of (lo hi cell : R) (n : nat) : nat * Z :=
  (Z.to_nat (Z.max 0 (trunc ((lo - 0) / cell))), Z.min (trunc (Rabs (hi - 0) / cell)) (Z.of_nat n - 1)).
Definition indices (r : nat * Z) : list nat := seq (fst r) (Z.to_nat (snd r + 1 - Z.of_nat (fst r))).

Definition min3 (a b c : R) : R := Rmin a (Rmin b c).
Definition max3 (a b c : R) : R := Rmax a (Rmax b c).

(** Body of the loop over the triangles, lines 326-401. *)
Definition triangle_step (cell : R) (nrow ncol : nat) (X : nat -> point) (val : nat -> R)
    (grid : nat -> R) (tri : nat * nat * nat) : nat -> R :=
  let '(i1, i2, i3) := tri in
  let t := (X i1, X i2, X i3) in
  let xr := range_of (min3 (px (X i1)) (px (X i2)) (px (X i3))) (max3 (px (X i1)) (px (X i2)) (px (X i3))) cell ncol in
  let yr := range_of (min3 (py (X i1)) (py (X i2)) (py (X i3))) (max3 (py (X i1)) (py (X i2)) (py (X i3))) cell nrow in
  if Z.leb 0 (snd xr) && Z.leb 0 (snd yr) then
    fold_left (fun grid j =>
      fold_left (fun grid k =>
        let p := (INR k * cell, INR j * cell) in
        if accepts t p then upd grid (j * ncol + k)%nat (value_at t (val i1) (val i2) (val i3) p) else grid)
      (indices xr) grid) (indices yr) grid
  else grid.

(** The wrapper, calc_grid_values_ext.pyx lines 15-47; [grid0] is the array
    that the caller provides. *)
Definition calc_grid_values (nrow ncol : nat) (cell nodata : R) (X : nat -> point) (volumes : list (nat * nat * nat))
    (val grid0 : nat -> R) : nat -> R :=
  fold_left (triangle_step cell nrow ncol X val) volumes (fun i => if (i <? nrow * ncol)%nat then nodata else grid0 i).

(** * The callers *)

(** Pythons [min] and [max] of a sequence; [None]: empty. *)
Definition list_min (l : list R) : option R := match l with [] => None | x :: l => Some (fold_left Rmin l x) end.
Definition list_max (l : list R) : option R := match l with [] => None | x :: l => Some (fold_left Rmax l x) end.

(** easting_min, easting_max, northing_min, northing_max *)
Record window := { w_xmin : option R; w_xmax : option R; w_ymin : option R; w_ymax : option R }.
Definition limit (given : option R) (corner default : R) : R :=
  match given with None => default | Some e => e - corner end.

(** A mesh as stored: corner of the georeference, points, triangles. *)
Record surface := { s_xll : R; s_yll : R; s_points : list point; s_volumes : list (nat * nat * nat) }.
Definition point_of (s : surface) (i : nat) : point := nth i (s_points s) (0, 0).

Record grid := { g_rows : nat; g_cols : nat; g_xmin : R; g_ymin : R; g_values : nat -> R }.
Definition at_grid (g : grid) (j k : nat) : R := g_values g (j * g_cols g + k).

(** sww2dem.py lines 273-373 (save_to_array, lines 470-536, is the same).
    [grid_values] starts as zeros. *)
Definition make_grid (cell nodata : R) (w : window) (s : surface) (val : nat -> R) : option grid :=
  match list_min (map px (s_points s)), list_max (map px (s_points s)),
        list_min (map py (s_points s)), list_max (map py (s_points s)) with
  | Some x0, Some x1, Some y0, Some y1 =>
      let xmin := limit (w_xmin w) (s_xll s) x0 in
      let xmax := limit (w_xmax w) (s_xll s) x1 in
      let ymin := limit (w_ymin w) (s_yll s) y0 in
      let ymax := limit (w_ymax w) (s_yll s) y1 in
      if negb (Rleb xmin xmax && Rleb ymin ymax) then None
      else if Reqb cell 0 then None
      else
        let ncols := Z.to_nat (trunc ((xmax - xmin) / cell) + 1) in
        let nrows := Z.to_nat (trunc ((ymax - ymin) / cell) + 1) in
        let newxll := xmin + s_xll s in
        let newyll := ymin + s_yll s in
        let X i := (px (point_of s i) + s_xll s - newxll, py (point_of s i) + s_yll s - newyll) in
        Some {| g_rows := nrows; g_cols := ncols; g_xmin := xmin; g_ymin := ymin;
                g_values := calc_grid_values nrows ncols cell nodata X (s_volumes s) val (fun _ => 0) |}
  | _, _, _, _ => None
  end.

(** Lines 538-539 of save_to_array: the coordinates that are returned with the
    values. *)
Definition array_x (cell : R) (s : surface) (g : grid) (k : nat) : R := INR k * cell + s_xll s - (g_xmin g + s_xll s).
Definition array_y (cell : R) (s : surface) (g : grid) (j : nat) : R := INR j * cell + s_yll s - (g_ymin g + s_yll s).

(** Lines 231-263 of sww2dem.py: the values at the vertices, block by block.
    [expr t p] is the expression evaluated with the values at time [t] and
    point [p]; [timed]: some quantity in it depends on time (otherwise [t] does
    not matter); [reduction] is max or min of a list, or takes one element. *)
Definition block (expr : nat -> nat -> R) (timed : bool) (times : nat) (reduction : list R -> R) (first n : nat) : list R :=
  map (fun p => if timed then reduction (map (fun t => expr t p) (seq 0 times)) else expr 0%nat p) (seq first n).
Fixpoint blocks (expr : nat -> nat -> R) (timed : bool) (times : nat) (reduction : list R -> R) (size : nat)
    (first remaining fuel : nat) : list R :=
  match fuel with
  | O => []
  | S fuel =>
      if (remaining =? 0)%nat then []
      else
        let n := Nat.min size remaining in
        block expr timed times reduction first n ++ blocks expr timed times reduction size (first + n) (remaining - n) fuel
  end.
Definition vertex_values (expr : nat -> nat -> R) (timed : bool) (times : nat) (reduction : list R -> R) (size points : nat) : list R :=
  blocks expr timed times reduction size 0 points points.

(** * Files *)

(** The numbers in an .asc file, and in the .dem file made from it. *)
Record raster := { r_cols : nat; r_rows : nat; r_xll : R; r_yll : R; r_cell : R; r_nodata : R; r_data : list (list R) }.

(** Text formats: "%f" (line 449) and "%.de" (line 461) give a nearest
    decimal of that form; which one of two is left open. *)
Definition prints_fixed (x y : R) : Prop :=
  exists n : Z, y = IZR n / 10 ^ 6 /\ Rabs (x - y) <= / 2 / 10 ^ 6.
Definition prints_exponent (d : nat) (x y : R) : Prop :=
  (x = 0 /\ y = 0) \/
  exists (e : Z) (n : Z), powerRZ 10 e <= Rabs x < powerRZ 10 (e + 1) /\
    y = IZR n * powerRZ 10 (e - Z.of_nat d) /\ Rabs (x - y) <= / 2 * powerRZ 10 (e - Z.of_nat d).

(** Lines 445-471 of sww2dem.py; [fixed] and [expo] are the values of the
    printed texts. *)
Definition write_asc (fixed expo : R -> R) (cell nodata : R) (s : surface) (g : grid) : raster :=
  {| r_cols := g_cols g; r_rows := g_rows g;
     r_xll := IZR (trunc (g_xmin g + s_xll s)); r_yll := IZR (trunc (g_ymin g + s_yll s));
     r_cell := fixed cell; r_nodata := IZR (trunc nodata);
     r_data := map (fun i => map (fun k => expo (at_grid g (g_rows g - i - 1) k)) (seq 0 (g_cols g))) (seq 0 (g_rows g)) |}.

(** asc2dem.py lines 118-198: the number of lines is checked; loadtxt refuses
    rows of different lengths, and the assignment other lengths than [ncols]
    (a file with one column is not considered). *)
Definition asc2dem (a : raster) : option raster :=
  if (length (r_data a) =? r_rows a)%nat && forallb (fun row => (length row =? r_cols a)%nat) (r_data a) then Some a else None.

(** dem2pts.py lines 81-82, 129-132 and 287-353; [named]: an output name is
    given, and line 81 uses the unknown name [basename_out]. *)
Record pts := { p_xll : R; p_yll : R; p_points : list (point * R) }.
Definition dem2pts (named : bool) (w : window) (d : raster) : option pts :=
  if named then None else
  let limit given default := match given with None => default | Some e => e end in
  let xmin := limit (w_xmin w) (r_xll d) in
  let xmax := limit (w_xmax w) (r_xll d + INR (r_cols d) * r_cell d) in
  let ymin := limit (w_ymin w) (r_yll d) in
  let ymax := limit (w_ymax w) (r_yll d + INR (r_rows d) * r_cell d) in
  let all := flat_map (fun i => map (fun k =>
      ((r_xll d + INR k * r_cell d, r_yll d + (INR (r_rows d) - 1) * r_cell d - INR i * r_cell d),
       nth k (nth i (r_data d) []) 0)) (seq 0 (r_cols d))) (seq 0 (r_rows d)) in
  let inside := filter (fun pv => Rleb (px (fst pv)) xmax && Rleb xmin (px (fst pv)) &&
                                  (Rleb (py (fst pv)) ymax && Rleb ymin (py (fst pv)))) all in
  let kept := filter (fun pv => negb (Reqb (snd pv) (r_nodata d))) inside in
  Some {| p_xll := xmin; p_yll := ymin; p_points := map (fun pv => ((px (fst pv) - xmin, py (fst pv) - ymin), snd pv)) kept |}.
