(** Model of the readers of elevation grids in anuga/file_conversion:
    grd2array.py, dem2array.py and tif2array.py, of the decimation dem2dem.py,
    and of their use for the values of a quantity
    (anuga/abstract_2d_finite_volumes/quantity.py lines 1342-1375).  Real
    arithmetic; [None] is an exception, or NaN in a [flt]. *)
From Coq Require Import Reals List ZArith Arith Bool.
From Verif Require Import RealLib GridModel Interp2dModel.
Import ListNotations.
Local Open Scope R_scope.

(** * Arrays *)

(** Arrays of one and two dimensions: the shape and the values. *)
Inductive ndarray := Vector (n : nat) (v : nat -> flt) | Matrix (m n : nat) (z : nat -> nat -> flt).

(** The value in row [i] and column [k] of a table. *)
Definition cell_of (data : list (list R)) (i k : nat) : R := nth k (nth i data []) 0.

(** [numpy.loadtxt]: rows of different lengths are refused, and dimensions of
    length 1 are dropped; with none left [numpy.flipud] raises. *)
Definition loadtxt (data : list (list R)) : option ndarray :=
  match data with
  | [] => Some (Vector 0 (fun _ => None))
  | row :: rest =>
      if negb (forallb (fun r => (length r =? length row)%nat) rest) then None
      else if (length row =? 1)%nat then
        if (length data =? 1)%nat then None
        else Some (Vector (length data) (fun i => Some (cell_of data i 0)))
      else if (length data =? 1)%nat then Some (Vector (length row) (fun k => Some (cell_of data 0 k)))
      else Some (Matrix (length data) (length row) (fun i k => Some (cell_of data i k)))
  end.

(** [numpy.flipud]: the first axis reversed. *)
Definition flipud (a : ndarray) : ndarray :=
  match a with
  | Vector n v => Vector n (fun i => v (n - 1 - i)%nat)
  | Matrix m n z => Matrix m n (fun i k => z (m - 1 - i)%nat k)
  end.
(** [numpy.fliplr], for matrices: the second axis reversed. *)
Definition fliplr (a : ndarray) : ndarray :=
  match a with
  | Vector n v => Vector n v
  | Matrix m n z => Matrix m n (fun i k => z i (n - 1 - k)%nat)
  end.
Definition transpose (a : ndarray) : ndarray :=
  match a with
  | Vector n v => Vector n v
  | Matrix m n z => Matrix n m (fun i k => z k i)
  end.
(** [numpy.where(Z == nodata, numpy.nan, Z)] *)
Definition where_nan (nodata : R) (a : ndarray) : ndarray :=
  let f (v : flt) := match v with Some r => if Reqb r nodata then None else Some r | None => None end in
  match a with
  | Vector n v => Vector n (fun i => f (v i))
  | Matrix m n z => Matrix m n (fun i k => f (z i k))
  end.
(** [numpy.linspace] *)
Definition linspace (a b : R) (n : nat) : list R := map (fun i => a + INR i * ((b - a) / INR (n - 1))) (seq 0 n).

(** What the readers return: x, y, Z. *)
Record axes := { ax_x : list R; ax_y : list R; ax_z : ndarray }.

(** * Readers *)

(** The word before the number in the third and fourth line of the file. *)
Inductive keyword := Corner | Center | Unknown.
Record asc_file := { a_xkey : keyword; a_ykey : keyword; a_raster : raster }.
Definition known (k : keyword) : bool := match k with Unknown => false | _ => true end.

(** asc2dem.py lines 132-148 are the same as in grd2array.py; the rest is in
    [GridModel]. *)
Definition asc2dem_file (f : asc_file) : option raster :=
  if known (a_xkey f) && known (a_ykey f) then asc2dem (a_raster f) else None.

(** grd2array.py lines 64-121 *)
Definition grd2array (f : asc_file) : option axes :=
  let a := a_raster f in
  if negb (known (a_xkey f) && known (a_ykey f)) then None
  else
    let nodata := IZR (trunc (r_nodata a)) in
    if negb (length (r_data a) =? r_rows a)%nat then None
    else match loadtxt (r_data a) with
    | None => None
    | Some z =>
        let z := transpose (flipud z) in
        Some {| ax_x := linspace (r_xll a) (r_xll a + r_cell a * (INR (r_cols a) - 1)) (r_cols a);
                ax_y := linspace (r_yll a) (r_yll a + r_cell a * (INR (r_rows a) - 1)) (r_rows a);
                ax_z := where_nan nodata z |}
    end.

(** A .dem file holds rows times columns elevations. *)
Definition well_formed (d : raster) : bool :=
  (length (r_data d) =? r_rows d)%nat && forallb (fun row => (length row =? r_cols d)%nat) (r_data d).

(** dem2array.py lines 61-89 *)
Definition dem2array (d : raster) : option axes :=
  if negb (well_formed d) then None
  else
    let z := Matrix (r_rows d) (r_cols d) (fun i k => Some (cell_of (r_data d) i k)) in
    let z := where_nan (r_nodata d) z in
    let z := fliplr (transpose z) in
    Some {| ax_x := linspace (r_xll d) (r_xll d + (INR (r_cols d) - 1) * r_cell d) (r_cols d);
            ax_y := linspace (r_yll d) (r_yll d + (INR (r_rows d) - 1) * r_cell d) (r_rows d);
            ax_z := z |}.

(** A GeoTIFF as GDAL presents it: the origin is the corner of the first
    pixel, the steps lead from one column or row to the next. *)
Record tif := { t_cols : nat; t_rows : nat; t_x : R; t_xres : R; t_y : R; t_yres : R;
                t_nodata : option R; t_data : nat -> nat -> R }.

(** tif2array.py lines 9-29; a comparison with [None] is false. *)
Definition tif2array (t : tif) : axes :=
  let z := Matrix (t_rows t) (t_cols t) (fun i k => Some (t_data t i k)) in
  let z := match t_nodata t with Some v => where_nan v z | None => z end in
  let x := linspace (t_x t) (t_x t + (INR (t_cols t) - 1) * t_xres t) (t_cols t) in
  if Rltb (t_yres t) 0 then
    {| ax_x := x;
       ax_y := linspace (t_y t + (INR (t_rows t) - 1) * t_yres t) (t_y t) (t_rows t);
       ax_z := transpose (flipud z) |}
  else
    {| ax_x := x;
       ax_y := linspace (t_y t) (t_y t + (INR (t_rows t) - 1) * t_yres t) (t_rows t);
       ax_z := transpose z |}.

(** quantity.py lines 1348-1375: the values at points with absolute
    coordinates; interpolate2d.py line 300 refuses a vector. *)
Definition values_at (a : axes) (points : list (flt * flt)) : option (list flt) :=
  match ax_z a with
  | Vector _ _ => None
  | Matrix m n z => interpolate2d Linear false (ax_x a) (ax_y a) (m, n) z points
  end.

(** * Decimation *)

Record stencil := { s_rows : nat; s_cols : nat; s_at : nat -> nat -> R }.
Definition total (n : nat) (f : nat -> R) : R := fold_right Rplus 0 (map f (seq 0 n)).

(** dem2dem.py lines 121-131: the new value made from the block that starts
    in row [r] and column [c]. *)
Definition decimated (st : stencil) (nodata : R) (data : list (list R)) (r c : nat) : R :=
  if existsb (fun a => existsb (fun b => Reqb (cell_of data (r + a) (c + b)) nodata) (seq 0 (s_cols st))) (seq 0 (s_rows st))
  then nodata
  else total (s_rows st) (fun a => total (s_cols st) (fun b => cell_of data (r + a) (c + b) * s_at st a b)).

(** dem2dem.py lines 31-141, for positive cell sizes; [named]: a name is given
    for the output, and line 31 uses the unknown name [basename_out].  Lines
    44-45 cut the cell size and NODATA to integers; lines 67-69 divide by
    them.  A stencil larger than the grid is refused where the number of rows
    or columns becomes negative. *)
Definition dem2dem (named : bool) (st : stencil) (cell_new : R) (d : raster) : option raster :=
  if named then None
  else if negb (well_formed d) then None
  else
    let cell := trunc (r_cell d) in
    let nodata := IZR (trunc (r_nodata d)) in
    if (cell =? 0)%Z then None
    else
      let x_offset := INR (s_cols st) / 2 in
      let y_offset := INR (s_rows st) / 2 in
      let ratio := trunc (cell_new / IZR cell) in
      if (ratio =? 0)%Z then None
      else
        let ncols := (1 + (Z.of_nat (r_cols d) - Z.of_nat (s_cols st)) / ratio)%Z in
        let nrows := (1 + (Z.of_nat (r_rows d) - Z.of_nat (s_rows st)) / ratio)%Z in
        if (ncols <? 0)%Z || (nrows <? 0)%Z then None
        else Some {| r_cols := Z.to_nat ncols; r_rows := Z.to_nat nrows;
                     r_xll := r_xll d + x_offset * IZR cell; r_yll := r_yll d + y_offset * IZR cell;
                     r_cell := cell_new; r_nodata := nodata;
                     r_data := map (fun i => map (fun j =>
                                 decimated st nodata (r_data d) (i * Z.to_nat ratio) (j * Z.to_nat ratio))
                                 (seq 0 (Z.to_nat ncols))) (seq 0 (Z.to_nat nrows)) |}.
