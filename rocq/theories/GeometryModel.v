(** Model of the per-triangle geometry computed by
    anuga/abstract_2d_finite_volumes/general_mesh.py, [General_mesh.__init__]
    lines 162-277 (arrays are processed row by row; one row is modelled). *)
From Coq Require Import Reals List.
From Verif Require Import RealLib.
Local Open Scope R_scope.

Section Triangle.
(** Vertex coordinates (lines 162-168). *)
Variables x0 y0 x1 y1 x2 y2 : R.

(** Line 170. *)
Definition area : R := - ((x1*y0 - x0*y1) + (x2*y1 - x1*y2) + (x0*y2 - x2*y0)) / 2.

(** Line 178: the constructor accepts the triangle. *)
Definition area_ok : bool := Rltb 0 area.

(** Lines 204, 211, 218. *)
Definition l0 : R := sqrt ((x2 - x1)^2 + (y2 - y1)^2).
Definition l1 : R := sqrt ((x0 - x2)^2 + (y0 - y2)^2).
Definition l2 : R := sqrt ((x1 - x0)^2 + (y1 - y0)^2).
Definition edgelength (i : nat) : R := match i with 0%nat => l0 | 1%nat => l1 | _ => l2 end.

(** Lines 202-232: normal i = (yn_i, -xn_i). *)
Definition normal (i : nat) : R * R :=
  match i with
  | 0%nat => ((y2 - y1) / l0, - ((x2 - x1) / l0))
  | 1%nat => ((y0 - y2) / l1, - ((x0 - x2) / l1))
  | _ => ((y1 - y0) / l2, - ((x1 - x0) / l2))
  end.

(** Lines 238-239. *)
Definition centroid : R * R := ((x0 + x1 + x2) / 3, (y0 + y1 + y2) / 3).

(** Lines 248-267: distance from the centroid to the nearest edge midpoint. *)
Definition mid_dist (xa ya xb yb : R) : R :=
  sqrt ((fst centroid - (xa + xb) / 2)^2 + (snd centroid - (ya + yb) / 2)^2).
Definition radius_old : R :=
  Rmin (Rmin (mid_dist x1 y1 x2 y2) (mid_dist x2 y2 x0 y0)) (mid_dist x0 y0 x1 y1).

(** Lines 273-277: [use_inscribed_circle]. *)
Definition radius_inscribed : R :=
  2 * area / (sqrt ((x0 - x1)^2 + (y0 - y1)^2) + sqrt ((x1 - x2)^2 + (y1 - y2)^2)
              + sqrt ((x2 - x0)^2 + (y2 - y0)^2)).
End Triangle.
