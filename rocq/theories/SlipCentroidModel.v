(** Model of [rotate_coordinates] and [okada_origin_2_slip_centroid],
    anuga/tsunami_source/okada_tsunami.py lines 267-304. *)
From Coq Require Import Reals.
Local Open Scope R_scope.

(** Lines 267-277 *)
Definition rotate_coordinates (coords : R * R) (angle : R) : R * R :=
  let ct := cos (angle / 180 * PI) in
  let st := sin (angle / 180 * PI) in
  (ct * fst coords - st * snd coords, st * fst coords + ct * snd coords).
(** Lines 279-304 *)
Definition okada_origin_2_slip_centroid (lower_left : R * R) (depth len width strike dip : R) : R * R * R :=
  let new_depth := depth - width / 2 * sin (dip / 180 * PI) in
  let surface_width := width * cos (dip / 180 * PI) in
  let offset := rotate_coordinates (len / 2, surface_width / 2) (- (strike - 90)) in
  (fst lower_left + fst offset * 1000, snd lower_left + snd offset * 1000, new_depth).
