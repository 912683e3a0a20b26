(** Model of the conversions between latitude and longitude and UTM,
    anuga/coordinate_transforms/lat_long_UTM_conversion.py.  Real arithmetic. *)
From Coq Require Import Ascii Reals List ZArith Bool.
From Verif Require Import RealLib GridModel.
Import ListNotations.
Local Open Scope R_scope.

(** Half open interval *)
Definition inside (x lo hi : R) : bool := Rleb lo x && Rltb x hi.
(** Line 76 *)
Definition long_temp (Long : R) : R := (Long + 180) - IZR (trunc ((Long + 180) / 360)) * 360 - 180.
(** Lines 81-91: the zone, with the exceptions for Norway and Svalbard *)
Definition zone_number (Lat Long : R) : Z :=
  let t := long_temp Long in
  let zone := (trunc ((t + 180) / 6) + 1)%Z in
  let zone := if inside Lat 56 64 && inside t 3 12 then 32%Z else zone in
  if inside Lat 72 84 then
    if inside t 0 9 then 31%Z else if inside t 9 21 then 33%Z else if inside t 21 33 then 35%Z else if inside t 33 42 then 37%Z else zone
  else zone.
(** Line 93 *)
Definition long_origin (zone : Z) : R := (IZR zone - 1) * 6 - 180 + 3.

(** Lines 99-124: meridian distance and the terms of the easting and northing,
    for an ellipsoid with equatorial radius [a] and squared eccentricity [e] *)
Definition rad (x : R) : R := x * (PI / 180).
Definition meridian_distance (a e phi : R) : R :=
  a * ((1 - e / 4 - 3 * e * e / 64 - 5 * e * e * e / 256) * phi
       - (3 * e / 8 + 3 * e * e / 32 + 45 * e * e * e / 1024) * sin (2 * phi)
       + (15 * e * e / 256 + 45 * e * e * e / 1024) * sin (4 * phi)
       - (35 * e * e * e / 3072) * sin (6 * phi)).
Definition radius (a e s : R) : R := a / sqrt (1 - e * s * s).
Definition east_part (ep T C A : R) : R := A + (1 - T + C) * A * A * A / 6 + (5 - 18 * T + T * T + 72 * C - 58 * ep) * A * A * A * A * A / 120.
Definition north_part (ep T C A : R) : R :=
  A * A / 2 + (5 - T + 9 * C + 4 * C * C) * A * A * A * A / 24 + (61 - 58 * T + T * T + 600 * C - 330 * ep) * A * A * A * A * A * A / 720.
(** [LLtoUTM], lines 63-130: zone, easting, northing *)
Definition LLtoUTM (a e Lat Long : R) : Z * R * R :=
  let zone := zone_number Lat Long in
  let phi := rad Lat in
  let ep := e / (1 - e) in
  let N := radius a e (sin phi) in
  let T := tan phi * tan phi in
  let C := ep * cos phi * cos phi in
  let A := cos phi * (rad (long_temp Long) - rad (long_origin zone)) in
  let k0 := 9996 / 10000 in
  let easting := k0 * N * east_part ep T C A + 500000 in
  let northing := k0 * (meridian_distance a e phi + N * tan phi * north_part ep T C A) in
  (zone, easting, if Rltb Lat 0 then northing + 10000000 else northing).

(** [_UTMLetterDesignator], lines 133-158 *)
Definition letter_bands : list (R * ascii) :=
  [(72, "X"); (64, "W"); (56, "V"); (48, "U"); (40, "T"); (32, "S"); (24, "R"); (16, "Q"); (8, "P"); (0, "N"); (-8, "M"); (-16, "L"); (-24, "K"); (-32, "J");
   (-40, "H"); (-48, "G"); (-56, "F"); (-64, "E"); (-72, "D"); (-80, "C")]%char.
Fixpoint band (upper Lat : R) (l : list (R * ascii)) : ascii :=
  match l with
  | [] => "Z"%char
  | (lower, c) :: l => if Rltb Lat upper && Rleb lower Lat then c else band lower Lat l
  end.
Definition letter (Lat : R) : ascii :=
  if Rleb Lat 84 && Rleb 72 Lat then "X"%char else band 72 Lat (tl letter_bands).

(** [UTMtoLL], lines 163-245: latitude and longitude.  The argument [zone] is an integer. *)
Definition foot (a e M : R) : R :=
  let e1 := (1 - sqrt (1 - e)) / (1 + sqrt (1 - e)) in
  let mu := M / (a * (1 - e / 4 - 3 * e * e / 64 - 5 * e * e * e / 256)) in
  mu + (3 * e1 / 2 - 27 * e1 * e1 * e1 / 32) * sin (2 * mu) + (21 * e1 * e1 / 16 - 55 * e1 * e1 * e1 * e1 / 32) * sin (4 * mu) + (151 * e1 * e1 * e1 / 96) * sin (6 * mu).
Definition lat_part (ep T C D : R) : R :=
  D * D / 2 - (5 + 3 * T + 10 * C - 4 * C * C - 9 * ep) * D * D * D * D / 24
  + (61 + 90 * T + 298 * C + 45 * T * T - 252 * ep - 3 * C * C) * D * D * D * D * D * D / 720.
Definition long_part (ep T C D : R) : R :=
  D - (1 + 2 * T + C) * D * D * D / 6 + (5 - 2 * C + 28 * T - 3 * C * C + 8 * ep + 24 * T * T) * D * D * D * D * D / 120.
Definition UTMtoLL (a e northing easting : R) (zone : Z) (southern : bool) : R * R :=
  let k0 := 9996 / 10000 in
  let x := easting - 500000 in
  let y := if southern then northing - 10000000 else northing in
  let ep := e / (1 - e) in
  let phi1 := foot a e (y / k0) in
  let N1 := radius a e (sin phi1) in
  let T1 := tan phi1 * tan phi1 in
  let C1 := ep * cos phi1 * cos phi1 in
  let R1 := a * (1 - e) / Rpower (1 - e * sin phi1 * sin phi1) (3 / 2) in
  let D := x / (N1 * k0) in
  ((phi1 - (N1 * tan phi1 / R1) * lat_part ep T1 C1 D) * (180 / PI),
   long_origin zone + long_part ep T1 C1 D / cos phi1 * (180 / PI)).
