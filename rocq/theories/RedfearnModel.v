(** Model of the projection of latitudes and longitudes,
    anuga/coordinate_transforms/redfearn.py.  Real arithmetic; [None] is an
    exception. *)
From Coq Require Import Reals List ZArith Bool.
From Verif Require Import RealLib GridModel.
Import ListNotations.
Local Open Scope R_scope.

(** [degminsec2decimal_degrees], lines 13-22 *)
Definition degminsec2decimal_degrees (dd mm ss : R) : option R :=
  if Rltb mm 0 || Rltb ss 0 then None
  else let sign := if Rltb dd 0 then -1 else 1 in Some (sign * (Rabs dd + mm / 60 + ss / 3600)).
(** [decimal_degrees2degminsec], lines 24-38; [int] is [trunc]. *)
Definition decimal_degrees2degminsec (dec : R) : Z * Z * R :=
  let sign := if Rltb dec 0 then (-1)%Z else 1%Z in
  let dec := Rabs dec in
  let dd := trunc dec in
  let f := dec - IZR dd in
  let mm := trunc (f * 60) in
  let ss := (f * 60 - IZR mm) * 60 in
  ((sign * dd)%Z, mm, ss).

(** Lines 64-94: the ellipsoid *)
Definition a : R := 6378137.
Definition f : R := 1 / (298257222101 / 10 ^ 9).
Definition e2 : R := 2 * f - f * f.
Definition e4 : R := e2 * e2.
Definition e6 : R := e2 * e4.
(** Lines 126-132: radii of curvature, by the sine of the latitude *)
Definition rho (sinphi : R) : R := a * (1 - e2) / Rpower (1 - e2 * sinphi * sinphi) (3 / 2).
Definition nu (sinphi : R) : R := a / Rpower (1 - e2 * sinphi * sinphi) (1 / 2).
(** Lines 134-145: meridian distance *)
Definition meridian (phi : R) : R :=
  let A0 := 1 - e2 / 4 - 3 * e4 / 64 - 5 * e6 / 256 in
  let A2 := 3 / 8 * (e2 + e4 / 4 + 15 * e6 / 128) in
  let A4 := 15 / 256 * (e4 + 3 * e6 / 4) in
  let A6 := 35 * e6 / 3072 in
  a * A0 * phi + - a * A2 * sin (2 * phi) + a * A4 * sin (4 * phi) + - a * A6 * sin (6 * phi).
(** Lines 175-182: the terms of the northing *)
Definition northing_terms (nu psi s c t omega : R) : R :=
  nu * s * c * omega ^ 2 / 2
  + nu * s * c ^ 3 * (4 * psi ^ 2 + psi - t ^ 2) * omega ^ 4 / 24
  + nu * s * c ^ 5 * (8 * psi ^ 4 * (11 - 24 * t ^ 2) - 28 * psi ^ 3 * (1 - 6 * t ^ 2) + psi ^ 2 * (1 - 32 * t ^ 2) - psi * 2 * t ^ 2 + t ^ 4 - t ^ 2) * omega ^ 6 / 720
  + nu * s * c ^ 7 * (1385 - 3111 * t ^ 2 + 543 * t ^ 4 - t ^ 6) * omega ^ 8 / 40320.
(** Lines 184-189: the terms of the easting *)
Definition easting_terms (nu psi c t omega : R) : R :=
  nu * omega * c
  + nu * c ^ 3 * (psi - t ^ 2) * omega ^ 3 / 6
  + nu * c ^ 5 * (4 * psi ^ 3 * (1 - 6 * t ^ 2) + psi ^ 2 * (1 + 8 * t ^ 2) - 2 * psi * t ^ 2 + t ^ 4) * omega ^ 5 / 120
  + nu * c ^ 7 * (61 - 479 * t ^ 2 + 179 * t ^ 4 - t ^ 6) * omega ^ 7 / 5040.

(** Lines 151-158: the zone of a longitude *)
Definition zone_of (lon : R) : option Z :=
  let zone := trunc ((lon - (-186)) / 6) in
  let zone := if (60 <? zone)%Z then (zone - 60)%Z else zone in
  if (zone =? -1)%Z || ((1 <=? zone)%Z && (zone <=? 60)%Z) then Some zone else None.
Definition central (zone : Z) : R := IZR zone * 6 + (-183).
(** Lines 66-83 and 147-191: the zone and the meridian that are used, and the
    projection about it *)
Definition default {A} (x : A) (o : option A) : A := match o with Some y => y | None => x end.
Definition redfearn (lat lon : R) (false_easting false_northing : option R) (zone : option Z) (meridian_given scale_factor : option R) : option (Z * R * R) :=
  match zone, meridian_given with
  | Some _, Some _ => None
  | _, _ =>
      match (match zone with Some z => Some z | None => zone_of lon end) with
      | None => None
      | Some z =>
          let K0 := default (9996 / 10000) scale_factor in
          let east := default 500000 false_easting in
          let north := default (if Rltb lat 0 then 10000000 else 0) false_northing in
          let cm := default (central z) meridian_given in
          let z := match meridian_given with Some _ => (-1)%Z | None => z end in
          let phi := lat * PI / 180 in
          let s := sin phi in
          let psi := nu s / rho s in
          let omega := (lon - cm) * PI / 180 in
          Some (z, east + K0 * easting_terms (nu s) psi (cos phi) (tan phi) omega,
                   north + K0 * (meridian phi + northing_terms (nu s) psi s (cos phi) (tan phi) omega))
      end
  end.

(** [reconcile_zones], geo_reference.py lines 447-457, for the zone of the
    first; the hemispheres are both undefined. *)
Definition reconcile (own other : Z) : option Z :=
  if (own =? other)%Z then Some own else if (own =? -1)%Z then Some other else if (other =? -1)%Z then Some own else None.
(** [convert_from_latlon_to_utm], lines 194-258, on a list of points
    (latitude, longitude) *)
Fixpoint convert_from (east north : option R) (zone : Z) (points : list (R * R)) : option (list (R * R) * Z) :=
  match points with
  | [] => Some ([], zone)
  | (lat, lon) :: points =>
      match redfearn lat lon east north None None None with
      | None => None
      | Some (z, x, y) =>
          match reconcile zone z with
          | None => None
          | Some zone => match convert_from east north zone points with None => None | Some (l, zone) => Some ((x, y) :: l, zone) end
          end
      end
  end.
Definition convert_from_latlon_to_utm (east north : option R) (points : list (R * R)) : option (list (R * R) * Z) := convert_from east north (-1) points.
