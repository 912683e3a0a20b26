(** Model of anuga/coordinate_transforms/geo_reference.py. *)
From Coq Require Import Reals List ZArith Bool.
From Verif Require Import RealLib.
Import ListNotations.
Local Open Scope R_scope.

Inductive hemisphere := Southern | Northern | Undefined.
Definition hemisphere_eqb (a b : hemisphere) : bool :=
  match a, b with Southern, Southern | Northern, Northern | Undefined, Undefined => true | _, _ => false end.

(** A georeference; [ident] is the identity of the Python object. *)
Record georef := Geo { ident : nat; zone : Z; hemi : hemisphere; xllcorner : R; yllcorner : R }.

Definition default_zone : Z := (-1)%Z.

(** [num.allclose([xllcorner, yllcorner], 0)], line 109: atol = 1e-8, and
    rtol is multiplied by |0|. *)
Definition is_absolute (g : georef) : bool :=
  Rleb (Rabs (xllcorner g - 0)) (/ 10 ^ 8 + / 10 ^ 5 * Rabs 0) && Rleb (Rabs (yllcorner g - 0)) (/ 10 ^ 8 + / 10 ^ 5 * Rabs 0).

(** What [ensure_numeric(points, float)] can give: an array with one axis, an
    array with rows of two numbers, or any other shape. *)
Inductive points := Single (coordinates : list R) | Table (rows : list (R * R)) | Other.

Definition shift (dx dy : R) (rows : list (R * R)) : list (R * R) := map (fun p => (fst p + dx, snd p + dy)) rows.

(** [get_absolute], lines 331-360.  [None]: an exception.  For one axis the
    formatting of the message with points.shape raises; so it does for three
    or more axes; two axes of another width raise ShapeError. *)
Definition get_absolute (g : georef) (p : points) : option points :=
  match p with
  | Table rows => Some (Table (if negb (is_absolute g) then shift (xllcorner g) (yllcorner g) rows else rows))
  | _ => None
  end.

(** [get_relative], lines 362-395: one axis has no shape[1]. *)
Definition get_relative (g : georef) (p : points) : option points :=
  match p with
  | Table rows => Some (Table (if negb (is_absolute g) then shift (- xllcorner g) (- yllcorner g) rows else rows))
  | _ => None
  end.

(** [change_points_geo_ref], lines 262-308 *)
Definition change_points_geo_ref (self : georef) (p : points) (points_geo_ref : option georef) : option points :=
  match match p with
        | Single [x; y] => Some [(x, y)]
        | Single _ => None
        | Table rows => Some rows
        | Other => None
        end with
  | None => None
  | Some rows =>
      let same := match points_geo_ref with Some g => Nat.eqb (ident g) (ident self) | None => false end in
      if negb same then
        let rows := match points_geo_ref with Some g => shift (xllcorner g) (yllcorner g) rows | None => rows end in
        Some (Table (shift (- xllcorner self) (- yllcorner self) rows))
      else Some (Table rows)
  end.

(** [reconcile_zones], lines 397-428: the two objects as they are left, and
    whether the call returned normally. *)
Definition set_zone (g : georef) (z : Z) : georef := Geo (ident g) z (hemi g) (xllcorner g) (yllcorner g).
Definition set_hemi (g : georef) (h : hemisphere) : georef := Geo (ident g) (zone g) h (xllcorner g) (yllcorner g).

Definition reconcile_zones (self other : georef) : georef * georef * bool :=
  let '(self, other, ok) :=
    if (zone self =? zone other)%Z then (self, other, true)
    else if (zone self =? default_zone)%Z then (set_zone self (zone other), other, true)
    else if (zone other =? default_zone)%Z then (self, set_zone other (zone self), true)
    else (self, other, false) in
  if ok then
    if hemisphere_eqb (hemi self) (hemi other) then (self, other, true)
    else if hemisphere_eqb (hemi self) Undefined then (set_hemi self (hemi other), other, true)
    else if hemisphere_eqb (hemi other) Undefined then (self, set_hemi other (hemi self), true)
    else (self, other, false)
  else (self, other, false).
