(** Model of anuga/utilities/quantity_setting_functions.py:
    [make_nearestNeighbour_quantity_function] (lines 12-161) and
    [composite_quantity_setting_function] (lines 166-603).  Real arithmetic;
    [None] is an exception, or NaN in a [flt]. *)
From Coq Require Import Reals List Arith Bool.
From Verif Require Import RealLib ArrayLib PolygonModel Interp2dModel.
Import ListNotations.
Local Open Scope R_scope.

(** [a[inds] = vs] and [a[inds] = v] *)
Definition assign {A} (a : nat -> A) (inds : list nat) (vs : list A) : nat -> A :=
  fold_left (fun a kv => upd a (fst kv) (snd kv)) (combine inds vs) a.
Definition assign_all {A} (a : nat -> A) (inds : list nat) (v : A) : nat -> A := fold_left (fun a k => upd a k v) inds a.
Definition is_nan (v : flt) : bool := match v with None => true | Some _ => false end.

(** * Nearest neighbours *)

Definition distance (p q : point) : R := sqrt ((px p - px q) * (px p - px q) + (py p - py q) * (py p - py q)).
Inductive method := Average | Min | Max.
Definition huge : R := 9 * 10 ^ 100.
Definition tiny : R := / 10 ^ 100.

Section Query.
(** [cKDTree(points).query(p, k)]: the indices of the [k] nearest points *)
Variable query : list point -> nat -> point -> list nat.

(** Lines 110-156, for one point with the neighbours [l]: (distance, value) *)
Definition neighbour_value (m : method) (l : list (R * R)) : R :=
  match m with
  | Min => fold_left (fun numerator dv => Rmin numerator (snd dv)) l huge
  | Max => fold_left (fun numerator dv => Rmax numerator (snd dv)) l (- huge)
  | Average =>
      let '(numerator, denominator) := fold_left (fun '(numerator, denominator) dv =>
          let inverse_distance := 1 / (fst dv + tiny) in
          (numerator + snd dv * inverse_distance, denominator + inverse_distance)) l (0, 0) in
      numerator / denominator
  end.

(** Lines 85-158 for one point [p] in the coordinates of the domain, whose
    corner is [origin]; fewer rows than neighbours are an IndexError (the query
    fills up with the index behind the last), unless no point is near. *)
Definition absolute (origin p : point) : point := (px p + px origin, py p + py origin).
Definition nearest (rows : list (point * R)) (threshold background : R) (k : nat) (m : method) (origin p : point) : option R :=
  let z := absolute origin p in
  let neighbours := map (fun i => (distance z (fst (nth i rows ((0, 0), 0))), snd (nth i rows ((0, 0), 0))))
                        (query (map fst rows) (Nat.min k (length rows)) z) in
  match neighbours with
  | [] => Some background
  | (d, _) :: _ =>
      if Rltb d threshold then if (k <=? length rows)%nat then Some (neighbour_value m neighbours) else None
      else Some background
  end.

(** * Composite functions *)

(** The polygon of a pair: None, 'All', or vertices (given, read from a file,
    or the extent of a raster). *)
Inductive region := Skip | All | Inside (polygon : list point).
(** The function: callable (also one made from a raster), a constant, or
    points with values (also read from a file). *)
Inductive source := Callable (f : point -> flt) | Constant (c : R) | Points (rows : list (point * R)).
Inductive treatment := Exception_ | Fall_through | Unrecognized.
Inductive nan_region := No_region | Everywhere | Polygons (l : list (list point)).

Record options := { o_origin : point; o_clip : option (list (R * R)); o_treatment : treatment;
                    o_region : nan_region; o_k : nat }.

(** [f(x[inds], y[inds])] *)
Fixpoint all_some {A} (l : list (option A)) : option (list A) :=
  match l with
  | [] => Some []
  | None :: _ => None
  | Some a :: l => option_map (cons a) (all_some l)
  end.
(** Lines 401-445 *)
Definition evaluate (o : options) (s : source) (points : list point) : option (list flt) :=
  match s with
  | Callable f => Some (map f points)
  | Constant c => Some (map (fun _ => Some (c * 1)) points)
  | Points rows => option_map (map Some) (all_some (map (nearest rows huge huge (o_k o) Average (o_origin o)) points))
  end.

Record state := { is_set : nat -> bool; val : nat -> flt; ever_nan : nat -> bool }.

(** Lines 494-501 *)
Definition clip (range : R * R) (v : flt) : flt :=
  match v with Some v => Some (Rmin (Rmax v (fst range)) (snd range)) | None => None end.
Definition enforce (o : options) (i : nat) (v : flt) : flt :=
  match o_clip o with Some l => clip (nth i l (0, 0)) v | None => v end.

(** Lines 393-501, for the points [inds] that pair [i] with source [s] may set;
    [xy k] is point [k]. *)
Definition apply_source (o : options) (xy : nat -> point) (st : state) (i : nat) (s : source) (inds : list nat) : option state :=
  match inds with
  | [] => Some st
  | _ =>
      match evaluate o s (map xy inds) with
      | None => None
      | Some vs =>
          let v := assign (val st) inds vs in
          let finish (inds : list nat) (ever : nat -> bool) :=
            Some {| is_set := assign_all (is_set st) inds true;
                    val := assign v inds (map (fun k => enforce o i (v k)) inds); ever_nan := ever |} in
          let nan_inds := filter (fun k => is_nan (v k)) inds in
          let ever := assign_all (ever_nan st) nan_inds true in
          match nan_inds with
          | [] => finish inds ever
          | _ =>
              match o_treatment o with
              | Exception_ | Unrecognized => None
              | Fall_through =>
                  match filter (fun k => negb (is_nan (v k))) inds with
                  | [] => Some {| is_set := is_set st; val := v; ever_nan := ever |}
                  | inds => finish inds ever
                  end
              end
          end
      end
  end.

(** One round of the main loop, lines 343-501, for [n] points *)
Definition round (o : options) (n : nat) (xy : nat -> point) (st : state) (i : nat) (pf : region * source) : option state :=
  let not_set := filter (fun k => negb (is_set st k)) (seq 0 n) in
  match fst pf with
  | Skip => Some st
  | All => apply_source o xy st i (snd pf) not_set
  | Inside polygon =>
      apply_source o xy st i (snd pf)
        (map (fun j => nth j not_set 0%nat) (inside_polygon (map (fun k => absolute (o_origin o) (xy k)) not_set) polygon true))
  end.
Fixpoint rounds (o : options) (n : nat) (xy : nat -> point) (st : state) (i : nat) (pairs : list (region * source)) : option state :=
  match pairs with
  | [] => Some st
  | pf :: pairs => match round o n xy st i pf with Some st => rounds o n xy st (S i) pairs | None => None end
  end.

(** Lines 333-339: 'All' only in the last pair that is not None *)
Fixpoint all_last (pairs : list (region * source)) : bool :=
  match pairs with
  | [] => true
  | (All, _) :: pairs => forallb (fun p => match fst p with Skip => true | _ => false end) pairs
  | _ :: pairs => all_last pairs
  end.

(** Lines 300-309 *)
Definition clip_ok (clip : option (list (R * R))) (pairs : list (region * source)) : bool :=
  match clip with
  | None => true
  | Some l => (length l =? length pairs)%nat && forallb (fun r => negb (Rltb (snd r) (fst r))) l
  end.

(** Lines 533-587, for the points [inds]: values interpolated from the other
    points *)
Definition interpolate_again (o : options) (n : nat) (xy : nat -> point) (st : state) (inds : list nat) : option state :=
  let ip := filter (fun k => negb (existsb (Nat.eqb k) inds)) (seq 0 n) in
  if existsb (fun k => is_nan (val st k)) ip then None
  else if (length ip <? o_k o)%nat then None
  else
    let rows := map (fun k => (absolute (o_origin o) (xy k), match val st k with Some v => v | None => 0 end)) ip in
    match evaluate o (Points rows) (map xy inds) with
    | None => None
    | Some vs => Some {| is_set := assign_all (is_set st) inds true; val := assign (val st) inds vs; ever_nan := ever_nan st |}
    end.
(** Lines 505-587 *)
Definition reinterpolate (o : options) (n : nat) (xy : nat -> point) (st : state) : option state :=
  let ever := filter (ever_nan st) (seq 0 n) in
  match o_region o, ever with
  | No_region, _ | _, [] => Some st
  | Everywhere, _ => interpolate_again o n xy st ever
  | Polygons l, _ =>
      interpolate_again o n xy st (concat (map (fun polygon => map (fun j => nth j ever 0%nat)
             (inside_polygon (map (fun k => absolute (o_origin o) (xy k)) ever) polygon true)) l))
  end.

(** The function F, lines 311-600, at the points [points]; [min] of no points
    raises (line 590). *)
Definition composite (o : options) (pairs : list (region * source)) (points : list point) : option (list flt) :=
  if negb (clip_ok (o_clip o) pairs) then None
  else match pairs with
  | [] => None
  | _ =>
      let n := length points in
      let xy k := nth k points (0, 0) in
      if negb (all_last pairs) then None
      else match rounds o n xy {| is_set := fun _ => false; val := fun _ => None; ever_nan := fun _ => false |} 0 pairs with
      | None => None
      | Some st =>
          match reinterpolate o n xy st with
          | None => None
          | Some st =>
              if (n =? 0)%nat || negb (forallb (is_set st) (seq 0 n)) then None else Some (map (val st) (seq 0 n))
          end
      end
  end.
End Query.
