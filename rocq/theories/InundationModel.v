(** Model of the search for the highest inundated point:
    [get_maximum_inundation_data], anuga/shallow_water/sww_interrogate.py lines
    439-682, and the methods of the domain with similar names,
    shallow_water_domain.py lines 1563-1623.  Real arithmetic; [None] as a
    result is an exception. *)
From Coq Require Import Reals List Arith Bool.
From Verif Require Import RealLib PolygonModel ExtremaModel.
Import ListNotations.
Local Open Scope R_scope.

(** What is read from the file: coordinates relative to the corner, triangles,
    times, values at the nodes (one row of stages per time), and values at the
    centroids if they are stored *)
Record sww := { nodes : list point; corner : point; volumes : list (nat * nat * nat); times : list R;
                elevation_v : list R; stage_v : list (list R); centroid_values : option (list R * list (list R)) }.

Definition at_ (l : list R) (k : nat) : R := nth k l 0.
Definition mean3 (l : list R) (t : nat * nat * nat) : R := let '(a, b, c) := t in (at_ l a + at_ l b + at_ l c) / 3.
(** Lines 515-516 and 541-542 *)
Definition places (f : sww) (centroids : bool) : list point :=
  let x := map (fun p => px p + px (corner f)) (nodes f) in
  let y := map (fun p => py p + py (corner f)) (nodes f) in
  if centroids then map (fun t => (mean3 x t, mean3 y t)) (volumes f) else combine x y.
(** Lines 519-526 and 544-549 *)
Definition read_values (f : sww) (centroids : bool) : list R * list (list R) :=
  match centroid_values f with
  | Some es => es
  | None =>
      if centroids then (map (mean3 (elevation_v f)) (volumes f), map (fun row => map (mean3 row) (volumes f)) (stage_v f))
      else (elevation_v f, stage_v f)
  end.
(** [num.take]; [None] is the IndexError. *)
Definition take_all {A : Type} (d : A) (l : list A) (ids : list nat) : option (list A) :=
  if forallb (fun k => (k <? length l)%nat) ids then Some (map (fun k => nth k l d) ids) else None.
Fixpoint all_rows (rows : list (list R)) (ids : list nat) : option (list (list R)) :=
  match rows with
  | [] => Some []
  | row :: rows => match take_all 0 row ids, all_rows rows ids with Some r, Some l => Some (r :: l) | _, _ => None end
  end.
(** Lines 552-572 *)
Definition restrict (f : sww) (centroids : bool) (polygon : option (list point)) : option (list point * list R * list (list R)) :=
  let points := places f centroids in
  let (e, s) := read_values f centroids in
  match polygon with
  | None => Some (points, e, s)
  | Some [] => None
  | Some polygon =>
      let ids := inside_polygon points polygon true in
      match take_all 0 e ids, all_rows s ids, take_all (0, 0) points ids with
      | Some e, Some s, Some points => Some (points, e, s)
      | _, _, _ => None
      end
  end.
(** Lines 575-605 *)
Definition select_times (times : list R) (interval : option (R * R)) : option (list nat) :=
  match interval with
  | None => Some (seq 0 (length times))
  | Some (t0, t1) =>
      if Rltb t1 t0 then None
      else match times with
      | [] => None
      | first :: _ =>
          if Rltb t1 first || Rltb (last times 0) t0 then None
          else
            let steps := filter (fun i => Rleb t0 (at_ times i) && Rleb (at_ times i) t1) (seq 0 (length times)) in
            if forallb (fun i => (i =? 0)%nat) steps then None else Some steps
      end
  end.
(** Lines 624-631 *)
Definition wet_nodes (e row : list R) : list nat := filter (fun k => Rltb 0 (at_ row k - at_ e k)) (seq 0 (length e)).
(** One time, lines 618-674; the best so far is the elevation, the place and
    the time.  Comparing None with a number is a TypeError. *)
Definition best := option (R * point * R).
Definition step (points : list point) (e : list R) (s : list (list R)) (times : list R) (b : option best) (i : nat) : option best :=
  match b with
  | None => None
  | Some b =>
      let wet := wet_nodes e (nth i s []) in
      if forallb (fun k => (k =? 0)%nat) wet then match b with None => Some None | Some _ => None end
      else match argbest greater (map (at_ e) wet) with
      | None => None
      | Some j =>
          let runup := at_ (map (at_ e) wet) j in
          if match b with None => true | Some (m, _, _) => Rltb m runup end
          then match take_all (0, 0) points wet with
               | None => None
               | Some wet_points => Some (Some (runup, nth j wet_points (0, 0), at_ times i))
               end
          else Some b
      end
  end.
(** [get_maximum_inundation_data] with return_time=True *)
Definition maximum_inundation (f : sww) (polygon : option (list point)) (interval : option (R * R)) (centroids : bool) : option best :=
  match restrict f centroids polygon, select_times (times f) interval with
  | Some (points, e, s), Some steps => fold_left (step points e s (times f)) steps (Some None)
  | _, _ => None
  end.

(** [get_wet_elements], shallow_water_domain.py lines 1563-1591: the result
    counts within [indices]. *)
Definition get_wet_elements (elevation stage : list R) (indices : option (list nat)) (minimum_height : R) : list nat :=
  let ids := match indices with None => seq 0 (length elevation) | Some ids => ids end in
  let depth := map (fun k => at_ stage k - at_ elevation k) ids in
  filter (fun j => Rltb minimum_height (at_ depth j)) (seq 0 (length depth)).
(** [get_maximum_inundation_elevation] and [get_maximum_inundation_location],
    lines 1593-1623 *)
Definition get_maximum_inundation_elevation (elevation stage : list R) (indices : option (list nat)) (minimum_height : R) : option R :=
  get_extremum_value greater elevation (Some (get_wet_elements elevation stage indices minimum_height)).
Definition get_maximum_inundation_location (coords : list point) (elevation stage : list R) (indices : option (list nat)) (minimum_height : R) : option point :=
  get_extremum_location greater coords elevation (Some (get_wet_elements elevation stage indices minimum_height)).
