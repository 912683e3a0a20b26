(** Model of the report of the volume of water: [get_water_volume],
    [get_boundary_flux_integral], [get_fractional_step_volume_integral] and
    [report_water_volume_statistics], anuga/shallow_water/shallow_water_domain.py
    lines 1626-1748 and 2749-2781, with [get_integral],
    anuga/abstract_2d_finite_volumes/quantity.py lines 2256-2284.  Real
    arithmetic. *)
From Coq Require Import Reals List Bool.
From Verif Require Import RealLib.
Import ListNotations.
Local Open Scope R_scope.

(** What is held for a triangle: area, flag of a full triangle (not a ghost),
    centroid values of stage, elevation and height, vertex values of stage and
    elevation *)
Record triangle := { area : R; full : bool; stage : R; elevation : R; height : R; stage_v : R * R * R; elevation_v : R * R * R }.
Definition process := list triangle.

(** [get_integral] with its defaults, quantity.py lines 2269-2272 *)
Definition get_integral (value : triangle -> R) (p : process) : R :=
  Rsum (map (fun t => area t * value t) (filter full p)).
(** [Stage - Elev], quantity.py lines 123-154: vertex values are subtracted,
    [set_values] takes their mean as the centroid value. *)
Definition difference (t : triangle) : R :=
  let '(a, b, c) := stage_v t in
  let '(x, y, z) := elevation_v t in
  ((a + - x) + (b + - y) + (c + - z)) / 3.
(** Lines 1632-1649 *)
Definition local_volume (evolved discontinuous : bool) (p : process) : R :=
  if negb evolved then get_integral (fun t => stage t - elevation t) p
  else if discontinuous then get_integral height p
  else get_integral difference p.
(** Lines 1658-1672 (also 1700-1713, 1734-1748): process 0 adds what the others
    send, in order, and sends the total to each of them.  The list has what
    each process returns. *)
Definition exchange (values : list R) : list R :=
  match values with
  | [] => []
  | [v] => [v]
  | v :: others => let total := fold_left Rplus others v in total :: map (fun _ => total) others
  end.
Definition get_water_volume (evolved discontinuous : bool) (ps : list process) : list R :=
  exchange (map (local_volume evolved discontinuous) ps).

(** A moment of the run: the states of the processes, the flux integral and the
    fractional step integral of each *)
Record moment := { evolved : bool; processes : list process; flux : list R; fractional : list R }.
(** [report_water_volume_statistics] on process 0, lines 2764-2775: the volume is
    appended to the history; the line that is printed last. *)
Definition report_statistics (discontinuous : bool) (history : list R) (m : moment) : list R * R :=
  let volume := hd 0 (get_water_volume (evolved m) discontinuous (processes m)) in
  let history := history ++ [volume] in
  (history, volume - hd 0 (exchange (flux m)) - hd 0 (exchange (fractional m)) - hd 0 history).
(** Reports at successive moments *)
Fixpoint reports (discontinuous : bool) (history : list R) (ms : list moment) : list R :=
  match ms with
  | [] => []
  | m :: ms => let '(history, line) := report_statistics discontinuous history m in line :: reports discontinuous history ms
  end.
