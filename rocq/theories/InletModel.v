(** Model of anuga/structures/inlet.py (class [Inlet], lines 11-240),
    anuga/structures/inlet_operator.py ([__call__], 75-166),
    anuga/structures/structure_operator.py ([__call__], 215-362) and
    anuga/operators/rate_operators.py ([__call__], 149-269, [get_Q], 444-480).
    Centroid arrays are functions of the triangle number, a region is the list
    of its triangle numbers. *)
From Coq Require Import Reals List Arith Bool.
From Verif Require Import RealLib ArrayLib.
Import ListNotations.
Local Open Scope R_scope.

(** The centroid values the operators work on. *)
Record dom := Dom { areas : nat -> R; elev : nat -> R; stage : nat -> R;
                    xmom : nat -> R; ymom : nat -> R }.

Definition with_stage d s := Dom (areas d) (elev d) s (xmom d) (ymom d).
Definition with_moms d x y := Dom (areas d) (elev d) (stage d) x y.

(** [a.take(indices)] and [a.put(indices, values)]; [put_all] is [put] with a
    scalar value. *)
Definition take (a : nat -> R) (idx : list nat) : list R := map a idx.
Definition put (a : nat -> R) (idx : list nat) (vals : list R) : nat -> R :=
  fold_left (fun a iv => upd a (fst iv) (snd iv)) (combine idx vals) a.
Definition put_all (a : nat -> R) (idx : list nat) (v : R) : nat -> R :=
  put a idx (map (fun _ => v) idx).

Definition zip_with (f : R -> R -> R) (l1 l2 : list R) : list R :=
  map (fun p => f (fst p) (snd p)) (combine l1 l2).

(** inlet.py 47, 60-63: the areas and their sum. *)
Definition inlet_areas d idx := take (areas d) idx.
Definition inlet_area d idx := Rsum (inlet_areas d idx).
(** inlet.py 103-105 *)
Definition depths d idx := zip_with Rminus (take (stage d) idx) (take (elev d) idx).
(** inlet.py 108-110 *)
Definition total_water_volume d idx := Rsum (zip_with Rmult (depths d idx) (inlet_areas d idx)).
(** inlet.py 71-73, 82-100, 113-115: area weighted averages. *)
Definition average d idx (a : nat -> R) :=
  Rsum (zip_with Rmult (take a idx) (inlet_areas d idx)) / inlet_area d idx.
Definition average_depth d idx := total_water_volume d idx / inlet_area d idx.

(** inlet.py 168-170: [set_depths(depth)] with a scalar depth. *)
Definition set_depths d idx depth :=
  with_stage d (put (stage d) idx (map (fun z => z + depth) (take (elev d) idx))).

(** inlet.py 230-236 *)
Definition set_depths_evenly d idx volume :=
  set_depths d idx (average_depth d idx + volume / inlet_area d idx).

(** [num.cumsum] (started at [acc]) and [num.diff]. *)
Fixpoint cumsum (acc : R) (l : list R) : list R :=
  match l with [] => [] | x :: l => acc + x :: cumsum (acc + x) l end.
Fixpoint diff (l : list R) : list R :=
  match l with a :: (b :: _) as t => b - a :: diff t | _ => [] end.

(** [num.nonzero(l <= v)[0][-1]]: the last position holding a value [<= v]. *)
Fixpoint last_le (l : list R) (v : R) : option nat :=
  match l with
  | [] => None
  | x :: l => match last_le l v with
              | Some k => Some (S k)
              | None => if Rleb x v then Some 0%nat else None
              end
  end.

(** What [stages.argsort()] may return: any sorting permutation. *)
Definition get (l : list R) (k : nat) : R := nth k l 0.
Definition is_argsort (order : list nat) (l : list R) : Prop :=
  NoDup order /\ (forall k, In k order <-> (k < length l)%nat) /\
  forall i j, (i <= j < length order)%nat ->
    get l (nth i order 0%nat) <= get l (nth j order 0%nat).

(** inlet.py 192-225 [set_stages_evenly]; [order] is [stages_order]. [None]
    is an exception. *)
Definition set_stages_evenly (order : list nat) d idx (volume : R) : option dom :=
  if Rltb volume 0 then None else
  let ars := inlet_areas d idx in
  let stages := take (stage d) idx in
  let sorted_stages := map (get stages) order in
  let summed_areas := cumsum 0 (map (get ars) order) in
  let summed_volume := 0 :: cumsum 0 (zip_with Rmult (removelast summed_areas) (diff sorted_stages)) in
  match last_le summed_volume volume with
  | None => None
  | Some index =>
      let depth := (volume - get summed_volume index) / get summed_areas index in
      let level := get stages (nth index order 0%nat) + depth in
      let stages' := fold_left (fun s k => upd s k level) (firstn (S index) order) (get stages) in
      Some (with_stage d (put (stage d) idx (map stages' (seq 0 (length idx)))))
  end.

(** inlet.py 118-124: velocities, with [vp] the [velocity_protection]. *)
Definition velocities (vp : R) d idx (m : nat -> R) : list R :=
  zip_with (fun q h => q * h / (h * h + vp)) (take m idx) (depths d idx).

(** inlet_operator.py: the operator's state and its effect on the domain. *)
Record opstate := Op { odom : dom; fsvi : R; applied_Q : R;
                       total_applied : R; total_requested : R }.

(** Lines 117-129 and 137-149: the momenta after the stages are set. *)
Definition set_inlet_moms (velocity : option (R * R)) (zero_velocity : bool)
    (u v : list R) d idx : dom :=
  let h := depths d idx in
  let d1 := match velocity with
            | Some (vx, vy) =>
                with_moms d (put (xmom d) idx (map (fun h => h * vx) h))
                            (put (ymom d) idx (map (fun h => h * vy) h))
            | None =>
                with_moms d (put (xmom d) idx (zip_with Rmult h u))
                            (put (ymom d) idx (zip_with Rmult h v))
            end in
  if zero_velocity then with_moms d1 (put_all (xmom d1) idx 0) (put_all (ymom d1) idx 0) else d1.

(** [Inlet_operator.__call__], lines 75-166. [Q1], [Q2] are the values of
    [update_Q] at the two ends of the step. *)
Definition inlet_call (vp : R) (velocity : option (R * R)) (zero_velocity : bool)
    (idx order : list nat) (timestep Q1 Q2 : R) (st : opstate) : option opstate :=
  let d := odom st in
  let current_volume := total_water_volume d idx in
  let total_area := inlet_area d idx in
  if Rltb current_volume 0 then None else
  let Q := (1/2) * (Q1 + Q2) in
  let volume := Q * timestep in
  let u := velocities vp d idx (xmom d) in
  let v := velocities vp d idx (ymom d) in
  if Rleb 0 volume then
    match set_stages_evenly order d idx volume with
    | None => None
    | Some d1 =>
        Some (Op (set_inlet_moms velocity zero_velocity u v d1 idx) (fsvi st + volume) Q
                 (total_applied st + volume) (total_requested st + volume))
    end
  else if Rleb 0 (current_volume + volume) then
    let d1 := set_depths d idx ((current_volume + volume) / total_area) in
    Some (Op (set_inlet_moms velocity zero_velocity u v d1 idx) (fsvi st + volume) Q
             (total_applied st + volume) (total_requested st + volume))
  else
    let d1 := set_depths d idx 0 in
    Some (Op (with_moms d1 (put_all (xmom d1) idx 0) (put_all (ymom d1) idx 0))
             (fsvi st - current_volume) (- current_volume / timestep)
             (total_applied st + - current_volume) (total_requested st + volume)).

(** structure_operator.py [__call__], lines 215-362. *)
Record structure := Structure { in_idx : list nat; out_idx : list nat; outward : R * R;
  use_momentum_jet : bool; zero_outflow_momentum : bool; use_old_momentum_method : bool;
  always_adjust : bool }.

(** Its effect: the domain, and [accumulated_flow], [discharge] and
    [discharge_abs_timemean]. *)
Record sstate := SState { sdom : dom; accumulated_flow : R; discharge : R; abs_timemean : R }.

(** [None] when the assertion of line 321 fails; [allclose(x, 0.0)] is
    [abs(x) <= 1e-8]. *)
Definition structure_call (s : structure) (timestep yieldstep Q barrel_speed : R) (st : sstate)
    : option sstate :=
  let d := sdom st in
  let inflow := in_idx s in
  let outflow := out_idx s in
  let in_area := inlet_area d inflow in
  let out_area := inlet_area d outflow in
  let old_inflow_depth := average_depth d inflow in
  let old_inflow_xmom := average d inflow (xmom d) in
  let old_inflow_ymom := average d inflow (ymom d) in
  let dt_Q_on_d := if Rltb 0 old_inflow_depth then timestep * Q / old_inflow_depth else 0 in
  let adjust := always_adjust s || Rleb (old_inflow_depth * in_area) (Q * timestep) in
  let factor := 1 / (1 + dt_Q_on_d / in_area) in
  let new_inflow_depth :=
    if adjust then old_inflow_depth * factor else old_inflow_depth - timestep * Q / in_area in
  let timestep_star :=
    if adjust then
      if Rltb 0 old_inflow_depth then timestep * new_inflow_depth / old_inflow_depth else 0
    else timestep in
  let factor2 :=
    if use_old_momentum_method s then factor
    else if Rltb 0 old_inflow_depth then
      if adjust then 1 / (1 + dt_Q_on_d * new_inflow_depth / (old_inflow_depth * in_area))
      else 1 / (1 + timestep * Q / (old_inflow_depth * in_area))
    else 0 in
  let new_inflow_xmom := old_inflow_xmom * factor2 in
  let new_inflow_ymom := old_inflow_ymom * factor2 in
  let d1 := set_depths d inflow new_inflow_depth in
  let d2 := with_moms d1 (put_all (xmom d1) inflow new_inflow_xmom)
                         (put_all (ymom d1) inflow new_inflow_ymom) in
  let loss := (old_inflow_depth - new_inflow_depth) * in_area in
  let xmom_loss := (old_inflow_xmom - new_inflow_xmom) * in_area in
  let ymom_loss := (old_inflow_ymom - new_inflow_ymom) * in_area in
  let outflow_extra_depth := Q * timestep_star / out_area in
  let gain := outflow_extra_depth * out_area in
  if negb (Rleb (Rabs (gain - loss)) (1 / 100000000)) then None else
  let new_outflow_depth := average_depth d2 outflow + outflow_extra_depth in
  let d3 := set_depths d2 outflow new_outflow_depth in
  let new_outflow_xmom :=
    if use_momentum_jet s then barrel_speed * new_outflow_depth * - fst (outward s)
    else if zero_outflow_momentum s then 0
    else average d3 outflow (xmom d3) + xmom_loss / out_area in
  let new_outflow_ymom :=
    if use_momentum_jet s then barrel_speed * new_outflow_depth * - snd (outward s)
    else if zero_outflow_momentum s then 0
    else average d3 outflow (ymom d3) + ymom_loss / out_area in
  Some (SState (with_moms d3 (put_all (xmom d3) outflow new_outflow_xmom)
                             (put_all (ymom d3) outflow new_outflow_ymom))
               (accumulated_flow st + gain) (Q * timestep_star / timestep)
               (abs_timemean st + gain / yieldstep)).

(** rate_operators.py. The rate as evaluated at the current time: one number,
    a function of the triangle's centroid, or an array over all triangles. *)
Inductive rate_spec :=
| Scalar (r : R)
| Spatial (f : nat -> R)
| CentroidArray (a : nat -> R).

(** Lines 171-197: the rate at the triangles of the region. *)
Definition region_rate (r : rate_spec) (i : nat) : R :=
  match r with Scalar r => r | Spatial f => f i | CentroidArray a => a i end.

(** The region: [None] is every triangle of the domain. *)
Definition region_list (n : nat) (indices : option (list nat)) : list nat :=
  match indices with None => seq 0 n | Some l => l end.

(** Lines 432-442: positions (within the region) of the full triangles. *)
Definition full_positions (full : nat -> bool) (l : list nat) : list nat :=
  filter (fun k => full (nth k l 0%nat)) (seq 0 (length l)).

Record rstate := RState { rdom : dom; rfsvi : R; local_influx : R; cumulative_influx : R }.

(** [Rate_operator.__call__] on [n] triangles. *)
Definition rate_call (n : nat) (full : nat -> bool) (indices : option (list nat))
    (rate : rate_spec) (factor timestep : R) (st : rstate) : rstate :=
  let d := rdom st in
  let l := region_list n indices in
  let ars := take (areas d) l in
  let fid := full_positions full l in
  let r := map (region_rate rate) l in
  if forallb (fun x => Rleb 0 x) (match rate with Scalar r => [r] | _ => r end) then
    let local_rates := map (fun x => factor * timestep * x) r in
    let influx := Rsum (map (get (zip_with Rmult local_rates ars)) fid) in
    let d' := with_stage d (put (stage d) l (zip_with Rplus (take (stage d) l) local_rates)) in
    RState d' (rfsvi st + influx) influx (cumulative_influx st + influx)
  else
    let heights := zip_with Rminus (take (stage d) l) (take (elev d) l) in
    let local_rates := zip_with (fun x h => Rmax (factor * timestep * x) (- h)) r heights in
    let local_factors := zip_with (fun q h =>
      if Rltb q 0 then (q + h) / (h + 1 / 10000000000) else 1) local_rates heights in
    let influx := Rsum (map (get (zip_with Rmult local_rates ars)) fid) in
    let d1 := with_stage d (put (stage d) l (zip_with Rplus (take (stage d) l) local_rates)) in
    let d2 := with_moms d1 (put (xmom d) l (zip_with Rmult (take (xmom d) l) local_factors))
                           (put (ymom d) l (zip_with Rmult (take (ymom d) l) local_factors)) in
    RState d2 (rfsvi st + influx) influx (cumulative_influx st + influx).

(** [get_Q(full_only=True)], lines 444-465: arrays over all triangles are
    indexed by the region positions [fid]. *)
Definition get_Q (n : nat) (full : nat -> bool) (indices : option (list nat))
    (rate : rate_spec) (factor : R) d : R :=
  let l := region_list n indices in
  let ars := take (areas d) l in
  let fid := full_positions full l in
  match rate with
  | Scalar r => Rsum (map (fun k => get ars k * r) fid) * factor
  | Spatial f => Rsum (map (fun k => get ars k * f (nth k l 0%nat)) fid) * factor
  | CentroidArray a => Rsum (map (fun k => get ars k * a k) fid) * factor
  end.
