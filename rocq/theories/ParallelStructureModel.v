(** Model of anuga/parallel/parallel_structure_operator.py ([__call__] 255-469
    and the part of [__init__] that makes the inlets, 172-246), of the averages
    of anuga/parallel/parallel_inlet.py (98-118, 134-333) and of the exchange
    of enquiry values in parallel_boyd_box_operator.py ([discharge_routine]
    144-318), parallel_boyd_pipe_operator.py and
    parallel_weir_orifice_trapezoid_operator.py, which are written alike: a
    culvert whose inlets belong to several processes.  Each process runs the
    program [call].  The sequential counterparts are
    [CulvertModel.discharge_routine] and [InletModel.structure_call]. *)
From Coq Require Import Reals List Arith Bool.
From Verif Require Import RealLib ArrayLib KahnLib SyncLib PhaseLib CulvertModel InletModel.
Import ListNotations.
Local Open Scope R_scope.

(** What is sent: a number, a vector, the order to reverse the direction. *)
Inductive msg := MNum (x : R) | MVec (x y : R) | MFlag (b : bool).
Definition num_of (m : msg) : option R := match m with MNum x => Some x | _ => None end.

(** What a process has: its domain with the accounts of the operator
    ([accumulated_flow], [discharge], [discharge_abs_timemean]), and the
    smoothed values of the discharge routine. *)
Record pstate := PState { acc : InletModel.sstate; smooth : CulvertModel.sstate }.
Definition pdom (s : pstate) : dom := sdom (acc s).
Definition with_dom (s : pstate) (d : dom) : pstate :=
  PState (InletModel.SState d (accumulated_flow (acc s)) (InletModel.discharge (acc s)) (abs_timemean (acc s))) (smooth s).

Definition prog := KahnLib.prog msg pstate.

(** The operator, the same on all processes; [true] stands for inlet 0.
    [procs], [master], [inlet_procs], [inlet_master], [enquiry_proc] are
    determined by the factory; [formula] is one of the culvert functions,
    [smoother] the smoothing of the discharge that follows it: smoothed
    energy, smoothed discharge, discharge, area and factor give the new
    smoothed discharge, the discharge and the speed ([None] is an exception). *)
Record operator := Operator {
  o_procs : list nat; o_master : nat;
  inlet_procs : bool -> list nat; inlet_master : bool -> nat; enquiry_proc : bool -> nat;
  inverts : bool -> option R; outwards : bool -> R * R;
  culvert : settings; formula : R -> R -> R -> option flow;
  smoother : R -> R -> R -> R -> R -> option (R * R * R);
  o_jet : bool; o_zero : bool; o_old : bool; o_always : bool; yieldstep : R }.

(** What belongs to one process: the triangles of each inlet, the triangle of
    each enquiry point (used only by the process that has it). *)
Record part := Part { inlet_idx : bool -> list nat; enquiry_idx : bool -> nat }.

(** parallel_inlet_enquiry.py 88-215: the values at the enquiry point. *)
Definition enquiry_at (d : dom) (k : nat) (inv : option R) (out : R * R) : enquiry :=
  Enquiry (stage d k) (elev d k) (xmom d k) (ymom d k) inv out.

(** boyd_box_operator.py [smooth_discharge]; the weir has its own lines,
    parallel_weir_orifice_trapezoid_operator.py 212-234. *)
Definition box_smoother (sd sq Q area ts : R) : option (R * R * R) := Some (smooth_discharge sd sq Q area ts).
Definition weir_smoother (sd sq Q area ts : R) : option (R * R * R) :=
  let Qsign := if Rltb sd 0 then -1 else 1 in
  let sq := sq + ts * (Q * Qsign - sq) in
  let Q := if Reqb (sgn sq) Qsign then Rmin (Rabs sq) Q else 0 in
  v <- div Q area ;; Some (sq, Q, v).

Section Operator.
Variable o : operator.
Notation dt := (CulvertModel.timestep (culvert o)).
Notation use_new := (use_new_velocity_head (culvert o)).

(** Lines 201-212 (box): the direction of the flow, on the master. *)
Definition smoothed (te0 st0 te1 st1 : R) (sm : CulvertModel.sstate) : R :=
  let delta := if use_velocity_head (culvert o) then te0 - te1 else st0 - st1 in
  smooth_energy (smooth_delta sm) delta (smoothing dt (timescale (culvert o))).

(** Lines 262-318 (box): the discharge, on the master. *)
Definition master_discharge (sd : R) (sm : CulvertModel.sstate) (in_depth in_energy out_depth : R)
    : option (R * R * CulvertModel.sstate) :=
  let ts := smoothing dt (timescale (culvert o)) in
  let delta := if Rltb sd 0 then - sd else sd in
  if Rltb (1 / 100) in_depth then
    if Rltb in_energy 0 then None
    else
      let driving := if use_velocity_head (culvert o) then in_energy else in_depth in
      f <- formula o driving delta out_depth ;;
      r <- smoother o sd (smooth_Q sm) (Qf f) (farea f) ts ;;
      let '(sq, Q, v) := r in
      let sm' := CulvertModel.SState sd sq in
      if Rltb 10 v then Some (farea f * 10, 10, sm') else Some (Q, v, sm')
  else Some (0, 0, CulvertModel.SState sd (smooth_Q sm)).

(** Lines 144-318 (box) [discharge_routine]; the continuation gets the inflow
    index ([true]: 0) and, on the master, discharge, speed and smoothed values. *)
Definition discharge_routine (me : nat) (pt : part) (st : pstate)
    (K : bool -> option (R * R * CulvertModel.sstate) -> prog) : prog :=
  let enq b := enquiry_at (pdom st) (enquiry_idx pt b) (inverts o b) (outwards o b) in
  to_one me (enquiry_proc o true) (o_master o) 2
      [MNum (total_energy_at use_new (enq true)); MNum (e_stage (enq true))] (fun v0 =>
  to_one me (enquiry_proc o false) (o_master o) 2
      [MNum (total_energy_at use_new (enq false)); MNum (e_stage (enq false))] (fun v1 =>
  let sd := match v0, v1 with
            | Some [MNum te0; MNum st0], Some [MNum te1; MNum st1] => Some (smoothed te0 st0 te1 st1 (smooth st))
            | _, _ => None
            end in
  if Nat.eqb me (o_master o) && match sd with None => true | _ => false end then Fail else
  to_all me (o_master o) (o_procs o) 1 [MFlag match sd with Some sd => Rltb sd 0 | None => false end] (fun rev =>
  match rev with
  | Some [MFlag reversed] =>
      let fwd := negb reversed in
      to_one me (enquiry_proc o fwd) (o_master o) 2
          [MNum (e_depth (enq fwd)); MNum (specific_energy use_new (enq fwd))] (fun v2 =>
      to_one me (enquiry_proc o (negb fwd)) (o_master o) 1 [MNum (e_depth (enq (negb fwd)))] (fun v3 =>
      if Nat.eqb me (o_master o) then
        match sd, v2, v3 with
        | Some sd, Some [MNum in_depth; MNum in_energy], Some [MNum out_depth] =>
            match master_discharge sd (smooth st) in_depth in_energy out_depth with
            | Some r => K fwd (Some r)
            | None => Fail
            end
        | _, _, _ => Fail
        end
      else K fwd None))
  | _ => Fail
  end))).

(** parallel_inlet.py 134-333: [get_global_average_...] of the inlet [b]. *)
Definition global_sum (me : nat) (b : bool) (x : R) (K : R -> prog) : prog :=
  sum_at MNum num_of me (inlet_master o b) (inlet_procs o b) x K.
Definition global_average (me : nat) (b : bool) (d : dom) (idx : list nat) (local : R) (K : R -> prog) : prog :=
  global_sum me b (inlet_area d idx) (fun area =>
  global_sum me b local (fun total => K (if Rltb 0 area then total / area else 0))).
Definition weighted (d : dom) (idx : list nat) (a : nat -> R) : R :=
  Rsum (zip_with Rmult (take a idx) (inlet_areas d idx)).

(** Lines 262-267: what the processes of the inflow inlet do. *)
Definition inflow_averages (me : nat) (b : bool) (d : dom) (idx : list nat) (K : list msg -> prog) : prog :=
  if mem me (inlet_procs o b) then
    global_average me b d idx (total_water_volume d idx) (fun depth =>
    global_average me b d idx (weighted d idx (stage d)) (fun stg =>
    global_average me b d idx (weighted d idx (xmom d)) (fun xm =>
    global_average me b d idx (weighted d idx (ymom d)) (fun ym =>
    global_sum me b (inlet_area d idx) (fun area =>
    K [MNum depth; MNum stg; MNum xm; MNum ym; MNum area])))))
  else K [].

(** Lines 373-378: and those of the outflow inlet. *)
Definition outflow_averages (me : nat) (b : bool) (d : dom) (idx : list nat) (K : list msg -> prog) : prog :=
  if mem me (inlet_procs o b) then
    global_sum me b (inlet_area d idx) (fun area =>
    global_average me b d idx (total_water_volume d idx) (fun depth =>
    global_average me b d idx (weighted d idx (xmom d)) (fun xm =>
    global_average me b d idx (weighted d idx (ymom d)) (fun ym =>
    K [MNum area; MNum depth; MVec (fst (outwards o b)) (snd (outwards o b)); MNum xm; MNum ym]))))
  else K [].

(** Lines 292-347: the new values at the inflow inlet, on the master:
    timestep_star, depth and momenta. *)
Definition new_inflow (Q depth xm ym area : R) : R * R * R * R :=
  let dt_Q_on_d := if Rltb 0 depth then dt * Q / depth else 0 in
  let adjust := o_always o || Rleb (depth * area) (Q * dt) in
  let factor := 1 / (1 + dt_Q_on_d / area) in
  let new_depth := if adjust then depth * factor else depth - dt * Q / area in
  let timestep_star :=
    if adjust then if Rltb 0 depth then dt * new_depth / depth else 0 else dt in
  let factor2 :=
    if o_old o then factor
    else if Rltb 0 depth then
      if adjust then 1 / (1 + dt_Q_on_d * new_depth / (depth * area)) else 1 / (1 + dt * Q / (depth * area))
    else 0 in
  (timestep_star, new_depth, xm * factor2, ym * factor2).

(** Lines 396-452: the new values at the outflow inlet, on the master. *)
Definition new_outflow (extra barrel depth ox oy xm ym xloss yloss area : R) : R * R * R :=
  let new_depth := depth + extra in
  if o_jet o then (new_depth, barrel * new_depth * - ox, barrel * new_depth * - oy)
  else if o_zero o then (new_depth, 0, 0)
  else (new_depth, xm + xloss / area, ym + yloss / area).

(** Lines 365-369 and 466-469 *)
Definition set_inlet (d : dom) (idx : list nat) (depth xm ym : R) : dom :=
  let d1 := set_depths d idx depth in with_moms d1 (put_all (xmom d1) idx xm) (put_all (ymom d1) idx ym).

(** Lines 255-469 [__call__] *)
Definition update_outflow (me : nat) (pt : part) (st : pstate) (b : bool)
    (known : option (R * R * R * R * R * CulvertModel.sstate)) : prog :=
  let d := pdom st in
  outflow_averages me b d (inlet_idx pt b) (fun vals =>
  to_one me (inlet_master o b) (o_master o) 5 vals (fun got =>
  let new :=
    match known, got with
    | Some (Q, barrel, tstar, xloss, yloss, sm), Some [MNum area; MNum depth; MVec ox oy; MNum xm; MNum ym] =>
        let extra := Q * tstar / area in
        let gain := extra * area in
        Some (new_outflow extra barrel depth ox oy xm ym xloss yloss area,
              PState (InletModel.SState d (accumulated_flow (acc st) + gain) (Q * tstar / dt)
                        (abs_timemean (acc st) + Q * tstar / yieldstep o)) sm)
    | _, _ => None
    end in
  if Nat.eqb me (o_master o) && match new with None => true | _ => false end then Fail else
  to_all me (o_master o) (inlet_procs o b) 3
      match new with Some (depth, xm, ym, _) => [MNum depth; MNum xm; MNum ym] | None => [] end (fun got =>
  let st := match new with Some (_, st') => st' | None => st end in
  if mem me (inlet_procs o b) then
    match got with
    | Some [MNum depth; MNum xm; MNum ym] => Ret (with_dom st (set_inlet (pdom st) (inlet_idx pt b) depth xm ym))
    | _ => Fail
    end
  else Ret st))).

Definition call (me : nat) (pt : part) (st : pstate) : prog :=
  discharge_routine me pt st (fun b res =>
  let d := pdom st in
  inflow_averages me b d (inlet_idx pt b) (fun vals =>
  to_one me (inlet_master o b) (o_master o) 5 vals (fun got =>
  let new :=
    match res, got with
    | Some (Q, barrel, sm), Some [MNum depth; MNum _; MNum xm; MNum ym; MNum area] =>
        let '(tstar, new_depth, new_xm, new_ym) := new_inflow Q depth xm ym area in
        Some (new_depth, new_xm, new_ym, (Q, barrel, tstar, (xm - new_xm) * area, (ym - new_ym) * area, sm))
    | _, _ => None
    end in
  if Nat.eqb me (o_master o) && match new with None => true | _ => false end then Fail else
  to_all me (o_master o) (inlet_procs o b) 3
      match new with Some (depth, xm, ym, _) => [MNum depth; MNum xm; MNum ym] | None => [] end (fun got =>
  let known := match new with Some (_, k) => Some k | None => None end in
  if mem me (inlet_procs o b) then
    match got with
    | Some [MNum depth; MNum xm; MNum ym] =>
        update_outflow me pt (with_dom st (set_inlet d (inlet_idx pt b) depth xm ym)) (negb b) known
    | _ => Fail
    end
  else update_outflow me pt st (negb b) known)))).
End Operator.

(** The sequential operator, as in [CulvertModel] and [InletModel]:
    structure_operator.py 215-362 after the discharge routine. *)
Definition sequential_call (o : operator) (size : R) (pt : part) (st : pstate) : option pstate :=
  let d := pdom st in
  let enq b := enquiry_at d (enquiry_idx pt b) (inverts o b) (outwards o b) in
  r <- CulvertModel.discharge_routine (culvert o) size (formula o) (enq true) (enq false) 0 (smooth st) ;;
  let b := inflow r in
  s <- structure_call
         (Structure (inlet_idx pt b) (inlet_idx pt (negb b)) (outwards o (negb b))
            (o_jet o) (o_zero o) (o_old o) (o_always o))
         (CulvertModel.timestep (culvert o)) (yieldstep o) (CulvertModel.discharge r) (barrel_velocity r) (acc st) ;;
  Some (PState s (after r)).

(** ** The constructor *)

(** structure_operator.py 143-196: the region of an inlet is the exchange line,
    or with an apron a polygon behind it. *)
Definition point := (R * R)%type.
Definition shift (p v : point) (a : R) : point := (fst p + a * fst v, snd p + a * snd v).
Definition sequential_region (l0 l1 outward : point) (apron : option R) : list point :=
  match apron with
  | None => [l0; l1]
  | Some a => [l0; l1; shift l1 outward (- a); shift l0 outward (- a)]
  end.
(** parallel_structure_operator.py 174-203 and 214-240: [poly0] and [poly1] are
    computed but the lines are used. *)
Definition parallel_region (l0 l1 outward : point) (apron : option R) : list point := [l0; l1].

(** parallel_structure_operator.py 204-207 and 241-244,
    force_constant_inlet_elevations: the average elevation is computed and
    written to the inlet.  The result of a process is its new elevation. *)
Definition with_elev (d : dom) (e : nat -> R) : dom := Dom (areas d) e (stage d) (xmom d) (ymom d).
Definition force_elevation (procs : list nat) (master me : nat) (d : dom) (idx : list nat) : KahnLib.prog msg dom :=
  sum_at MNum num_of me master procs (inlet_area d idx) (fun area =>
  sum_at MNum num_of me master procs (Rsum (zip_with Rmult (take (elev d) idx) (inlet_areas d idx))) (fun total =>
  Ret (with_elev d (put_all (elev d) idx (if Rltb 0 area then total / area else 0))))).
(** structure_operator.py 165-168 and 199-202 *)
Definition sequential_force_elevation (d : dom) (idx : list nat) : dom :=
  with_elev d (put_all (elev d) idx (average d idx (elev d))).
