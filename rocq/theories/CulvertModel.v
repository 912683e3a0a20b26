(** Culvert discharge: structures/boyd_box_operator.py, boyd_pipe_operator.py,
    weir_orifice_trapezoid_operator.py and inlet_enquiry.py. *)
From Coq Require Import Reals Lra Lia List Bool Rpower Ratan.
From Verif Require Import RealLib.
Import ListNotations.
Open Scope R_scope.

(** config.py lines 18 and 45: [velocity_protection], [g]. *)
Definition velocity_protection : R := 1 / 1000000.
Definition grav : R := 98 / 10.

(** [x ** a] for floats: [0 ** a] is 0 for a positive [a]; a fractional power of
    a negative number is complex, an error in what follows. *)
Definition pw (x a : R) : R := if Reqb x 0 then 0 else Rpower x a.
Definition powr (x a : R) : option R := if Rltb x 0 then None else Some (pw x a).

(** [x / y] and [math.sqrt(x)]: [None] for what Python refuses or numpy turns
    into inf or nan. *)
Definition div (x y : R) : option R := if Reqb y 0 then None else Some (x / y).
Definition root (x : R) : option R := if Rltb x 0 then None else Some (sqrt x).

Definition bind {A B} (o : option A) (f : A -> option B) : option B := match o with Some a => f a | None => None end.
Notation "x <- e1 ;; e2" := (bind e1 (fun x => e2)) (at level 61, e1 at next level, right associativity).

(** Discharge, barrel velocity, outlet culvert depth, flow area. *)
Record flow := Flow { Qf : R; velocity : R; odepth : R; farea : R }.

Record losses := Losses { sum_loss : R; manning : R; clength : R }.

(** [math.sqrt(delta/((sum_loss/2/g) + (manning**2*length)/hyd_rad**1.33333))],
    boyd_box_operator.py lines 350-351 and 380-381, boyd_pipe_operator.py
    352-353, weir_orifice_trapezoid_operator.py 396-397 and 458-459. *)
Definition tailwater_velocity (ls : losses) (delta hyd_rad : R) : option R :=
  hp <- powr hyd_rad (133333 / 100000) ;;
  fr <- div (manning ls ^ 2 * clength ls) hp ;;
  q <- div delta (sum_loss ls / 2 / grav + fr) ;;
  root q.

(** ** [boyd_box_function], boyd_box_operator.py lines 273-407 *)

(** The critical depth, for instance line 330. *)
Definition box_dcrit (Q w : R) : option R := x <- div (Q ^ 2 / grav) (w ^ 2) ;; powr x (333333 / 1000000).

Definition box_inlet (bf width depth barrels driving : R) : option R :=
  e1 <- powr driving (3 / 2) ;;
  d89 <- powr depth (89 / 100) ;;
  e61 <- powr driving (61 / 100) ;;
  let Q_unsubmerged := 544 / 1000 * sqrt grav * bf * width * barrels * e1 in
  let Q_submerged := 702 / 1000 * sqrt grav * bf * width * barrels * d89 * e61 in
  Some (if Rltb Q_unsubmerged Q_submerged then Q_unsubmerged else Q_submerged).

(** Lines 330-343: area and perimeter for inlet control; what lines 307-328
    assign is overwritten here. *)
Definition box_section (bw depth d : R) : R * R * R :=
  if Rltb depth d then (depth, bw * depth, 2 * (bw + depth)) else (d, bw * d, bw + 2 * d).

Definition boyd_box (width depth blockage barrels : R) (ls : losses) (driving delta outlet_depth : R) : option flow :=
  let bf := 1 - blockage in
  if Rleb 1 blockage then Some (Flow 0 0 0 (1 / 100000))
  else
    Q <- box_inlet bf width depth barrels driving ;;
    let bw := bf * width * barrels in
    d <- box_dcrit Q bw ;;
    let '(od, area, perimeter) := box_section bw depth d in
    hr <- div area perimeter ;;
    v <- tailwater_velocity ls delta hr ;;
    r <- (if Rltb delta driving then
            (* lines 355-384 *)
            let '(od, area, perimeter) :=
              if Rltb depth outlet_depth then (depth, bw * depth, 2 * (bw + depth)) else box_section bw depth d in
            hr <- div area perimeter ;;
            v <- tailwater_velocity ls delta hr ;;
            Some (Rmin Q (area * v), od, area)
          else Some (Q, od, area)) ;;
    let '(Q, od, area) := r in
    (* lines 390-393: the Froude number is computed but only logged *)
    fr <- (if Rleb area 0 then Some 0 else x <- div (Q ^ 2 * width * barrels) (grav * area ^ 3) ;; root x) ;;
    p <- div velocity_protection area ;;
    bv <- div Q (area + p) ;;
    Some (Flow Q bv od area).

(** ** [boyd_pipe_function], boyd_pipe_operator.py lines 221-382 *)

Definition pipe_bf (blockage : R) : R :=
  if Rltb (9 / 10) blockage then 3333 / 1000 - 3333 / 1000 * blockage
  else 1 - 4012316798 / 10000000000 * blockage - 3768350138 / 10000000000 * blockage ^ 2.

Definition pipe_inlet (D barrels driving : R) : option R :=
  d87 <- powr D (87 / 100) ;;
  e163 <- powr driving (163 / 100) ;;
  d187 <- powr D (187 / 100) ;;
  e63 <- powr driving (63 / 100) ;;
  Some (Rmin (barrels * (421 / 1000 * sqrt grav * d87 * e163)) (barrels * (530 / 1000 * sqrt grav * d187 * e63))).

(** Lines 267-273 and 313-318: [Q/g**0.5*(D**2.5)]. *)
Definition pipe_dcrit (Q D : R) : option R :=
  d25 <- powr D (5 / 2) ;;
  x <- powr (Q / sqrt grav * d25) (1 / (375 / 100)) ;;
  y <- powr (Q / sqrt grav * d25) (1 / (195 / 100)) ;;
  let dcrit1 := D / (126 / 100) * x in
  let dcrit2 := D / (95 / 100) * y in
  q <- div dcrit1 D ;;
  Some (if Rltb (85 / 100) q then dcrit2 else dcrit1).

(** [safe_acos], numerical_tools.py lines 21-45, without its tolerance for
    rounding. *)
Definition safe_acos (x : R) : option R := if Rleb (-1) x && Rleb x 1 then Some (acos x) else None.

(** Depth, area, perimeter and width of a part full pipe, lines 287-291 and
    328-331. *)
Definition part_full (D barrels d : R) : option (R * R * R * R) :=
  q <- div (2 * d) D ;;
  a <- safe_acos (1 - q) ;;
  let alpha := a * 2 in
  Some (d, barrels * D ^ 2 / 8 * (alpha - sin alpha), barrels * (alpha * D / 2), barrels * D * sin (alpha / 2)).
Definition full_pipe (D barrels : R) : R * R * R * R :=
  (D, barrels * (D / 2) ^ 2 * PI, barrels * D * PI, barrels * D).

Definition boyd_pipe (diameter blockage barrels : R) (ls : losses) (driving delta outlet_depth : R) : option flow :=
  if Rleb 1 blockage then Some (Flow 0 0 0 (1 / 100000))
  else
    let D := pipe_bf blockage * diameter in
    Q <- pipe_inlet D barrels driving ;;
    d <- pipe_dcrit Q D ;;
    s <- (if Rleb D d then Some (full_pipe D barrels) else part_full D barrels d) ;;
    s <- (if Rltb delta driving then
            if Rltb D outlet_depth then Some (full_pipe D barrels)
            else if Rltb D d then Some (full_pipe D barrels) else part_full D barrels d
          else Some s) ;;
    let '(od, area, perimeter, flow_width) := s in
    hr <- div area perimeter ;;
    v <- tailwater_velocity ls delta hr ;;
    let Q := Rmin Q (area * v) in
    x <- div (Q ^ 2 * flow_width * barrels) (grav * area ^ 3) ;;
    fr <- root x ;;
    p <- div velocity_protection area ;;
    bv <- div Q (area + p) ;;
    Some (Flow Q bv od area).

(** ** [weir_orifice_trapezoid_function], lines 279-485 *)

Record trapezoid := Trapezoid { z1 : R; z2 : R }.

(** One round of the loops of lines 321-330, 347-356, 371-380 and 416-425; [w]
    is [bf*barrels*width]. [Rc] divides by [Pc]. *)
Definition newton_step (t : trapezoid) (w Q dcrit : R) : option R :=
  let z := z1 t + z2 t in
  let Tc := w + z * dcrit in
  p1 <- powr (z1 t ^ 2 + 1) (1 / 2) ;;
  p2 <- powr (z2 t ^ 2 + 1) (1 / 2) ;;
  let Pc := w + (p1 + p2) * dcrit in
  let Ac := 1 / 2 * dcrit * (w + Tc) in
  Rc <- div Ac Pc ;;
  a15 <- powr Ac (3 / 2) ;;
  a05 <- powr Ac (1 / 2) ;;
  t05 <- (if Rleb Tc 0 then None else Some (Rpower Tc (- (1 / 2)))) ;;
  t15 <- (if Rleb Tc 0 then None else Some (Rpower Tc (- (3 / 2)))) ;;
  let fc := a15 * t05 - Q / sqrt (981 / 100) in
  let ffc := a15 * - (1 / 2) * t15 * z + t05 * (3 / 2) * a05 * Tc in
  div (- fc) ffc.

(** The while loop: [None] if it has not ended after [fuel] rounds. *)
Fixpoint critical_depth (fuel : nat) (t : trapezoid) (w Q dcrit dyc : R) : option R :=
  if Rltb (1 / 100000) (Rabs dyc) then
    match fuel with
    | O => None
    | S fuel => dyc <- newton_step t w Q dcrit ;; critical_depth fuel t w Q (dcrit + dyc) dyc
    end
  else Some dcrit.
Definition dcrit_of (fuel : nat) (t : trapezoid) (w Q : R) : option R := critical_depth fuel t w Q (1 / 100000) (1 / 1000).

Definition weir_inlet (bf width depth barrels : R) (t : trapezoid) (driving : R) : option R :=
  e15 <- powr driving (3 / 2) ;;
  e05 <- powr driving (1 / 2) ;;
  let z := z1 t + z2 t in
  let Q_unsubmerged := 17 / 10 * bf * barrels * ((2 * width + depth * z) / 2) * e15 in
  let Q_submerged := 8 / 10 * bf * barrels * sqrt grav * (1 / 2 * depth * (2 * width + depth * z)) * e05 in
  Some (if Rltb Q_unsubmerged Q_submerged then Q_unsubmerged else Q_submerged).

Definition trapezoid_area (t : trapezoid) (w d : R) : R := w * d + 1 / 2 * (z1 t + z2 t) * d ^ 2.
Definition sides (t : trapezoid) (d : R) : R := sqrt (d ^ 2 + (z1 t * d) ^ 2) + sqrt (d ^ 2 + (z2 t * d) ^ 2).

Definition weir_orifice (fuel : nat) (width depth blockage barrels : R) (t : trapezoid) (ls : losses)
    (driving delta outlet_depth : R) : option flow :=
  let bf := 1 - blockage in
  if Rleb 1 blockage then Some (Flow 0 0 0 (1 / 100000))
  else
    Q <- weir_inlet bf width depth barrels t driving ;;
    let w := bf * barrels * width in
    (* lines 313-366 compute a depth that is computed again in 367-381 *)
    d <- dcrit_of fuel t w Q ;;
    let od := if Rltb depth d then depth else d in
    let area := trapezoid_area t w od in
    let perimeter := 2 * w + (z1 t + z2 t) * od + sides t od in
    hr <- div area perimeter ;;
    v <- tailwater_velocity ls delta hr ;;
    r <- (if Rltb delta driving then
            (* lines 401-462 *)
            s <- (if Rltb depth outlet_depth then Some (Q, depth)
                  else
                    let Q := Rmin Q (area * v) in
                    d <- dcrit_of fuel t w Q ;;
                    Some (Q, if Rltb depth d then depth else d)) ;;
            let '(Q, od) := s in
            let area := trapezoid_area t w od in
            let perimeter := w + sides t od in
            hr <- div area perimeter ;;
            v <- tailwater_velocity ls delta hr ;;
            Some (Rmin Q (area * v), od, area)
          else Some (Q, od, area)) ;;
    let '(Q, od, area) := r in
    fr <- (if Rleb area 0 then Some 0 else x <- div (Q ^ 2 * width * barrels) (grav * area ^ 3) ;; root x) ;;
    p <- div velocity_protection area ;;
    bv <- div Q (area + p) ;;
    Some (Flow Q bv od area).

(** ** The enquiry points, inlet_enquiry.py lines 66-161 *)

Record enquiry := Enquiry { e_stage : R; e_elev : R; e_xmom : R; e_ymom : R;
  invert : option R; outward : R * R }.

Definition e_invert (e : enquiry) : R := match invert e with None => e_elev e | Some z => z end.
Definition e_depth (e : enquiry) : R := Rmax (e_stage e - e_invert e) 0.
Definition e_water_depth (e : enquiry) : R := e_stage e - e_elev e.
Definition e_velocity (e : enquiry) : R * R :=
  let d := e_water_depth e in
  (d * e_xmom e / (d ^ 2 + velocity_protection), d * e_ymom e / (d ^ 2 + velocity_protection)).
Definition velocity_head (use_new : bool) (e : enquiry) : R :=
  let '(u, v) := e_velocity e in
  if use_new then
    let normal_speed := Rmin (u * fst (outward e) + v * snd (outward e)) 0 in
    1 / 2 * normal_speed ^ 2 / grav
  else 1 / 2 * (sqrt (u ^ 2 + v ^ 2)) ^ 2 / grav.
Definition total_energy_at (use_new : bool) (e : enquiry) : R := velocity_head use_new e + e_stage e.
Definition specific_energy (use_new : bool) (e : enquiry) : R := velocity_head use_new e + e_depth e.

(** ** The discharge routine *)

(** [total_energy], boyd_box_operator.py lines 409-430, forward Euler *)
Definition smoothing (timestep timescale : R) : R :=
  if Rltb 0 timestep then timestep / Rmax (Rmax timestep timescale) (1 / 1000000) else 1.
Definition smooth_energy (smooth delta ts : R) : R := smooth + ts * (delta - smooth).

(** [numpy.sign] *)
Definition sgn (x : R) : R := if Rltb 0 x then 1 else if Rltb x 0 then -1 else 0.

(** [smooth_discharge], lines 432-460 *)
Definition smooth_discharge (smooth_delta smooth_Q Q area ts : R) : R * R * R :=
  let Qsign := sgn smooth_delta in
  let smooth_Q := smooth_Q + ts * (Q * Qsign - smooth_Q) in
  let Q := if Reqb (sgn smooth_Q) Qsign then Rmin (Rabs smooth_Q) Q else 0 in
  (smooth_Q, Q, if Reqb area 0 then 0 else Q / area).

Record sstate := SState { smooth_delta : R; smooth_Q : R }.

Record result := Result { inflow : bool;     (* true: inlets[0] is the inflow *)
  discharge : R; barrel_velocity : R; outlet_depth : R; delta_total_energy : R; after : sstate }.

Record settings := Settings { use_velocity_head : bool; use_new_velocity_head : bool; timestep : R; timescale : R }.

(** [discharge_routine], boyd_box_operator.py lines 150-266,
    boyd_pipe_operator.py lines 115-213 and weir_orifice_trapezoid_operator.py
    lines 128-270: [size] is the culvert height or diameter, [formula] one of the
    functions above. [old_delta] is [self.delta_total_energy] before the call. *)
Definition discharge_routine (c : settings) (size : R) (formula : R -> R -> R -> option flow)
    (in0 in1 : enquiry) (old_delta : R) (st : sstate) : option result :=
  if Rleb size 0 then Some (Result true 0 0 0 old_delta st)
  else
    let delta := if use_velocity_head c
                 then total_energy_at (use_new_velocity_head c) in0 - total_energy_at (use_new_velocity_head c) in1
                 else e_stage in0 - e_stage in1 in
    let ts := smoothing (timestep c) (timescale c) in
    let sd := smooth_energy (smooth_delta st) delta ts in
    let forward := Rleb 0 sd in
    let inf := if forward then in0 else in1 in
    let outf := if forward then in1 else in0 in
    let delta := if forward then sd else - sd in
    if Rltb (1 / 100) (e_depth inf) then
      let energy := specific_energy (use_new_velocity_head c) inf in
      if Rltb energy 0 then None
      else
        let driving := if use_velocity_head c then energy else e_depth inf in
        f <- formula driving delta (e_depth outf) ;;
        let '(sq, Q, v) := smooth_discharge sd (smooth_Q st) (Qf f) (farea f) ts in
        (* the flow limit: max_velocity = 10 *)
        if Rltb 10 v then Some (Result forward (farea f * 10) 10 (odepth f) delta (SState sd sq))
        else Some (Result forward Q v (odepth f) delta (SState sd sq))
    else Some (Result forward 0 0 0 delta (SState sd (smooth_Q st))).

(** [__init__], boyd_box_operator.py lines 132-142 and its copies: one call
    without smoothing gives the first smoothed values. *)
Definition initial (c : settings) (size : R) (formula : R -> R -> R -> option flow) (in0 in1 : enquiry) : option sstate :=
  r <- discharge_routine (Settings (use_velocity_head c) (use_new_velocity_head c) (timestep c) 0) size formula in0 in1 0 (SState 0 0) ;;
  Some (SState (1 * delta_total_energy r) (discharge r)).
