(** Model of the time loop of
    anuga/abstract_2d_finite_volumes/generic_domain.py:
    [_evolve_base] (lines 1715-1912) and [update_timestep] (2349-2415).

    The model is generic in the arithmetic ([NumOps]) so that it can be run
    both over the reals and over IEEE-754 binary64.

    The physics is abstracted to the sequence of values that
    [compute_fluxes] leaves in [self.flux_timestep]: step number [k] of the
    run sees [flux k].  Everything the loop does to the conserved quantities
    is outside this file.  Omitted: wall-clock statistics, [number_of_steps],
    [recorded_min/max_timestep] (reporting only), and
    [apply_protection_against_isolated_degenerate_timesteps] (disabled by
    default). *)
From Coq Require Import Bool List ZArith.
Import ListNotations.

(** Arithmetic used by the time loop. *)
Record NumOps := {
  num   : Type;
  nadd  : num -> num -> num;
  nsub  : num -> num -> num;
  nmul  : num -> num -> num;
  nltb  : num -> num -> bool;      (* [<]  *)
  nleb  : num -> num -> bool;      (* [<=] *)
  neqb  : num -> num -> bool;      (* [==] *)
  nepsilon : num                   (* anuga/config.py: epsilon = 1.0e-12 *)
}.

Section Evolve.
Variable N : NumOps.
Notation T := (num N).

(** Python's [min(a, b)]: returns [b] only if [b < a]. *)
Definition nmin (a b : T) : T := if nltb N b a then b else a.

(** The attributes of a domain that the time loop reads or writes.
    [relative_finaltime] and [finaltime] are [option]s because the
    constructor never creates the attribute [relative_finaltime]
    (generic_domain.py: no assignment outside lines 1774-1789). *)
Record clock := {
  relative_time      : T;
  starttime          : T;
  evolve_starttime   : T;
  evolved_called     : bool;
  relative_finaltime : option T;
  finaltime          : option T;
  relative_yieldtime : T;
  cfl                : T;
  evolve_max_timestep : T;
  evolve_min_timestep : T;
  max_smallsteps     : nat;
  smallsteps         : nat;
  order_             : nat;         (* self._order_ *)
  default_order      : nat;
  fixed_flux_timestep : option T;
  timestep           : T
}.

Definition set_relative_time (d : clock) (t : T) : clock :=
  {| relative_time := t; starttime := starttime d;
     evolve_starttime := evolve_starttime d; evolved_called := evolved_called d;
     relative_finaltime := relative_finaltime d; finaltime := finaltime d;
     relative_yieldtime := relative_yieldtime d; cfl := cfl d;
     evolve_max_timestep := evolve_max_timestep d;
     evolve_min_timestep := evolve_min_timestep d;
     max_smallsteps := max_smallsteps d; smallsteps := smallsteps d;
     order_ := order_ d; default_order := default_order d;
     fixed_flux_timestep := fixed_flux_timestep d; timestep := timestep d |}.

Definition set_relative_yieldtime (d : clock) (t : T) : clock :=
  {| relative_time := relative_time d; starttime := starttime d;
     evolve_starttime := evolve_starttime d; evolved_called := evolved_called d;
     relative_finaltime := relative_finaltime d; finaltime := finaltime d;
     relative_yieldtime := t; cfl := cfl d;
     evolve_max_timestep := evolve_max_timestep d;
     evolve_min_timestep := evolve_min_timestep d;
     max_smallsteps := max_smallsteps d; smallsteps := smallsteps d;
     order_ := order_ d; default_order := default_order d;
     fixed_flux_timestep := fixed_flux_timestep d; timestep := timestep d |}.

Definition set_finaltimes (d : clock) (f rf : option T) : clock :=
  {| relative_time := relative_time d; starttime := starttime d;
     evolve_starttime := evolve_starttime d; evolved_called := evolved_called d;
     relative_finaltime := rf; finaltime := f;
     relative_yieldtime := relative_yieldtime d; cfl := cfl d;
     evolve_max_timestep := evolve_max_timestep d;
     evolve_min_timestep := evolve_min_timestep d;
     max_smallsteps := max_smallsteps d; smallsteps := smallsteps d;
     order_ := order_ d; default_order := default_order d;
     fixed_flux_timestep := fixed_flux_timestep d; timestep := timestep d |}.

(** Small-step bookkeeping and timestep written by [update_timestep]. *)
Definition set_step (d : clock) (dt : T) (small ord : nat) : clock :=
  {| relative_time := relative_time d; starttime := starttime d;
     evolve_starttime := evolve_starttime d; evolved_called := evolved_called d;
     relative_finaltime := relative_finaltime d; finaltime := finaltime d;
     relative_yieldtime := relative_yieldtime d; cfl := cfl d;
     evolve_max_timestep := evolve_max_timestep d;
     evolve_min_timestep := evolve_min_timestep d;
     max_smallsteps := max_smallsteps d; smallsteps := small;
     order_ := ord; default_order := default_order d;
     fixed_flux_timestep := fixed_flux_timestep d; timestep := dt |}.

(** Assignments of [_evolve_base] lines 1754-1767, before the time checks:
    [evolve_starttime], [evolved_called], [relative_time], [_order_]. *)
Definition set_start (d : clock) (est rt : T) : clock :=
  {| relative_time := rt; starttime := starttime d;
     evolve_starttime := est; evolved_called := true;
     relative_finaltime := relative_finaltime d; finaltime := finaltime d;
     relative_yieldtime := relative_yieldtime d; cfl := cfl d;
     evolve_max_timestep := evolve_max_timestep d;
     evolve_min_timestep := evolve_min_timestep d;
     max_smallsteps := max_smallsteps d; smallsteps := smallsteps d;
     order_ := default_order d; default_order := default_order d;
     fixed_flux_timestep := fixed_flux_timestep d; timestep := timestep d |}.

(** [get_time] (generic_domain.py 617-620): absolute time. *)
Definition get_time (d : clock) : T := nadd N (starttime d) (relative_time d).

(** The candidate timestep before any clipping: lines 2358-2363. *)
Definition cfl_timestep (d : clock) (flux : T) : T :=
  let f := match fixed_flux_timestep d with Some x => x | None => flux end in
  nmin (nmul N (cfl d) f) (evolve_max_timestep d).

(** Lines 2369-2396: the guard against degenerate timesteps.  [None] is the
    exception 'Too small timestep ... reached even after ... steps of 1 order
    scheme'; otherwise the new ([smallsteps], [_order_]). *)
Definition small_step_guard (d : clock) (dt : T) : option (nat * nat) :=
  if nltb N dt (evolve_min_timestep d) then
    let s := S (smallsteps d) in
    if Nat.ltb (max_smallsteps d) s then
      if Nat.eqb (order_ d) 1 then None
      else Some (0, 1)
    else Some (s, order_ d)
  else
    Some (0, if Nat.eqb (order_ d) 1 && Nat.eqb (default_order d) 2 then 2
             else order_ d).

(** Lines 2408-2410: do not exceed finaltime. *)
Definition clip_finaltime (d : clock) (dt : T) : T :=
  match relative_finaltime d with
  | Some tf => if nltb N tf (nadd N (relative_time d) dt)
               then nsub N tf (relative_time d) else dt
  | None => dt
  end.

(** Lines 2412-2413: align with the next yield time. *)
Definition clip_yieldtime (d : clock) (dt : T) : T :=
  if nltb N (relative_yieldtime d) (nadd N (relative_time d) dt)
  then nsub N (relative_yieldtime d) (relative_time d) else dt.

(** [update_timestep] (2349-2415).  [None]: it raised. *)
Definition update_timestep (d : clock) (flux : T) : option clock :=
  let dt := cfl_timestep d flux in
  match small_step_guard d dt with
  | None => None
  | Some (s, o) => Some (set_step d (clip_yieldtime d (clip_finaltime d dt)) s o)
  end.

(** How a (fully consumed) [evolve] generator ends. *)
Inductive ending :=
| Finished (d : clock)          (* generator exhausted *)
| EarlyReturn (d : clock)       (* finaltime < current time: warning, return *)
| TooSmallTimestep              (* exception of update_timestep *)
| Overshot (d : clock)          (* exception 'time overshot finaltime' *)
| BothTimesGiven                (* exception: finaltime and duration given *)
| NoFinaltimeAttribute          (* AttributeError: relative_finaltime *)
| OutOfFuel (d : clock) (k : nat).  (* the model's step budget is exhausted *)

(** Result of one pass through the body of the [while True] loop. *)
Inductive iter :=
| ITooSmall                     (* update_timestep raised *)
| IOvershot (d : clock)         (* raised 'time overshot finaltime' *)
| IFinal (d : clock)            (* yields get_time and breaks *)
| IYield (t : T) (d : clock)    (* yields [t], then continues with [d] *)
| IContinue (d : clock).

(** The body of the [while True] loop (1834-1912); [flux] is the flux
    timestep the physics delivers in this step.  The step itself (euler, rk2
    or rk3) leaves [relative_time] wherever it likes and the loop then sets it
    to [initial_relative_time + timestep] (line 1854), so intermediate substep
    times are not represented. *)
Definition evolve_iter (yieldstep : T) (d : clock) (flux : T) : iter :=
  match update_timestep d flux with
  | None => ITooSmall
  | Some d1 =>
    let d2 := set_relative_time d1 (nadd N (relative_time d) (timestep d1)) in
    let yield_or_continue :=
      if nleb N (relative_yieldtime d2) (relative_time d2) then
        IYield (get_time d2)
          (set_relative_yieldtime d2 (nadd N (relative_yieldtime d2) yieldstep))
      else IContinue d2 in
    match relative_finaltime d2 with
    | Some tf =>
      if nleb N (nsub N tf (nepsilon N)) (relative_time d2) then
        if nltb N tf (relative_time d2) then IOvershot d2
        else IFinal (set_relative_time d2 tf)
      else yield_or_continue
    | None => yield_or_continue
    end
  end.

(** The [while True] loop.  [k] is the number of steps taken so far, step
    [k] sees [flux k].  Returns the yielded times and the ending. *)
Fixpoint evolve_loop (fuel : nat) (yieldstep : T) (flux : nat -> T)
         (k : nat) (d : clock) : list T * ending :=
  match fuel with
  | O => ([], OutOfFuel d k)
  | S fuel' =>
    match evolve_iter yieldstep d (flux k) with
    | ITooSmall => ([], TooSmallTimestep)
    | IOvershot d2 => ([], Overshot d2)
    | IFinal d3 => ([get_time d3], Finished d3)
    | IYield t d3 =>
        let (ys, e) := evolve_loop fuel' yieldstep flux (S k) d3 in (t :: ys, e)
    | IContinue d2 => evolve_loop fuel' yieldstep flux (S k) d2
    end
  end.

(** [_evolve_base] (1715-1912), from the assignment of [evolved_called] on.
    [yieldstep = None] stands for the default [evolve_max_timestep]. *)
Definition evolve (fuel : nat) (ystep fin dur : option T)
           (skip_initial_step : bool) (flux : nat -> T) (d : clock)
  : list T * ending :=
  let skip := if evolved_called d then true else skip_initial_step in
  let est := if skip then relative_time d else evolve_starttime d in
  let rt := if negb (neqb N (relative_time d) est) then est else relative_time d in
  let d1 := set_start d est rt in
  let yieldstep := match ystep with Some y => y | None => evolve_max_timestep d1 end in
  match fin, dur with
  | Some _, Some _ => ([], BothTimesGiven)
  | _, _ =>
    let d2 := match fin with
              | Some f => set_finaltimes d1 (Some f) (Some (nsub N f (starttime d1)))
              | None => d1 end in
    let d3 := match dur with
              | Some u => set_finaltimes d2 (Some (nadd N u (get_time d2)))
                                            (Some (nadd N u (relative_time d2)))
              | None => d2 end in
    match relative_finaltime d3 with
    | None => ([], NoFinaltimeAttribute)
    | Some tf =>
      if nltb N tf (relative_time d3) then
        ([], EarlyReturn (set_finaltimes d3 (Some (get_time d3)) (Some (relative_time d3))))
      else
        let d4 := set_relative_yieldtime d3 (nadd N (relative_time d3) yieldstep) in
        let (ys, e) := evolve_loop fuel yieldstep flux 0 d4 in
        ((if skip then [] else [get_time d4]) ++ ys, e)
    end
  end.

(** History of [update_timestep] guards alone (no clipping, no time): the
    sequence of candidate timesteps seen by the small-step guard. *)
Fixpoint guard_run (d : clock) (dts : list T) : option clock :=
  match dts with
  | [] => Some d
  | dt :: rest =>
    match small_step_guard d dt with
    | None => None
    | Some (s, o) => guard_run (set_step d dt s o) rest
    end
  end.

End Evolve.

Arguments relative_time {N}. Arguments starttime {N}. Arguments evolve_starttime {N}.
Arguments evolved_called {N}. Arguments relative_finaltime {N}. Arguments finaltime {N}.
Arguments relative_yieldtime {N}. Arguments cfl {N}. Arguments evolve_max_timestep {N}.
Arguments evolve_min_timestep {N}. Arguments max_smallsteps {N}. Arguments smallsteps {N}.
Arguments order_ {N}. Arguments default_order {N}. Arguments fixed_flux_timestep {N}.
Arguments timestep {N}.
