(** Model of internal boundary structures: the discharge routines of
    anuga/structures/internal_boundary_operator.py (lines 85-300), those of the
    master process of anuga/parallel/parallel_internal_boundary_operator.py
    (lines 105-440), and the functions of
    anuga/structures/internal_boundary_functions.py: rating curves (lines
    149-305) and pumping stations (lines 385-475).  Real arithmetic. *)
From Coq Require Import Reals List Arith Bool ZArith.
From Verif Require Import RealLib.
Import ListNotations.
Local Open Scope R_scope.

(** [numpy.sign] *)
Definition sign (x : R) : Z := if Rltb 0 x then 1%Z else if Rltb x 0 then (-1)%Z else 0%Z.

(** * The operator *)

(** What is kept between the calls. *)
Record memory := { smooth_Q : R; smooth_delta : R }.
(** The discharge, taken from the inlet [from0 = true]: 0, otherwise 1. *)
Record result := { discharge : R; from0 : bool }.

(** Lines 167-170, 268-272; [parallel]: line 188 of the parallel operator's
    explicit routine has no test of the time step. *)
Definition relax (dt timescale : R) : R :=
  if Rltb 0 dt then dt / Rmax (Rmax dt timescale) (/ 10 ^ 30) else 1.
Definition relax_parallel (dt timescale : R) : R := dt / Rmax (Rmax dt timescale) (/ 10 ^ 30).

(** Lines 129-218; [f] is the internal boundary function at the time of the
    call, [E0] and [E1] the levels at the enquiry points, [ts] the factor above. *)
Definition explicit_levels (E0 E1 delta : R) : R * R :=
  if Rleb E1 E0 then (E0, E0 - delta) else (E1 + delta, E1).
Definition explicit (f : R -> R -> R) (height ts E0 E1 : R) (s : memory) : result * memory :=
  if Rleb height 0 then ({| discharge := 0; from0 := true |}, s) else
  let delta_total := E0 - E1 in
  let delta := smooth_delta s + ts * (delta_total - smooth_delta s) in
  let delta := if Z.eqb (sign delta) (sign delta_total) then delta else 0 in
  let '(h, t) := explicit_levels E0 E1 delta in
  let Q := f h t in
  let sq := smooth_Q s + ts * (Q - smooth_Q s) in
  ({| discharge := if Z.eqb (sign sq) (sign Q) then Rmin (Rabs sq) (Rabs Q) else 0; from0 := Rleb 0 sq |},
   {| smooth_Q := sq; smooth_delta := delta |}).

(** Lines 221-300; [root E0 E1] is the outcome of [sco.root], an estimate of the
    changes of the levels.  The sequential routine does not look at the height
    ([checks_height] is true in the parallel operator, lines 309-320 there). *)
Definition implicit (checks_height : bool) (f : R -> R -> R) (root : R * R) (height ts dt E0 E1 : R) (s : memory) : result * memory :=
  if checks_height && Rleb height 0 then ({| discharge := 0; from0 := true |}, s) else
  let Q := if Rltb 0 dt then f (E0 + fst root) (E1 + snd root) else f E0 E1 in
  let sq := smooth_Q s + ts * (Q - smooth_Q s) in
  let from := Rleb 0 Q in
  if Z.eqb (sign sq) (sign Q)
  then ({| discharge := Rmin (Rabs sq) (Rabs Q); from0 := from |}, {| smooth_Q := sq; smooth_delta := smooth_delta s |})
  else ({| discharge := 0; from0 := from |}, {| smooth_Q := 0; smooth_delta := smooth_delta s |}).

(** The equation that [sco.root] solves, lines 251-256: the outcome should be 0. *)
Definition residual (f : R -> R -> R) (dt E0 E1 A0 A1 : R) (sol : R * R) : R * R :=
  let Q := f (E0 + fst sol) (E1 + snd sol) in
  (fst sol * A0 - Q * dt * -1, snd sol * A1 - Q * dt * 1).

(** [__init__], lines 102-114: [smooth_Q] is set to the discharge returned by a
    first call (which is never negative). *)
Definition initial (first : memory -> result * memory) : memory :=
  let '(r, s) := first {| smooth_Q := 0; smooth_delta := 0 |} in
  {| smooth_Q := discharge r; smooth_delta := smooth_delta s |}.

(** * Pumping stations *)
Record station := { capacity : R; start_level : R; stop_level : R; increase : R; decrease : R }.
Record pump := { last_time : R; rate : R }.
(** Lines 402-445 *)
Definition make_pump (p : station) (now initial_rate : R) : option pump :=
  if Rltb (start_level p) (stop_level p) then None else
  if Rltb (capacity p) initial_rate then None else
  if Rltb (increase p) 0 || Rltb (decrease p) 0 then None else
  if Rltb (capacity p) 0 || Rltb initial_rate 0 then None else
  Some {| last_time := now; rate := initial_rate |}.
(** Lines 448-475; [None]: the exception of line 467. *)
Definition call_pump (p : station) (now hw : R) (s : pump) : option (R * pump) :=
  if Rltb now (last_time s) then None else
  let dt := if Rltb (last_time s) now then now - last_time s else 0 in
  let r := if Rltb hw (stop_level p) then Rmax 0 (rate s - dt * decrease p)
           else if Rltb (start_level p) hw then Rmin (capacity p) (rate s + dt * increase p)
           else rate s in
  Some (r, {| last_time := if Rltb (last_time s) now then now else last_time s; rate := r |}).
(** Calls at the times and levels of the list. *)
Fixpoint call_pumps (p : station) (calls : list (R * R)) (s : pump) : option (list R * pump) :=
  match calls with
  | [] => Some ([], s)
  | (now, hw) :: calls =>
      match call_pump p now hw s with
      | None => None
      | Some (r, s) => match call_pumps p calls s with None => None | Some (rs, s) => Some (r :: rs, s) end
      end
  end.

(** * Rating curves *)
(** [interp1d(..., kind='linear')]; [None]: outside of the range. *)
Fixpoint interpolate (l : list (R * R)) (x : R) : option R :=
  match l with
  | (x0, y0) :: (((x1, y1) :: _) as rest) =>
      if Rltb x x0 then None else
      if Rleb x x1 then Some (y0 + (y1 - y0) / (x1 - x0) * (x - x0)) else interpolate rest x
  | [(x0, y0)] => if Reqb x x0 then Some y0 else None
  | [] => None
  end.

(** A curve of discharge against headwater for one tailwater: [nonfree_flow_tw],
    [hw_max_given_tw], [nonfree_flow_curves]. *)
Record curve := { tw_of : R; hw_max : R; points : list (R * R) }.
(** The object: [free_flow_hw_range] and the free flow curve. *)
Record table := { free_min : R; free_max : R; free : list (R * R); curves : list curve; reversal : bool }.

(** The curve with the largest tailwater not above [tw], and the next one. *)
Fixpoint bracket (l : list curve) (tw : R) : option (curve * option curve) :=
  match l with
  | [] => None
  | c :: rest =>
      if Rltb tw (tw_of c) then None else
      match bracket rest tw with
      | Some r => Some r
      | None => Some (c, hd_error rest)
      end
  end.

Definition largest_tw (l : list curve) : option R :=
  match l with [] => None | c :: l => Some (fold_left (fun a c => Rmax a (tw_of c)) l (tw_of c)) end.

(** Lines 262-299: the discharge at [hw] and [tw], not below the first curve. *)
Definition on_curves (T : table) (hw tw : R) (c : curve) (next : option curve) : option R :=
  let lower_hw := hw - tw + tw_of c in
  let u := match next with Some u => u | None => c end in
  let upper_hw := match next with Some u => hw - tw + tw_of u | None => lower_hw end in
  let w0 := match next with Some _ => tw - tw_of c | None => 0 end in
  let w1 := match next with Some u => tw_of u - tw | None => 1 end in
  if Rltb (Rmax (hw_max c) (free_max T)) lower_hw || Rltb (Rmax (hw_max u) (free_max T)) upper_hw then None else
  let lower_Q := if Rleb lower_hw (hw_max c) then interpolate (points c) lower_hw else interpolate (free T) hw in
  let upper_Q := if Rltb upper_hw (hw_max u) then interpolate (points u) upper_hw else interpolate (free T) hw in
  match lower_Q, upper_Q with
  | Some l, Some h => Some ((w0 * h + w1 * l) / (w0 + w1))
  | _, _ => None
  end.

(** [__call__], lines 149-305; [None]: an exception. *)
Definition rating (T : table) (hw tw : R) : option R :=
  if Rltb hw tw then None else
  if Rltb hw (free_min T) then Some 0 else
  if Rltb (free_max T) hw then None else
  match largest_tw (curves T), curves T with
  | Some m, c0 :: _ =>
      if Rltb m tw then None else
      if Rltb tw (tw_of c0) then interpolate (free T) hw else
      match bracket (curves T) tw with
      | Some (c, next) => on_curves T hw tw c next
      | None => None
      end
  | _, _ => None
  end.
Definition call_rating (T : table) (hw_in tw_in : R) : option R :=
  if Rltb hw_in tw_in && reversal T
  then match rating T tw_in hw_in with Some q => Some (q * -1) | None => None end
  else match rating T hw_in tw_in with Some q => Some (q * 1) | None => None end.
