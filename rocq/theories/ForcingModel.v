(** Model of the forcing terms that add water, anuga/shallow_water/forcing.py
    lines 233-678: [General_forcing], [Rainfall] and [Inflow].  Real arithmetic.
    Logging and warnings are left out. *)
From Coq Require Import Reals List Arith Bool.
From Verif Require Import RealLib ArrayLib PolygonModel RegionModel.
Import ListNotations.
Open Scope R_scope.

(** The parts of the domain: centroids and areas of the triangles, and the
    polygon of [get_boundary_polygon()], line 293. *)
Record site := { centres : list point; areas : list R; bounding_polygon : list point }.

(** What a rate gives at a time: a number, [None], or the exceptions of the file
    functions (fit_interpolate/interpolate.py); dividing [None] is a TypeError. *)
Inductive outcome := Value (x : R) | NoRate | TooEarly | TooLate | TypeError.
(** A rate is a constant (or [None]) or a function of time. *)
Inductive rate := Constant (x : option R) | Function (f : R -> outcome).

Inductive error := BadArguments | OutsideDomain | NoTriangles | NoArea | BadDefault | ModelTimeTooEarly | ModelTimeTooLate | RateMissing | DividesNone.

(** Lines 307-314: a hundred points of the circle. *)
Definition periphery (c : point) (r : R) : list point :=
  map (fun i => (px c + r * cos (2 * PI * INR i / 100), py c + r * sin (2 * PI * INR i / 100))) (seq 0 100).

(** [is_inside_polygon], polygon.py 427-441 *)
Definition in_domain (s : site) (p : point) : bool := point_inside (bounding_polygon s) true p.

(** Lines 336-352: the triangles in the circle, or with the centroid in the polygon. *)
Definition circle_exchange (s : site) (c : point) (r : R) : list nat :=
  filter (fun k => in_circle c r (nth k (centres s) (0, 0))) (seq 0 (length (centres s))).
Definition exchange_indices (s : site) (center : option point) (radius : option R) (polygon : option (list point)) : option (list nat) :=
  match polygon with
  | Some l => Some (inside_polygon (centres s) l true)
  | None => match center, radius with Some c, Some r => Some (circle_exchange s c r) | _, _ => None end
  end.

(** Lines 354-368 *)
Definition exchange_area (s : site) (ind : option (list nat)) : R :=
  match ind with
  | None => polygon_area (bounding_polygon s)
  | Some l => fold_left (fun a i => a + nth i (areas s) 0) l 0
  end.

(** The object. *)
Record forcing := { place : option (list nat); area : R; its_rate : rate; default_rate : option (R -> outcome); is_inflow : bool }.

(** [General_forcing.__init__], lines 265-398.  [default] is the argument
    [default_rate]: a constant or a function; it is tried at time 0. *)
Definition make_forcing (s : site) (r : rate) (center : option point) (radius : option R) (polygon : option (list point))
    (default : option rate) (inflow : bool) : error + forcing :=
  match center, radius with
  | None, Some _ | Some _, None => inl BadArguments
  | _, _ =>
      let checked :=
        match center, radius with
        | Some c, Some rd => if given polygon then inl BadArguments else
            if forallb (in_domain s) (c :: periphery c rd) then inr tt else inl OutsideDomain
        | _, _ => inr tt
        end in
      match checked with
      | inl e => inl e
      | inr _ =>
          if negb (match polygon with Some l => forallb (in_domain s) l | None => true end) then inl OutsideDomain else
          let ind := exchange_indices s center radius polygon in
          match ind with
          | Some [] => inl NoTriangles
          | _ =>
              if Rltb 0 (exchange_area s ind) then
                match default with
                | None => inr {| place := ind; area := exchange_area s ind; its_rate := r; default_rate := None; is_inflow := inflow |}
                | Some (Constant None) => inr {| place := ind; area := exchange_area s ind; its_rate := r; default_rate := None; is_inflow := inflow |}
                | Some (Constant (Some x)) => inr {| place := ind; area := exchange_area s ind; its_rate := r; default_rate := Some (fun _ => Value x); is_inflow := inflow |}
                | Some (Function f) =>
                    match f 0 with
                    | Value _ | NoRate => inr {| place := ind; area := exchange_area s ind; its_rate := r; default_rate := Some f; is_inflow := inflow |}
                    | _ => inl BadDefault
                    end
                end
              else inl NoArea
          end
      end
  end.

(** [x / y] for the outcome of a rate. *)
Definition divided (o : outcome) (y : R) : outcome := match o with Value x => Value (x / y) | NoRate => TypeError | e => e end.

(** [update_rate], lines 460-470, and of [Inflow], lines 662-678 *)
Definition update_rate (f : forcing) (t : R) : outcome :=
  let o := match its_rate f with Constant (Some x) => Value x | Constant None => NoRate | Function g => g t end in
  if is_inflow f then divided o (area f) else o.

(** [General_forcing.__call__], lines 401-457, on the array [explicit_update] of
    the quantity with [n] triangles. *)
Definition apply_rate (f : forcing) (n : nat) (update : nat -> R) (x : R) : nat -> R :=
  match place f with
  | None => fold_left (fun u k => upd u k (u k + x)) (seq 0 n) update
  | Some l => fold_left (fun u k => upd u k (u k + x)) l update
  end.
Definition call_forcing (f : forcing) (n : nat) (t : R) (update : nat -> R) : error + (nat -> R) :=
  let with_value o :=
    match o with
    | Value x => inr (apply_rate f n update x)
    | NoRate => inl RateMissing
    | TooEarly => inl ModelTimeTooEarly
    | TooLate => inl ModelTimeTooLate
    | TypeError => inl DividesNone
    end in
  match update_rate f t with
  | TooLate => match default_rate f with None => inl ModelTimeTooLate | Some g => with_value (g t) end
  | o => with_value o
  end.

(** [Rainfall.__init__], lines 554-588: mm/s to m/s; [None/1000.0] is a TypeError. *)
Definition rain_rate (r : rate) : option rate :=
  match r with
  | Constant (Some x) => Some (Constant (Some (x / 1000)))
  | Constant None => None
  | Function f => Some (Function (fun t => divided (f t) 1000))
  end.
Definition make_rainfall (s : site) (r : rate) (center : option point) (radius : option R) (polygon : option (list point))
    (default : option rate) : error + forcing :=
  match rain_rate r with
  | None => inl DividesNone
  | Some r' =>
      match default with
      | None | Some (Constant None) => make_forcing s r' center radius polygon None false
      | Some d => match rain_rate d with Some d' => make_forcing s r' center radius polygon (Some d') false | None => inl DividesNone end
      end
  end.

(** [Inflow.__init__], lines 632-660 *)
Definition make_inflow (s : site) (r : rate) (center : option point) (radius : option R) (polygon : option (list point))
    (default : option rate) : error + forcing := make_forcing s r center radius polygon default true.

(** [compute_forcing_terms], generic_domain.py 2417-2427, for a list of such terms. *)
Fixpoint call_all (fs : list forcing) (n : nat) (t : R) (update : nat -> R) : error + (nat -> R) :=
  match fs with
  | [] => inr update
  | f :: fs => match call_forcing f n t update with inl e => inl e | inr u => call_all fs n t u end
  end.

(** [set_quantity_values], lines 487-501, on the centroid values of the
    quantities: the argument [quantity_name] is worked out and not used. *)
Definition set_quantity_values (f : forcing) (own : nat) (name : option nat) (val : R) (q : nat -> nat -> R) : nat -> nat -> R :=
  let quantity_name := match name with None => own | Some m => m end in
  upd q own (match place f with
             | None => fun _ => val
             | Some l => fold_left (fun u k => upd u k val) l (q own)
             end).
(** [get_quantity_values], lines 473-485 *)
Definition get_quantity_values (f : forcing) (own : nat) (name : option nat) (n : nat) (q : nat -> nat -> R) : list R :=
  let quantity_name := match name with None => own | Some m => m end in
  map (q quantity_name) (match place f with None => seq 0 n | Some l => l end).
