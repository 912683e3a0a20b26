(** Model of wind stress and barometric pressure, anuga/shallow_water/forcing.py
    lines 27-75, 78-227, 805-1340.  Real arithmetic.  The functions of time and
    place that the user gives are arbitrary; a function value that does not have
    one entry for every triangle (or node) is not modelled. *)
From Coq Require Import Reals List Arith Bool.
From Verif Require Import RealLib ArrayLib.
Import ListNotations.
Open Scope R_scope.

(** config.py lines 50-52 *)
Definition eta_w : R := 3 / 1000.
Definition rho_a : R := 12 / 10000.
Definition rho_w : R := 1023.

(** ** Wind *)

(** [self.const], line 154 *)
Definition wind_const : R := eta_w * rho_a / rho_w.

(** Body of the loop of [assign_windfield_values], lines 213-227; the arrays are
    [explicit_update] of the two momenta. *)
Definition wind_cell (const : R) (s phi : nat -> R) (st : (nat -> R) * (nat -> R)) (k : nat) : (nat -> R) * (nat -> R) :=
  let '(xmom, ymom) := st in
  let ph := phi k * PI / 180 in
  let u := s k * cos ph in
  let v := s k * sin ph in
  let S_ := const * sqrt (u * u + v * v) in
  (upd xmom k (xmom k + S_ * u), upd ymom k (ymom k + S_ * v)).
Definition assign_windfield (n : nat) (const : R) (s phi : nat -> R) (xmom ymom : nat -> R) : (nat -> R) * (nat -> R) :=
  fold_left (wind_cell const s phi) (seq 0 n) (xmom, ymom).

(** A field is a number or a function of time and place ([check_forcefield],
    lines 27-75); its values at the points, lines 164-200. *)
Inductive field := Number (x : R) | Field (f : R -> R -> R -> R).
Definition values (f : field) (t : R) (place : nat -> R * R) (k : nat) : R :=
  match f with Number x => x * 1 | Field g => g t (fst (place k)) (snd (place k)) end.
(** [Wind_stress.__call__], lines 156-203 *)
Definition wind_stress (s phi : field) (n : nat) (t : R) (centroid : nat -> R * R) (xmom ymom : nat -> R) : (nat -> R) * (nat -> R) :=
  assign_windfield n wind_const (values s t centroid) (values phi t centroid) xmom ymom.

(** ** Pressure *)

(** [gradient], util_ext / numerical_tools.py 330-341 *)
Definition gradient (x0 y0 x1 y1 x2 y2 q0 q1 q2 : R) : R * R :=
  let det := (y2 - y0) * (x1 - x0) - (y1 - y0) * (x2 - x0) in
  (((y2 - y0) * (q1 - q0) - (y1 - y0) * (q2 - q0)) / det, ((x1 - x0) * (q2 - q0) - (x2 - x0) * (q1 - q0)) / det).

(** Body of the loop of [assign_pressure_field_values], lines 945-963 *)
Definition pressure_cell (height pressure : nat -> R) (vertex : nat -> R * R) (triangle : nat -> nat * nat * nat)
    (st : (nat -> R) * (nat -> R)) (k : nat) : (nat -> R) * (nat -> R) :=
  let '(xmom, ymom) := st in
  let '(a, b, c) := triangle k in
  let '(x0, y0) := vertex (3 * k)%nat in
  let '(x1, y1) := vertex (3 * k + 1)%nat in
  let '(x2, y2) := vertex (3 * k + 2)%nat in
  let '(gx, gy) := gradient x0 y0 x1 y1 x2 y2 (pressure a) (pressure b) (pressure c) in
  (upd xmom k (xmom k + height k * gx / rho_w), upd ymom k (ymom k + height k * gy / rho_w)).
Definition assign_pressure (n : nat) (height pressure : nat -> R) (vertex : nat -> R * R) (triangle : nat -> nat * nat * nat)
    (xmom ymom : nat -> R) : (nat -> R) * (nat -> R) :=
  fold_left (pressure_cell height pressure vertex triangle) (seq 0 n) (xmom, ymom).
(** [Barometric_pressure.__call__], lines 899-932 *)
Definition barometric (p : field) (n : nat) (t : R) (node : nat -> R * R) (stage bed : nat -> R) (vertex : nat -> R * R)
    (triangle : nat -> nat * nat * nat) (xmom ymom : nat -> R) : (nat -> R) * (nat -> R) :=
  assign_pressure n (fun k => stage k - bed k) (values p t node) vertex triangle xmom ymom.

(** ** Creating the objects *)

(** The forms of the call: positional arguments, each a number or a function
    (of coordinates, or of the number of the point), and keyword arguments. *)
Inductive form :=
  | TwoFields              (** (s, phi) *)
  | OneNumber              (** (1000) *)
  | OneFunction            (** (F) *)
  | OneFunctionFile        (** (F, filename=..., domain=...) *)
  | Keywords               (** (s=..., phi=...), or (p=...) *)
  | KeywordsFile.          (** (p=F, filename=..., domain=...) *)
Inductive creation := Ready | UnboundName | NotIndexable | Refused.

(** [Wind_stress.__init__], lines 83-154 (without file forms) *)
Definition create_wind (c : form) : creation :=
  match c with TwoFields | OneFunction | Keywords => Ready | _ => Refused end.
(** [Barometric_pressure.__init__], lines 866-897: a number is stored in
    [pressure], line 870, and [p] is used, line 894. *)
Definition create_pressure (c : form) : creation :=
  match c with OneNumber => UnboundName | OneFunction | Keywords => Ready | _ => Refused end.
(** [Barometric_pressure_fast.__init__], lines 1012-1088: [N] is set at line
    1080 only, in the case of a file, and used at line 1087 in every case; the
    function of line 1034 already takes the first component, line 1084 takes the
    first component of that number. *)
Definition create_pressure_fast (c : form) : creation :=
  match c with
  | OneNumber => UnboundName
  | OneFunction => UnboundName
  | OneFunctionFile => NotIndexable
  | Keywords => UnboundName
  | KeywordsFile => Ready
  | TwoFields => Refused
  end.
(** [Wind_stress_fast.__init__], lines 1196-1276: [len(domain)], line 1233, where
    [domain] is set only at line 1209. *)
Definition create_wind_fast (c : form) : creation :=
  match c with
  | TwoFields | OneFunction | Keywords => UnboundName
  | OneFunctionFile => Ready
  | _ => Refused
  end.

(** ** Values between the times of a file (the classes [..._fast]) *)

(** The object: the number of the interval and the values at its ends, for one
    point. *)
Record stored := { index : nat; prev : R; next : R }.
Inductive fast_error := StartsLater | EndsEarlier | LastInterval | EndOfFile.

Definition time_at (times : list R) (i : nat) : option R := nth_error times i.

(** Lines 1071-1077 and 1250-1255: the last number before [starttime], counting
    until the first time that is not before it. *)
Fixpoint start_index (times : list R) (start : R) (i found : nat) : nat :=
  match times with
  | [] => found
  | x :: times => if Rltb x start then start_index times start (S i) i else found
  end.

(** Lines 1054-1085, 1235-1268; [F] is the function of time at the point.
    [file_time[-2]] needs two times (an IndexError otherwise). *)
Definition create_stored (times : list R) (F : R -> R) (start : R) : fast_error + stored :=
  match times, nth_error times (length times - 2) with
  | first :: _, Some before_last =>
      let final := last times 0 in
      if Rltb start first then inl StartsLater else
      if Rltb final start then inl EndsEarlier else
      if Rltb before_last start && Rltb start final then inl LastInterval else
      let i := start_index times start 0 0 in
      match time_at times i, time_at times (i + 1) with
      | Some a, Some b => inr {| index := i; prev := F a; next := F b |}
      | _, _ => inl EndOfFile
      end
  | _, _ => inl EndOfFile
  end.

(** [update_stored_pressure_values], lines 1126-1131, and
    [update_stored_wind_values], 1332-1340; reading beyond the last time is an
    IndexError. *)
Fixpoint advance (fuel : nat) (times : list R) (F : R -> R) (t : R) (s : stored) : fast_error + stored :=
  match fuel with
  | O => inl EndOfFile
  | S fuel =>
      match time_at times (index s + 1) with
      | None => inl EndOfFile
      | Some e =>
          if Rltb e t then
            match time_at times (index s + 2) with
            | None => inl EndOfFile
            | Some e' => advance fuel times F t {| index := index s + 1; prev := next s; next := F e' |}
            end
          else inr s
      end
  end.

(** Lines 1102-1106, 1290-1296, 1309-1315 *)
Definition fast_value (times : list R) (F : R -> R) (t : R) (s : stored) : fast_error + (R * stored) :=
  match advance (S (length times)) times F t s with
  | inl e => inl e
  | inr s =>
      match time_at times (index s), time_at times (index s + 1) with
      | Some a, Some b => let ratio := (t - a) / (b - a) in inr (prev s + ratio * (next s - prev s), s)
      | _, _ => inl EndOfFile
      end
  end.

(** A sequence of calls at the given times. *)
Fixpoint fast_values (times : list R) (F : R -> R) (ts : list R) (s : stored) : fast_error + list R :=
  match ts with
  | [] => inr []
  | t :: ts =>
      match fast_value times F t s with
      | inl e => inl e
      | inr (v, s) => match fast_values times F ts s with inl e => inl e | inr vs => inr (v :: vs) end
      end
  end.
