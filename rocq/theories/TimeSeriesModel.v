(** Time series read from files: fit_interpolate/interpolate.py
    ([Interpolation_function]), abstract_2d_finite_volumes/file_function.py and
    generic_boundary_conditions.py ([File_boundary]). *)
From Coq Require Import Reals List Arith Bool.
From Verif Require Import RealLib.
Import ListNotations.
Open Scope R_scope.

(** ** Values

    utilities/numerical_tools.py line 15 sets [NAN] to [(np.array([1])/0.)[0]],
    which is infinity: that is the mark of missing data. *)
Inductive val := Fin (x : R) | Missing | Nan.

(** interpolate.py lines 1085-1092: [Q0] if both are missing, otherwise
    [Q0 + ratio*(Q1 - Q0)] with the arithmetic of infinities, [0 < ratio]. *)
Definition lerp (q0 q1 : val) (ratio : R) : val :=
  match q0, q1 with
  | Missing, Missing => Missing
  | Fin a, Fin b => Fin (a + ratio * (b - a))
  | Fin _, Missing => Missing   (* a + ratio * inf *)
  | Missing, Fin _ => Nan       (* inf - inf *)
  | _, _ => Nan
  end.

(** ** [Interpolation_function.__call__], lines 1012-1116 *)

Inductive outcome := Value (q : list val) | Too_early | Too_late | Error.

(** [while t > self.time[self.index]: self.index += 1]; [None] is an index out of
    range. *)
Fixpoint climb (fuel : nat) (T : list R) (t : R) (i : nat) : option nat :=
  match nth_error T i with
  | None => None
  | Some x => if Rltb x t then match fuel with O => None | S fuel => climb fuel T t (S i) end else Some i
  end.

(** [while t < self.time[self.index]: self.index -= 1]; going below zero would
    read the last time. *)
Fixpoint descend (T : list R) (t : R) (i : nat) : option nat :=
  match nth_error T i with
  | None => None
  | Some x => if Rltb t x then match i with O => None | S j => descend T t j end else Some i
  end.

(** The object: times, one series per quantity (at the point asked for), index. *)
Record series := Series { times : list R; values : list (list val); index : nat }.

Definition read_value (ratio : R) (i : nat) (Q : list val) : option val :=
  match nth_error Q i with
  | None => None
  | Some q0 => if Rltb 0 ratio then match nth_error Q (S i) with None => None | Some q1 => Some (lerp q0 q1 ratio) end else Some q0
  end.

Fixpoint all_some {A} (l : list (option A)) : option (list A) :=
  match l with
  | [] => Some []
  | None :: _ => None
  | Some a :: l => match all_some l with None => None | Some l => Some (a :: l) end
  end.

Definition call (s : series) (t : R) : series * outcome :=
  match times s with
  | [] => (s, Error)
  | t0 :: _ =>
      if Rltb t t0 then (s, Too_early)
      else if Rltb (last (times s) t0) t then (s, Too_late)
      else
        match climb (length (times s)) (times s) t (index s) with
        | None => (s, Error)
        | Some j =>
            match descend (times s) t j with
            | None => (s, Error)
            | Some k =>
                let s' := Series (times s) (values s) k in
                let ratio :=
                  match nth_error (times s) k, nth_error (times s) (S k) with
                  | Some a, Some b => if Reqb t a then Some 0 else Some ((t - a) / (b - a))
                  | Some a, None => if Reqb t a then Some 0 else None
                  | None, _ => None
                  end in
                match ratio with
                | None => (s', Error)
                | Some r => match all_some (map (read_value r k) (values s)) with None => (s', Error) | Some q => (s', Value q) end
                end
            end
        end
  end.

(** A history of calls. *)
Fixpoint calls (s : series) (ts : list R) : series :=
  match ts with [] => s | t :: ts => calls (fst (call s t)) ts end.

(** ** [Interpolation_function.__init__], lines 754-1006 *)

(** [a[::k]], for [0 < k]. *)
Fixpoint thin_from {A} (k skip : nat) (l : list A) : list A :=
  match l with
  | [] => []
  | a :: l => match skip with O => a :: thin_from k (k - 1) l | S skip => thin_from k skip l end
  end.
Definition thin {A} (k : nat) (l : list A) : list A := thin_from k 0 l.

Fixpoint monotone (l : list R) : bool :=
  match l with
  | a :: ((b :: _) as l') => Rleb 0 (b - a) && monotone l'
  | _ => true
  end.

(** Lines 780-783 raise for times that go back. Lines 816-819 thin the times, and
    those quantities that have two dimensions. [rows] is the stage of lines
    835-1006, which turns a quantity into its values at the points. *)
Definition init (two_dimensional : bool) (thinning : nat) (T : list R) (Q : list (list val)) : option series :=
  if monotone T then Some (Series (thin thinning T) (if two_dimensional then map (thin thinning) Q else Q) 0) else None.

(** ** [file_function], file_function.py lines 28-163, and
    [get_netcdf_file_function], 226-497 *)

Record ncfile := NcFile { f_start : R; f_time : list R; f_values : list (list val); f_spatial : bool }.

(** Lines 335-350: the first index with a later time. *)
Fixpoint upper_index (l : list R) (limit : R) : nat :=
  match l with [] => O | t :: l => if Rltb limit t then O else S (upper_index l limit) end.

Definition file_times (f : ncfile) (relative : bool) (limit : option R) (domain_start : option R) : option (list R) :=
  let T := if relative then f_time f else map (fun t => t + f_start f) (f_time f) in
  let upper := match limit with None => length T | Some l => upper_index T (l - f_start f) end in
  if Nat.eqb (length T) 0 then None
  else if Nat.eqb upper 0 then None
  else
    let T := firstn upper T in
    Some (match domain_start with
          | Some ds => if Rltb (f_start f) ds then map (fun t => t - ds + f_start f) T else T
          | None => T
          end).

(** The function and the domain's start time afterwards. *)
Definition file_function (f : ncfile) (relative : bool) (thinning : nat) (limit : option R) (domain_start : option R) : option (series * option R) :=
  match file_times f relative limit domain_start with
  | None => None
  | Some T =>
      match init (f_spatial f) thinning T (f_values f) with
      | None => None
      | Some s => Some (s, match domain_start with
                           | Some ds => Some (if Rltb ds (f_start f) then f_start f else ds)
                           | None => None
                           end)
      end
  end.

(** ** [File_boundary], generic_boundary_conditions.py lines 518-720

    The constructor leaves [use_relative_time] at its default, true; [evaluate]
    calls the function at [domain.get_time()], which generic_domain.py lines
    616-619 define as start time plus relative time. *)
Definition domain_time (start relative_time : R) : R := start + relative_time.

Definition file_boundary (f : ncfile) (domain_start : R) : option (series * R) :=
  match file_function f true 1 None (Some domain_start) with
  | Some (s, Some start) => Some (s, start)
  | _ => None
  end.
Definition file_boundary_evaluate (s : series) (start relative_time : R) : series * outcome :=
  call s (domain_time start relative_time).

(** The check of [evaluate] for missing data: [num.any(res == NAN)]. *)
Definition missing_found (q : list val) : bool := existsb (fun v => match v with Missing => true | _ => false end) q.
