(** Storing model output: anuga/file/sww.py. *)
From Coq Require Import Reals List Arith Bool ZArith.
From Verif Require Import RealLib.
Import ListNotations.
Open Scope R_scope.

(** ** What is stored at a time step: [SWW_file.store_timestep], lines 335-392

    Vertex values of stage, elevation and momenta. [num.choose(storable, (z, A))]
    takes [A] where [storable] holds. *)
Definition choose (storable : list bool) (other a : list R) : list R :=
  map (fun p : bool * (R * R) => if fst p then snd (snd p) else fst (snd p)) (combine storable (combine other a)).

Definition storable (h : R) (w z : list R) : list bool := map (fun p : R * R => Rleb h (fst p - snd p)) (combine w z).

Definition stored_stage (h : R) (w z : list R) : list R := choose (storable h w z) z w.
Definition stored_momentum (h : R) (w z m : list R) : list R := choose (storable h w z) (repeat 0 (length m)) m.

(** ** The file: start time, times, one frame for each time, range of the values.

    A frame is a list of values; the ranges of the quantities are independent of one
    another, so one quantity is enough. *)
Record sww := Sww { sw_start : R; sw_time : list R; sw_frames : list (list R); sw_range : R * R }.

(** config.py: [max_float = 1.0e36]; the sentinels of lines 683-684 and
    [write_dynamic_quantities], lines 798-829. *)
Definition max_float : R := 10 ^ 36.
Definition new_file (start : R) : sww := Sww start [] [] (max_float, - max_float).

(** [numpy.where(numpy.abs(file_time[:]-time) < 1.0e-14)], the first match. *)
Fixpoint find_time (T : list R) (t : R) : option nat :=
  match T with
  | [] => None
  | a :: T => if Rltb (Rabs (a - t)) (/ 10 ^ 14) then Some O else match find_time T t with None => None | Some i => Some (S i) end
  end.

(** Assignment to a NetCDF variable along its unlimited dimension. *)
Fixpoint put {A} (l : list A) (i : nat) (a : A) : list A :=
  match l, i with
  | [], _ => [a]
  | _ :: l, O => a :: l
  | b :: l, S i => b :: put l i a
  end.

(** Lines 1020-1031: the smallest and largest of the values; [num.min] of an empty
    array raises. *)
Fixpoint minimum (x : R) (l : list R) : R := match l with [] => x | y :: l => Rmin x (minimum y l) end.
Fixpoint maximum (x : R) (l : list R) : R := match l with [] => x | y :: l => Rmax x (maximum y l) end.
Definition update_range (r : R * R) (q : list R) : option (R * R) :=
  match q with
  | [] => None
  | x :: l => Some ((if Rltb (minimum x l) (fst r) then minimum x l else fst r),
                    (if Rltb (snd r) (maximum x l) then maximum x l else snd r))
  end.

(** [Write_sww.store_quantities], lines 963-1035. *)
Definition slice_index (T : list R) (t : R) : option nat :=
  match rev T with
  | [] => Some O
  | l :: _ => if Rleb t l then find_time T t else Some (length T)
  end.
Definition store_quantities (f : sww) (t : R) (q : list R) : option sww :=
  match slice_index (sw_time f) t with
  | None => None
  | Some i =>
      match update_range (sw_range f) q with
      | None => None
      | Some r => Some (Sww (sw_start f) (put (sw_time f) i t) (put (sw_frames f) i q) r)
      end
  end.

(** Several steps. *)
Fixpoint store_all (f : sww) (steps : list (R * list R)) : option sww :=
  match steps with
  | [] => Some f
  | (t, q) :: steps => match store_quantities f t q with None => None | Some f => store_all f steps end
  end.

(** ** File splitting: lines 292-333

    [size] is the size of a file on disk; [recursion] counts how often the data
    structure was replaced in this step. The new file starts at
    [domain.get_time()], which is the domain's start time plus its relative time,
    and the domain's start time is this while the new file is written. A file that
    was itself made in this step is written over, as only the first replacement
    changes the name.

    The result is the files left behind and the file written to. *)
Definition too_big (size : sww -> Z) (max_size : Z) (recursion : nat) (f : sww) : bool :=
  let s := size f in
  (max_size * 2 ^ Z.of_nat recursion <? s + s / (Z.of_nat (length (sw_time f)) + 1))%Z.

Fixpoint store_timestep (fuel : nat) (size : sww -> Z) (max_size : Z) (recursion : nat) (start : R) (f : sww) (r : R) (q : list R) : option (list sww * sww) :=
  if too_big size max_size recursion f then
    match fuel with
    | O => None
    | S fuel =>
        match store_timestep fuel size max_size (S recursion) (start + r) (new_file (start + r)) r q with
        | None => None
        | Some (closed, g) => Some ((if Nat.eqb recursion 0 then f :: closed else closed), g)
        end
    end
  else match store_quantities f r q with None => None | Some f => Some ([], f) end.

(** A run: the domain's start time stays what it was. *)
Fixpoint run (fuel : nat) (size : sww -> Z) (max_size : Z) (start : R) (closed : list sww) (f : sww) (steps : list (R * list R)) : option (list sww) :=
  match steps with
  | [] => Some (closed ++ [f])
  | (r, q) :: steps =>
      match store_timestep fuel size max_size 0 start f r q with
      | None => None
      | Some (c, f) => run fuel size max_size start (closed ++ c) f steps
      end
  end.

(** ** Reading back: [get_time_interp], lines 1465-1499, and
    [interpolated_quantity], lines 1501-1521 *)
Fixpoint time_index (T : list R) (t : R) (i : nat) : option nat :=
  match T with
  | [] => None
  | a :: T => if Rltb a t then time_index T t (S i) else Some i
  end.
Fixpoint time_back (T : list R) (t : R) (i : nat) : option nat :=
  match nth_error T i with
  | None => None
  | Some a => if Rltb t a then match i with O => None | S j => time_back T t j end else Some i
  end.
Definition get_time_interp (T : list R) (t : R) : option (nat * R) :=
  match T with
  | [] => None
  | t0 :: _ =>
      if Rltb t t0 then None
      else if Rltb (last T t0) t then None
      else match time_index T t 0 with
           | None => None
           | Some j =>
               match time_back T t j with
               | None => None
               | Some i =>
                   match nth_error T i, nth_error T (S i) with
                   | Some a, Some b => if Reqb t a then Some (i, 0) else Some (i, (t - a) / (b - a))
                   | Some a, None => if Reqb t a then Some (i, 0) else None
                   | None, _ => None
                   end
               end
           end
  end.
Definition interpolated_quantity (Q : list (list R)) (p : nat * R) : option (list R) :=
  let '(i, ratio) := p in
  if Rltb 0 ratio then
    match nth_error Q i, nth_error Q (S i) with
    | Some a, Some b => Some (map (fun x : R * R => (1 - ratio) * fst x + ratio * snd x) (combine a b))
    | _, _ => None
    end
  else nth_error Q i.
