(** Model of the checkpoint restart: anuga/shallow_water/checkpoint.py. *)
From Coq Require Import Reals List Arith Lia Bool Ascii.
From Verif Require Import RealLib KahnLib.
Import ListNotations.

Definition str := list ascii.
Definition dot : ascii := "."%char.
Definition underscore : ascii := "_"%char.

Fixpoint str_eqb (a b : str) : bool :=
  match a, b with
  | [], [] => true
  | x :: a', y :: b' => Ascii.eqb x y && str_eqb a' b'
  | _, _ => false
  end.

(** The parts before and after the last occurrence of a character. *)
Fixpoint rsplit (c : ascii) (s : str) : option (str * str) :=
  match s with
  | [] => None
  | x :: r => match rsplit c r with
              | Some (b, a) => Some (x :: b, a)
              | None => if Ascii.eqb x c then Some ([], r) else None
              end
  end.

(** posixpath.splitext(f)[0] for a file name without separator: the part
    before the last dot, unless only dots precede it. *)
Definition splitext_base (s : str) : str :=
  match rsplit dot s with
  | Some (b, _) => if existsb (fun x => negb (Ascii.eqb x dot)) b then b else s
  | None => s
  end.

(** s.rpartition("_"): first and last component. *)
Definition rpartition_underscore (s : str) : str * str :=
  match rsplit underscore s with Some (b, a) => (b, a) | None => ([], s) end.

Definition mem (t : R) (l : list R) : bool := existsb (Reqb t) l.
Definition set_add (t : R) (l : list R) : list R := if mem t l then l else t :: l.
Definition set_inter (a b : list R) : list R := filter (fun t => mem t b) a.

(** list.sort on floats. *)
Fixpoint insert (t : R) (l : list R) : list R :=
  match l with
  | [] => [t]
  | x :: r => if Rleb t x then t :: l else x :: insert t r
  end.
Definition sort (l : list R) : list R := fold_right insert [] l.

Section Checkpoint.
(** The loaded domains; Python's [float(s)] ([None]: ValueError), [str(t)] for
    a float and the decimal form of an integer. *)
Variable D : Type.
Variable py_float : str -> option R.
Variable py_str : R -> str.
Variable dec : nat -> str.
Variable ext_pickle : str.

(** A process sees: the file names of every directory visited by os.walk,
    starting with checkpoint_dir, and for each name the result of opening and
    unpickling join(checkpoint_dir, name) ([None] when missing or unreadable). *)
Record view := View { walk : list (list str); load : str -> option D }.

(** lines 96-102: [None] when float(time) raises. *)
Fixpoint scan_files (name : str) (fs : list str) (times : list R) : option (list R) :=
  match fs with
  | [] => Some times
  | f :: r =>
      let fb := rpartition_underscore (splitext_base f) in
      if str_eqb (fst fb) name then
        match py_float (snd fb) with
        | Some t => scan_files name r (set_add t times)
        | None => None
        end
      else scan_files name r times
  end.

(** lines 89-102: [None] when float raises, and for `return None` on a directory
    without files, on which the caller's list(times) raises. *)
Fixpoint scan (name : str) (dirs : list (list str)) (times : list R) : option (list R) :=
  match dirs with
  | [] => Some times
  | fs :: r =>
      match fs with
      | [] => None
      | _ => match scan_files name fs times with Some times' => scan name r times' | None => None end
      end
  end.

Inductive msg := MTimes (l : list R) | MFlag (b : bool).
Definition times_of (m : msg) : list R := match m with MTimes l => l | MFlag _ => [] end.
Definition flag_of (m : msg) : bool := match m with MFlag b => b | MTimes _ => false end.

(** lines 28-29 *)
Definition proc_name (n : nat) (name : str) (p : nat) : str :=
  if 1 <? n then name ++ underscore :: "P"%char :: dec n ++ underscore :: dec p else name.

(** line 45, without the directory *)
Definition pickle_name (name : str) (t : R) : str := name ++ underscore :: py_str t ++ dot :: ext_pickle.

(** The value of a process: [Some d] a loaded domain, [None] an exception. *)
Definition result := option D.

(** lines 43-74; the barrier of line 68 only removes schedules. *)
Fixpoint try_times (n p : nat) (name : str) (v : view) (ts : list R) : prog msg result :=
  match ts with
  | [] => Ret None
  | t :: r =>
      let d := load v (pickle_name name t) in
      let success := match d with Some _ => true | None => false end in
      exchange_bulk (MFlag success) (others n p)
        (fun ms => if fold_left andb (map flag_of ms) success then Ret d else try_times n p name v r)
  end.

(** lines 24-81 with time=None *)
Definition load_checkpoint_file (n : nat) (name0 : str) (v : view) (p : nat) : prog msg result :=
  let name := proc_name n name0 p in
  match scan name (walk v) [] with
  | None => Ret None
  | Some times =>
      exchange_pairwise (MTimes times) (others n p) []
        (fun ms => let combined := fold_left set_inter (map times_of ms) times in
                   try_times n p name v (rev (sort combined)))
  end.

(** lines 24-81 with a time *)
Definition load_checkpoint_time (n : nat) (name0 : str) (v : view) (t : R) (p : nat) : prog msg result :=
  try_times n p (proc_name n name0 p) v [t].

Definition start (n : nat) (pr : nat -> prog msg result) : net msg result := Net pr no_messages.
End Checkpoint.
