(** Model of anuga/caching/caching.py: [cache] (145-420), [CacheLookup]
    (814-997), [save_args_to_cache] (1096-1123), [save_results_to_cache]
    (1127-1196), [load_from_cache] (1200-1216), [myhash] (1414-1495) and
    [compare] (1499-1581).  Compression is the same for all calls, statistics
    files and messages are left out. *)
From Coq Require Import ZArith QArith Qreduction List Arith Bool.
Import ListNotations.
Local Open Scope nat_scope.

(** ** Python values.  Atoms carry their type; arrays are one dimensional.
    Values are trees: no object contains itself. *)
Inductive pyval :=
| Atom (ty : nat) (v : Z)
| Tup (l : list pyval)
| Lst (l : list pyval)
| Dct (items : list (pyval * pyval))
| Arr (data : list Z).

(** [num.all(A == B)] for one dimensional arrays: an array of length one is
    broadcast against the other one.  (Other differing lengths do not match;
    recent numpy versions raise instead.) *)
Fixpoint all2 (x y : list Z) : bool :=
  match x, y with
  | a :: x, b :: y => Z.eqb a b && all2 x y
  | _, _ => true
  end.
Definition arr_eq (x y : list Z) : bool :=
  if Nat.eqb (length x) (length y) then all2 x y
  else match x, y with
       | [a], _ => forallb (Z.eqb a) y
       | _, [b] => forallb (fun a => Z.eqb a b) x
       | _, _ => false
       end.

(** [compare].  The pair of identities is recorded as equal (line 1520) before
    the branch for dictionaries calls [compare] on the same two objects again
    (line 1548), which therefore returns True: only the numbers of entries are
    compared. *)
Fixpoint compare (a b : pyval) {struct a} : bool :=
  let fix cmp (l l' : list pyval) {struct l} : bool :=
    match l, l' with
    | [], [] => true
    | x :: l, y :: l' => compare x y && cmp l l'
    | _, _ => false
    end in
  match a, b with
  | Atom t v, Atom t' v' => Nat.eqb t t' && Z.eqb v v'
  | Tup l, Tup l' => cmp l l'
  | Lst l, Lst l' => cmp l l'
  | Dct d, Dct d' => Nat.eqb (length d) (length d')
  | Arr x, Arr y => arr_eq x y
  | _, _ => false
  end.

(** ** Files.  [None]: no file; [Some None]: a file that cannot be loaded
    (empty or truncated); [Some (Some x)]: a file containing [x]. *)
Definition file (X : Type) := option (option X).
Definition readable {X} (f : file X) : option X := match f with Some (Some x) => Some x | _ => None end.

(** A callable: its name, what [get_bytecode] (1646-1692) returns for it
    (byte code, constants, argument count, defaults) and the rest of what its
    behaviour depends on (names of globals, closures, globals themselves). *)
Record fn := { fname : nat; code : Z; rest : Z }.

Section Cache.
(** Results. *)
Variable T : Type.
(** The hash of an atom, of the concatenated hashes of a sequence, and of the
    average of an array ([None]: average of an empty array). *)
Variable hash_atom : nat -> Z -> Z.
Variable hash_seq : list Z -> Z.
Variable hash_avg : option Q -> Z.

Definition average (x : list Z) : option Q :=
  match x with
  | [] => None
  | _ => Some (Qred (Qmake (fold_right Z.add 0%Z x) (Pos.of_nat (length x))))
  end.
(** [myhash]: a dictionary is hashed as the list of its items (tuples). *)
Fixpoint myhash (v : pyval) : Z :=
  match v with
  | Atom t z => hash_atom t z
  | Tup l => hash_seq (map myhash l)
  | Lst l => hash_seq (map myhash l)
  | Dct d => hash_seq (map (fun p => hash_seq [myhash (fst p); myhash (snd p)]) d)
  | Arr x => hash_avg (average x)
  end.

(** What calling a function does; [None]: it raises.  The last argument is the
    state of the files of the system. *)
Variable apply : fn -> pyval -> pyval -> (nat -> Z) -> option T.

(** The three files of a cache entry. *)
Record slot := {
  s_data : file T;                         (* FN_Result *)
  s_args : file (pyval * pyval);           (* FN_Args: args, kwargs *)
  s_adm : file (pyval * Z)                 (* FN_Admin: dependency stats, byte code *)
}.
Definition empty_slot : slot := {| s_data := None; s_args := None; s_adm := None |}.

(** FN: function name, hash of the arguments, number of letters 'x' appended. *)
Definition key := (nat * Z * nat)%type.
Definition key_eqb (a b : key) : bool :=
  Nat.eqb (fst (fst a)) (fst (fst b)) && Z.eqb (snd (fst a)) (snd (fst b)) && Nat.eqb (snd a) (snd b).
Definition store := key -> slot.
Definition put (st : store) (k : key) (s : slot) : store := fun k' => if key_eqb k' k then s else st k'.

(** [get_depstats] (1695-1730): a dictionary from file names to size and
    modification time (one number here). *)
Definition depstats (world : nat -> Z) (deps : list nat) : pyval :=
  Dct (map (fun f => (Atom 0 (Z.of_nat f), Atom 1 (world f))) deps).

Inductive found := Hit (r : T) | Miss (n : nat).

(** [CacheLookup]; [None]: the recursion is too deep. *)
Fixpoint cache_lookup (fuel : nat) (st : store) (f : fn) (h : Z) (n : nat) (args kwargs : pyval)
  (has_deps : bool) (deps : pyval) : option found :=
  match fuel with
  | O => None
  | S fuel =>
    let s := st (fname f, h, n) in
    match s_args s, s_data s, s_adm s with
    | Some fargs, Some fdata, Some fadm =>
      match fargs with
      | None => Some (Miss n)
      | Some (argsref, kwargsref) =>
        match fadm with
        | None => Some (Miss n)
        | Some (depsref, coderef) =>
          if has_deps && negb (compare depsref deps) then Some (Miss n)
          else if compare argsref args && compare kwargsref kwargs && Z.eqb (code f) coderef then
            match fdata with
            | None => Some (Miss n)
            | Some r => Some (Hit r)
            end
          else cache_lookup fuel st f h (S n) args kwargs has_deps deps
        end
      end
    | _, _, _ => Some (Miss n)
    end
  end.

Inductive outcome := Returned (r : option T)   (* None: Python None in test mode *)
                   | Raised                    (* the function raised *)
                   | Recursion                 (* CacheLookup recursed too deep *)
                   | Crashed.                  (* the process died *)

Definition set_args s v := {| s_data := s_data s; s_args := v; s_adm := s_adm s |}.
Definition set_data s v := {| s_data := v; s_args := s_args s; s_adm := s_adm s |}.
Definition set_adm s v := {| s_data := s_data s; s_args := s_args s; s_adm := v |}.

(** The states of the entry while a result is computed and saved: the
    arguments file is opened (truncated) and written before the call; then the
    data and admin files are both opened, the data is written, the admin file
    is written. *)
Definition saving (s : slot) (a : pyval * pyval) (r : T) (d : pyval * Z) : list slot :=
  let s1 := set_args s (Some None) in
  let s2 := set_args s (Some (Some a)) in
  let s3 := set_data s2 (Some None) in
  let s4 := set_adm s3 (Some None) in
  let s5 := set_data s4 (Some (Some r)) in
  let s6 := set_adm s5 (Some (Some d)) in
  [s; s1; s2; s3; s4; s5; s6].

Record request := {
  q_fn : fn; q_args : pyval; q_kwargs : pyval; q_deps : list nat;
  q_evaluate : bool; q_test : bool;
  q_fuel : nat;
  q_crash : option nat          (* the process dies in this state of [saving] *)
}.

(** [cache] (308-420). *)
Definition cache (st : store) (world : nat -> Z) (q : request) : store * outcome :=
  let f := q_fn q in
  let h := myhash (Tup [q_args q; q_kwargs q]) in
  let deps := depstats world (q_deps q) in
  let has_deps := match q_deps q with [] => false | _ => true end in
  let found :=
    if q_evaluate q then Some (Miss 0)
    else cache_lookup (q_fuel q) st f h 0 (q_args q) (q_kwargs q) has_deps deps in
  match found with
  | None => (st, Recursion)
  | Some (Hit r) => (st, Returned (Some r))
  | Some (Miss n) =>
    if q_test q then (st, Returned None)
    else
      let k := (fname f, h, n) in
      let s := st k in
      match apply f (q_args q) (q_kwargs q) world with
      | None =>
        match q_crash q with
        | Some 0 => (st, Crashed)
        | Some 1 => (put st k (set_args s (Some None)), Crashed)
        | _ => (put st k (set_args s (Some (Some (q_args q, q_kwargs q)))), Raised)
        end
      | Some r =>
        let states := saving s (q_args q, q_kwargs q) r (deps, code f) in
        match q_crash q with
        | Some c => (put st k (nth c states (nth 6 states s)), if Nat.ltb c 6 then Crashed else Returned (Some r))
        | None => (put st k (nth 6 states s), Returned (Some r))
        end
      end
  end.

(** ** Histories: requests, changes of files of the system, and removal of
    cache files ([clear_cache] 1000-1061 and [clear=True] remove whole
    entries; [DeleteOldFiles] 1065-1092 removes single files). *)
Inductive file_kind := FData | FArgs | FAdm.
Inductive event :=
| Request (q : request)
| Touch (f : nat) (v : Z)
| Clear (which : key -> bool)
| Delete (k : key) (x : file_kind).

Definition delete (x : file_kind) (s : slot) : slot :=
  match x with FData => set_data s None | FArgs => set_args s None | FAdm => set_adm s None end.

Definition state := (store * (nat -> Z))%type.
Definition step (s : state) (e : event) : state :=
  let (st, w) := s in
  match e with
  | Request q => (fst (cache st w q), w)
  | Touch f v => (st, fun g => if Nat.eqb g f then v else w g)
  | Clear which => ((fun k => if which k then empty_slot else st k), w)
  | Delete k x => (put st k (delete x (st k)), w)
  end.
Definition run (s : state) (es : list event) : state := fold_left step es s.
Definition fresh (w : nat -> Z) : state := ((fun _ => empty_slot), w).

End Cache.
Arguments Hit {T}. Arguments Miss {T}.
Arguments Returned {T}. Arguments Raised {T}. Arguments Recursion {T}. Arguments Crashed {T}.
