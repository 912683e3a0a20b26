(** Model of anuga/utilities/parse_time.py (lines 1-80): the time of a string,
    in seconds since 1970.  Strings are lists of ASCII characters; [None] is an
    exception. *)
From Coq Require Import Ascii List ZArith Bool.
Import ListNotations.
Local Open Scope Z_scope.

(** Python's [int] of a string: blanks around it, a sign, digits with single
    underscores between them *)
Definition code (c : ascii) : Z := Z.of_nat (nat_of_ascii c).
Definition is_digit (c : ascii) : bool := (48 <=? code c) && (code c <=? 57).
Definition is_blank (c : ascii) : bool := (code c =? 32) || ((9 <=? code c) && (code c <=? 13)) || ((28 <=? code c) && (code c <=? 31)).
Fixpoint skip (s : list ascii) : list ascii := match s with c :: t => if is_blank c then skip t else s | [] => [] end.
Definition strip (s : list ascii) : list ascii := rev (skip (rev (skip s))).
(** after a digit, with the value so far *)
Fixpoint digits (v : Z) (s : list ascii) : option Z :=
  match s with
  | [] => Some v
  | c :: t =>
      if is_digit c then digits (10 * v + (code c - 48)) t
      else if Ascii.eqb c "_" then match t with d :: u => if is_digit d then digits (10 * v + (code d - 48)) u else None | [] => None end
      else None
  end.
Definition natural (s : list ascii) : option Z :=
  match s with c :: t => if is_digit c then digits (code c - 48) t else None | [] => None end.
Definition py_int (s : list ascii) : option Z :=
  match strip s with
  | c :: t =>
      if Ascii.eqb c "-" then option_map Z.opp (natural t) else if Ascii.eqb c "+" then natural t else natural (c :: t)
  | [] => None
  end.

(** [datetime(...)] less [datetime(1970, 1, 1)], in seconds, of the Python
    library *)
Definition is_leap (y : Z) : bool := (y mod 4 =? 0) && (negb (y mod 100 =? 0) || (y mod 400 =? 0)).
Definition month_length (y m : Z) : Z :=
  if m =? 2 then if is_leap y then 29 else 28 else if (m =? 4) || (m =? 6) || (m =? 9) || (m =? 11) then 30 else 31.
Definition days_before_month (y m : Z) : Z :=
  nth (Z.to_nat (m - 1)) [0; 31; 59; 90; 120; 151; 181; 212; 243; 273; 304; 334] 0 + (if (2 <? m) && is_leap y then 1 else 0).
Definition days_before_year (y : Z) : Z := (y - 1) * 365 + (y - 1) / 4 - (y - 1) / 100 + (y - 1) / 400.
Definition valid (y m d h mi s : Z) : bool :=
  (1 <=? y) && (y <=? 9999) && (1 <=? m) && (m <=? 12) && (1 <=? d) && (d <=? month_length y m)
  && (0 <=? h) && (h <=? 23) && (0 <=? mi) && (mi <=? 59) && (0 <=? s) && (s <=? 59).
Definition seconds (y m d h mi s : Z) : Z :=
  (days_before_year y + days_before_month y m + d - 719163) * 86400 + h * 3600 + mi * 60 + s.

(** [time[i:j]], and [int] of it with a default, as the [try] statements have it *)
Definition slice (i j : nat) (s : list ascii) : list ascii := firstn (j - i) (skipn i s).
Definition field (i j : nat) (default : Z) (s : list ascii) : Z :=
  match py_int (slice i j s) with Some v => v | None => default end.
(** Lines 38-43: the separator is the ninth character, if it is one of four. *)
Definition dash (s : list ascii) : bool :=
  match slice 8 9 s with [c] => Ascii.eqb c "_" || Ascii.eqb c ":" || Ascii.eqb c "/" || Ascii.eqb c " " | _ => false end.
(** Lines 18-80, for a string; numbers are returned as they are. *)
Definition parse_time (s : list ascii) : option Z :=
  let year := field 0 4 1970 s in
  let month := field 4 6 1 s in
  let day := field 6 8 1 s in
  let hour := if dash s then field 9 11 0 s else field 8 10 0 s in
  let minute := if dash s then field 11 13 0 s else field 10 12 0 s in
  let second := if dash s then field 13 15 0 s else field 12 14 0 s in
  if valid year month day hour minute second then Some (seconds year month day hour minute second) else None.
