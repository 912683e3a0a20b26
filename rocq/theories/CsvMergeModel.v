(** Model of anuga/utilities/csv_tools.py.  A file is the list of its rows, as
    csv.reader gives them; [strip] removes blanks around a cell; [None] is an
    exception. *)
From Coq Require Import String List Arith Bool.
Import ListNotations.

(** [header.index], lines 22-36 *)
Fixpoint index (s : string) (l : list string) : option nat :=
  match l with
  | [] => None
  | x :: l => if String.eqb x s then Some 0 else match index s l with None => None | Some i => Some (S i) end
  end.
(** Lines 40-46: rows that are too short are left out. *)
Definition extract (strip : string -> string) (k d : nat) (line : list string) : list (string * string) :=
  match nth_error line k, nth_error line d with Some a, Some b => [(strip a, strip b)] | _, _ => [] end.
(** [read_csv_file], lines 8-50 *)
Definition read_csv_file (strip : string -> string) (rows : list (list string)) (key_col data_col : string) : option (list (string * string)) :=
  match rows with
  | [] => None
  | h :: lines =>
      match index key_col (map strip h), index data_col (map strip h) with
      | Some k, Some d => Some (flat_map (extract strip k d) lines)
      | _, _ => None
      end
  end.

(** Lines 82-86: files with their titles *)
Fixpoint read_all (strip : string -> string) (files : list (list (list string) * string)) (key_col data_col : string) : option (list (string * list (string * string))) :=
  match files with
  | [] => Some []
  | (rows, title) :: files =>
      match read_csv_file strip rows key_col data_col, read_all strip files key_col data_col with
      | Some data, Some l => Some ((title, data) :: l)
      | _, _ => None
      end
  end.
(** Comparison of lists of keys, line 105 *)
Fixpoint same (l m : list string) : bool :=
  match l, m with [], [] => true | x :: l, y :: m => String.eqb x y && same l m | _, _ => false end.
(** Lines 121-126: the row of an index *)
Definition row (first : list (string * string)) (l : list (string * list (string * string))) (i : nat) : list string :=
  fst (nth i first ("", "")%string) :: map (fun f => snd (nth i (snd f) ("", "")%string)) l.
(** [merge_csv_key_values], lines 53-128: the rows written *)
Definition merge_csv_key_values (strip : string -> string) (files : list (list (list string) * string)) (key_col data_col : string) : option (list (list string)) :=
  match read_all strip files key_col data_col with
  | None => None
  | Some [] => None
  | Some ((title, first) :: rest) =>
      let l := (title, first) :: rest in
      if forallb (fun f => (length (snd f) =? length first)%nat) l then
        if forallb (fun f => same (map fst (snd f)) (map fst first)) l then
          Some ((key_col :: map fst l) :: map (row first l) (seq 0 (length first)))
        else None
      else None
  end.
