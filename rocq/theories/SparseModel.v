(** Model of anuga/utilities/sparse.py, of the products in
    anuga/utilities/sparse.c and of anuga/utilities/sparse_dok.c. *)
From Coq Require Import Reals List Arith Bool.
From Verif Require Import RealLib ArrayLib.
Import ListNotations.

Definition key := (nat * nat)%type.
Definition key_eqb (a b : key) : bool := (fst a =? fst b) && (snd a =? snd b).

(** A Python dictionary from keys to numbers: its items in insertion order. *)
Definition dict := list (key * R).

Fixpoint lookup (d : dict) (k : key) : option R :=
  match d with [] => None | (k', x) :: d => if key_eqb k' k then Some x else lookup d k end.
(** [d[k] = x]: an existing key keeps its place. *)
Fixpoint assign (d : dict) (k : key) (x : R) : dict :=
  match d with [] => [(k, x)] | (k', y) :: d => if key_eqb k' k then (k', x) :: d else (k', y) :: assign d k x end.
(** [del d[k]] *)
Fixpoint remove (d : dict) (k : key) : dict :=
  match d with [] => [] | (k', y) :: d => if key_eqb k' k then d else (k', y) :: remove d k end.

(** ** Class Sparse, sparse.py lines 9-208 *)
Record sparse := Sparse { M : nat; N : nat; Data : dict }.

(** [Sparse(M, N)], lines 37-39 *)
Definition empty (m n : nat) : sparse := Sparse m n [].

Definition in_range (A : sparse) (k : key) : bool := (fst k <? M A) && (snd k <? N A).

(** [__setitem__], lines 57-69; [None]: an assertion fails. *)
Definition setitem (A : sparse) (k : key) (x : R) : option sparse :=
  if in_range A k then
    Some (Sparse (M A) (N A) (if negb (Reqb x 0) then assign (Data A) k x else remove (Data A) k))
  else None.

(** [__getitem__], lines 71-81 *)
Definition getitem (A : sparse) (k : key) : option R :=
  if in_range A k then Some (match lookup (Data A) k with Some x => x | None => 0%R end) else None.

(** [Sparse(A)] from a dense [m] by [n] array, lines 23-35. *)
Definition from_dense (m n : nat) (a : nat -> nat -> R) : sparse :=
  Sparse m n (fold_left (fun d k => if negb (Reqb (a (fst k) (snd k)) 0) then assign d k (a (fst k) (snd k)) else d)
                        (list_prod (seq 0 m) (seq 0 n)) []).

(** Entry of [todense()], lines 94-101. *)
Definition dense (A : sparse) (i j : nat) : R := match lookup (Data A) (i, j) with Some x => x | None => 0%R end.

(** [copy], lines 83-92. *)
Fixpoint set_all (A : sparse) (f : R -> option R -> R) (items : dict) : option sparse :=
  match items with
  | [] => Some A
  | (k, x) :: items =>
      match getitem A k with
      | None => None
      | old => match setitem A k (f x old) with None => None | Some A => set_all A f items end
      end
  end.
Definition copy (A : sparse) : option sparse := set_all (empty (M A) (N A)) (fun x _ => x) (Data A).

(** [__mul__] by a vector given as a function, lines 120-132: entry [i]. *)
Definition mul_vector (A : sparse) (v : nat -> R) : nat -> R :=
  fold_left (fun r (it : key * R) => let '((i, j), x) := it in upd r i (r i + x * v j)%R) (Data A) (fun _ => 0%R).

(** [trans_mult], lines 180-208. *)
Definition trans_mult (A : sparse) (v : nat -> R) : nat -> R :=
  fold_left (fun r (it : key * R) => let '((i, j), x) := it in upd r j (r j + x * v i)%R) (Data A) (fun _ => 0%R).

(** [__add__], lines 148-158. *)
Definition add (A B : sparse) : option sparse :=
  match copy B with
  | None => None
  | Some new => set_all new (fun x old => match old with Some y => y + x | None => x end)%R (Data A)
  end.

(** [__rmul__], lines 160-178. *)
Definition rmul (c : R) (A : sparse) : option sparse :=
  match copy A with
  | None => None
  | Some new => Some (Sparse (M new) (N new) (map (fun it => (fst it, c * snd it)%R) (Data new)))
  end.

(** ** Sparse_CSR(A), sparse.py lines 232-258 *)

Definition key_leb (a b : key) : bool := (fst a <? fst b) || ((fst a =? fst b) && (snd a <=? snd b)).
(** [keys.sort()], kept together with the items. *)
Fixpoint insert_item (x : key * R) (l : dict) : dict :=
  match l with [] => [x] | y :: l' => if key_leb (fst x) (fst y) then x :: l else y :: insert_item x l' end.
Definition sort_items (l : dict) : dict := fold_right insert_item [] l.

Record csr := CSR {
  csr_M : nat; csr_N : nat;
  row_ptr : nat -> nat;
  entries : list (nat * R) }.       (* colind and data *)

(** Lines 242-251: [current] is [None] while current_row is -1. *)
Fixpoint fill_rows (items : dict) (k : nat) (current : option nat) (rp : nat -> nat) : option nat * (nat -> nat) :=
  match items with
  | [] => (current, rp)
  | ((i, _), _) :: items =>
      if match current with Some r => i =? r | None => false end
      then fill_rows items (S k) current rp
      else fill_rows items (S k) (Some i) (upd rp i k)
  end.

Definition to_csr (A : sparse) : csr :=
  let items := sort_items (Data A) in
  let nnz := length items in
  let '(current, rp) := fill_rows items 0 None (fun _ => 0) in
  let first := match current with None => 0 | Some r => S r end in
  CSR (M A) (N A) (fold_left (fun rp row => upd rp row nnz) (seq first (S (M A) - first)) rp)
      (map (fun it => (snd (fst it), snd it)) items).

(** [range(row_ptr[i], row_ptr[i+1])] as the entries it visits. *)
Definition row_entries (C : csr) (i : nat) : list (nat * R) :=
  map (fun ckey => nth ckey (entries C) (0, 0%R)) (seq (row_ptr C i) (row_ptr C (S i) - row_ptr C i)).

(** Entry of [todense()], lines 299-306: the last assignment wins. *)
Definition csr_dense (C : csr) (i j : nat) : R :=
  fold_left (fun d (e : nat * R) => if fst e =? j then snd e else d) (row_entries C i) 0%R.

(** [_csr_mv], sparse.c lines 17-33; [_csr_mm] does this for every column. *)
Definition csr_mv (C : csr) (x : nat -> R) (i : nat) : R :=
  fold_left (fun y (e : nat * R) => y + snd e * x (fst e))%R (row_entries C i) 0%R.

(** ** sparse_dok.c *)

(** The hash table: its entries in list order; [dok_rows] is [num_rows]. *)
Record dok := Dok { edgetable : dict; num_entries : nat; dok_rows : nat }.

(** [make_dok], lines 20-27 *)
Definition make_dok : dok := Dok [] 0 0.

Definition tiny : R := (/ 10 ^ 10)%R.

(** [add_dok_entry], lines 39-66: HASH_ADD appends at the end. *)
Definition add_dok_entry (h : dok) (k : key) (value : R) : dok :=
  let '(h1, entry) :=
    match lookup (edgetable h) k with
    | Some e => (Dok (assign (edgetable h) k (e + value)%R) (num_entries h) (dok_rows h), (e + value)%R)
    | None => (Dok (assign (edgetable h) k value) (S (num_entries h)) (Nat.max (dok_rows h) (fst k)), value)
    end in
  if Rleb entry tiny && Rleb (- tiny) entry
  then Dok (remove (edgetable h1) k) (pred (num_entries h1)) (dok_rows h1)
  else h1.

(** [add_sparse_dok], lines 170-199.  The first loop also sets the entries of
    the second table that it has used to zero; both tables are returned. *)
Definition scale_first (mult1 mult2 : R) (d1 d2 : dict) : dict * dict :=
  fold_left (fun st (it : key * R) =>
      let '(e1, e2) := st in let '(k, value) := it in
      match lookup e2 k with
      | Some x => (e1 ++ [(k, value * mult1 + x * mult2)%R], assign e2 k 0%R)
      | None => (e1 ++ [(k, value * mult1)%R], e2)
      end) d1 ([], d2).

Definition add_sparse_dok (h1 : dok) (mult1 : R) (h2 : dok) (mult2 : R) : dok * dok :=
  let '(d1, d2) := scale_first mult1 mult2 (edgetable h1) (edgetable h2) in
  (fold_left (fun h (it : key * R) => add_dok_entry h (fst it) (snd it * mult2)%R) d2 (Dok d1 (num_entries h1) (dok_rows h1)),
   Dok d2 (num_entries h2) (dok_rows h2)).

(** [convert_to_csr_ptr], lines 124-168: [row_ptr] comes from malloc, so an
    entry never written has an arbitrary value [garbage]. *)
Definition convert_to_csr (garbage : nat -> nat) (h : dok) : csr :=
  let items := sort_items (edgetable h) in
  let num_rows := S (dok_rows h) in
  let '(current, rp) := fill_rows items 0 None garbage in
  let first := match current with None => 0 | Some r => S r end in
  CSR num_rows 0 (fold_left (fun rp row => upd rp row (num_entries h)) (seq first (S num_rows - first)) rp)
      (map (fun it => (snd (fst it), snd it)) items).
