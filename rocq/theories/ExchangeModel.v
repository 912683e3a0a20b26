(** Model of the two other ways to exchange ghost values,
    anuga/parallel/parallel_generic_communications.py:
    communicate_ghosts_blocking (lines 92-156) and
    communicate_ghosts_asynchronous (lines 251-300), the latter with
    send_recv_via_dicts of anuga/utilities/parallel_abstraction.py (lines
    245-273).  The way that is in use, communicate_ghosts_non_blocking, is in
    [GhostModel]. *)
From Coq Require Import List Arith Bool.
From Verif Require Import ArrayLib KahnLib SwapLib.
Import ListNotations.

(** [list.sort()] of process numbers. *)
Fixpoint insert_key (x : nat) (l : list nat) : list nat :=
  match l with
  | [] => [x]
  | y :: r => if x <=? y then x :: l else y :: insert_key x r
  end.
Fixpoint sort_keys (l : list nat) : list nat := match l with [] => [] | x :: r => insert_key x (sort_keys r) end.
Fixpoint same_keys (a b : list nat) : bool :=
  match a, b with [], [] => true | x :: a, y :: b => (x =? y) && same_keys a b | _, _ => false end.
Definition has_key (x : nat) (l : list nat) : bool := existsb (Nat.eqb x) l.

Section Exchange.
(** [V]: the values of one triangle, one per quantity that is exchanged. *)
Variable V : Type.
Variable n : nat.
(** The dictionaries [full_send_dict] and [ghost_recv_dict] of each process: keys
    in the order of the dictionary, and the local ids stored under a key. *)
Variable sends recvs : nat -> list nat.
Variable sid rid : nat -> nat -> list nat.
(** What process [p] does with its centroid values between call [r] and the next. *)
Variable compute : nat -> nat -> (nat -> V) -> (nat -> V).

(** [num.take(Q_cv, Idf)] and [num.put(Q_cv, Idg, X)] for all quantities. *)
Definition take (c : nat -> V) (ids : list nat) : list V := map c ids.
Definition put (c : nat -> V) (ids : list nat) (x : list V) : nat -> V :=
  fold_left (fun c iv => upd c (fst iv) (snd iv)) (combine ids x) c.

(** ** Blocking sends and receives *)
Definition bprog := KahnLib.prog (list V) (nat -> V).

(** Lines 108-122: the sends of the process whose turn it is. *)
Fixpoint send_turn (p : nat) (keys : list nat) (c : nat -> V) (k : bprog) : bprog :=
  match keys with
  | [] => k
  | q :: keys => if q =? p then send_turn p keys c k else Send q (take c (sid p q)) (send_turn p keys c k)
  end.
(** Lines 107-137: the processes take turns in sending. *)
Fixpoint turns (p : nat) (l : list nat) (c : nat -> V) (K : (nat -> V) -> bprog) : bprog :=
  match l with
  | [] => K c
  | i :: l =>
      if i =? p then send_turn p (sends p) c (turns p l c K)
      else if has_key i (recvs p) then Recv i (fun x => turns p l (put c (rid p i) x) K)
      else turns p l c K
  end.
(** Lines 139-154: the ghosts whose source is in the same process. *)
Definition local_update (p : nat) (c : nat -> V) : nat -> V :=
  if has_key p (sends p) then put c (rid p p) (take c (sid p p)) else c.
(** The calls number [r], [r+1], ... and what happens between them. *)
Fixpoint blocking (p : nat) (calls r : nat) (c : nat -> V) : bprog :=
  match calls with
  | 0 => Ret c
  | S calls => turns p (seq 0 n) c (fun c => blocking p calls (S r) (compute p r (local_update p c)))
  end.

(** ** MPI_Sendrecv with one partner after the other *)
Definition sprog := @xprog (list V) (nat -> V).

(** [stale]: contents of the receive buffers before the call.  [XFail]: the
    assertion that both dictionaries have the same keys. *)
Variable stale : nat -> nat -> nat -> list V.
Fixpoint sendrecv (p : nat) (calls r : nat) (c : nat -> V) : sprog :=
  match calls with
  | 0 => XRet c
  | S calls =>
      if same_keys (sort_keys (recvs p)) (sort_keys (sends p))
      then swap_all (sort_keys (recvs p)) (fun q => take c (sid p q)) (fun x q m => upd x q m) (stale p r)
             (fun x => sendrecv p calls (S r) (compute p r (fold_left (fun c q => put c (rid p q) (x q)) (recvs p) c)))
      else XFail
  end.

(** ** What should happen: the ghosts of [p] get the values their sources have at
    the time of the call. *)
Definition exchanged (cv : nat -> nat -> V) (p : nat) : nat -> V :=
  fold_left (fun c q => put c (rid p q) (take (cv q) (sid q p))) (recvs p) (cv p).
Fixpoint ideal (calls r : nat) (cv : nat -> nat -> V) : nat -> nat -> V :=
  match calls with
  | 0 => cv
  | S calls => ideal calls (S r) (fun p => compute p r (exchanged cv p))
  end.
End Exchange.
