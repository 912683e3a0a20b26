(** Exchange of ghost values between processes with non-blocking messages.
    (anuga/parallel/parallel_generic_communications.py,
     communicate_ghosts_non_blocking, communicate_flux_timestep.) *)
From Coq Require Import List Arith Bool.
From Verif Require Import ArrayLib.
Import ListNotations.

(** What a process does around one call of [update_ghosts], in program order.
    [Enter] and [Compute] stand for the call itself and for everything the
    process does until its next call. *)
Inductive op :=
| Enter
| Fill (q : nat)
| PostRecv (q : nat)
| PostSend (q : nat)
| WaitRecvs
| WaitSends
| Put (q : nat)
| Compute
| Barrier.

Lemma op_dec : forall a b : op, {a = b} + {a <> b}.
Proof. decide equality; apply Nat.eq_dec. Defined.

Section Ghosts.
(** [V]: the row of values that one triangle has in a buffer, one per quantity. *)
Variable V : Type.
(** Number of processes; keys of the dictionaries [full_send_dict] and
    [ghost_recv_dict] of each process, and the local ids stored under a key. *)
Variable n : nat.
Variable sends recvs : nat -> list nat.
Variable sid rid : nat -> nat -> list nat.
(** [wait_sends]: does the exchange also wait for its send requests?  The code
    does not (parallel_generic_communications.py 231-232). *)
Variable wait_sends : bool.
(** [sync r]: is there an Allreduce between call [r] and call [r+1]? *)
Variable sync : nat -> bool.

(** Program of process [p] for its call number [r].
    (parallel_generic_communications.py 162-247; the Allreduce is line 65.) *)
Definition round (p r : nat) : list op :=
  [Enter] ++ map Fill (sends p) ++ map PostRecv (recvs p) ++ map PostSend (sends p)
  ++ [WaitRecvs] ++ (if wait_sends then [WaitSends] else [])
  ++ map Put (recvs p) ++ [Compute] ++ (if sync r then [Barrier] else []).

(** A message in flight refers to the buffer it was sent from.  The library
    reads the entries of the buffer at times of its own choosing: [None] is an
    entry not read yet. *)
Definition message := nat -> option V.

Record state := St {
  rd : nat -> nat;                        (* calls completed before the current one *)
  todo : nat -> list op;                  (* rest of the current round *)
  cv : nat -> nat -> V;                   (* centroid values by local id *)
  xout : nat -> nat -> nat -> V;          (* send buffers  full_send_dict[q][2] *)
  xin : nat -> nat -> nat -> V;           (* receive buffers  ghost_recv_dict[q][2] *)
  queue : nat -> nat -> list message;     (* queue p q: sent by p to q, not delivered *)
  posted : nat -> nat -> bool;            (* posted q p: q has an open receive from p *)
  calls : nat -> nat -> nat -> V          (* history: centroid values of p at its call r *)
}.

Definition set2 {A} (f : nat -> nat -> A) (a b : nat) (v : A) : nat -> nat -> A := upd f a (upd (f a) b v).

Definition set_todo (s : state) (p : nat) (l : list op) : state :=
  St (rd s) (upd (todo s) p l) (cv s) (xout s) (xin s) (queue s) (posted s) (calls s).

(** num.take(Q_cv, Idf) into the columns of Xout. (lines 181-188) *)
Definition take_into (old : nat -> V) (c : nat -> V) (ids : list nat) : nat -> V :=
  fun k => match nth_error ids k with Some i => c i | None => old k end.

(** num.put(Q_cv, Idg, X): in order, the last write stays. (lines 236-244) *)
Fixpoint put_from (c : nat -> V) (ids : list nat) (k : nat) (x : nat -> V) : nat -> V :=
  match ids with
  | [] => c
  | i :: r => put_from (upd c i (x k)) r (S k) x
  end.

(** All entries of a message have been read. *)
Definition captured (len : nat) (m : message) : bool :=
  forallb (fun k => match m k with Some _ => true | None => false end) (seq 0 len).

(** Process [q] has reached the Allreduce that follows its call [r]. *)
Definition arrived (s : state) (q r : nat) : bool :=
  (r <? rd s q) || ((rd s q =? r) && match todo s q with [] => true | [Barrier] => true | _ => false end).

(** Effect of one operation of process [p], [None] when it has to wait;
    [l] is the rest of the round. *)
Definition exec (o : op) (p : nat) (l : list op) (s : state) : option state :=
  let s1 := set_todo s p l in
  match o with
  | Enter => Some (St (rd s1) (todo s1) (cv s1) (xout s1) (xin s1) (queue s1) (posted s1)
                      (set2 (calls s1) p (rd s1 p) (cv s1 p)))
  | Fill q => Some (St (rd s1) (todo s1) (cv s1)
                       (set2 (xout s1) p q (take_into (xout s1 p q) (cv s1 p) (sid p q)))
                       (xin s1) (queue s1) (posted s1) (calls s1))
  | PostRecv q => Some (St (rd s1) (todo s1) (cv s1) (xout s1) (xin s1) (queue s1)
                           (set2 (posted s1) p q true) (calls s1))
  | PostSend q => Some (St (rd s1) (todo s1) (cv s1) (xout s1) (xin s1)
                           (set2 (queue s1) p q (queue s1 p q ++ [fun _ => None]))
                           (posted s1) (calls s1))
  | WaitRecvs => if forallb (fun q => negb (posted s p q)) (recvs p) then Some s1 else None
  | WaitSends => if forallb (fun q => forallb (captured (length (sid p q))) (queue s p q)) (sends p)
                 then Some s1 else None
  | Put q => Some (St (rd s1) (todo s1) (upd (cv s1) p (put_from (cv s1 p) (rid p q) 0 (xin s1 p q)))
                      (xout s1) (xin s1) (queue s1) (posted s1) (calls s1))
  | Compute => None
  | Barrier => if forallb (fun q => arrived s q (rd s p)) (seq 0 n) then Some s1 else None
  end.

(** What can happen: a process performs its next operation, computes freely,
    or starts its next round; the library reads an entry of a pending message,
    completes a receive, or writes into the buffer of an open receive. *)
Inductive move :=
| MOp (p : nat)
| MCompute (p : nat) (c : nat -> V)
| MNext (p : nat)
| MCapture (p q i k : nat)
| MDeliver (p q : nat)
| MScribble (q p : nat) (x : nat -> V).

Definition set_nth_msg (l : list message) (i : nat) (k : nat) (v : V) : list message :=
  map (fun jm => if fst jm =? i then upd (snd jm) k (Some v) else snd jm) (combine (seq 0 (length l)) l).

Definition do_move (m : move) (s : state) : option state :=
  match m with
  | MOp p => if p <? n then match todo s p with o :: l => exec o p l s | [] => None end else None
  | MCompute p c => if p <? n then match todo s p with
      | Compute :: l => let s1 := set_todo s p l in
          Some (St (rd s1) (todo s1) (upd (cv s1) p c) (xout s1) (xin s1) (queue s1) (posted s1) (calls s1))
      | _ => None end else None
  | MNext p => if p <? n then match todo s p with
      | [] => Some (St (upd (rd s) p (S (rd s p))) (upd (todo s) p (round p (S (rd s p))))
                       (cv s) (xout s) (xin s) (queue s) (posted s) (calls s))
      | _ => None end else None
  | MCapture p q i k =>
      match nth_error (queue s p q) i with
      | Some m => match m k with
          | None => Some (St (rd s) (todo s) (cv s) (xout s) (xin s)
                             (set2 (queue s) p q (set_nth_msg (queue s p q) i k (xout s p q k)))
                             (posted s) (calls s))
          | Some _ => None end
      | None => None end
  | MDeliver p q =>
      match queue s p q with
      | m :: ms => if posted s q p && captured (length (sid p q)) m then
          Some (St (rd s) (todo s) (cv s) (xout s)
                   (set2 (xin s) q p (fun k => match m k with Some v => v | None => xin s q p k end))
                   (set2 (queue s) p q ms) (set2 (posted s) q p false) (calls s)) else None
      | [] => None end
  | MScribble q p x => if posted s q p then
      Some (St (rd s) (todo s) (cv s) (xout s) (set2 (xin s) q p x) (queue s) (posted s) (calls s)) else None
  end.

(** Start: nothing is in flight; the values and the buffers are arbitrary. *)
Definition initial (s : state) : Prop :=
  (forall p, rd s p = 0) /\ (forall p, todo s p = round p 0) /\
  (forall p q, queue s p q = []) /\ (forall q p, posted s q p = false).

Inductive reachable : state -> Prop :=
| reach_init : forall s, initial s -> reachable s
| reach_move : forall s t m, reachable s -> do_move m s = Some t -> reachable t.

(** Run a list of moves. *)
Fixpoint run (l : list move) (s : state) : option state :=
  match l with
  | [] => Some s
  | m :: r => match do_move m s with Some t => run r t | None => None end
  end.

(** The dictionaries of the processes fit together: what [p] sends to [q] is
    what [q] expects from [p]; within one process the ghost ids are distinct. *)
Record matching : Prop := Matching {
  keys_nodup : forall p, p < n -> NoDup (sends p) /\ NoDup (recvs p);
  keys_range : forall p q, p < n -> In q (sends p) \/ In q (recvs p) -> q < n;
  keys_match : forall p q, p < n -> q < n -> (In q (sends p) <-> In p (recvs q));
  ids_length : forall p q, p < n -> In q (sends p) -> length (rid q p) = length (sid p q);
  ghosts_nodup : forall q, q < n -> NoDup (flat_map (rid q) (recvs q))
}.
End Ghosts.
Arguments state : clear implicits.

(** ** When the calls happen in [evolve]

    The calls of update_ghosts and the Allreduce inside update_timestep, in the
    order in which every process performs them.  (generic_domain.py: evolve
    1818 and 1857, evolve_one_euler_step 1955, evolve_one_rk2_step 2002 and
    2014-2015, evolve_one_rk3_step 2084, 2096 and 2135; communicate_flux_timestep
    returns early when fixed_flux_timestep is set,
    parallel_generic_communications.py 47-51.) *)
Inductive event := UpdateGhosts | Allreduce.
Inductive stepping := Euler | RK2 | RK3.

Definition timestep_events (fixed : bool) : list event := if fixed then [] else [Allreduce].
Definition step_events (m : stepping) (layer_width : nat) (fixed : bool) : list event :=
  match m with
  | Euler => timestep_events fixed
  | RK2 => timestep_events fixed ++ (if layer_width <? 4 then [UpdateGhosts] else [])
  | RK3 => timestep_events fixed ++ [UpdateGhosts; UpdateGhosts]
  end ++ [UpdateGhosts].
Fixpoint evolve_steps (m : stepping) (layer_width : nat) (fixed : bool) (k : nat) : list event :=
  match k with
  | O => []
  | S k' => step_events m layer_width fixed ++ evolve_steps m layer_width fixed k'
  end.
Definition evolve_events (m : stepping) (layer_width : nat) (fixed : bool) (k : nat) : list event :=
  UpdateGhosts :: evolve_steps m layer_width fixed k.

(** For each call of update_ghosts: was there an Allreduce since the previous
    call? *)
Fixpoint since (l : list event) (seen : bool) : list bool :=
  match l with
  | [] => []
  | UpdateGhosts :: r => seen :: since r false
  | Allreduce :: r => since r true
  end.
(** [syncs l]: for each call but the last, whether an Allreduce follows before
    the next call. *)
Definition syncs (l : list event) : list bool := tl (since l false).
