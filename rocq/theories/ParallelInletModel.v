(** Model of anuga/parallel/parallel_inlet.py ([get_global_area] 98-118,
    [get_global_total_water_volume] 291-310, [set_stages_evenly] 407-517) and
    anuga/parallel/parallel_inlet_operator.py ([__call__] 100-185): the inlet
    operator on an inlet whose triangles belong to several processes.  Each
    process runs the program [call]; messages are those of pypar.send and
    pypar.receive.  The local parts are those of [InletModel]. *)
From Coq Require Import Reals List Arith Bool.
From Verif Require Import RealLib ArrayLib KahnLib SyncLib InletModel.
Import ListNotations.
Local Open Scope R_scope.

(** What is sent: numbers, arrays of numbers, index arrays, a position, and
    the tuple (volume, current_volume, total_area, timestep). *)
Inductive msg :=
| MNum (x : R) | MNums (l : list R) | MIdx (l : list nat) | MPos (k : nat)
| MUpdate (volume current_volume total_area timestep : R).

Definition prog := KahnLib.prog msg opstate.

(** One number from each process. *)
Fixpoint numbers (vs : list (list msg)) : option (list R) :=
  match vs with
  | [] => Some []
  | [MNum x] :: vs => match numbers vs with Some l => Some (x :: l) | None => None end
  | _ => None
  end.
(** Areas, stages and sorted order of each process. *)
Definition share := (list R * list R * list nat)%type.
Fixpoint shares (vs : list (list msg)) : option (list share) :=
  match vs with
  | [] => Some []
  | [MNums a; MNums s; MIdx o] :: vs => match shares vs with Some l => Some ((a, s, o) :: l) | None => None end
  | _ => None
  end.
(** A dictionary filled in the order of the list. *)
Fixpoint lookup (l : list (nat * share)) (i : nat) : share :=
  match l with
  | [] => ([], [], [])
  | (j, x) :: l => if Nat.eqb i j then x else lookup l i
  end.
Definition sh_areas (x : share) : list R := fst (fst x).
Definition sh_stages (x : share) : list R := snd (fst x).
Definition sh_order (x : share) : list nat := snd x.

Section Inlet.
(** [big] is num.finfo(num.float32).max; [procs] and [master] are as
    determined by the factory. *)
Variables vp big : R.
Variable velocity : option (R * R).
Variable zero_velocity : bool.
Variable procs : list nat.
Variable master : nat.

Definition others : list nat := filter (fun i => negb (Nat.eqb i master)) procs.

(** parallel_inlet.py 98-118 and 291-310: the master adds up the values of all
    processes; the others keep their own. *)
Definition global_sum (me : nat) (x : R) (K : R -> prog) : prog :=
  if Nat.eqb me master then
    gather others 1 [] (fun vs => match numbers vs with
                                  | Some l => K (fold_left Rplus l x)
                                  | None => Fail
                                  end)
  else Send master (MNum x) (K x).

(** Lines 462-471: the smallest stage among the processes' next ones. *)
Definition next_stage (dat : nat -> share) (pos : nat -> nat) (i : nat) : R :=
  get (sh_stages (dat i)) (nth (pos i) (sh_order (dat i)) 0%nat).
Definition next_area (dat : nat -> share) (pos : nat -> nat) (i : nat) : R :=
  get (sh_areas (dat i)) (nth (pos i) (sh_order (dat i)) 0%nat).
Definition smallest (dat : nat -> share) (pos : nat -> nat) : R * option nat :=
  fold_left (fun (c : R * option nat) i =>
    if Nat.leb (length (sh_stages (dat i))) (pos i) then c
    else if Rltb (next_stage dat pos i) (fst c) then (next_stage dat pos i, Some i) else c)
  procs (big, None).

(** Lines 459-496: the loop.  Without an index the first pass raises
    KeyError, later ones fail the assertion. *)
Record mstate := MState { m_pos : nat -> nat; m_volume : R; m_areas : R; m_prev : R }.
Fixpoint merge (dat : nat -> share) (volume : R) (fuel : nat) (first : bool) (st : mstate) : option mstate :=
  match fuel with
  | 0%nat => Some st
  | S fuel =>
      let '(current, index) := smallest dat (m_pos st) in
      match index with
      | None => None
      | Some i =>
          let pos' := upd (m_pos st) i (S (m_pos st i)) in
          if first then
            merge dat volume fuel false (MState pos' (m_volume st) (next_area dat (m_pos st) i) current)
          else
            let tmp := m_volume st + m_areas st * (current - m_prev st) in
            if Rleb volume tmp then Some st
            else merge dat volume fuel false (MState pos' tmp (m_areas st + next_area dat (m_pos st) i) current)
      end
  end.

(** Lines 498-499; division by zero raises. *)
Definition new_stage (volume : R) (st : mstate) : option R :=
  if Reqb (m_areas st) 0 then None else Some (m_prev st + (volume - m_volume st) / m_areas st).

(** Lines 507-514: stages[stages_order[0:pos]] = new_stage; set_stages. *)
Definition apply_level (order : list nat) (d : dom) (idx : list nat) (pos : nat) (level : R) : dom :=
  let stages := fold_left (fun s k => upd s k level) (firstn pos order) (get (take (stage d) idx)) in
  with_stage d (put (stage d) idx (map stages (seq 0 (length idx)))).

(** Lines 407-517 [set_stages_evenly] *)
Definition stages_evenly (me : nat) (order : list nat) (d : dom) (idx : list nat) (volume : R) (K : dom -> prog) : prog :=
  let ars := inlet_areas d idx in
  let stages := take (stage d) idx in
  if Nat.eqb me master then
    gather others 3 [] (fun vs =>
      match shares vs with
      | None => Fail
      | Some l =>
          let dat := lookup ((me, (ars, stages, order)) :: combine others l) in
          let total := fold_left (fun t i => t + length (sh_stages (dat i)))%nat others (length stages) in
          match merge dat volume total true (MState (fun _ => 0%nat) 0 0 0) with
          | None => Fail
          | Some st =>
              match new_stage volume st with
              | None => Fail
              | Some level =>
                  scatter others (fun i => [MPos (m_pos st i); MNum level])
                    (K (apply_level order d idx (m_pos st me) level))
              end
          end
      end)
  else
    send_list master [MNums ars; MNums stages; MIdx order]
      (recv_list master 2 [] (fun vs =>
        match vs with
        | [MPos p; MNum level] => K (apply_level order d idx p level)
        | _ => Fail
        end)).

(** parallel_inlet_operator.py 133-185: after the exchange of the volume. *)
Definition update_inlet (me : nat) (idx order : list nat) (st : opstate)
    (volume current_volume total_area timestep : R) : prog :=
  let d := odom st in
  if Reqb timestep 0 then Fail else
  let u := velocities vp d idx (xmom d) in
  let v := velocities vp d idx (ymom d) in
  if Rleb 0 volume then
    stages_evenly me order d idx volume (fun d1 =>
      Ret (Op (set_inlet_moms velocity zero_velocity u v d1 idx) (fsvi st + volume) (volume / timestep)
              (total_applied st + volume) (total_requested st + volume)))
  else if Rleb 0 (current_volume + volume) then
    let d1 := set_depths d idx ((current_volume + volume) / total_area) in
    Ret (Op (set_inlet_moms velocity zero_velocity u v d1 idx) (fsvi st + volume) (volume / timestep)
            (total_applied st + volume) (total_requested st + volume))
  else
    let d1 := set_depths d idx 0 in
    Ret (Op (with_moms d1 (put_all (xmom d1) idx 0) (put_all (ymom d1) idx 0))
            (fsvi st - current_volume) (- current_volume / timestep)
            (total_applied st + - current_volume) (total_requested st + volume)).

(** Lines 100-185 [__call__]; timestep, [Q1] and [Q2] are those of the master. *)
Definition call (me : nat) (idx order : list nat) (timestep Q1 Q2 : R) (st : opstate) : prog :=
  global_sum me (total_water_volume (odom st) idx) (fun current_volume =>
  global_sum me (inlet_area (odom st) idx) (fun total_area =>
  if Nat.eqb me master then
    let volume := (1/2) * (Q1 + Q2) * timestep in
    if Rltb current_volume 0 then Fail
    else scatter others (fun _ => [MUpdate volume current_volume total_area timestep])
           (update_inlet me idx order st volume current_volume total_area timestep)
  else
    recv_list master 1 [] (fun vs =>
      match vs with
      | [MUpdate volume current total timestep] => update_inlet me idx order st volume current total timestep
      | _ => Fail
      end))).
End Inlet.

(** shallow_water_domain.py 1715-1750 [get_fractional_step_volume_integral]:
    the values of all processes are added up. *)
Definition reported_volume_integral (numprocs : nat) (f : nat -> R) : R :=
  fold_left (fun a p => a + f p) (seq 1 (numprocs - 1)) (f 0%nat).
