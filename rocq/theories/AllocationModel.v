(** C86: which processes take part in an inlet or structure: model of
    [allocate_inlet_procs] and of the factories around it,
    anuga/parallel/parallel_operator_factory.py 49-140, 146-276, 806-989.
    -1 for "no process" is [None]. *)
From Coq Require Import Reals List Arith Bool.
From Verif Require Import RealLib ArrayLib KahnLib SyncLib PhaseLib.
Import ListNotations.

Definition point := (R * R)%type.
Definition line := list point.

Inductive msg :=
| MSize (size : nat) | MFlag (b : bool) | MProc (p : option nat) | MProcs (l : list nat)
| MLines (l : line * line) | MPoints (p : point * point).

Section Programs.
Context {A : Type}.
Local Notation prog := (KahnLib.prog msg A).

(** neighbour_mesh.py 1057-1080, [get_triangle_containing_point]: the first
    triangle of the process that contains the point, edges included; [None] is
    the exception. *)
Definition find_triangle (contains : nat -> bool) (ntri : nat) : option nat := find contains (seq 0 ntri).

(** Lines 919-934 ([size] is the number of triangles met by the line, lines
    898-918). *)
Definition has_enquiry (contains : nat -> bool) (full : nat -> bool) (ntri : nat) : bool :=
  match find_triangle contains ntri with Some k => full k | None => false end.
Definition size_of (triangles : list nat) (has : bool) : nat := length triangles + (if has then 1 else 0).

(** Lines 889-893, 940-945 *)
Record gathered := Gathered { g_procs : list nat; g_max : option nat; g_master : option nat; g_enq : option nat }.
Definition own (master size : nat) (has : bool) : gathered :=
  if Nat.ltb 0 size then Gathered [master] (Some size) (Some master) (if has then Some master else None)
  else Gathered [] None None None.
(** Lines 953-963; [None] is the failed assertion. *)
Definition larger (x : nat) (m : option nat) : bool := match m with None => true | Some m => Nat.ltb m x end.
Definition absorb (g : gathered) (i x : nat) (y : bool) : option gathered :=
  if Nat.ltb 0 x then
    let bigger := larger x (g_max g) in
    let mx := if bigger then Some x else g_max g in
    let ma := if bigger then Some i else g_master g in
    if y then match g_enq g with
              | None => Some (Gathered (g_procs g ++ [i]) mx ma (Some i))
              | Some _ => None
              end
    else Some (Gathered (g_procs g ++ [i]) mx ma (g_enq g))
  else Some g.
(** Lines 948-963 *)
Fixpoint collect (l : list nat) (g : gathered) (K : gathered -> prog) : prog :=
  match l with
  | [] => K g
  | i :: l => Recv i (fun x => Recv i (fun y =>
      match x, y with
      | MSize x, MFlag y => match absorb g i x y with Some g => collect l g K | None => Fail end
      | _, _ => Fail
      end))
  end.

(** Lines 986-989 *)
Record result := Result { alloc : bool; r_master : option nat; r_procs : list nat; r_enq : option nat }.

(** Lines 877-989; [want]: an enquiry point was given. *)
Definition eqb_proc (p : option nat) (q : nat) : bool := match p with Some p => Nat.eqb p q | None => false end.
Definition is_none {X} (o : option X) : bool := match o with None => true | Some _ => false end.
Definition allocate (procs : list nat) (master me size : nat) (has want : bool) (K : result -> prog) : prog :=
  if Nat.eqb me master then
    collect (without master procs) (own master size has) (fun g =>
      if Nat.eqb (length (g_procs g)) 0 then Fail                       (* 965 *)
      else if is_none (g_master g) then Fail                            (* 966 *)
      else if want && is_none (g_enq g) then Fail                       (* 968-971 *)
      else scatter (without master procs) (fun _ => [MProc (g_master g); MProcs (g_procs g); MProc (g_enq g)])
             (K (Result (Nat.ltb 0 size) (g_master g) (g_procs g) (g_enq g))))
  else
    Send master (MSize size) (Send master (MFlag has) (recv_list master 3 [] (fun vs =>
      match vs with
      | [MProc m; MProcs l; MProc e] =>
          if has && negb (eqb_proc e me) then Fail                      (* 984 *)
          else K (Result (Nat.ltb 0 size) m l e)
      | _ => Fail
      end))).
End Programs.

(** ** Where the lines and the enquiry points are *)
Local Open Scope R_scope.
Definition vadd (a b : point) : point := (fst a + fst b, snd a + snd b).
Definition vsub (a b : point) : point := (fst a - fst b, snd a - snd b).
Definition vscale (k : R) (a : point) : point := (k * fst a, k * snd a).
Definition vlength (a : point) : R := sqrt (fst a * fst a + snd a * snd a).
(** [v /= length], after the assertion that the length is positive *)
Definition unit_vector (v : point) : option point :=
  if Rltb 0 (vlength v) then Some (vscale (/ vlength v) v) else None.

(** Lines 806-843 *)
Definition non_skew (ends : point * point) (width : R) (enq : option (point * point)) (apron gap : R)
    : option ((line * line) * (point * point)) :=
  match unit_vector (vsub (snd ends) (fst ends)) with
  | None => None
  | Some v =>
      let w := vscale (1 / 2 * width) (- snd v, fst v) in
      let at_end e := [vadd e w; vsub e w] in
      let g := vscale (apron + gap) v in
      Some ((at_end (fst ends), at_end (snd ends)),
            match enq with
            | Some e => e
            | None => (vadd (fst ends) (vscale (-1) g), vadd (snd ends) (vscale 1 g))
            end)
  end.

Definition centre (l : line) : point := vscale (1 / 2) (vadd (nth 0 l (0, 0)) (nth 1 l (0, 0))).
(** Lines 845-872 *)
Definition skew (lines : line * line) (ends : option (point * point)) (enq : option (point * point)) (apron gap : R)
    : option (point * point) :=
  let c0 := centre (fst lines) in
  let c1 := centre (snd lines) in
  match unit_vector (match ends with None => vsub c1 c0 | Some e => vsub (snd e) (fst e) end) with
  | None => None
  | Some v => let g := vscale (apron + gap) v in
      Some (match enq with Some e => e | None => (vsub c0 g, vadd c1 g) end)
  end.

(** parallel_structure_operator.py 510-565: the same, computed again by the
    operator; [None] also for lines of other lengths. *)
Definition operator_skew (lines : line * line) (ends : option (point * point)) (enq : option (point * point)) (apron gap : R)
    : option (point * point) :=
  let c0 := centre (fst lines) in
  let c1 := centre (snd lines) in
  let n := length (fst lines) in
  if negb (Nat.eqb n (length (snd lines))) then None else
  let vectors :=
    if Nat.eqb n 2 then
      let v := match ends with None => vsub c1 c0 | Some e => vsub (snd e) (fst e) end in
      Some (v, v, vscale (-1) v)
    else if Nat.eqb n 4 then
      Some (vsub c1 c0, vsub (nth 3 (fst lines) (0, 0)) (nth 2 (fst lines) (0, 0)),
            vsub (nth 3 (snd lines) (0, 0)) (nth 2 (snd lines) (0, 0)))
    else None in
  match vectors with
  | None => None
  | Some (v, o0, o1) =>
      match unit_vector v, unit_vector o0, unit_vector o1 with
      | Some v, Some _, Some _ => let g := vscale (apron + gap) v in
          Some (match enq with Some e => e | None => (vsub c0 g, vadd c1 g) end)
      | _, _, _ => None
      end
  end.

(** ** The factory of a structure, lines 146-276 *)
(** What a process has: the full triangles a line meets, and which triangles
    contain a point. *)
Record mesh_part := MeshPart { meets : line -> list nat; contains : point -> nat -> bool; full : nat -> bool; ntri : nat }.
Record placement := Placement { pl_master : option nat; pl_procs : list nat;
  pl_inlet_master : bool -> option nat; pl_inlet_procs : bool -> list nat; pl_enquiry : bool -> option nat }.

Section Factory.
Local Notation prog := (KahnLib.prog msg (option placement)).
(** Lines 222-242; [list(set(...))] is a list without repetitions, the same on
    all processes. *)
Definition placed (r0 r1 : result) : option placement :=
  if alloc r0 || alloc r1 then
    Some (Placement (r_master r0) (nodup Nat.eq_dec (r_procs r0 ++ r_procs r1))
            (fun b : bool => if b then r_master r0 else r_master r1)
            (fun b : bool => if b then r_procs r0 else r_procs r1)
            (fun b : bool => if b then r_enq r0 else r_enq r1))
  else None.
Definition allocate_line (procs : list nat) (master me : nat) (m : mesh_part) (l : line) (e : point) (K : result -> prog) : prog :=
  let has := has_enquiry (contains m e) (full m) (ntri m) in
  allocate procs master me (size_of (meets m l) has) has true K.
Definition allocate_both (procs : list nat) (master me : nat) (m : mesh_part) (lines : line * line) (pts : point * point) : prog :=
  allocate_line procs master me m (fst lines) (fst pts) (fun r0 =>
  allocate_line procs master me m (snd lines) (snd pts) (fun r1 =>
  Ret (placed r0 r1))).
Definition factory (procs : list nat) (master me : nat) (m : mesh_part) (lines : option (line * line))
    (ends enq : option (point * point)) (width apron gap : R) : prog :=
  match lines, ends with
  | Some l, _ =>
      if Nat.eqb me master then
        match skew l ends enq apron gap with
        | None => Fail
        | Some pts => scatter (without master procs) (fun _ => [MPoints pts]) (allocate_both procs master me m l pts)
        end
      else recv_list master 1 [] (fun vs => match vs with [MPoints pts] => allocate_both procs master me m l pts | _ => Fail end)
  | None, Some e =>
      if Nat.eqb me master then
        match non_skew e width enq apron gap with
        | None => Fail
        | Some (l, pts) => scatter (without master procs) (fun _ => [MLines l; MPoints pts]) (allocate_both procs master me m l pts)
        end
      else recv_list master 2 [] (fun vs => match vs with [MLines l; MPoints pts] => allocate_both procs master me m l pts | _ => Fail end)
  | None, None => Fail   (* the master raises; the others use an unset variable *)
  end.
End Factory.
