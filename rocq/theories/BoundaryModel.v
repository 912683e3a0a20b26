(** Model of the boundary conditions of anuga/shallow_water/boundaries.py and
    anuga/abstract_2d_finite_volumes/generic_boundary_conditions.py, acting on
    the boundary arrays of a shallow water domain.  Numpy statements of the
    form [Q.boundary_values[ids] = expr] are assignments, one per entry of
    [ids], of the element of [expr] that belongs to that entry. *)
From Coq Require Import Reals List Arith Bool String.
From Verif Require Import RealLib ArrayLib.
Import ListNotations.
Local Open Scope R_scope.

Inductive qty := Stage | Elev | Height | Xmom | Ymom | Xvel | Yvel.
Definition qty_eqb (a b : qty) : bool :=
  match a, b with
  | Stage, Stage | Elev, Elev | Height, Height | Xmom, Xmom | Ymom, Ymom
  | Xvel, Xvel | Yvel, Yvel => true
  | _, _ => false
  end.

(** The parts of the domain a boundary object reads and writes. *)
Record bdom := {
  cells : nat -> nat;                 (* domain.boundary_cells *)
  edges : nat -> nat;                 (* domain.boundary_edges *)
  normals : nat -> nat -> R;          (* domain.normals: row, column 0..5 *)
  ev : qty -> nat -> nat -> R;        (* Q.edge_values *)
  cv : qty -> nat -> R;               (* Q.centroid_values *)
  bv : qty -> nat -> R                (* Q.boundary_values *)
}.

Definition set_bv (d : bdom) (b : qty -> nat -> R) : bdom :=
  {| cells := cells d; edges := edges d; normals := normals d; ev := ev d; cv := cv d; bv := b |}.

(** [Q.boundary_values[ids] = expr]. *)
Definition assign (ids : list nat) (expr : nat -> R) (a : nat -> R) : nat -> R :=
  fold_left (fun a j => upd a j (expr j)) ids a.
Definition assign_q (q : qty) (ids : list nat) (expr : nat -> R) (d : bdom) : bdom :=
  set_bv d (fun q' => if qty_eqb q' q then assign ids expr (bv d q') else bv d q').

(** [Q.edge_values[vol_ids,edge_ids]] and the two normal components
    ([Normals[vol_ids,2*edge_ids]], [Normals[vol_ids,2*edge_ids+1]]). *)
Definition at_edge (d : bdom) (q : qty) (j : nat) : R := ev d q (cells d j) (edges d j).
Definition n1_of (d : bdom) (j : nat) : R := normals d (cells d j) (2 * edges d j)%nat.
Definition n2_of (d : bdom) (j : nat) : R := normals d (cells d j) (2 * edges d j + 1)%nat.

(** A vector of the three conserved quantities. *)
Record cons := { c0 : R; c1 : R; c2 : R }.

(** generic_domain.py [get_conserved_quantities(vol_id, edge=...)] and
    without edge. *)
Definition conserved_at_edge (d : bdom) (vol edge : nat) : cons :=
  {| c0 := ev d Stage vol edge; c1 := ev d Xmom vol edge; c2 := ev d Ymom vol edge |}.
Definition conserved_at_centroid (d : bdom) (vol : nat) : cons :=
  {| c0 := cv d Stage vol; c1 := cv d Xmom vol; c2 := cv d Ymom vol |}.

(** sw_domain_orig.c [_rotate] (37-58) and sw_domain_orig_ext.pyx [rotate]:
    direction -1 negates n2. *)
Definition rotate_c (q : cons) (n1 n2 : R) : cons :=
  {| c0 := c0 q; c1 := n1 * c1 q + n2 * c2 q; c2 := - n2 * c1 q + n1 * c2 q |}.
Definition rotate (q : cons) (n1 n2 : R) (forwards : bool) : cons :=
  rotate_c q n1 (if forwards then n2 else - n2).

(** boundaries.py [Reflective_boundary.evaluate] (85-105). *)
Definition reflective_evaluate (d : bdom) (vol edge : nat) : cons :=
  let q := conserved_at_edge d vol edge in
  let n1 := normals d vol (2 * edge)%nat in
  let n2 := normals d vol (2 * edge + 1)%nat in
  let r := rotate q n1 n2 true in
  let r := {| c0 := c0 r; c1 := - c1 r; c2 := c2 r |} in
  rotate r n1 n2 false.

(** boundaries.py [Reflective_boundary.evaluate_segment] (235-290, the
    definition that is in force). *)
Definition reflective_segment (d : bdom) (ids : list nat) : bdom :=
  let n1 := n1_of d in let n2 := n2_of d in
  let d1 := assign_q Stage ids (at_edge d Stage) d in
  let d1 := assign_q Elev ids (at_edge d Elev) d1 in
  let d1 := assign_q Height ids (at_edge d Height) d1 in
  let q1 := at_edge d Xmom in let q2 := at_edge d Ymom in
  let r1 j := - q1 j * n1 j - q2 j * n2 j in
  let r2 j := - q1 j * n2 j + q2 j * n1 j in
  let d1 := assign_q Xmom ids (fun j => n1 j * r1 j - n2 j * r2 j) d1 in
  let d1 := assign_q Ymom ids (fun j => n2 j * r1 j + n1 j * r2 j) d1 in
  let q1 := at_edge d Xvel in let q2 := at_edge d Yvel in
  let r1 j := q1 j * n1 j + q2 j * n2 j in
  let r2 j := q1 j * n2 j - q2 j * n1 j in
  let d1 := assign_q Xvel ids (fun j => n1 j * r1 j - n2 j * r2 j) d1 in
  assign_q Yvel ids (fun j => n2 j * r1 j + n1 j * r2 j) d1.

(** generic_boundary_conditions.py [Boundary.evaluate_segment] (39-88) for a
    domain whose evolved quantities are the three conserved ones
    (shallow_water_domain.py 265-266): [evaluate] edge by edge. *)
Definition base_segment (evaluate : nat -> nat -> cons) (d : bdom) (ids : list nat) : bdom :=
  fold_left (fun d j =>
    let q := evaluate (cells d j) (edges d j) in
    assign_q Ymom [j] (fun _ => c2 q) (assign_q Xmom [j] (fun _ => c1 q)
      (assign_q Stage [j] (fun _ => c0 q) d))) ids d.

(** [Transmissive_boundary] (155-195). *)
Definition transmissive_evaluate (centroid_bc : bool) (d : bdom) (vol edge : nat) : cons :=
  if centroid_bc then conserved_at_centroid d vol else conserved_at_edge d vol edge.
Definition transmissive_segment (centroid_bc : bool) (d : bdom) (ids : list nat) : bdom :=
  let v q := if centroid_bc then fun j => cv d q (cells d j) else at_edge d q in
  assign_q Ymom ids (v Ymom) (assign_q Xmom ids (v Xmom) (assign_q Stage ids (v Stage) d)).

(** [Dirichlet_boundary] (197-264) and [Time_boundary] (365-415), which have
    the same body, with as many values as conserved quantities. *)
Definition dirichlet_evaluate (q : cons) (vol edge : nat) : cons := q.
Definition dirichlet_segment (q : cons) (d : bdom) (ids : list nat) : bdom :=
  assign_q Ymom ids (fun _ => c2 q) (assign_q Xmom ids (fun _ => c1 q)
    (assign_q Stage ids (fun _ => c0 q) d)).

(** boundaries.py [Transmissive_momentum_set_stage_boundary.evaluate]
    (344-368) for a function without [time] attribute; [x] is its value. *)
Definition trans_set_stage_evaluate (x : R) (d : bdom) (vol edge : nat) : cons :=
  let q := conserved_at_edge d vol edge in {| c0 := x; c1 := c1 q; c2 := c2 q |}.

(** Lines 355-363: rolling the time over the last time [tlast] of the
    function; [None] when [fuel] iterations do not end the loop. *)
Fixpoint roll_over (fuel : nat) (tlast t : R) : option R :=
  match fuel with
  | O => None
  | S fuel => if Rltb tlast t then roll_over fuel tlast (t - tlast) else Some t
  end.

(** [Transmissive_stage_zero_momentum_boundary.evaluate] (543-549). *)
Definition trans_zero_mom_evaluate (d : bdom) (vol edge : nat) : cons :=
  let q := conserved_at_edge d vol edge in {| c0 := c0 q; c1 := 0; c2 := 0 |}.

(** [Transmissive_n_momentum_zero_t_momentum_set_stage_boundary]:
    [evaluate] (434-475) and [evaluate_segment] (478-517). *)
Definition trans_n_evaluate (x : R) (d : bdom) (vol edge : nat) : cons :=
  let q := conserved_at_edge d vol edge in
  let m1 := normals d vol (2 * edge)%nat in
  let m2 := normals d vol (2 * edge + 1)%nat in
  let ndotq := m1 * c1 q + m2 * c2 q in
  {| c0 := x; c1 := m1 * ndotq; c2 := m2 * ndotq |}.
Definition trans_n_segment (x : R) (d : bdom) (ids : list nat) : bdom :=
  let n1 := n1_of d in let n2 := n2_of d in
  let d1 := assign_q Stage ids (fun _ => x) d in
  let q1 := at_edge d Xmom in let q2 := at_edge d Ymom in
  let ndotq j := n1 j * q1 j + n2 j * q2 j in
  assign_q Ymom ids (fun j => ndotq j * n2 j) (assign_q Xmom ids (fun j => ndotq j * n1 j) d1).

(** [Dirichlet_discharge_boundary.evaluate] (886-900). *)
Definition dirichlet_discharge_evaluate (stage0 wh0 : R) (d : bdom) (vol edge : nat) : cons :=
  {| c0 := stage0; c1 := - wh0 * normals d vol (2 * edge)%nat;
     c2 := - wh0 * normals d vol (2 * edge + 1)%nat |}.

Section Gravity.
Variable gravity : R.

(** [Characteristic_stage_boundary.evaluate_segment] (757-847); [w] is the
    value of the stage function.  The arithmetic below is done for one id
    after the transfer of the edge values into the boundary arrays. *)
Definition char_values (n1 n2 st xm ym el w : R) : R * R * R :=
  let sqrt_g := sqrt gravity in
  let h_inside := Rmax (st - el) 0 in
  let w_outside := 0 * st + w in
  let uh_inside := n1 * xm + n2 * ym in
  let vh_inside := n2 * xm - n1 * ym in
  let u_inside := if Rltb 0 h_inside then uh_inside / h_inside else 0 in
  let h_outside := Rmax (w_outside - el) 0 in
  let s_in := sqrt h_inside in
  let s_out := sqrt h_outside in
  let h_m := ((1/2) * (s_in + s_out) + u_inside / 4 / sqrt_g) ^ 2 in
  let u_m := (1/2) * u_inside + sqrt_g * (s_in - s_out) in
  let uh_m := h_m * u_m in
  let vh_m := if Rltb 0 uh_inside then vh_inside else 0 in
  let w_m := h_m + el in
  let dry_test := Reqb h_inside 0 || Reqb h_outside 0 in
  let q1 := uh_m * n1 + vh_m * n2 in
  let q2 := uh_m * n2 - vh_m * n1 in
  (if dry_test then w_outside else w_m, if dry_test then 0 else q1, if dry_test then 0 else q2).

Definition char_segment (w : R) (d : bdom) (ids : list nat) : bdom :=
  let d1 := assign_q Stage ids (at_edge d Stage) d in
  let d1 := assign_q Xmom ids (at_edge d Xmom) d1 in
  let d1 := assign_q Ymom ids (at_edge d Ymom) d1 in
  let d1 := assign_q Elev ids (at_edge d Elev) d1 in
  let v j := char_values (n1_of d j) (n2_of d j) (bv d1 Stage j) (bv d1 Xmom j) (bv d1 Ymom j)
               (bv d1 Elev j) w in
  let d2 := assign_q Stage ids (fun j => fst (fst (v j))) d1 in
  let d2 := assign_q Xmom ids (fun j => snd (fst (v j))) d2 in
  assign_q Ymom ids (fun j => snd (v j)) d2.

(** [Flather_external_stage_zero_velocity_boundary.evaluate] (1166-1240). *)
Definition flather_evaluate (w : R) (d : bdom) (vol edge : nat) : cons :=
  let q := conserved_at_edge d vol edge in
  let bed := cv d Elev vol in
  let depth := Rmax (c0 q - bed) 0 in
  let n1 := normals d vol (2 * edge)%nat in
  let n2 := normals d vol (2 * edge + 1)%nat in
  if Reqb depth 0 then {| c0 := w; c1 := 0; c2 := 0 |}
  else
    let s := sqrt (gravity / depth) in
    let ndotq := n1 * c1 q + n2 * c2 q in
    let w1 := 0 - s * w in
    let w2 := if Rltb 0 ndotq then (n2 * c1 q - n1 * c2 q) / depth else 0 in
    let w3 := ndotq / depth + s * c0 q in
    let qperp := (w3 + w1) / 2 * depth in
    let qpar := w2 * depth in
    {| c0 := (w3 - w1) / (2 * s); c1 := qperp * n1 + qpar * n2; c2 := qperp * n2 - qpar * n1 |}.

(** [evaluate_segment] (1242-end) for one id after the transfer. *)
Definition flather_values (n1 n2 st xm ym el bed w : R) : R * R * R :=
  let depth := Rmax (st - bed) 0 in
  let w := 0 * st + w in
  let q0_dry := if Rleb bed w then w else el in
  let q1_dry := 0 * xm in
  let q2_dry := 0 * ym in
  let s := sqrt (gravity / depth) in
  let ndotq := n1 * xm + n2 * ym in
  let w1 := 0 - s * w in
  let w2 := if Rltb 0 ndotq then (n2 * xm - n1 * ym) / depth else 0 * ndotq in
  let w3 := ndotq / depth + s * st in
  let q0_wet := (w3 - w1) / (2 * s) in
  let qperp := (w3 + w1) / 2 * depth in
  let qpar := w2 * depth in
  let q1_wet := qperp * n1 + qpar * n2 in
  let q2_wet := qperp * n2 - qpar * n1 in
  let dry_test := Reqb depth 0 || Rltb bed w in
  (if dry_test then q0_dry else q0_wet, if dry_test then q1_dry else q1_wet,
   if dry_test then q2_dry else q2_wet).

Definition flather_segment (w : R) (d : bdom) (ids : list nat) : bdom :=
  let d1 := assign_q Stage ids (at_edge d Stage) d in
  let d1 := assign_q Xmom ids (at_edge d Xmom) d1 in
  let d1 := assign_q Ymom ids (at_edge d Ymom) d1 in
  let d1 := assign_q Elev ids (at_edge d Elev) d1 in
  let v j := flather_values (n1_of d j) (n2_of d j) (bv d1 Stage j) (bv d1 Xmom j) (bv d1 Ymom j)
               (bv d1 Elev j) (cv d Elev (cells d j)) w in
  let d2 := assign_q Stage ids (fun j => fst (fst (v j))) d1 in
  let d2 := assign_q Xmom ids (fun j => snd (fst (v j))) d2 in
  assign_q Ymom ids (fun j => snd (v j)) d2.
End Gravity.

(** Attributes.  A Python object is the table of the attributes its
    constructor sets; reading a missing one raises ([None]). *)
Definition getattr {A} (obj : list (string * A)) (name : string) : option A :=
  match find (fun p => String.eqb (fst p) name) obj with
  | Some (_, v) => Some v
  | None => None
  end.

(** [get_boundary_values] (96-134) when the function call succeeds:
    [self.function(t)]. *)
Definition get_boundary_values (obj : list (string * (R -> R))) (t : R) : option R :=
  match getattr obj "function" with
  | None => None
  | Some f => Some (f t)
  end.

(** Callable attributes set by [Time_boundary.__init__] (line 355:
    [self.function]), [Transmissive_n_...__init__] (line 423: [self.function])
    and [Time_stage_zero_momentum_boundary.__init__] (line 604: [self.f]). *)
Definition time_boundary_init (f : R -> R) : list (string * (R -> R)) := [("function", f)]%string.
Definition trans_n_init (f : R -> R) : list (string * (R -> R)) := [("function", f)]%string.
Definition time_stage_zero_momentum_init (f : R -> R) : list (string * (R -> R)) := [("f", f)]%string.

(** [Time_stage_zero_momentum_boundary.evaluate_segment] (608-633). *)
Definition time_stage_zero_segment (obj : list (string * (R -> R))) (t : R) (d : bdom) (ids : list nat)
  : option bdom :=
  match get_boundary_values obj t with
  | None => None
  | Some q => Some (assign_q Ymom ids (fun _ => 0) (assign_q Xmom ids (fun _ => 0)
                (assign_q Stage ids (fun _ => q) d)))
  end.

(** [get_boundary_values] (96-134) in full: the function may report that the
    model time is too early or too late. *)
Inductive fun_result := Value (x : R) | TooEarly | TooLate.
Definition boundary_value (f : R -> fun_result) (default : option R) (t : R) : option R :=
  match f t with
  | Value x => Some x
  | TooEarly => None
  | TooLate => default
  end.
