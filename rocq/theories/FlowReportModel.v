(** Model of the report of flows across the boundary,
    [compute_boundary_flows], anuga/shallow_water/shallow_water_domain.py lines
    2611-2670, and of [Inflow_boundary], anuga/shallow_water/boundaries.py lines
    902-986.  Real arithmetic. *)
From Coq Require Import String Reals List Arith Bool.
From Verif Require Import RealLib PolygonModel.
Import ListNotations.
Local Open Scope R_scope.

(** The dictionary of boundary edges in its order: triangle, edge, tag; and
    what is read at an edge: momenta, outward normal, length, elevation and
    friction *)
Definition boundary := list (nat * nat * string).
Record edges := { uh : nat -> nat -> R; vh : nat -> nat -> R; normal : nat -> nat -> point; edgelength : nat -> nat -> R;
                  elevation : nat -> nat -> R; friction : nat -> nat -> R }.

(** Dictionary of flows by tag, in the order of first use *)
Fixpoint add_flow (tag : string) (v : R) (flows : list (string * R)) : list (string * R) :=
  match flows with
  | [] => [(tag, 0 + v)]
  | (t, w) :: rest => if String.eqb t tag then (t, w + v) :: rest else (t, w) :: add_flow tag v rest
  end.
(** Lines 2645-2652 *)
Definition edge_flow (d : edges) (vol edge : nat) : R :=
  - ((uh d vol edge * px (normal d vol edge) + vh d vol edge * py (normal d vol edge)) * edgelength d vol edge).
Definition report := (list (string * R) * R * R)%type.
(** Lines 2640-2667 *)
Definition add_edge (d : edges) (r : report) (b : nat * nat * string) : report :=
  let '(flows, inflow, outflow) := r in
  let '(vol, edge, tag) := b in
  let flow := edge_flow d vol edge in
  (add_flow tag flow flows, (if Rltb 0 flow then inflow + flow else inflow), (if Rltb 0 flow then outflow else outflow + flow)).
Definition compute_boundary_flows (d : edges) (b : boundary) : report := fold_left (add_edge d) b ([], 0, 0).

(** [Inflow_boundary]: the tag, found at the first call, and the average
    momentum *)
Definition memory := option (string * R).
Fixpoint tag_of (b : boundary) (vol edge : nat) : option string :=
  match b with
  | [] => None
  | (v, e, t) :: rest => if (v =? vol)%nat && (e =? edge)%nat then Some t else tag_of rest vol edge
  end.
(** Lines 939-943 *)
Definition tag_length (d : edges) (b : boundary) (tag : string) : R :=
  fold_left (fun length x => let '(v, e, t) := x in if String.eqb tag t then length + edgelength d v e else length) b 0.
(** Lines 955-976: the slope is 0. *)
Definition inflow_depth (average_momentum mannings_n : R) : R :=
  let slope := 0 in
  let epsilon := / 10 ^ 12 in
  if Rltb epsilon slope && Rltb epsilon mannings_n then Rpower (average_momentum * mannings_n / sqrt slope) (3 / 5) else 1.
(** [evaluate], lines 929-986: stage and both momenta; [None] is a KeyError. *)
Definition inflow_evaluate (rate : R) (d : edges) (b : boundary) (m : memory) (vol edge : nat) : option (memory * (R * R * R)) :=
  match (match m with
         | Some s => Some s
         | None => match tag_of b vol edge with None => None | Some t => Some (t, rate / tag_length d b t) end
         end) with
  | None => None
  | Some (t, average) =>
      Some (Some (t, average),
            (elevation d vol edge + inflow_depth average (friction d vol edge),
             average * - px (normal d vol edge), average * - py (normal d vol edge)))
  end.
(** A time step evaluates the object at each of its edges in turn; the flow
    that enters through the edge is the inward normal momentum times the
    length. *)
Definition entering (d : edges) (vol edge : nat) (q : R * R * R) : R :=
  let '(_, x, y) := q in - (x * px (normal d vol edge) + y * py (normal d vol edge)) * edgelength d vol edge.
Fixpoint inflow_step (rate : R) (d : edges) (b : boundary) (m : memory) (own : list (nat * nat)) : option (memory * R) :=
  match own with
  | [] => Some (m, 0)
  | (vol, edge) :: own =>
      match inflow_evaluate rate d b m vol edge with
      | None => None
      | Some (m, q) => match inflow_step rate d b m own with None => None | Some (m, total) => Some (m, entering d vol edge q + total) end
      end
  end.
