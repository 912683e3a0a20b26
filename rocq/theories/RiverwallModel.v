(** Model of the creation of riverwalls, anuga/structures/riverwall.py lines
    55-670.  Real arithmetic, except that the test whether an edge lies on a
    segment is generic in the arithmetic.  Printing, the export to text and the
    barriers are left out. *)
From Coq Require Import Reals List Arith ZArith Bool String.
From Verif Require Import RealLib ArrayLib PolygonModel.
Import ListNotations.
Local Open Scope R_scope.

(** * Edges on a segment *)
Record arith := { num : Type; a_add : num -> num -> num; a_sub : num -> num -> num; a_mul : num -> num -> num;
                  a_div : num -> num -> num; a_opp : num -> num; a_sqrt : num -> num; a_ltb : num -> num -> bool }.
Definition real_arith : arith :=
  {| num := R; a_add := Rplus; a_sub := Rminus; a_mul := Rmult; a_div := Rdiv; a_opp := Ropp; a_sqrt := sqrt; a_ltb := Rltb |}.

(** Lines 330-362: the length of the segment, the distance of the projection
    of a point from [start] along it, and the square of the distance from its
    line.  [**0.5] is taken as the square root. *)
Section Segment.
  Context (O : arith) (start stop corner p : num O * num O).
  Let sq x := a_mul O x x.
  Definition seg_len : num O :=
    a_sqrt O (a_add O (sq (a_sub O (fst start) (fst stop))) (sq (a_sub O (snd start) (snd stop)))).
  Definition pv_0 : num O := a_sub O (fst p) (a_sub O (fst start) (fst corner)).
  Definition pv_1 : num O := a_sub O (snd p) (a_sub O (snd start) (snd corner)).
  Definition pv_dot_se : num O :=
    let se_0 := a_div O (a_opp O (a_sub O (fst start) (fst stop))) seg_len in
    let se_1 := a_div O (a_opp O (a_sub O (snd start) (snd stop))) seg_len in
    a_add O (a_mul O pv_0 se_0) (a_mul O pv_1 se_1).
  Definition perp_len_sq : num O :=
    let pvLen := a_sqrt O (a_add O (sq pv_0) (sq pv_1)) in
    a_sub O (sq pvLen) (sq pv_dot_se).
  (** Line 366; [zero] is 0. *)
  Definition on_levee (zero tol : num O) : bool :=
    a_ltb O perp_len_sq (sq tol) && a_ltb O (a_sub O zero tol) pv_dot_se && a_ltb O pv_dot_se (a_add O seg_len tol).
End Segment.

(** * The mesh *)
(** [edges] is three times the number of triangles; vertex 3*k+i is the vertex
    [i] of the triangle [k]; coordinates relative to [corner]. *)
Record mesh := { edges : nat; vertex : nat -> point; corner : point; boundary_edges : list nat }.

(** [get_vertices_corresponding_to_edgeInds], lines 496-533 *)
Definition vertex1 (e : nat) : nat :=
  match e mod 3 with 2%nat => (e - 2)%nat | 1%nat => (e - 1)%nat | _ => (e + 1)%nat end.
Definition vertex2 (e : nat) : nat :=
  match e mod 3 with 2%nat => (e - 1)%nat | 1%nat => (e + 1)%nat | _ => (e + 2)%nat end.

(** [compute_edge_midpoint_coordinates], general_mesh.py lines 599-637; the
    assertions of lines 517-529 repeat it. *)
Definition midpoint (m : mesh) (e : nat) : point :=
  let P := vertex m (3 * (e / 3) + (e mod 3 + 1) mod 3)%nat in
  let Q := vertex m (3 * (e / 3) + (e mod 3 + 2) mod 3)%nat in
  ((px P + px Q) / 2, (py P + py Q) / 2).

(** * Parameters *)
(** Python dictionaries, in the order of insertion *)
Definition dict (A : Type) := list (string * A).
Fixpoint get {A} (d : dict A) (k : string) : option A :=
  match d with [] => None | (k', v) :: d => if string_dec k' k then Some v else get d k end.
Definition has {A} (d : dict A) (k : string) : bool := match get d k with Some _ => true | None => false end.

(** Lines 121-131 *)
Definition initial_defaults : dict R := [("Qfactor", 1); ("s1", 9/10); ("s2", 95/100); ("h1", 1); ("h2", 15/10)]%string.
Definition variable_names : list string := ["Qfactor"; "s1"; "s2"; "h1"; "h2"]%string.
(** Lines 249-252 *)
Definition update_defaults (d given : dict R) : dict R :=
  map (fun kv => (fst kv, match get given (fst kv) with Some v => v | None => snd kv end)) d.
(** Lines 254-258 *)
Definition defaults_known (d given : dict R) : bool := forallb (fun kv => has d (fst kv)) given.
(** Lines 264-278 *)
Definition parameters_known {W} (walls : dict W) (par : dict (dict R)) (d : dict R) : bool :=
  forallb (fun ip => has walls (fst ip) && forallb (fun jv => has d (fst jv)) (snd ip)) par.

(** * State: the arrays of the domain and those of the object *)
Record state := {
  flux_type : nat -> Z;          (** domain.edge_flux_type *)
  counter : nat -> nat;          (** domain.edge_river_wall_counter *)
  elevation : list R;            (** self.riverwall_elevation *)
  row_index : list Z;            (** self.hydraulic_properties_rowIndex *)
  wall_edges : list nat;         (** self.riverwall_edges *)
  names : list string;
  defaults : dict R;
  properties : list (list R)     (** self.hydraulic_properties *)
}.
(** Before the first call, lines 110-146, shallow_water_domain.py lines
    371-373.  [default_float] and [default_int] stand for -9.0e+20 and -10^9;
    the latter is left out of [wall_edges]. *)
Definition default_float : R := - (9 * 10 ^ 20).
Definition default_int : Z := (-1000000000)%Z.
Definition reset (s : state) : state :=
  {| flux_type := flux_type s; counter := counter s; elevation := [default_float]; row_index := [default_int];
     wall_edges := []; names := []; defaults := initial_defaults; properties := [[default_float]] |}.
Definition fresh : state :=
  reset {| flux_type := fun _ => 0%Z; counter := fun _ => 0%nat; elevation := []; row_index := []; wall_edges := []; names := [];
           defaults := []; properties := [] |}.

(** * The loop over walls and segments *)
Record work := { w_type : nat -> Z; w_elev : nat -> R; w_row : nat -> Z }.
(** Lines 378-381 *)
Definition weight (m : mesh) (start stop : point) (e : nat) : R :=
  let w0 := pv_dot_se real_arith start stop (corner m) (midpoint m e) / seg_len real_arith start stop in
  let w0 := if Rleb 0 w0 then w0 else 0 in
  if Rleb w0 1 then w0 else 1.
Definition coordinate (l : list R) (i : nat) : option R := nth_error l i.

(** Lines 320-386.  The test of line 324, [len(start)!=3 | len(end)!=3], is
    the chained comparison len(start) != (3 | len(end)) != 3. *)
Definition bad_lengths (a b : nat) : bool := negb (a =? Nat.lor 3 b)%nat && negb (Nat.lor 3 b =? 3)%nat.
Definition assign_type (w : work) (l : list nat) : work :=
  {| w_type := fun e => if in_dec Nat.eq_dec e l then 1%Z else w_type w e; w_elev := w_elev w; w_row := w_row w |}.
Definition assign_wall (m : mesh) (i : nat) (a b : point) (za zb : R) (w : work) (l : list nat) : work :=
  {| w_type := w_type w;
     w_elev := fun e => if in_dec Nat.eq_dec e l then za * (1 - weight m a b e) + weight m a b e * zb else w_elev w e;
     w_row := fun e => if in_dec Nat.eq_dec e l then Z.of_nat i else w_row w e |}.
(** The flag tells that no exception was raised. *)
Definition segment_loop (m : mesh) (tol : R) (i : nat) (start stop : list R) (w : work) : work * bool :=
  if bad_lengths (List.length start) (List.length stop) then (w, false) else
  match start, stop with
  | x0 :: y0 :: r0, x1 :: y1 :: r1 =>
      let a := (x0, y0) in let b := (x1, y1) in
      if Rltb (seg_len real_arith a b) tol then (w, true) else
      let l := filter (fun e => on_levee real_arith a b (corner m) (midpoint m e) 0 tol) (seq 0 (edges m)) in
      match l with
      | [] => (w, true)
      | _ => let w := assign_type w l in
             match r0, r1 with
             | z0 :: _, z1 :: _ => (assign_wall m i a b z0 z1 w l, true)
             | _, _ => (w, false)
             end
      end
  | _, _ => (w, false)
  end.
Fixpoint wall_loop (m : mesh) (tol : R) (i : nat) (wall : list (list R)) (w : work) : work * bool :=
  match wall with
  | start :: ((stop :: _) as rest) =>
      match segment_loop m tol i start stop w with
      | (w, true) => wall_loop m tol i rest w
      | r => r
      end
  | _ => (w, true)
  end.
Fixpoint walls_loop (m : mesh) (tol : R) (i : nat) (walls : dict (list (list R))) (w : work) : work * bool :=
  match walls with
  | [] => (w, true)
  | (_, wall) :: rest =>
      match wall_loop m tol i wall w with
      | (w, true) => walls_loop m tol (S i) rest w
      | r => r
      end
  end.

(** Lines 404-417: the running number of the riverwall edges *)
Fixpoint count_edges (type : nat -> Z) (n : nat) (k : nat) (c : nat) (a : nat -> nat) : nat -> nat :=
  match n with
  | O => a
  | S n => if (type k =? 1)%Z then count_edges type n (S k) (S c) (upd a k (S c)) else count_edges type n (S k) c (upd a k 0%nat)
  end.

(** Lines 424-449 *)
Definition parameter (par : option (dict R)) (d : dict R) (v : string) : R :=
  match par with
  | Some p => match get p v with Some x => x | None => match get d v with Some x => x | None => 0 end end
  | None => match get d v with Some x => x | None => 0 end
  end.
Definition table (walls : dict (list (list R))) (par : dict (dict R)) (d : dict R) : list (list R) :=
  map (fun nw => map (parameter (get par (fst nw)) d) variable_names) walls.
(** Lines 454-468 *)
Definition row_ok (r : list R) : bool :=
  let c i := nth i r 0 in
  Rltb (c 1%nat) (c 2%nat) && Rleb 0 (c 1%nat) && Rleb 0 (c 2%nat) && Rltb (c 3%nat) (c 4%nat) && Rleb 0 (c 3%nat) && Rleb 0 (c 4%nat).

(** * Connectedness *)
Definition point_eqb (p q : point) : bool := Reqb (px p) (px q) && Reqb (py p) (py q).
Definition count_points (p : point) (l : list point) : nat := List.length (filter (point_eqb p) l).

(** [is_vertex_on_boundary], lines 535-570 *)
Definition on_boundary (m : mesh) (v : nat) : bool :=
  existsb (fun e => point_eqb (vertex m (vertex1 e)) (vertex m v) || point_eqb (vertex m (vertex2 e)) (vertex m v)) (boundary_edges m).
(** Lines 613-630: an edge is kept unless an earlier one has its midpoint. *)
Fixpoint unique_edges (m : mesh) (seen : list point) (l : list nat) : list nat :=
  match l with
  | [] => []
  | e :: l => if existsb (point_eqb (midpoint m e)) seen then unique_edges m seen l
              else e :: unique_edges m (midpoint m e :: seen) l
  end.
(** Lines 632-654 *)
Definition free_ends (m : mesh) (l : list nat) : nat :=
  let u := unique_edges m [] l in
  let V := map (fun e => vertex m (vertex1 e)) u ++ map (fun e => vertex m (vertex2 e)) u in
  let free v := (count_points (vertex m v) V =? 1)%nat && negb (on_boundary m v) in
  (List.length (filter (fun e => free (vertex1 e)) u) + List.length (filter (fun e => free (vertex2 e)) u))%nat.
(** Lines 572-670 *)
Definition edges_of_wall (s : state) (i : nat) : list nat :=
  map fst (filter (fun er => (snd er =? Z.of_nat i)%Z) (combine (wall_edges s) (row_index s))).
Definition connected (m : mesh) (s : state) : bool :=
  forallb (fun i => (free_ends m (edges_of_wall s i) <=? 2)%nat) (seq 0 (List.length (names s))).

(** * [create_riverwalls], lines 149-488.  The flag tells that no exception
    was raised; [discontinuous] is that of the flow algorithm. *)
Definition max_float : R := 10 ^ 36.
Definition create (m : mesh) (discontinuous : bool) (walls : dict (list (list R))) (par : dict (dict R)) (given : dict R)
    (tol : R) (verbose : bool) (s : state) : state * bool :=
  if negb discontinuous then (s, false) else
  let s := match names s with [] => s | _ => reset s end in
  let d := update_defaults (defaults s) given in
  let s := {| flux_type := flux_type s; counter := counter s; elevation := elevation s; row_index := row_index s;
              wall_edges := wall_edges s; names := names s; defaults := d; properties := properties s |} in
  if negb (defaults_known d given && parameters_known walls par d) then (s, false) else
  let '(w, ok) := walls_loop m tol 0 walls {| w_type := flux_type s; w_elev := fun _ => - max_float; w_row := fun _ => (-1)%Z |} in
  if negb ok then
    ({| flux_type := w_type w; counter := counter s; elevation := elevation s; row_index := row_index s;
        wall_edges := wall_edges s; names := names s; defaults := d; properties := properties s |}, false)
  else
  let inds := filter (fun e => (w_type w e =? 1)%Z) (seq 0 (edges m)) in
  let s := {| flux_type := w_type w; counter := count_edges (w_type w) (edges m) 0 0 (counter s);
              elevation := map (w_elev w) inds; row_index := map (w_row w) inds; wall_edges := inds;
              names := map fst walls; defaults := d; properties := properties s |} in
  let t := table walls par d in
  if negb (forallb row_ok t) then (s, false) else
  let s := {| flux_type := flux_type s; counter := counter s; elevation := elevation s; row_index := row_index s;
              wall_edges := wall_edges s; names := names s; defaults := d; properties := t |} in
  (s, negb (verbose && negb (connected m s))).
