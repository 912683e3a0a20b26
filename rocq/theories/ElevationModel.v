(** Model of the operators that change the bed: Set_elevation
    (anuga/operators/set_elevation.py), the erosion operators
    (anuga/operators/erosion_operators.py) and the sand dune operator
    (anuga/operators/sanddune_erosion_operator.py). *)
From Coq Require Import Reals List Arith Bool.
From Verif Require Import RealLib ArrayLib InvertedModel.
Import ListNotations.
Local Open Scope R_scope.

(** The arrays touched by the operators: vertex and edge values of the
    elevation (triangle, number 0, 1 or 2), and the centroid values of the
    elevation and of the stage.  Momenta are only read. *)
Record bed := Bed {
  elev_v : nat -> nat -> R;
  elev_e : nat -> nat -> R;
  elev_c : nat -> R;
  stage_c : nat -> R }.

(** numpy's [a[ids]] and [a[ids] = values]: with repeated indices the last
    value stays. *)
Definition gather {A} (a : nat -> A) (ids : list nat) : list A := map a ids.
Fixpoint put {A} (a : nat -> A) (ids : list nat) (values : list A) : nat -> A :=
  match ids, values with
  | i :: ids, v :: values => put (upd a i v) ids values
  | _, _ => a
  end.
Definition plus2 (l l' : list R) : list R := map (fun ab => fst ab + snd ab) (combine l l').
Definition minus2 (l l' : list R) : list R := map (fun ab => fst ab - snd ab) (combine l l').

(** [self.elev_c[ids] = values; self.stage_c[ids] = self.elev_c[ids] + height]
    with the heights taken before (set_elevation.py lines 224-227,
    erosion_operators.py lines 123-125, 617-626, 717-720). *)
Definition set_centroids (s : bed) (ids : list nat) (values : list R) : bed :=
  let height := minus2 (gather (stage_c s) ids) (gather (elev_c s) ids) in
  let ec := put (elev_c s) ids values in
  Bed (elev_v s) (elev_e s) ec (put (stage_c s) ids (plus2 (gather ec ids) height)).

(** [self.elev_v[ids] = rows] *)
Definition set_vertices (s : bed) (ids : list nat) (rows : list (nat -> R)) : bed :=
  Bed (put (elev_v s) ids rows) (elev_e s) (elev_c s) (stage_c s).

(** * The nodes and triangles touched, [setup_node_structures]
    (set_elevation.py lines 246-296, erosion_operators.py lines 410-440) *)

(** A list in some order with the elements of a Python set. *)
Definition is_set_of (l src : list nat) : Prop := NoDup l /\ forall x, In x l <-> In x src.

(** Lines 419-423: the corners of the triangles of the region. *)
Definition region_nodes (T : flat) (ids : list nat) : list nat :=
  flat_map (fun i => map (fun k => node_at T (3 * i + k)) [0; 1; 2]%nat) ids.

(** Lines 433-435 and 206-207: the positions of a node in [triangles.flat]. *)
Definition positions (I : inverted) (nid : nat) : list nat :=
  map (fun i => nth i (vertex_value_indices I) 0%nat)
      (seq (nth nid (node_index I) 0%nat) (nth (S nid) (node_index I) 0%nat - nth nid (node_index I) 0%nat)).

(** Lines 431-439: the triangles that use one of these nodes. *)
Definition node_vols (I : inverted) (nodes : list nat) : list nat :=
  flat_map (fun nid => map (fun v => v / 3)%nat (positions I nid)) nodes.

(** * Making the elevation continuous again, [clean_up_elevation_stage] *)

Definition upd2 (a : nat -> nat -> R) (i j : nat) (v : R) : nat -> nat -> R := upd a i (upd (a i) j v).

(** Lines 203-214: the mean of the vertex values of a node goes to all of
    them. *)
Definition average_node (I : inverted) (ev : nat -> nat -> R) (nid : nat) : nat -> nat -> R :=
  let vs := positions I nid in
  let res := Rsum (map (fun v => ev (v / 3)%nat (v mod 3)) vs) / INR (nth nid (number_of_triangles_per_node I) 0%nat) in
  fold_left (fun ev v => upd2 ev (v / 3)%nat (v mod 3) res) vs ev.

Definition mean3 (f : nat -> R) : R := (f 0%nat + f 1%nat + f 2%nat) / 3.
Definition edge_row (f : nat -> R) (k : nat) : R :=
  match k with
  | 0%nat => 5/10 * (f 1%nat + f 2%nat)
  | 1%nat => 5/10 * (f 2%nat + f 0%nat)
  | _ => 5/10 * (f 0%nat + f 1%nat)
  end.

(** Lines 202-227 (set_elevation.py lines 153-178): the region is a list. *)
Definition clean_region (I : inverted) (nodes vols : list nat) (s : bed) : bed :=
  let height := minus2 (gather (stage_c s) vols) (gather (elev_c s) vols) in
  let ev := fold_left (average_node I) nodes (elev_v s) in
  let ec := put (elev_c s) vols (map (fun t => mean3 (ev t)) vols) in
  let ee := put (elev_e s) vols (map (fun t => edge_row (ev t)) vols) in
  Bed ev ee ec (put (stage_c s) vols (plus2 (gather ec vols) height)).

(** Lines 190-193 (set_elevation.py lines 137-140): all triangles.
    [smooth_vertex_values] (quantity.py lines 2146-2150, 2158-2220) averages at
    the nodes, from the centroid values if the domain uses centroid averaging;
    [_set_vertex_values] hands the node values to the vertices, and
    [interpolate] (quantity_openmp.c lines 673-695) recomputes centroids and
    edges. *)
Definition clean_all (T : flat) (I : inverted) (centroid_averaging : bool) (M : nat) (s : bed) : option bed :=
  let zeros := fun _ : nat => 0 in
  match (if centroid_averaging then average_centroid_values I (elev_c s) zeros
         else average_vertex_values I (fun index => elev_v s (index / 3)%nat (index mod 3)) zeros) with
  | None => None
  | Some A =>
      let all := seq 0 M in
      let ev := put (elev_v s) all (map (fun t k => A (node_at T (3 * t + k))) all) in
      let ec := put (elev_c s) all (map (fun t => mean3 (ev t)) all) in
      let ee := put (elev_e s) all (map (fun t => edge_row (ev t)) all) in
      Some (Bed ev ee ec (put (stage_c s) all (plus2 (gather ec all) (minus2 (gather (stage_c s) all) (gather (elev_c s) all)))))
  end.

(** * Set_elevation *)

(** [__call__] and [update_quantities], lines 99-241.  The new values are the
    outcome of [get_value] brought to the shape of the target: one per
    triangle of the region (at its centroid), or one row of three per triangle
    (at its vertices); [None] when [get_value] or the assignment raises
    ValueError, which leaves everything alone.  [ids = None] is the whole
    domain of [M] triangles. *)
Definition set_elevation (T : flat) (I : inverted) (discontinuous centroid_averaging : bool) (M : nat)
  (ids : option (list nat)) (nodes vols : list nat) (centroid_value : option (list R))
  (vertex_value : option (list (nat -> R))) (s : bed) : option bed :=
  let target := match ids with None => seq 0 M | Some l => l end in
  if discontinuous then
    match centroid_value with None => Some s | Some v => Some (set_centroids s target v) end
  else
    match vertex_value with
    | None => Some s
    | Some rows =>
        let s' := set_vertices s target rows in
        match ids with
        | None => clean_all T I centroid_averaging M s'
        | Some _ => Some (clean_region I nodes vols s')
        end
    end.

(** * The erosion operators *)

(** The momenta and the parameters given to the constructors. *)
Record flow := Flow { xmom : nat -> R; ymom : nat -> R }.
Definition momentum (F : flow) (i : nat) : R := sqrt (xmom F i * xmom F i + ymom F i * ymom F i).

Definition max3 (f : nat -> R) : R := Rmax (Rmax (f 0%nat) (f 1%nat)) (f 2%nat).

(** numpy's rule for combining shapes (k,) and (k,3): the lengths k and 3 of
    the last axes must be equal, or k must be 1; entry (i,j) of the result
    uses entry j, or the only entry, of the short operand. *)
Definition broadcasts (k : nat) : bool := (k =? 1)%nat || (k =? 3)%nat.
Definition broadcast (l : list R) (j : nat) : R := if (length l =? 1)%nat then nth 0 l 0 else nth j l 0.

(** [Erosion_operator.update_quantities] for a list of triangles, lines
    112-135.  [None]: ValueError, shapes that do not combine. *)
Definition erosion_update (F : flow) (threshold base dt : R) (discontinuous : bool) (ids : list nat) (s : bed) : option bed :=
  let rate i := if Rltb threshold (momentum F i) then momentum F i else 0 in
  let de := map (fun i => rate i * dt) ids in
  if negb (broadcasts (length ids)) then None
  else if discontinuous then
    Some (set_centroids s ids (map (fun i => max3 (fun j => Rmax (elev_v s i j - broadcast de j) base)) ids))
  else
    let top := map (fun i => max3 (fun j => Rmax (elev_v s i j - rate i * dt) base)) ids in
    Some (set_vertices s ids (map (fun _ => broadcast top) ids)).

(** [Bed_shear_erosion_operator.update_quantities], lines 580-642; [slope] is
    the length of the gradient of the stage ([compute_local_gradients]). *)
Definition shear_erosion (F : flow) (slope : nat -> R) (threshold shear_factor dt : R) (s : bed) (i : nat) : R :=
  let d := stage_c s i - elev_c s i in
  let v := momentum F i / (d + 1/10000000000) in
  let de := 1000 * (981/100) * d * slope i / shear_factor * dt in
  if Rltb threshold v then de else 0.
Definition shear_update (F : flow) (slope : nat -> R) (threshold base shear_factor dt : R) (discontinuous : bool)
  (ids : list nat) (s : bed) : option bed :=
  let de := shear_erosion F slope threshold shear_factor dt s in
  if discontinuous then Some (set_centroids s ids (map (fun i => Rmax (elev_c s i - de i) base) ids))
  else Some (set_vertices s ids (map (fun i j => Rmax (elev_v s i j - de i) base) ids)).

(** [num.where(e > value, value, e)] and [num.where(e < value, value, e)] *)
Definition cut (value e : R) : R := if Rltb value e then value else e.
Definition raise (value e : R) : R := if Rltb e value then value else e.

(** [Flat_slice_erosion_operator.update_quantities], lines 709-731.  The given
    elevation must be a function of time; [None] is any exception of calling
    it (such as it being a number), swallowed by the bare [except]. *)
Definition slice_update (elevation : option R) (discontinuous : bool) (ids : list nat) (s : bed) : option bed :=
  match elevation with
  | None => Some s
  | Some value =>
      if discontinuous then Some (set_centroids s ids (map (fun i => cut value (elev_c s i)) ids))
      else Some (set_vertices s ids (map (fun i j => cut value (elev_v s i j)) ids))
  end.

(** [Flat_fill_slice_erosion_operator.update_quantities], lines 796-827; the
    maximum of no values raises, which the bare [except] swallows. *)
Definition fill_update (elevation : option R) (discontinuous : bool) (ids : list nat) (s : bed) : option bed :=
  match elevation, ids with
  | None, _ | _, [] => Some s
  | Some value, i :: rest =>
      if discontinuous then
        let top := fold_left (fun m t => Rmax m (elev_c s t)) rest (elev_c s i) in
        let change := if Rltb top value then raise value else cut value in
        Some (set_centroids s ids (map (fun t => change (elev_c s t)) ids))
      else
        let top := fold_left (fun m t => Rmax m (max3 (elev_v s t))) rest (max3 (elev_v s i)) in
        let change := if Rltb top value then raise value else cut value in
        Some (set_vertices s ids (map (fun t j => change (elev_v s t j)) ids))
  end.

(** Constructor (lines 76-84, 419-423) and call (lines 140-164) of the four
    operators, with [update] their method for a list of triangles.  For the
    whole domain nothing is changed (lines 103-108), and with continuous
    elevation the constructor fails to iterate over None. *)
Definition erosion_call (I : inverted) (discontinuous : bool) (ids : option (list nat)) (nodes vols : list nat)
  (update : bool -> list nat -> bed -> option bed) (s : bed) : option bed :=
  match ids with
  | None => if discontinuous then Some s else None
  | Some l =>
      match update discontinuous l s with
      | None => None
      | Some s' => if discontinuous then Some s' else Some (clean_region I nodes vols s')
      end
  end.

(** * The sand dune operator *)

(** The base level: a number, or an array with one value per triangle. *)
Inductive base_level := BaseNumber (b : R) | BaseArray (b : nat -> R).

(** Lines 207-223: the depth of scour in one step, zero unless positive; with
    a negative depth the power is NaN and no comparison holds. *)
Definition scour (F : flow) (dt : R) (s : bed) (i : nat) : R :=
  let d := stage_c s i - elev_c s i in
  if Rltb d 0 then 0
  else
    let power := if Reqb d 0 then 0 else Rpower d (2333/1000) in
    let tau := 1000 * (98/10) * (3/100 * (3/100)) * (xmom F i * xmom F i + ymom F i * ymom F i) / (power + 1/1000000) in
    let de := 25/1000 / 1800 * dt * (tau - 21/10) in
    if Rltb 0 de then de else 0.

(** [num.argmin] over the three neighbours, the first of equal ones. *)
Definition lowest (ec : nat -> R) (nb : nat -> nat) : nat :=
  let first := if Rltb (ec (nb 1%nat)) (ec (nb 0%nat)) then nb 1%nat else nb 0%nat in
  if Rltb (ec (nb 2%nat)) (ec first) then nb 2%nat else first.

Definition distance (C : nat -> R * R) (i j : nat) : R :=
  sqrt ((fst (C i) - fst (C j)) * (fst (C i) - fst (C j)) + (snd (C i) - snd (C j)) * (snd (C i) - snd (C j))).

(** [Sanddune_erosion_operator.__call__], lines 145-284, on one process.
    [repose] is the tangent of the angle of repose; [nb t k] the surrogate
    neighbours; [None]: [self.base[ind]] on a number. *)
Definition dune (F : flow) (C : nat -> R * R) (nb : nat -> nat -> nat) (base : base_level) (repose dt : R)
  (ids : list nat) (s : bed) : option bed :=
  match base with
  | BaseNumber _ => None
  | BaseArray b =>
      let d := minus2 (gather (stage_c s) ids) (gather (elev_c s) ids) in
      let e1 := put (elev_c s) ids (map (fun i => Rmax (elev_c s i - scour F dt s i) (b i)) ids) in
      let collapse i :=
        let n0 := lowest e1 (nb i) in
        let lxy := distance C i n0 in
        let slope := if Rltb 0 lxy then (e1 i - e1 n0) / lxy else 0 in
        if Rltb repose slope then Rmax (e1 n0 + repose * lxy) (b i) else e1 i in
      let e2 := put e1 ids (map collapse ids) in
      Some (Bed (elev_v s) (elev_e s) e2 (put (stage_c s) ids (plus2 (gather e2 ids) d)))
  end.
