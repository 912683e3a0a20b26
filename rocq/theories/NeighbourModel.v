(** Model of the neighbour structure of a triangular mesh:
    anuga/abstract_2d_finite_volumes/neighbour_table.cpp
    ([_build_neighbour_structure]), neighbour_table_ext.pyx,
    neighbour_mesh_ext.pyx ([boundary_dictionary_construct]) and
    neighbour_mesh.py ([build_surrogate_neighbour_structure],
    [build_boundary_dictionary], [build_boundary_neighbours]).

    Node and triangle numbers are [nat] (the code asserts non-negative
    indices when the mesh is created, general_mesh.py 117-122); entries of the
    neighbour arrays are [Z] because negative values encode boundaries.  The
    hash table is an association list: only count/insert/lookup are used, so
    hashing itself is not represented. *)
From Coq Require Import Bool List ZArith Arith.
Import ListNotations.

(** A triangle: its three node numbers (a row of [triangles]). *)
Definition tri : Type := (nat * nat * nat)%type.

(** edge 0: n1-n2, edge 1: n2-n0, edge 2: n0-n1
    (neighbour_table.cpp 100-148). *)
Definition edge_key (t : tri) (e : nat) : nat * nat :=
  let '(n0, n1, n2) := t in
  match e with
  | 0 => (n1, n2)
  | 1 => (n2, n0)
  | _ => (n0, n1)
  end.

Definition key_eqb (a b : nat * nat) : bool :=
  Nat.eqb (fst a) (fst b) && Nat.eqb (snd a) (snd b).

(** [std::unordered_map<edge_key_t,edge_t>] *)
Definition table : Type := list ((nat * nat) * (nat * nat)).

Fixpoint lookup {V} (tbl : list ((nat * nat) * V)) (key : nat * nat) : option V :=
  match tbl with
  | [] => None
  | (k, v) :: rest => if key_eqb k key then Some v else lookup rest key
  end.

(** count/err/insert for one edge (neighbour_table.cpp 103-115); [None] is
    [err = 1]. *)
Definition add_edge (tbl : table) (key : nat * nat) (vol_id edge_id : nat) : option table :=
  match lookup tbl key with
  | Some _ => None
  | None => Some ((key, (vol_id, edge_id)) :: tbl)
  end.

(** One iteration of step 1 (89-150). *)
Definition add_triangle (tbl : table) (k : nat) (t : tri) : option table :=
  match add_edge tbl (edge_key t 0) k 0 with
  | None => None
  | Some t1 =>
    match add_edge t1 (edge_key t 1) k 1 with
    | None => None
    | Some t2 => add_edge t2 (edge_key t 2) k 2
    end
  end.

(** Step 1 over the triangles from number [k] on. *)
Fixpoint build_table (tbl : table) (k : nat) (ts : list tri) : option table :=
  match ts with
  | [] => Some tbl
  | t :: rest =>
    match add_triangle tbl k t with
    | None => None
    | Some tbl' => build_table tbl' (S k) rest
    end
  end.

Definition swap (key : nat * nat) : nat * nat := (snd key, fst key).

(** Row [k] of the output arrays. [neighbours] and [neighbour_edges] are
    initialised with -1 (neighbour_mesh.py 94-97). *)
Record row := {
  neighbours : list Z;
  neighbour_edges : list Z;
  number_of_boundaries : Z
}.

(** One iteration of step 2 (166-209). *)
Definition triangle_row (tbl : table) (t : tri) : row :=
  let l := map (fun e => lookup tbl (swap (edge_key t e))) [0; 1; 2] in
  {| neighbours := map (fun o => match o with Some (v, _) => Z.of_nat v | None => (-1)%Z end) l;
     neighbour_edges := map (fun o => match o with Some (_, e) => Z.of_nat e | None => (-1)%Z end) l;
     number_of_boundaries :=
       fold_left (fun n o => match o with Some _ => (n - 1)%Z | None => n end) l 3%Z |}.

(** [_build_neighbour_structure] (64-211) as called by
    neighbour_table_ext.pyx; [None] is the AssertionError 'Duplicate Edge'. *)
Definition build_neighbour_structure (ts : list tri) : option (list row) :=
  match build_table [] 0 ts with
  | None => None
  | Some tbl => Some (map (triangle_row tbl) ts)
  end.

(** [self.neighbours[k, i]] and [self.neighbour_edges[k, i]]. *)
Definition nb (rows : list row) (k i : nat) : Z :=
  match nth_error rows k with
  | Some r => nth i (neighbours r) (-1)%Z
  | None => (-1)%Z
  end.
Definition nbe (rows : list row) (k i : nat) : Z :=
  match nth_error rows k with
  | Some r => nth i (neighbour_edges r) (-1)%Z
  | None => (-1)%Z
  end.

(** [build_surrogate_neighbour_structure] (neighbour_mesh.py 318-345). *)
Definition surrogate (rows : list row) (k i : nat) : Z :=
  if (nb rows k i <? 0)%Z then Z.of_nat k else nb rows k i.

(** ** Boundary dictionary *)

(** Python dict {(vol_id, edge_id): tag}, in insertion order, keys unique.
    Tags are natural numbers (strings are only compared). *)
Definition bdict : Type := list ((nat * nat) * nat).

(** The assertion of [boundary_dictionary_construct] (20-23): keys must be
    below the array shape (negative keys, which would pass the test, are not
    representable here). *)
Definition keys_ok (n : nat) (b : bdict) : bool :=
  forallb (fun kv => Nat.ltb (fst (fst kv)) n && Nat.ltb (snd (fst kv)) 3) b.

(** One edge of the double loop (25-29). *)
Definition tag_edge (rows : list row) (default : nat) (b : bdict) (key : nat * nat) : bdict :=
  if (nb rows (fst key) (snd key) <? 0)%Z then
    match lookup b key with
    | Some _ => b
    | None => b ++ [(key, default)]
    end
  else b.

Definition all_edges (n : nat) : list (nat * nat) :=
  flat_map (fun k => [(k, 0); (k, 1); (k, 2)]) (seq 0 n).

(** [boundary_dictionary_construct] (9-31); [None]: AssertionError. *)
Definition boundary_dictionary (rows : list row) (default : nat) (b : bdict) : option bdict :=
  if keys_ok (length rows) b
  then Some (fold_left (tag_edge rows default) (all_edges (length rows)) b)
  else None.

(** ** Boundary enumeration: [build_boundary_neighbours]
    (neighbour_mesh.py 441-506) *)

(** Order of Python tuples. *)
Definition key_leb (a b : nat * nat) : bool :=
  Nat.ltb (fst a) (fst b) || (Nat.eqb (fst a) (fst b) && Nat.leb (snd a) (snd b)).

(** [X = list(self.boundary.keys()); X.sort()] *)
Fixpoint insert_key (x : nat * nat) (l : list (nat * nat)) : list (nat * nat) :=
  match l with
  | [] => [x]
  | y :: r => if key_leb x y then x :: l else y :: insert_key x r
  end.
Definition sorted_keys (b : bdict) : list (nat * nat) :=
  fold_right insert_key [] (map fst b).

(** Assignment [a[i] = v] to a Python list or numpy row. *)
Fixpoint set_nth {A} (i : nat) (v : A) (l : list A) : list A :=
  match l, i with
  | [], _ => []
  | _ :: r, 0 => v :: r
  | x :: r, S i' => x :: set_nth i' v r
  end.

(** [self.neighbours[id, edge] = index] *)
Definition set_nb (rows : list row) (k i : nat) (v : Z) : list row :=
  match nth_error rows k with
  | Some r => set_nth k {| neighbours := set_nth i v (neighbours r);
                           neighbour_edges := neighbour_edges r;
                           number_of_boundaries := number_of_boundaries r |} rows
  | None => rows
  end.

(** The loop over [X] (469-475): [index] counts down from -1. *)
Fixpoint enumerate (rows : list row) (enum : list ((nat * nat) * Z)) (index : Z)
         (X : list (nat * nat)) : list row * list ((nat * nat) * Z) :=
  match X with
  | [] => (rows, enum)
  | (k, i) :: rest =>
    enumerate (set_nb rows k i index) (enum ++ [((k, i), (- index - 1)%Z)]) (index - 1)%Z rest
  end.

Record boundary_structure := {
  b_rows  : list row;                     (* self.neighbours afterwards *)
  b_enum  : list ((nat * nat) * Z);       (* self.boundary_enumeration *)
  b_cells : list nat;                     (* self.boundary_cells *)
  b_edges : list nat;                     (* self.boundary_edges *)
  b_tags  : list (nat * list nat)         (* self.tag_boundary_cells *)
}.

(** Loop 482-485: [boundary_cells[j] = id; boundary_edges[j] = edge]. *)
Definition fill_cells (enum : list ((nat * nat) * Z)) (X : list (nat * nat)) : list nat * list nat :=
  fold_left (fun st key =>
     match lookup enum key with
     | Some j => (set_nth (Z.to_nat j) (fst key) (fst st), set_nth (Z.to_nat j) (snd key) (snd st))
     | None => st
     end) X (repeat 0 (length X), repeat 0 (length X)).

(** [get_boundary_tags] (508-517): distinct values of the dictionary. *)
Definition boundary_tags (b : bdict) : list nat :=
  fold_left (fun acc t => if existsb (Nat.eqb t) acc then acc else acc ++ [t]) (map snd b) [].

Fixpoint dict_append (d : list (nat * list nat)) (tag j : nat) : list (nat * list nat) :=
  match d with
  | [] => []
  | (t, l) :: r => if Nat.eqb t tag then (t, l ++ [j]) :: r else (t, l) :: dict_append r tag j
  end.

(** Lines 487-502. *)
Definition tag_cells (b : bdict) (cells edges : list nat) : list (nat * list nat) :=
  fold_left (fun d j =>
     match lookup b (nth j cells 0, nth j edges 0) with
     | Some tag => dict_append d tag j
     | None => d
     end) (seq 0 (length b)) (map (fun t => (t, [])) (boundary_tags b)).

Definition build_boundary_neighbours (rows : list row) (b : bdict) : boundary_structure :=
  let X := sorted_keys b in
  let (rows', enum) := enumerate rows [] (-1)%Z X in
  let (cells, edges) := fill_cells enum X in
  {| b_rows := rows'; b_enum := enum; b_cells := cells; b_edges := edges;
     b_tags := tag_cells b cells edges |}.

(** What [Mesh.__init__] builds from triangles and a tag dictionary. *)
Definition mesh_boundary (ts : list tri) (default : nat) (b : bdict)
  : option (list row * bdict * boundary_structure) :=
  match build_neighbour_structure ts with
  | None => None
  | Some rows =>
    match boundary_dictionary rows default b with
    | None => None
    | Some bd => Some (rows, bd, build_boundary_neighbours rows bd)
    end
  end.
