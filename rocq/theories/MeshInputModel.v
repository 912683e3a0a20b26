(** How the polygons and tags given by the user become a mesh with boundary tags:
    anuga/pmesh/mesh_interface.py ([_create_mesh_from_regions], lines 143-370),
    anuga/pmesh/mesh.py (class [Mesh] and the conversions of tags),
    anuga/mesh_engine/mesh_engine.py ([generate_mesh], lines 24-154),
    anuga/geometry/polygon.py ([point_in_polygon], 946-982;
    [polylist2points_verts], 1133-1145),
    anuga/abstract_2d_finite_volumes/pmesh2domain_ext.pyx
    ([build_boundary_dictionary], 33-137) and
    anuga/abstract_2d_finite_volumes/pmesh2domain.py ([pmesh_dict_to_tag_dict],
    lines 201-224).

    The mesh generator Triangle itself is not modelled.  Tags are natural numbers
    (strings are only compared): 0 is the empty string, 1 is 'exterior', 2 is
    'interior'.  [double] is [R]. *)
From Coq Require Import Reals List Arith ZArith Bool.
From Verif Require Import RealLib ArrayLib PolygonModel NeighbourModel.
Import ListNotations.
Local Open Scope nat_scope.

Definition tag := nat.
Definition no_tag : tag := 0.
Definition exterior : tag := 1.
Definition interior : tag := 2.

(** A dictionary {tag: [segments]}, in the order of the dictionary. *)
Definition tags := list (tag * list Z).

Inductive error := SegmentError | PolygonError | IndexError | AssertionError | Endless.
Definition attempt (A : Type) : Type := (error + A)%type.
Definition bind {A B} (a : attempt A) (f : A -> attempt B) : attempt B :=
  match a with inl e => inl e | inr x => f x end.
Notation "'do' x <- a ; b" := (bind a (fun x => b)) (at level 200, x pattern, a at level 100, b at level 200).

(** ** class Mesh *)

(** A region: a point, its tag and its maximum area. *)
Definition region := (point * tag * option R)%type.

(** [self.geo_reference] (its corner), [userVertices], [userSegments] (the
    vertices are objects; they are told apart by their place in
    [userVertices]), [holes], [regions].  Coordinates relative to the corner. *)
Record pmesh := {
  corner : point; vertices : list point; segments : list (nat * nat * tag);
  holes : list point; regions : list region }.
Definition new_mesh (c : point) : pmesh := {| corner := c; vertices := []; segments := []; holes := []; regions := [] |}.

Definition shift (c : point) (p : point) : point := (px p - px c, py p - py c)%R.
Definition unshift (c : point) (p : point) : point := (px p + px c, py p + py c)%R.

(** [l[i] = v] for a Python list: negative indices count from the end. *)
Definition set_item {A} (l : list A) (i : Z) (v : A) : attempt (list A) :=
  let N := Z.of_nat (length l) in
  if (0 <=? i)%Z && (i <? N)%Z then inr (set_nth (Z.to_nat i) v l)
  else if (- N <=? i)%Z && (i <? 0)%Z then inr (set_nth (Z.to_nat (i + N)) v l)
  else inl IndexError.

(** [_tag_dict2list], mesh.py lines 779-804 *)
Fixpoint set_items (l : list tag) (is : list Z) (key : tag) : attempt (list tag) :=
  match is with
  | [] => inr l
  | i :: is => do l <- set_item l i key; set_items l is key
  end.
Fixpoint set_tags (l : list tag) (d : tags) : attempt (list tag) :=
  match d with
  | [] => inr l
  | (key, is) :: d => do l <- set_items l is key; set_tags l d
  end.
Definition tag_dict2list (d : option tags) (n : nat) (hole : bool) : attempt (list tag) :=
  set_tags (repeat (if hole then interior else no_tag) n) (match d with Some d => d | None => [] end).

(** [addVertsSegs], lines 916-948, and [Segment.__init__], lines 297-308 *)
Fixpoint add_segments (n offset : nat) (old : list (nat * nat * tag)) (segs : list ((nat * nat) * tag)) : attempt (list (nat * nat * tag)) :=
  match segs with
  | [] => inr old
  | ((a, b), t) :: segs =>
      if (n <=? a + offset) || (n <=? b + offset) then inl IndexError else
      if a =? b then inl AssertionError else
      add_segments n offset (old ++ [(a + offset, b + offset, if t =? no_tag then no_tag else t)]) segs
  end.
Definition addVertsSegs (m : pmesh) (points : list point) (segs : list (nat * nat)) (ts : list tag) : attempt pmesh :=
  let offset := length (vertices m) in
  let vs := vertices m ++ map (shift (corner m)) points in
  do ss <- add_segments (length vs) offset (segments m) (combine segs ts);
  inr {| corner := corner m; vertices := vs; segments := ss; holes := holes m; regions := regions m |}.

(** [point_in_polygon]; [fuel] is the number of rounds of the endless loop. *)
Definition nudged (x mult delta : R) : R := (if Reqb x 0 then mult * delta else x + mult * x * delta)%R.
Definition nearby (delta : R) (polygon : list point) : list point :=
  flat_map (fun p => flat_map (fun xm => map (fun ym => (nudged (px p) xm delta, nudged (py p) ym delta)) [-1; 0; 1]%R) [-1; 0; 1]%R) polygon.
Fixpoint point_in_polygon (fuel : nat) (delta : R) (polygon : list point) : attempt point :=
  match fuel with
  | 0 => inl Endless
  | S fuel =>
      match find (point_inside polygon false) (nearby delta polygon) with
      | Some p => inr p
      | None => point_in_polygon fuel (delta * / 10)%R polygon
      end
  end.
Definition default_delta : R := (/ 10 ^ 8)%R.

(** [add_hole], [add_region] (lines 587-617) with absolute coordinates *)
Definition add_hole (m : pmesh) (p : point) : pmesh :=
  {| corner := corner m; vertices := vertices m; segments := segments m; holes := holes m ++ [shift (corner m) p]; regions := regions m |}.
Definition add_region (m : pmesh) (p : point) (area : option R) : pmesh :=
  {| corner := corner m; vertices := vertices m; segments := segments m; holes := holes m;
     regions := regions m ++ [(shift (corner m) p, no_tag, area)] |}.

(** [_add_area_from_polygon], lines 712-777; [area]: of the region to be created *)
Inductive kind := Outline | Hole | Area (a : R).
Definition is_hole (k : kind) : bool := match k with Hole => true | _ => false end.
Definition ring (n : nat) : list (nat * nat) := map (fun i => (i, (i + 1) mod n)) (seq 0 n).
Definition absolute (geo : option point) (p : point) : point := match geo with Some c => unshift c p | None => p end.
Definition add_polygon (fuel : nat) (m : pmesh) (polygon : list point) (d : option tags) (geo : option point) (k : kind) : attempt pmesh :=
  let polygon := map (absolute geo) polygon in
  do ts <- tag_dict2list d (length polygon) (is_hole k);
  do m <- addVertsSegs m polygon (ring (length polygon)) ts;
  match k with
  | Outline => inr m
  | Hole => do p <- point_in_polygon fuel default_delta polygon; inr (add_hole m p)
  | Area a => do p <- point_in_polygon fuel default_delta polygon; inr (add_region m p (Some a))
  end.

(** [polylist2points_verts] *)
Fixpoint lines_of (offset : nat) (polylist : list (list point)) : list (nat * nat) :=
  match polylist with
  | [] => []
  | poly :: rest => map (fun i => (i, i + 1)) (seq offset (length poly - 1)) ++ lines_of (offset + length poly) rest
  end.

(** ** _create_mesh_from_regions *)
Record request := {
  bounding : list point; boundary_tags : option tags; max_area : option R;
  interior_regions : option (list (list point * R)); interior_holes : option (list (list point)); hole_tags : option (list tags);
  poly_ref : option point; mesh_ref : option point; breaklines : option (list (list point));
  fail_if_outside : bool; region_points : option (list (point * R)) }.

(** Lines 163-171: SegmentError *)
Definition out_of_bounds (n : nat) (d : tags) : bool := existsb (fun e => existsb (fun x => (Z.of_nat n - 1 <? x)%Z) (snd e)) d.
(** Lines 173-183: the segments for which there is a warning *)
Definition untagged (n : nat) (d : tags) : list nat :=
  filter (fun i => negb (existsb (fun e => existsb (Z.eqb (Z.of_nat i)) (snd e)) d)) (seq 0 n).

(** Lines 194-223 *)
Definition within (bounding poly : list point) : bool := length (inside_polygon poly bounding true) =? length poly.
Fixpoint keep_inside (bounding : list point) (fail : bool) (l : list (list point * R)) : attempt (list (list point * R)) :=
  match l with
  | [] => inr []
  | (poly, res) :: l =>
      if within bounding poly then do l <- keep_inside bounding fail l; inr ((poly, res) :: l)
      else if fail then inl PolygonError else keep_inside bounding fail l
  end.
(** Lines 246-264 *)
Fixpoint check_holes (bounding : list point) (l : list (list point)) : attempt unit :=
  match l with
  | [] => inr tt
  | poly :: l => if length poly <? 3 then inl PolygonError else if within bounding poly then check_holes bounding l else inl PolygonError
  end.
(** Lines 267-280 *)
Definition lowest (f : point -> R) (l : list point) : R := match l with [] => 0%R | p :: l => fold_left (fun a q => Rmin a (f q)) l (f p) end.
Definition mesh_corner (q : request) : point :=
  match mesh_ref q with Some c => c | None => absolute (poly_ref q) (lowest px (bounding q), lowest py (bounding q)) end.

Fixpoint add_areas (fuel : nat) (geo : option point) (m : pmesh) (l : list (list point * R)) : attempt pmesh :=
  match l with
  | [] => inr m
  | (poly, res) :: l => do m <- add_polygon fuel m poly None geo (Area res); add_areas fuel geo m l
  end.
Fixpoint add_holes (fuel : nat) (geo : option point) (n : nat) (d : option (list tags)) (m : pmesh) (l : list (list point)) : attempt pmesh :=
  match l with
  | [] => inr m
  | poly :: l =>
      let t := match d with Some d => nth n d [] | None => [] end in
      do m <- add_polygon fuel m poly (Some t) geo Hole; add_holes fuel geo (S n) d m l
  end.
Definition or_nil {A} (o : option (list A)) : list A := match o with Some l => l | None => [] end.

Definition create_mesh (fuel : nat) (q : request) : attempt pmesh :=
  if match boundary_tags q with Some d => out_of_bounds (length (bounding q)) d | None => false end then inl SegmentError else
  do kept <- keep_inside (bounding q) (fail_if_outside q) (or_nil (interior_regions q));
  do _ <- check_holes (bounding q) (or_nil (interior_holes q));
  let m := new_mesh (mesh_corner q) in
  do m <- match breaklines q with
          | None => inr m
          | Some l => do ts <- tag_dict2list None (length (lines_of 0 l)) false; addVertsSegs m (concat l) (lines_of 0 l) ts
          end;
  do m <- add_polygon fuel m (bounding q) (boundary_tags q) (poly_ref q) Outline;
  do p <- point_in_polygon fuel default_delta (map (absolute (poly_ref q)) (bounding q));
  let m := add_region m p (max_area q) in
  do m <- add_areas fuel (poly_ref q) m kept;
  do m <- add_holes fuel (poly_ref q) 0 (hole_tags q) m (or_nil (interior_holes q));
  inr (fold_left (fun m r => add_region m (fst r) (Some (snd r))) (or_nil (region_points q)) m).

(** ** Tags as integers *)

(** [list(u.keys())] for a dictionary with these keys: first occurrences *)
Fixpoint unique (l : list tag) (seen : list tag) : list tag :=
  match l with
  | [] => []
  | x :: l => if existsb (Nat.eqb x) seen then unique l seen else x :: unique l (seen ++ [x])
  end.
(** [convertstring2int]: the last assignment counts. *)
Fixpoint last_index (l : list tag) (x : tag) (i : nat) (found : option nat) : option nat :=
  match l with [] => found | y :: l => last_index l x (S i) (if x =? y then Some i else found) end.
Definition string2int (table : list tag) (x : tag) : option nat := if x =? no_tag then Some 0 else last_index table x 0 None.
(** [segment_strings2ints], mesh.py lines 2285-2330: the integers, the table, and
    the list [preset], which is reversed in place. *)
Definition segment_strings2ints (l preset : list tag) : list (option nat) * list tag * list tag :=
  let nodups := filter (fun x => negb (existsb (Nat.eqb x) preset)) (unique l []) in
  let nodups := filter (fun x => negb (x =? no_tag)) nodups in
  let table := rev (nodups ++ rev preset) in
  (map (string2int table) l, table, rev preset).
(** [initialconversions], line 56 *)
Definition initialconversions : list tag := [no_tag; exterior; no_tag].
(** [segment_ints2strings], lines 2276-2282 *)
Definition segment_ints2strings (l : list nat) (table : list tag) : list (option tag) := map (nth_error table) l.

(** [region_strings2ints], lines 2232-2257: the region number [i] gets [i + 1]. *)
Definition region_ints (rs : list region) : list nat := seq 1 (length rs).
Definition region_table (rs : list region) : list tag := no_tag :: map (fun r => snd (fst r)) rs.

(** ** generate_mesh: repeated points are removed (lines 131-154) *)
Definition same_point (p q : point) : bool := Reqb (px p) (px q) && Reqb (py p) (py q).
Definition redirect (i earlier s : nat) : nat :=
  let s := if s =? i then earlier else s in
  if i <? s then s - 1 else s.
Fixpoint first_equal (x : point) (l : list point) : option nat :=
  match l with [] => None | y :: l => if same_point x y then Some 0 else option_map S (first_equal x l) end.
Definition delete {A} (i : nat) (l : list A) : list A := firstn i l ++ skipn (S i) l.
(** [i]: the counter before line 134 adds one *)
Fixpoint merge (fuel i : nat) (points : list point) (segs : list (nat * nat)) : list point * list (nat * nat) :=
  match fuel with
  | 0 => (points, segs)
  | S fuel =>
      if i <? length points - 1 then
        let i := i + 1 in
        match first_equal (nth i points (0%R, 0%R)) (firstn i points) with
        | Some earlier => merge fuel (i - 1) (delete i points) (map (fun s => (redirect i earlier (fst s), redirect i earlier (snd s))) segs)
        | None => merge fuel i points segs
        end
      else (points, segs)
  end.
Definition generate_input (points : list point) (segs : list (nat * nat)) : list point * list (nat * nat) :=
  merge (length points) 0 points segs.

(** ** build_boundary_dictionary of pmesh2domain_ext.pyx *)
Fixpoint set_dict (d : bdict) (k : nat * nat) (v : nat) : bdict :=
  match d with
  | [] => [(k, v)]
  | (k', v') :: d => if key_eqb k' k then (k', v) :: d else (k', v') :: set_dict d k v
  end.
(** Step 1, lines 56-104: the edges in the order 2, 0, 1 *)
Definition add_triangle_sides (tbl : table) (k : nat) (t : tri) : option table :=
  match add_edge tbl (edge_key t 2) k 2 with
  | None => None
  | Some t1 =>
    match add_edge t1 (edge_key t 0) k 0 with
    | None => None
    | Some t2 => add_edge t2 (edge_key t 1) k 1
    end
  end.
Fixpoint add_all_sides (tbl : table) (k : nat) (ts : list tri) : option table :=
  match ts with
  | [] => Some tbl
  | t :: ts => match add_triangle_sides tbl k t with None => None | Some tbl => add_all_sides tbl (S k) ts end
  end.
(** Step 2, lines 106-135 *)
Definition tag_side (tbl : table) (d : bdict) (key : nat * nat) (t : tag) : bdict :=
  match lookup tbl key with
  | Some ve => if t =? no_tag then d else set_dict d ve t
  | None => d
  end.
Definition tag_segment (tbl : table) (d : bdict) (st : (nat * nat) * tag) : bdict :=
  let d := tag_side tbl d (fst st) (snd st) in tag_side tbl d (swap (fst st)) (snd st).
Definition pmesh_tags (ts : list tri) (segs : list ((nat * nat) * tag)) : option bdict :=
  match add_all_sides [] 0 ts with
  | None => None
  | Some tbl => Some (fold_left (tag_segment tbl) segs [])
  end.
