(** Model of anuga/abstract_2d_finite_volumes/mesh_factory.py
    ([rectangular] 64-136, [rectangular_cross] 138-175) and
    mesh_factory_ext.pyx ([rectangular_cross_construct] 9-90).

    Coordinates are reals; node and triangle numbers are [nat]; [m], [n] are
    the integers passed by the user.  The boundary dictionary is an
    association list in insertion order (each key is written once, which is
    proved). *)
From Coq Require Import Reals List Arith.
From Verif Require Import NeighbourModel.
Import ListNotations.

Inductive side := left_ | right_ | bottom_ | top_.

Definition point : Type := (R * R)%type.

(** [for i in range(a): for j in range(b)] *)
Definition loop2 (a b : nat) : list (nat * nat) := list_prod (seq 0 a) (seq 0 b).

(** [delta1 = float(len1)/m], [delta2 = float(len2)/n] and the grid point
    (i, j) (lines 80-81 and 103; pyx 26-27 and 33-34). *)
Definition grid_point (m n : nat) (len1 len2 : R) (origin : point) (ij : nat * nat) : point :=
  ((INR (fst ij) * (len1 / INR m) + fst origin)%R,
   (INR (snd ij) * (len2 / INR n) + snd origin)%R).

(** ** rectangular *)

(** [Index.__call__] (92-93) *)
Definition index (n : nat) (i j : nat) : nat := j + i * (n + 1).

(** Lines 98-103: [points] is a zero array filled at [index(i,j)]. *)
Definition rectangular_points (m n : nat) (len1 len2 : R) (origin : point) : list point :=
  fold_left (fun pts ij => set_nth (index n (fst ij) (snd ij)) (grid_point m n len1 len2 origin ij) pts)
            (loop2 (m + 1) (n + 1)) (repeat (0%R, 0%R) ((m + 1) * (n + 1))).

Definition mesh_state : Type := (list tri * list ((nat * nat) * side))%type.

(** Body of the double loop (115-134); [nt] is the number of the element about
    to be written. *)
Definition rectangular_cell (m n : nat) (st : mesh_state) (ij : nat * nat) : mesh_state :=
  let (i, j) := ij in
  let (elements, boundary) := st in
  let nt := length elements in
  let i1 := index n i (j + 1) in
  let i2 := index n i j in
  let i3 := index n (i + 1) (j + 1) in
  let i4 := index n (i + 1) j in
  let b1 := if Nat.eqb i (m - 1) then boundary ++ [((nt, 2), right_)] else boundary in
  let b2 := if Nat.eqb j 0 then b1 ++ [((nt, 1), bottom_)] else b1 in
  let el1 := elements ++ [(i4, i3, i2)] in
  let nt' := nt + 1 in
  let b3 := if Nat.eqb i 0 then b2 ++ [((nt', 2), left_)] else b2 in
  let b4 := if Nat.eqb j (n - 1) then b3 ++ [((nt', 1), top_)] else b3 in
  (el1 ++ [(i1, i2, i3)], b4).

Definition rectangular_mesh (m n : nat) : mesh_state :=
  fold_left (rectangular_cell m n) (loop2 m n) ([], []).

(** ** rectangular_cross *)

(** State of the first loop (29-35): [numPoints] is the length of the point
    list, [vertices] maps (i,j) to a point number. *)
Definition cross_grid_step (m n : nat) (len1 len2 : R) (origin : point)
    (st : list point * list ((nat * nat) * nat)) (ij : nat * nat)
  : list point * list ((nat * nat) * nat) :=
  (fst st ++ [grid_point m n len1 len2 origin ij], snd st ++ [(ij, length (fst st))]).

Definition cross_grid (m n : nat) (len1 len2 : R) (origin : point) :=
  fold_left (cross_grid_step m n len1 len2 origin) (loop2 (m + 1) (n + 1)) ([], []).

(** [vertices[i,j]] (a zero-initialised array). *)
Definition vertex (vs : list ((nat * nat) * nat)) (i j : nat) : nat :=
  match lookup vs (i, j) with Some v => v | None => 0 end.

Definition pt (pts : list point) (v : nat) : point := nth v pts (0%R, 0%R).

(** Body of the second double loop (41-88). *)
Definition cross_cell (m n : nat) (vs : list ((nat * nat) * nat))
    (st : list point * mesh_state) (ij : nat * nat) : list point * mesh_state :=
  let (i, j) := ij in
  let '(points, (elements, boundary)) := st in
  let v1 := vertex vs i (j + 1) in
  let v2 := vertex vs i j in
  let v3 := vertex vs (i + 1) (j + 1) in
  let v4 := vertex vs (i + 1) j in
  let x := ((fst (pt points v1) + fst (pt points v2) + fst (pt points v3) + fst (pt points v4)) * (25 / 100))%R in
  let y := ((snd (pt points v1) + snd (pt points v2) + snd (pt points v3) + snd (pt points v4)) * (25 / 100))%R in
  let v5 := length points in
  let ne := length elements in
  let b1 := if Nat.eqb i 0 then boundary ++ [((ne, 1), left_)] else boundary in
  let b2 := if Nat.eqb j 0 then b1 ++ [((ne + 1, 1), bottom_)] else b1 in
  let b3 := if Nat.eqb i (m - 1) then b2 ++ [((ne + 2, 1), right_)] else b2 in
  let b4 := if Nat.eqb j (n - 1) then b3 ++ [((ne + 3, 1), top_)] else b3 in
  (points ++ [(x, y)],
   (elements ++ [(v2, v5, v1); (v4, v5, v2); (v3, v5, v4); (v1, v5, v3)], b4)).

Definition rectangular_cross (m n : nat) (len1 len2 : R) (origin : point)
  : list point * mesh_state :=
  let (points, vs) := cross_grid m n len1 len2 origin in
  fold_left (cross_cell m n vs) (loop2 m n) (points, ([], [])).
