(** Meshes that are periodic from left to right, or in both directions:
    anuga/abstract_2d_finite_volumes/mesh_factory.py ([rectangular_periodic],
    lines 317-460), anuga/parallel/parallel_meshes.py ([parallel_rectangle],
    lines 32-207; [rectangular_periodic], 211-346; [rectangular_periodic_lr],
    348-448), and the use of their lists in
    anuga/abstract_2d_finite_volumes/generic_domain.py ([__init__], lines
    284-289; [update_ghosts], 2448-2469).  [double] is [R]. *)
From Coq Require Import Reals List Arith ZArith Bool.
From Verif Require Import ArrayLib NeighbourModel MeshFactoryModel.
Import ListNotations.

(** ** A strip of [m] columns: mesh_factory.py lines 348-448, the same text in
    parallel_meshes.py lines 64-165.

    [EIndex.__call__] (lines 366-367; parallel_meshes.py 82-83) *)
Definition eindex (n i j : nat) : nat := 2 * (j + i * n).

Inductive tag := Side (s : side) | Ghost.

Record strip := Strip {
  st_elements : list tri;
  st_boundary : list ((nat * nat) * tag);
  st_gl : list nat; st_fl : list nat; st_fr : list nat; st_gr : list nat }.

(** [if i == c: Id.append(nt)] *)
Definition append_if (b : bool) (ids : list nat) (nt : nat) : list nat := if b then ids ++ [nt] else ids.

(** Body of the double loop (lines 395-448).  [lft], [rgt]: what is written for
    the outer edges, which depends on the number of the process. *)
Definition strip_cell (m n : nat) (lft rgt : tag) (s : strip) (ij : nat * nat) : strip :=
  let (i, j) := ij in
  let i1 := index n i (j + 1) in
  let i2 := index n i j in
  let i3 := index n (i + 1) (j + 1) in
  let i4 := index n (i + 1) j in
  let nt := eindex n i j in
  let gl := append_if (Nat.eqb i 0) (st_gl s) nt in
  let fl := append_if (Nat.eqb i 1) (st_fl s) nt in
  let fr := append_if (Nat.eqb i (m - 2)) (st_fr s) nt in
  let gr := append_if (Nat.eqb i (m - 1)) (st_gr s) nt in
  let b1 := if Nat.eqb i (m - 1) then st_boundary s ++ [((nt, 2), rgt)] else st_boundary s in
  let b2 := if Nat.eqb j 0 then b1 ++ [((nt, 1), Side bottom_)] else b1 in
  let el1 := set_nth nt (i4, i3, i2) (st_elements s) in
  let nt := eindex n i j + 1 in
  let gl := append_if (Nat.eqb i 0) gl nt in
  let fl := append_if (Nat.eqb i 1) fl nt in
  let fr := append_if (Nat.eqb i (m - 2)) fr nt in
  let gr := append_if (Nat.eqb i (m - 1)) gr nt in
  let b3 := if Nat.eqb i 0 then b2 ++ [((nt, 2), lft)] else b2 in
  let b4 := if Nat.eqb j (n - 1) then b3 ++ [((nt, 1), Side top_)] else b3 in
  Strip (set_nth nt (i1, i2, i3) el1) b4 gl fl fr gr.

Definition strip_mesh (m n : nat) (lft rgt : tag) : strip :=
  fold_left (strip_cell m n lft rgt) (loop2 m n) (Strip (repeat (0, 0, 0) (2 * m * n)) [] [] [] [] []).

(** Lines 336-346 and 373-378: spacing, shifted origin and points.  [m_low] is
    the number of the column of the whole mesh at which the strip begins. *)
Definition strip_point (m_g n_g : nat) (len1 len2 : R) (origin : point) (m_low : Z) (ij : nat * nat) : point :=
  ((INR (fst ij) * (len1 / INR m_g) + (fst origin + IZR m_low / INR m_g * len1))%R,
   (INR (snd ij) * (len2 / INR n_g) + snd origin)%R).
Definition strip_points (m_g n : nat) (len1 len2 : R) (origin : point) (m_low : Z) (m : nat) : list point :=
  fold_left (fun pts ij => set_nth (index n (fst ij) (snd ij)) (strip_point m_g n len1 len2 origin m_low ij) pts)
            (loop2 (m + 1) (n + 1)) (repeat (0%R, 0%R) ((m + 1) * (n + 1))).

(** ** rectangular_periodic of mesh_factory.py: m_low = -1, m_high = m_g + 1. *)
Definition periodic_points (m_g n : nat) (len1 len2 : R) (origin : point) : list point :=
  strip_points m_g n len1 len2 origin (-1) (m_g + 2).
Definition periodic_mesh (m_g n : nat) : strip := strip_mesh (m_g + 2) n (Side left_) (Side right_).
(** Lines 450-457: full_send_dict[0][0] and ghost_recv_dict[0][0]. *)
Definition periodic_sends (m_g n : nat) : list nat := st_fl (periodic_mesh m_g n) ++ st_fr (periodic_mesh m_g n).
Definition periodic_recvs (m_g n : nat) : list nat := st_gr (periodic_mesh m_g n) ++ st_gl (periodic_mesh m_g n).

(** ** In the domain *)

(** [num.put(Q_cv, Idg, num.take(Q_cv, Idf))] (generic_domain.py 2467-2469) *)
Definition put {V} (c : nat -> V) (ids : list nat) (x : list V) : nat -> V :=
  fold_left (fun c iv => upd c (fst iv) (snd iv)) (combine ids x) c.
Definition update_ghosts {V} (idf idg : list nat) (c : nat -> V) : nat -> V := put c idg (map c idf).

(** Lines 284-289: [tri_full_flag] is one, and zero at the ghosts. *)
Definition tri_full_flag (idg : list nat) : nat -> nat :=
  fold_left (fun f i => upd f i 0) idg (fun _ => 1).

(** ** A pass of a time step

    The values of a triangle and of its neighbours, [None] at an edge without a
    neighbour. *)
Definition neighbour_at (rows : list row) (T e : nat) : option nat :=
  if Z.ltb (nb rows T e) 0 then None else Some (Z.to_nat (nb rows T e)).
Definition around_of (A : Type) : Type := (A * (option A * option A * option A))%type.
Definition around {A} (rows : list row) (f : nat -> A) (T : nat) : around_of A :=
  (f T, (option_map f (neighbour_at rows T 0), option_map f (neighbour_at rows T 1), option_map f (neighbour_at rows T 2))).
(** What the flux through the edges of a triangle is computed from: its values,
    those of its neighbours and of their neighbours (which enter the slopes). *)
Definition view {A} (rows : list row) (c : nat -> A) : nat -> around_of (around_of A) := around rows (around rows c).

(** An explicit scheme on a regular grid: a number or other datum for all
    triangles ([globally]: the time step, computed from the full triangles), and
    a rule for the new value that knows the row and the kind (lower: 0, upper:
    1) of the triangle. *)
Record scheme (A X : Type) := Scheme {
  globally : list (around_of (around_of A)) -> X;
  rule : X -> nat -> nat -> around_of (around_of A) -> A }.
Arguments globally {A X}.
Arguments rule {A X}.

(** One pass: new values, then [update_ghosts].  [junk]: whatever is computed on
    the ghosts. *)
Definition full_triangles (N : nat) (idg : list nat) : list nat :=
  filter (fun T => Nat.eqb (tri_full_flag idg T) 1) (seq 0 N).
Definition periodic_pass {A X} (m_g n : nat) (rows : list row) (s : scheme A X) (junk : nat -> A) (c : nat -> A) : nat -> A :=
  let idg := periodic_recvs m_g n in
  let x := globally s (map (view rows c) (full_triangles (2 * (m_g + 2) * n) idg)) in
  update_ghosts (periodic_sends m_g n) idg
    (fun T => if Nat.eqb (tri_full_flag idg T) 1 then rule s x ((T / 2) mod n) (T mod 2) (view rows c T) else junk T).
(** Several passes, as in the stages of the Runge-Kutta methods and in the steps
    of a run. *)
Definition periodic_run {A X} (m_g n : nat) (rows : list row) (passes : list (scheme A X * (nat -> A))) (c : nat -> A) : nat -> A :=
  fold_left (fun c p => periodic_pass m_g n rows (fst p) (snd p) c) passes (update_ghosts (periodic_sends m_g n) (periodic_recvs m_g n) c).

(** ** parallel_rectangle

    [balance]: the function of that name in parallel_abstraction, [None] if
    there is none (AttributeError). *)
Record share := Share {
  sh_points : list point; sh_elements : list tri; sh_boundary : list ((nat * nat) * tag);
  sh_sends : list (nat * list nat); sh_recvs : list (nat * list nat) }.
Definition set_key (d : list (nat * list nat)) (k : nat) (v : list nat) : list (nat * list nat) :=
  filter (fun kv => negb (Nat.eqb (fst kv) k)) d ++ [(k, v)].
Definition parallel_rectangle (balance : option (nat -> nat -> nat -> Z * Z)) (numprocs myid m_g n_g : nat)
    (len1 len2 : R) (origin : point) : option share :=
  match balance with
  | None => None
  | Some f =>
      let (lo, hi) := f m_g numprocs myid in
      let m_low := (lo - 1)%Z in
      let m_high := (hi + 1)%Z in
      let m := Z.to_nat (m_high - m_low) in
      let s := strip_mesh m n_g (if Nat.eqb myid 0 then Side left_ else Ghost)
                                (if Nat.eqb myid (numprocs - 1) then Side right_ else Ghost) in
      let prev := (myid + (numprocs - 1)) mod numprocs in
      let next := (myid + 1) mod numprocs in
      let '(sends, recvs) :=
        if Nat.eqb numprocs 1 then ([(myid, st_fl s ++ st_fr s)], [(myid, st_gr s ++ st_gl s)])
        else if Nat.eqb numprocs 2 then ([(prev, st_fl s ++ st_fr s)], [(prev, st_gr s ++ st_gl s)])
        else (set_key [(prev, st_fl s)] next (st_fr s), set_key [(prev, st_gl s)] next (st_gr s)) in
      Some (Share (strip_points m_g n_g len1 len2 origin m_low m) (st_elements s) (st_boundary s) sends recvs)
  end.
(** anuga/utilities/parallel_abstraction.py defines no [balance]. *)
Definition abstraction_balance : option (nat -> nat -> nat -> Z * Z) := None.

(** ** The dictionaries of rectangular_periodic and rectangular_periodic_lr of
    parallel_meshes.py.  The numbers are integers: m - 2 can be negative. *)
Definition eindexZ (n i j : Z) : Z := (2 * (j + i * n))%Z.
Definition set_ghost (g : Z -> option Z) (k v : Z) : Z -> option Z := fun x => if Z.eqb x k then Some v else g x.
Definition set_if (b : bool) (g : Z -> option Z) (k v : Z) : Z -> option Z := if b then set_ghost g k v else g.
(** Lines 279-289 and 301-311, [d] = 0 and 1. *)
Definition wrap_cell (both : bool) (m n : Z) (i j d : Z) (g : Z -> option Z) : Z -> option Z :=
  let nt := (eindexZ n i j + d)%Z in
  let g := set_if (Z.eqb i (m - 1)) g nt (eindexZ n 1 j + d) in
  let g := set_if (Z.eqb i 0) g nt (eindexZ n (m - 2) j + d) in
  let g := set_if (both && Z.eqb j (n - 1)) g nt (eindexZ n i 1 + d) in
  set_if (both && Z.eqb j 0) g nt (eindexZ n i (n - 2) + d).
Definition wrap_cells (both : bool) (m n : nat) : Z -> option Z :=
  fold_left (fun g ij => let (i, j) := (Z.of_nat (fst ij), Z.of_nat (snd ij)) in
      wrap_cell both (Z.of_nat m) (Z.of_nat n) i j 1 (wrap_cell both (Z.of_nat m) (Z.of_nat n) i j 0 g))
    (loop2 m n) (fun _ => None).
(** Lines 322-344 *)
Definition wrap_corner (nt nf : Z) (g : Z -> option Z) : Z -> option Z := set_ghost (set_ghost g nt nf) (nt + 1) (nf + 1).
Definition ghosts_both (m n : nat) : Z -> option Z :=
  let M := Z.of_nat m in let N := Z.of_nat n in
  let g := wrap_cells true m n in
  let g := wrap_corner (eindexZ N 0 0) (eindexZ N (M - 2) (N - 2)) g in
  let g := wrap_corner (eindexZ N (M - 1) 0) (eindexZ N 1 (N - 2)) g in
  let g := wrap_corner (eindexZ N 0 (N - 1)) (eindexZ N (M - 2) 1) g in
  wrap_corner (eindexZ N (M - 1) (N - 1)) (eindexZ N 1 1) g.
(** rectangular_periodic_lr, lines 416-420 and 432-436 *)
Definition ghosts_lr (m n : nat) : Z -> option Z := wrap_cells false m n.
