(** The kinematic viscosity operator: operators/kinematic_viscosity_operator.c
    and operators/kinematic_viscosity_operator.py. *)
From Coq Require Import Reals Lra Lia ZArith Arith List Bool.
From Verif Require Import RealLib ListLib ArrayLib SparseModel CGModel.
Import ListNotations.
Open Scope Z_scope.

(** ** Sorting, kinematic_viscosity_operator.c lines 5-41 *)

(** An [int64_t] array of [len] elements; reading outside it gives [None]. *)
Definition get (len : Z) (l : Z -> Z) (i : Z) : option Z :=
  if (0 <=? i) && (i <? len) then Some (l i) else None.
Definition updZ (l : Z -> Z) (i v : Z) : Z -> Z := fun x => if x =? i then v else l x.

(** [swap], lines 8-13 *)
Definition swap (len : Z) (l : Z -> Z) (x y : Z) : option (Z -> Z) :=
  match get len l x, get len l y with
  | Some vx, Some vy => Some (updZ (updZ l x vy) y vx)
  | _, _ => None
  end.

(** [choose_pivot], lines 15-17: C division truncates. *)
Definition choose_pivot (i j : Z) : Z := Z.quot (i + j) 2.

(** Lines 28-29: [while ((i <= n) && (list[i] <= key)) i++;] *)
Fixpoint scan_up (fuel : nat) (len : Z) (l : Z -> Z) (n key i : Z) : option Z :=
  match fuel with
  | O => None
  | S fuel => if i <=? n then
                match get len l i with
                | None => None
                | Some x => if x <=? key then scan_up fuel len l n key (i + 1) else Some i
                end
              else Some i
  end.

(** Lines 30-31: [while ((j >= m) && (list[j] > key)) j--;] *)
Fixpoint scan_down (fuel : nat) (len : Z) (l : Z -> Z) (m key j : Z) : option Z :=
  match fuel with
  | O => None
  | S fuel => if m <=? j then
                match get len l j with
                | None => None
                | Some x => if key <? x then scan_down fuel len l m key (j - 1) else Some j
                end
              else Some j
  end.

(** Lines 27-34: the partition loop; [None] is a bad access or no end. *)
Fixpoint partition (fuel : nat) (len : Z) (l : Z -> Z) (m n key i j : Z) : option ((Z -> Z) * Z) :=
  match fuel with
  | O => None
  | S fuel =>
      if i <=? j then
        match scan_up (Z.to_nat (n - i + 2)) len l n key i with
        | None => None
        | Some i =>
            match scan_down (Z.to_nat (j - m + 2)) len l m key j with
            | None => None
            | Some j =>
                if i <? j then
                  match swap len l i j with
                  | None => None
                  | Some l => partition fuel len l m n key i j
                  end
                else partition fuel len l m n key i j
            end
        end
      else Some (l, j)
  end.

(** [quicksort], lines 19-41 *)
Fixpoint quicksort (fuel : nat) (len : Z) (l : Z -> Z) (m n : Z) : option (Z -> Z) :=
  match fuel with
  | O => None
  | S fuel =>
      if m <? n then
        match swap len l m (choose_pivot m n) with
        | None => None
        | Some l =>
            match get len l m with
            | None => None
            | Some key =>
                match partition (Z.to_nat (n - m + 3)) len l m n key (m + 1) n with
                | None => None
                | Some (l, j) =>
                    match swap len l m j with
                    | None => None
                    | Some l =>
                        match quicksort fuel len l m (j - 1) with
                        | None => None
                        | Some l => quicksort fuel len l (j + 1) n
                        end
                    end
                end
            end
        end
      else Some l
  end.

(** ** The mesh arrays the operator reads *)

Record mesh := Mesh {
  ntri : nat;                        (* number of triangles *)
  nbdry : nat;                       (* len(domain.boundary) *)
  neighbour : nat -> nat -> Z;       (* neighbours[3*i+edge] *)
  centroid : nat -> R * R;
  midpoint : nat -> nat -> R * R;    (* edge_midpoints *)
  edgelength : nat -> nat -> R;
  area : nat -> R }.

Definition distance (p q : R * R) : R :=
  sqrt ((fst p - fst q) * (fst p - fst q) + (snd p - snd q) * (snd p - snd q))%R.

(** [_build_geo_structure], lines 43-83 *)
Definition geo_index (M : mesh) (i e : nat) : Z :=
  let j := neighbour M i e in
  if j <? 0 then Z.of_nat (ntri M) + (- j - 1) else j.
Definition other_point (M : mesh) (i e : nat) : R * R :=
  let j := neighbour M i e in
  if j <? 0 then midpoint M i e else centroid M (Z.to_nat j).
Definition geo_value (M : mesh) (i e : nat) : R :=
  (- edgelength M i e / distance (centroid M i) (other_point M i e))%R.

(** [_build_elliptic_matrix], lines 140-193, and [_update_elliptic_matrix],
    lines 248-301, which is the same text: one row. *)
Section row.
Variables (M : mesh) (cell_data bdry_data : nat -> R) (i : nat).

Definition h_other (e : nat) : R :=
  let j := geo_index M i e in
  if j <? Z.of_nat (ntri M) then cell_data (Z.to_nat j) else bdry_data (Z.to_nat (j - Z.of_nat (ntri M))).

(** Lines 165-170: a dry triangle has its row zeroed. *)
Definition value (e : nat) : R :=
  if Rleb (cell_data i) 0 then 0%R
  else (- (1 / 2) * (cell_data i + h_other e) * geo_value M i e)%R.
Definition diagonal : R :=
  if Rleb (cell_data i) 0 then 0%R
  else fold_left (fun v e => v + 1 / 2 * (cell_data i + h_other e) * geo_value M i e)%R [0; 1; 2]%nat 0%R.

(** The array [j], line 155 and line 158 *)
Definition cols (k : Z) : Z :=
  if k =? 0 then geo_index M i 0 else if k =? 1 then geo_index M i 1 else if k =? 2 then geo_index M i 2 else Z.of_nat i.

(** Lines 174-189: the value stored for column [this]. *)
Definition stored (this : Z) : nat * R :=
  if this =? Z.of_nat i then (i, diagonal)
  else if this =? geo_index M i 0 then (Z.to_nat (geo_index M i 0), value 0)
  else if this =? geo_index M i 1 then (Z.to_nat (geo_index M i 1), value 1)
  else (Z.to_nat (geo_index M i 2), value 2).

(** The four entries (colind and data) of row [i]. *)
Definition row : option (list (nat * R)) :=
  match quicksort 5 4 cols 0 3 with
  | None => None
  | Some sorted => Some (map (fun k => stored (sorted k)) [0; 1; 2; 3])
  end.
End row.

Fixpoint collect {A} (l : list (option (list A))) : option (list A) :=
  match l with
  | [] => Some []
  | o :: l => match o, collect l with Some a, Some b => Some (a ++ b) | _, _ => None end
  end.

(** [build_elliptic_matrix], kinematic_viscosity_operator.py lines 202-222:
    [rowptr] is [4*arange(n+1)], line 103. *)
Definition elliptic_matrix (M : mesh) (cell_data bdry_data : nat -> R) : option csr :=
  match collect (map (row M cell_data bdry_data) (seq 0 (ntri M))) with
  | None => None
  | Some es => Some (CSR (ntri M) (ntri M + nbdry M) (fun i => 4 * i)%nat es)
  end.

(** ** The operator, kinematic_viscosity_operator.py *)
Open Scope R_scope.

(** [self.triangle_areas * v]: the diagonal matrix of line 87-93. *)
Definition times_areas (M : mesh) (v : nat -> R) : nat -> R := fun i => 1 / area M i * v i.

Definition extend (n : nat) (u b : nat -> R) : nat -> R := fun k => if (k <? n)%nat then u k else b (k - n)%nat.

(** [_update_elliptic_boundary_term], lines 269-296; [flag] is
    [apply_triangle_areas]. *)
Definition boundary_term (M : mesh) (flag : bool) (A : csr) (b : nat -> R) : nat -> R :=
  let t := csr_mv A (extend (ntri M) (fun _ => 0) b) in
  if flag then times_areas M t else t.

(** [_elliptic_multiply_array], lines 336-365 *)
Definition elliptic_multiply (M : mesh) (flag : bool) (A : csr) (u : nat -> R) : nat -> R :=
  csr_mv A (extend (ntri M) (if flag then times_areas M u else u) (fun _ => 0)).

(** [_parabolic_multiply_array], lines 405-428 *)
Definition parabolic_multiply (M : mesh) (flag : bool) (A : csr) (dt : R) (u : nat -> R) : nat -> R :=
  fun i => u i - dt * csr_mv A (extend (ntri M) (if flag then times_areas M u else u) (fun _ => 0)) i.

(** The matrix that [conjugate_gradient] sees through [__mul__], lines 433-442:
    its columns are the products with unit vectors. *)
Definition unit (j : nat) : nat -> R := fun k => if (k =? j)%nat then 1 else 0.
Definition operator (M : mesh) (flag : bool) (A : csr) (dt : R) : nat -> nat -> R :=
  fun i j => parabolic_multiply M flag A dt (unit j) i.

(** [parabolic_solve], lines 498-567, with [update_matrix = False]: the
    centroid values handed to [conjugate_gradient] and what it returns. *)
Definition rhs (M : mesh) (flag : bool) (A : csr) (dt : R) (b g : nat -> R) : nat -> R :=
  fun i => b i + dt * boundary_term M flag A g i.
Definition parabolic_solve (M : mesh) (flag : bool) (A : csr) (dt : R) (u b g : nat -> R) (imax : nat) : outcome :=
  let tol := Rmin dt (1 / 100000) in
  conjugate_gradient_py (ntri M) (operator M flag A dt) (rhs M flag A dt b g) u imax tol tol.

(** [update_centroids_of_velocities_and_height], shallow_water_domain.py lines
    2173-2255: height and one velocity component at a centroid, *)
Definition height_of (w z : R) : R := if Rleb 0 (w - z) then w - z else 0.
Definition velocity_of (uh h : R) : R := uh * (h / (h * h + 1 / 100000000)).
(** and back, [update_centroids_of_momentum_from_velocity], lines 2258-2293. *)
Definition momentum_of (u h : R) : R := u * h.

(** One component of [__call__], lines 121-166: [d] is the diffusivity, [None]
    the failed assertion of line 144 or a bad access. *)
Definition call (M : mesh) (flag add_safety : bool) (dt : R) (d db : nat -> R)
    (w z uh : nat -> R) (wb zb uhb : nat -> R) (imax : nat) : option (nat -> R) :=
  let safe := fun x => if add_safety then x + 1 / 10 else x in
  let d := fun i => safe (d i) in
  let db := fun i => safe (db i) in
  let h := fun i => height_of (w i) (z i) in
  let hb := fun i => height_of (wb i) (zb i) in
  let u := fun i => velocity_of (uh i) (h i) in
  let ub := fun i => velocity_of (uhb i) (hb i) in
  if forallb (fun i => Rleb 0 (d i)) (seq 0 (ntri M)) then
    match elliptic_matrix M d db with
    | None => None
    | Some A =>
        match parabolic_solve M flag A dt u u ub imax with
        | Converged x => Some (fun i => momentum_of (x i) (h i))
        | _ => None
        end
    end
  else None.
