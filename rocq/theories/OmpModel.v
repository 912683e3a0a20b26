(** Model of the kernels of anuga/shallow_water/sw_domain_openmp.c, used when
    [multiprocessor_mode] is 2: [_openmp_compute_fluxes_central],
    [_openmp_protect], [_openmp_fix_negative_cells],
    [_openmp_manning_friction_flat], [_openmp_manning_friction_sloped] and
    [_openmp_extrapolate_second_order_edge_sw].

    Every iteration of a [parallel for] is a program of [ParLib]: it accesses
    the shared arrays that the loop writes, and the shared scalars, one at a
    time.  Arrays that the loop does not write are parameters.  Variables of
    a [private] clause and reduction variables are local to the iteration,
    which returns the values it would combine into the reduction variables. *)
From Coq Require Import Reals List ZArith Arith Bool Permutation.
From Verif Require Import RealLib ArrayLib ParLib FluxModel ReconModel CentroidModel.
Import ListNotations.
Local Open Scope R_scope.

(** The shared arrays; entry [3k+i] of an array with three entries per
    triangle is location [(A3 i, k)].  [AbsMom], [SharedZ] and [SharedK6] are
    scalars (index 0). *)
Inductive array :=
| Stage | XMom | YMom | XWork | YWork                     (* centroid values and work arrays *)
| StageV (i : nat)                                        (* stage_vertex_values *)
| SU | XU | YU | MaxSpeed                                 (* explicit updates, max_speed *)
| XE (i : nat) | YE (i : nat)                             (* xmom/ymom_edge_values *)
| AbsMom | SharedZ | SharedK6.
Definition array_eqb (a b : array) : bool :=
  match a, b with
  | Stage, Stage | XMom, XMom | YMom, YMom | XWork, XWork | YWork, YWork
  | SU, SU | XU, XU | YU, YU | MaxSpeed, MaxSpeed
  | AbsMom, AbsMom | SharedZ, SharedZ | SharedK6, SharedK6 => true
  | StageV i, StageV j | XE i, XE j | YE i, YE j => Nat.eqb i j
  | _, _ => false
  end.
Definition loc : Type := (array * nat)%type.
Definition loc_eqb (a b : loc) : bool := array_eqb (fst a) (fst b) && Nat.eqb (snd a) (snd b).

(** [l = f(l)], i.e. [l += x] and the like: one read and one write. *)
Definition modify {A} (l : loc) (f : R -> R) (p : prog loc R A) : prog loc R A :=
  Rd l (fun v => Wr l (f v) p).

(** [reduction(op : x)]: every thread combines the values of its iterations,
    starting from the identity; the results of the threads are then combined
    with the original value, in an unspecified order. *)
Definition omp_reduce {A} (op : A -> A -> A) (ident init : A) (threads : list (list A)) : A :=
  fold_left op (map (fun l => fold_left op l ident) threads) init.

(** ** Flux computation *)

(** [edge_river_wall_counter], anuga/structures/riverwall.py lines 406-415. *)
Definition counter_step (D : domain) (s : nat * (nat -> nat)) (ki : nat) : nat * (nat -> nat) :=
  let '(count, arr) := s in
  let arr := upd arr ki 0%nat in
  if Z.eqb (edge_flux_type D ki) 1 then (S count, upd arr ki (S count)) else (count, arr).
Definition edge_river_wall_counter (D : domain) : nat -> nat :=
  snd (fold_left (counter_step D) (seq 0 (3 * number_of_elements D)) (0%nat, fun _ => 0%nat)).

(** The loop over the edges of triangle [k], lines 531-706, and what follows
    it, lines 708-718.  The computation of one edge (lines 533-662) is the one
    of the sequential kernel with [RiverWall_count] read from
    [edge_river_wall_counter]; the test on the two heads is made at the
    beginning of [__adjust_edgeflux_with_weir] (lines 348-351 of the file).
    [ts] and [bs] collect the values combined into [local_timestep] and
    [boundary_flux_sum_substep]. *)
Fixpoint flux_edges (D : domain) (counter : nat -> nat) (substep_count k : nat) (is : list nat)
  (speed_max_last : R) (ts bs : list R) : prog loc R (list R * list R) :=
  match is with
  | [] =>
      let inv_area := 1 / areas D k in
      let normalise :=
        modify (SU, k) (fun v => v * inv_area)
       (modify (XU, k) (fun v => v * inv_area)
       (modify (YU, k) (fun v => v * inv_area) (Ret (ts, bs)))) in
      if Nat.eqb substep_count 0 then Wr (MaxSpeed, k) speed_max_last normalise else normalise
  | i :: is =>
      let ki := (3 * k + i)%nat in
      let r := compute_edge D (counter ki - 1) ki in
      let edgeflux := vneg (er_flux r) in
      let pressuregrad_work := er_pg_k r in
      let edge_timestep := radii D k * 1 / Rmax (er_speed r) (epsilon D) in
      let counted := Nat.eqb substep_count 0 && Z.eqb (tri_full_flag D k) 1 && Rltb (epsilon D) (er_speed r) in
      let ts := if counted then ts ++ [edge_timestep] else ts in
      let speed_max_last := if counted then Rmax speed_max_last (er_speed r) else speed_max_last in
      let bs := if counts_as_boundary D ki then bs ++ [c0 edgeflux] else bs in
      modify (SU, k) (fun v => v + c0 edgeflux)
     (modify (XU, k) (fun v => v + c1 edgeflux)
     (modify (YU, k) (fun v => v + c2 edgeflux)
     (modify (XU, k) (fun v => v - normal_x D ki * pressuregrad_work)
     (modify (YU, k) (fun v => v - normal_y D ki * pressuregrad_work)
        (flux_edges D counter substep_count k is speed_max_last ts bs)))))
  end.

(** One iteration of the loop, lines 521-719. *)
Definition flux_iteration (D : domain) (counter : nat -> nat) (substep_count k : nat)
  : prog loc R (list R * list R) :=
  Wr (SU, k) 0 (Wr (XU, k) 0 (Wr (YU, k) 0
    (flux_edges D counter substep_count k [0; 1; 2]%nat 0 [] []))).

(** Results of the finished iterations. *)
Definition result_of {A} (d : A) (p : prog loc R A) : A := match p with Ret a => a | _ => d end.

(** [_openmp_compute_fluxes_central], lines 456-771, as the relation between
    the memory, [boundary_flux_sum] and time step at its call and at its
    return.  [big] is the identity of the min reduction. *)
Definition omp_compute_fluxes (big : R) (D : domain) (s : statics) (m : loc -> R) (b : nat -> R) (t : R)
  (m' : loc -> R) (b' : nat -> R) (t' : R) : Prop :=
  let K := number_of_elements D in
  let substep_count := next_substep D s in
  let iteration := flux_iteration D (edge_river_wall_counter D) substep_count in
  exists c ps' t_threads b_threads,
    steps loc_eqb K c (m, iteration) (m', ps') /\ finished K ps' /\
    let results := map (fun k => result_of ([], []) (ps' k)) (seq 0 K) in
    Permutation (concat t_threads) (flat_map fst results) /\
    Permutation (concat b_threads) (flat_map snd results) /\
    b' = upd b substep_count (omp_reduce Rplus 0 0 b_threads) /\
    t' = (if Nat.eqb substep_count 0 then omp_reduce Rmin big (10 ^ 100) t_threads else t).

(** ** Protection, lines 1096-1170; line 1140 zeroes the x momentum again. *)
Definition omp_protect_iteration (minimum_allowed_height : R) (bed areas : nat -> R) (k : nat)
  : prog loc R (list R) :=
  Rd (Stage, k) (fun w =>
  let hc := w - bed k in
  if Rltb hc (minimum_allowed_height * 1) then
    Wr (XMom, k) 0 (Wr (XMom, k) 0
    (if Rleb hc 0 then
       let bmin := bed k in
       Rd (Stage, k) (fun w1 =>
       if Rltb w1 bmin then
         Rd (Stage, k) (fun w2 =>
         Wr (Stage, k) bmin
        (Wr (StageV 0, k) bmin (Wr (StageV 1, k) bmin (Wr (StageV 2, k) bmin
           (Ret [(bmin - w2) * areas k])))))
       else Ret [])
     else Ret []))
  else Ret []).

(** The whole call: memory at its start and end, and the mass error. *)
Definition omp_protect (minimum_allowed_height : R) (bed areas : nat -> R) (K : nat) (m m' : loc -> R) (mass_error : R)
  : Prop :=
  exists c ps' threads,
    steps loc_eqb K c (m, omp_protect_iteration minimum_allowed_height bed areas) (m', ps') /\ finished K ps' /\
    Permutation (concat threads) (flat_map (fun k => result_of [] (ps' k)) (seq 0 K)) /\
    mass_error = omp_reduce Rplus 0 0 threads.

(** ** Negative cells, lines 2037-2056 *)
Definition omp_fix_negative_iteration (bed : nat -> R) (full : nat -> Z) (k : nat) : prog loc R Z :=
  Rd (Stage, k) (fun w =>
  if Rltb (w - bed k) 0 && Z.ltb 0 (full k) then
    Wr (Stage, k) (bed k) (Wr (XMom, k) 0 (Wr (YMom, k) 0 (Ret 1%Z)))
  else Ret 0%Z).
Definition omp_fix_negative_cells (bed : nat -> R) (full : nat -> Z) (K : nat) (m m' : loc -> R) (negative : Z) : Prop :=
  exists c ps' threads,
    steps loc_eqb K c (m, omp_fix_negative_iteration bed full) (m', ps') /\ finished K ps' /\
    Permutation (concat threads) (map (fun k => result_of 0%Z (ps' k)) (seq 0 K)) /\
    negative = omp_reduce Z.add 0%Z 0%Z threads.

(** ** Manning friction.  [XU] and [YU] are [xmom_update] and [ymom_update]. *)

(** [_openmp_manning_friction_flat], lines 1954-1986.  [abs_mom] (declared at
    line 1960) is not in the [private] clause of line 1964. *)
Definition omp_friction_flat_iteration (g eps : R) (cells : nat -> friction_cell) (k : nat)
  : prog loc R unit :=
  let c := cells k in
  let finish S := modify (XU, k) (fun v => v + S * f_uh c)
                 (modify (YU, k) (fun v => v + S * f_vh c) (Ret tt)) in
  Wr (AbsMom, 0%nat) (sqrt (f_uh c * f_uh c + f_vh c * f_vh c))
  (if Rltb eps (f_eta c) then
     let h := f_w c - f_z c in
     if Rleb eps h then
       Rd (AbsMom, 0%nat) (fun abs_mom =>
         finish (- g * f_eta c * f_eta c * abs_mom / pow73 h))
     else finish 0
   else finish 0).

(** [_openmp_manning_friction_sloped], lines 1988-2033.  [z] and [k6]
    (declared at lines 1993-1994) are not in the [private] clause of line
    1999: [z] is written at line 2022 and read at line 2023, [k6] is written
    at line 2009 and read at lines 2011-2016.  The shared [k6] holds [6*k] as
    a real number; [triangle_at] is the triangle whose coordinates start at
    that index. *)
Definition omp_friction_sloped_iteration (g eps : R) (triangle_at : R -> nat) (cells : nat -> friction_cell) (k : nat)
  : prog loc R unit :=
  let c := cells k in
  let finish S := modify (XU, k) (fun v => v + S * f_uh c)
                 (modify (YU, k) (fun v => v + S * f_vh c) (Ret tt)) in
  let '(z0, z1, z2) := f_zv c in
  let k6 := (SharedK6, 0%nat) in
  Wr k6 (INR (6 * k))
 (Rd k6 (fun i0 => Rd k6 (fun i1 => Rd k6 (fun i2 => Rd k6 (fun i3 => Rd k6 (fun i4 => Rd k6 (fun i5 =>
    let x0 := fst (fst (fst (f_x (cells (triangle_at i0))))) in
    let y0 := snd (fst (fst (f_x (cells (triangle_at i1))))) in
    let x1 := fst (snd (fst (f_x (cells (triangle_at i2))))) in
    let y1 := snd (snd (fst (f_x (cells (triangle_at i3))))) in
    let x2 := fst (snd (f_x (cells (triangle_at i4)))) in
    let y2 := snd (snd (f_x (cells (triangle_at i5)))) in
    if Rltb eps (f_eta c) then
      let '(zx, zy) := gradient x0 y0 x1 y1 x2 y2 z0 z1 z2 in
      let zs := sqrt (1 + zx * zx + zy * zy) in
      Wr (SharedZ, 0%nat) ((z0 + z1 + z2) * (1 / 3))
     (Rd (SharedZ, 0%nat) (fun z =>
        let h := f_w c - z in
        if Rleb eps h then
          finish (- g * f_eta c * f_eta c * zs * sqrt (f_uh c * f_uh c + f_vh c * f_vh c) / pow73 h)
        else finish 0))
    else finish 0))))))).

(** A call of one of the two kernels, [iteration] being its loop body. *)
Definition omp_loop (N : nat) (iteration : nat -> prog loc R unit) (m m' : loc -> R) : Prop :=
  exists c ps', steps loc_eqb N c (m, iteration) (m', ps') /\ finished N ps'.

(** ** Second order reconstruction, lines 1336-1953 *)
Section Extrapolate.
Variable I : recon.

(** First loop, lines 1373-1401; [height_centroid_values] is written and not
    read.  Note that momentum is zeroed in cells that are not wet whatever
    [extrapolate_velocity_second_order]. *)
Definition omp_height (k : nat) : R := Rmax (r_stage I k - r_bed I k) 0.
Definition omp_velocity_iteration (k : nat) : prog loc R unit :=
  let dk := omp_height k in
  let m := r_minimum_allowed_height I in
  let second :=
    if Z.eqb (r_velocity I) 1 then
      if Rltb m dk then
        let dk_inv := 1 / dk in
        Rd (XMom, k) (fun x => Wr (XWork, k) x (modify (XMom, k) (fun x => x * dk_inv)
       (Rd (YMom, k) (fun y => Wr (YWork, k) y (modify (YMom, k) (fun y => y * dk_inv) (Ret tt))))))
      else Ret tt
    else Ret tt in
  Wr (XWork, k) 0 (Wr (YWork, k) 0
  (if Rleb dk m then Wr (XWork, k) 0 (Wr (XMom, k) 0 (Wr (YWork, k) 0 (Wr (YMom, k) 0 second)))
   else second)).

(** The inputs as the second loop finds them: heights are those of the first
    loop, and momenta are in memory. *)
Definition omp_inputs : recon :=
  Recon (r_number_of_elements I) (fun _ => 1%Z) (r_number_of_boundaries I) (r_surrogate I)
    (r_ex I) (r_ey I) (r_cx I) (r_cy I) (r_beta_w I) (r_beta_w_dry I) (r_beta_uh I) (r_beta_uh_dry I)
    (r_beta_vh I) (r_beta_vh_dry I) (r_minimum_allowed_height I) 0%Z
    (r_stage I) (r_bed I) omp_height (r_xmom I) (r_ymom I)
    (r_stage_e I) (r_height_e I) (r_xmom_e I) (r_ymom_e I) (r_bed_e I)
    (r_stage_v I) (r_height_v I) (r_xmom_v I) (r_ymom_v I) (r_bed_v I).

(** The limited jumps of one quantity, lines 1503-1822; [None] when the index
    of the missing internal neighbour is out of the range of the row.  Unlike
    the sequential kernel there is no test of [area2]. *)
Definition omp_cell_jumps (q : nat -> R) (beta beta_dry : R) (k : nat) : option jumps :=
  let J := omp_inputs in
  if Z.eqb (r_number_of_boundaries J k) 3 then Some flat
  else if Z.leb (r_number_of_boundaries J k) 1 then
    Some (typical_jumps J q (beta_dry + (beta - beta_dry) * hfactor J k) k)
  else match internal_neighbour J k with
       | Some n => Some (single_jumps J q k n)
       | None => None
       end.

(** Edge values of stage and height (not written by other iterations, never
    read by them). *)
Definition omp_edge (q : nat -> R) (beta beta_dry : R) (k i : nat) : R :=
  match omp_cell_jumps q beta beta_dry k with Some d => q k + jump d i | None => 0 end.
Definition omp_stage_edge := omp_edge (r_stage I) (r_beta_w I) (r_beta_w_dry I).
Definition omp_height_edge := omp_edge omp_height (r_beta_w I) (r_beta_w_dry I).

(** The triangles whose momentum the reconstruction of triangle [k] reads,
    lines 1605-1608, 1628-1631 (typical case), 1509-1515 (three boundaries),
    1775 and 1811 (one internal neighbour); the own triangle comes first. *)
Definition omp_reads (k : nat) : list nat :=
  let J := omp_inputs in
  if Z.eqb (r_number_of_boundaries J k) 3 then [k]
  else if Z.leb (r_number_of_boundaries J k) 1 then [k; nb0 J k; nb1 J k; nb2 J k]
  else match internal_neighbour J k with Some n => [n; k] | None => [k] end.

(** Read the entries [js] of array [a] and go on with the values read. *)
Fixpoint read_all {A} (a : array) (js : list nat) (acc : nat -> R) (p : (nat -> R) -> prog loc R A)
  : prog loc R A :=
  match js with
  | [] => p acc
  | j :: js => Rd (a, j) (fun v => read_all a js (upd acc j v) p)
  end.

(** The new edge values of a momentum (lines 1848-1856 turn velocity into
    momentum). *)
Definition omp_mom_edge (q : nat -> R) (beta beta_dry : R) (k i : nat) : R :=
  let v := omp_edge q beta beta_dry k i in
  if Z.eqb (r_velocity I) 1 then v * omp_height_edge k i else v.

(** Second loop, lines 1421-1895, for the two momenta. *)
Definition omp_extrapolate_iteration (k : nat) : prog loc R unit :=
  let edges :=
    read_all XMom (omp_reads k) (fun _ => 0) (fun qx =>
    let ex := omp_mom_edge qx (r_beta_uh I) (r_beta_uh_dry I) k in
    Wr (XE 0, k) (ex 0%nat) (Wr (XE 1, k) (ex 1%nat) (Wr (XE 2, k) (ex 2%nat)
   (read_all YMom (omp_reads k) (fun _ => 0) (fun qy =>
    let ey := omp_mom_edge qy (r_beta_vh I) (r_beta_vh_dry I) k in
    Wr (YE 0, k) (ey 0%nat) (Wr (YE 1, k) (ey 1%nat) (Wr (YE 2, k) (ey 2%nat) (Ret tt)))))))) in
  if surrounded omp_inputs k then
    Wr (XWork, k) 0 (Wr (XMom, k) 0 (Wr (YWork, k) 0 (Wr (YMom, k) 0 edges)))
  else edges.

(** Third loop, lines 1899-1909. *)
Definition omp_restore_iteration (k : nat) : prog loc R unit :=
  if Z.eqb (r_velocity I) 1 then
    Rd (XWork, k) (fun x => Wr (XMom, k) x (Rd (YWork, k) (fun y => Wr (YMom, k) y (Ret tt))))
  else Ret tt.

(** The whole call; the parallel loops are separated by barriers. *)
Definition omp_extrapolate (m m' : loc -> R) : Prop :=
  exists m1 m2,
    omp_loop (r_number_of_elements I) omp_velocity_iteration m m1 /\
    omp_loop (r_number_of_elements I) omp_extrapolate_iteration m1 m2 /\
    omp_loop (r_number_of_elements I) omp_restore_iteration m2 m'.
End Extrapolate.
