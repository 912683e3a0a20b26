(** From a mesh, tags and quantities to the arrays of the time stepping code, for
    the undivided domain and for every process of a distributed one.

    The pieces: [General_mesh.__init__] (GeometryModel), [Mesh.__init__]
    (NeighbourModel), the distribution code (DistributeModel, LocalMeshModel), the
    time step (StepModel, ParallelStepModel). *)
From Coq Require Import Reals List ZArith Arith Bool.
From Verif Require Import NeighbourModel DistributeModel LocalMeshModel RealLib ArrayLib GeometryModel
  BoundaryModel FluxModel ReconModel RKModel StepModel ParallelStepModel.
Import ListNotations.
Local Open Scope R_scope.

(** vertex_coordinates: vertex [v] of a triangle (general_mesh.py,
    [compute_vertex_coordinates]). *)
Definition vertex (nodes : list (R * R)) (t : tri) (v : nat) : R * R :=
  let '(a, b, c) := t in nth (match v with 0 => a | 1 => b | _ => c end)%nat nodes (0, 0).
(** A quantity of the triangle geometry. *)
Definition geo {A} (f : R -> R -> R -> R -> R -> R -> A) (nodes : list (R * R)) (t : tri) : A :=
  let v0 := vertex nodes t 0 in let v1 := vertex nodes t 1 in let v2 := vertex nodes t 2 in
  f (fst v0) (snd v0) (fst v1) (snd v1) (fst v2) (snd v2).
(** [compute_edge_midpoint_coordinates], general_mesh.py lines 599-628. *)
Definition midpoint (nodes : list (R * R)) (t : tri) (i : nat) : R * R :=
  let half (a b : R * R) := (1 / 2 * (fst a + fst b), 1 / 2 * (snd a + snd b)) in
  match i with
  | 0%nat => half (vertex nodes t 1) (vertex nodes t 2)
  | 1%nat => half (vertex nodes t 2) (vertex nodes t 0)
  | _ => half (vertex nodes t 0) (vertex nodes t 1)
  end.

(** Quantities are vertex values by name; names are numbers. *)
Definition quantities : Type := list (nat * list (R * R * R)).
Definition elevation := 0%nat.
Definition friction := 1%nat.
Definition stage := 2%nat.
Definition xmomentum := 3%nat.
Definition ymomentum := 4%nat.
Definition vertex_values (qs : quantities) (name k : nat) : R * R * R :=
  match find (fun q => Nat.eqb (fst q) name) qs with Some q => nth k (snd q) (0, 0, 0) | None => (0, 0, 0) end.
(** [set_quantity] with an array: [Quantity.set_values_from_array] and
    [Quantity.interpolate] (quantity.c [_interpolate]): centroid values. *)
Definition centroid_values (qs : quantities) (name k : nat) : R :=
  let '(a, b, c) := vertex_values qs name k in (a + b + c) / 3.

(** The arrays of a domain, generic_domain.py lines 130-290.  Switches, parameters
    and arrays unrelated to the mesh are those of [T]; [flags]: tri_full_flag;
    [bmap]: boundary_map.  A domain is created with use_inscribed_circle=False
    unless the user asks for it. *)
Definition mesh_config (T : config) (nodes : list (R * R)) (ts : list tri) (rows : list row) (bs : boundary_structure)
  (flags : nat -> Z) (qs : quantities) (bmap : nat -> boundary_object) : config :=
  let t (k : nat) := nth k ts (0, 0, 0)%nat in
  let D := cf_dom T in
  let I := cf_rec T in
  {| cf_dom := {|
       number_of_elements := length ts; epsilon := epsilon D; g := g D; low_froude := low_froude D;
       FluxModel.neighbours := fun e => nb (b_rows bs) (e / 3) (e mod 3);
       FluxModel.neighbour_edges := fun e => Z.to_nat (nbe (b_rows bs) (e / 3) (e mod 3));
       normal_x := fun e => fst (geo normal nodes (t (e / 3)%nat) (e mod 3)%nat);
       normal_y := fun e => snd (geo normal nodes (t (e / 3)%nat) (e mod 3)%nat);
       edgelengths := fun e => geo edgelength nodes (t (e / 3)%nat) (e mod 3)%nat;
       radii := fun k => geo radius_old nodes (t k);
       areas := fun k => geo area nodes (t k);
       tri_full_flag := flags;
       stage_edge := stage_edge D; xmom_edge := xmom_edge D; ymom_edge := ymom_edge D; bed_edge := bed_edge D;
       height_edge := height_edge D; stage_centroid := stage_centroid D; bed_centroid := bed_centroid D;
       height_centroid := height_centroid D; stage_boundary := stage_boundary D; xmom_boundary := xmom_boundary D;
       ymom_boundary := ymom_boundary D; edge_flux_type := edge_flux_type D; riverwall_elevation := riverwall_elevation D;
       riverwall_rowIndex := riverwall_rowIndex D; ncol_riverwall := ncol_riverwall D; riverwall_props := riverwall_props D;
       update_next_flux := update_next_flux D; timestep_fluxcalls := timestep_fluxcalls D;
       allow_timestep_increase := allow_timestep_increase D |};
     cf_rec := {|
       r_number_of_elements := length ts; r_update := r_update I;
       r_number_of_boundaries := fun k => match nth_error rows k with Some r => NeighbourModel.number_of_boundaries r | None => 0%Z end;
       r_surrogate := fun e => Z.to_nat (surrogate rows (e / 3) (e mod 3));
       r_ex := fun e => fst (midpoint nodes (t (e / 3)%nat) (e mod 3)%nat);
       r_ey := fun e => snd (midpoint nodes (t (e / 3)%nat) (e mod 3)%nat);
       r_cx := fun k => fst (geo centroid nodes (t k)); r_cy := fun k => snd (geo centroid nodes (t k));
       r_beta_w := r_beta_w I; r_beta_w_dry := r_beta_w_dry I; r_beta_uh := r_beta_uh I; r_beta_uh_dry := r_beta_uh_dry I;
       r_beta_vh := r_beta_vh I; r_beta_vh_dry := r_beta_vh_dry I; r_minimum_allowed_height := r_minimum_allowed_height I;
       r_velocity := r_velocity I; r_stage := r_stage I; r_bed := centroid_values qs elevation; r_height := r_height I;
       r_xmom := r_xmom I; r_ymom := r_ymom I; r_stage_e := r_stage_e I; r_height_e := r_height_e I; r_xmom_e := r_xmom_e I;
       r_ymom_e := r_ymom_e I; r_bed_e := r_bed_e I; r_stage_v := r_stage_v I; r_height_v := r_height_v I;
       r_xmom_v := r_xmom_v I; r_ymom_v := r_ymom_v I; r_bed_v := r_bed_v I |};
     cf_sloped := cf_sloped T; cf_eta := centroid_values qs friction;
     cf_x := fun k => (vertex nodes (t k) 0, vertex nodes (t k) 1, vertex nodes (t k) 2);
     cf_cells := fun b => nth b (b_cells bs) 0%nat; cf_edges := fun b => nth b (b_edges bs) 0%nat;
     cf_segments := map (fun s => (bmap (fst s), snd s)) (b_tags bs) |}.

(** A domain before the first step.  [X0]: whatever the arrays contain that are
    overwritten before they are read; semi_implicit_update is zero. *)
Definition start_state (X0 : rest) (t0 : R) (qs : quantities) : sw_state :=
  State xstate (centroid_values qs stage)
    (Some (Rest (centroid_values qs xmomentum) (centroid_values qs ymomentum)
       (x_stage X0) (x_height X0) (x_se X0) (x_he X0) (x_ue X0) (x_ve X0) (x_ze X0) (x_zv X0) (x_bv X0) (x_eu X0) (x_ev X0)
       (fun _ => 0) (fun _ => 0) 0 0))
    (Statics 0 1 1 0) (Work (fun _ => V3 0 0 0) (fun _ => 0) (fun _ => 0%Z) (fun _ => 0) (fun _ => 0) 0 0)
    (fun _ => 0) t0 0 0 0.

(** ** A process of the distributed domain *)

(** [build_submesh] and [build_local_commun] for the communication patterns
    (DistributeModel), for the same division as in [distribute]. *)
Definition commun : Type := list (nat * (list Z * list Z)).
Definition patterns {Q} (received : bool) (ts : list tri) (bd : bdict) (qs : list (nat * list Q)) (default nproc : nat)
  (epart : list nat) (w p : nat) : option (commun * commun) :=
  match pmesh_divide ts bd qs nproc epart with
  | None => None
  | Some v =>
      match mesh_boundary (v_triangles v) default (v_boundary v) with
      | None => None
      | Some (_, _, bs) => local_commun (mesh_neighbours (b_rows bs)) received (v_tpp v) w p
      end
  end.

(** generic_domain.py lines 285-289: tri_full_flag from ghost_recv_dict. *)
Definition full_flags (recv : commun) : nat -> Z :=
  fold_left (fun f e => fold_left (fun f id => upd f (Z.to_nat id) 0%Z) (fst (snd e)) f) recv (fun _ => 1%Z).

Record process := {
  pr_config : config;
  pr_recv : commun;                     (* ghost_recv_dict *)
  pr_send : commun;                     (* full_send_dict *)
  pr_l2g : list Z;                      (* tri_l2g *)
  pr_quan : quantities
}.

(** [distribute] in parallel_api.py lines 68-145 (or sequential_distribute_dump and
    sequential_distribute_load) for process [p]; the boundary conditions [bmap] are
    set afterwards, and the tag 'ghost' has no boundary object (line 120). *)
Definition start_process (T : config) (nodes : list (R * R)) (ts : list tri) (bd : bdict) (qs : quantities)
  (default ghost_tag nproc : nat) (epart : list nat) (w : nat) (bmap : nat -> boundary_object) (p : nat) : option process :=
  match LocalMeshModel.distribute false nodes ts bd qs default ghost_tag nproc epart w p, patterns false ts bd qs default nproc epart w p with
  | Some l, Some (recv, send) =>
      match local_mesh l default with
      | Some (lts, (lrows, _, lbs)) =>
          Some {| pr_config := mesh_config T (l_nodes l) lts lrows lbs (full_flags recv) (l_quan l)
                                 (fun tag => if Nat.eqb tag ghost_tag then NoBoundary else bmap tag);
                  pr_recv := recv; pr_send := send; pr_l2g := l_tri_l2g l; pr_quan := l_quan l |}
      | None => None
      end
  | _, _ => None
  end.

(** The message for ghost triangle [j] of process [p]
    (parallel_generic_communications.py, [communicate_ghosts_non_blocking]): entry
    [i] of what process [c] sends to [p] is stored at entry [i] of what [p] receives
    from [c]. *)
Fixpoint index_of (x : Z) (l : list Z) : option nat :=
  match l with
  | [] => None
  | y :: r => if Z.eqb y x then Some 0%nat else option_map S (index_of x r)
  end.
Definition message_source (procs : nat -> process) (p j : nat) : nat * nat :=
  match find (fun e => zmem (Z.of_nat j) (fst (snd e))) (pr_recv (procs p)) with
  | None => (p, j)
  | Some (c, (locals, _)) =>
      (c, match index_of (Z.of_nat j) locals, dget Nat.eqb (pr_send (procs c)) p with
          | Some i, Some (sent, _) => Z.to_nat (nth i sent 0%Z)
          | _, _ => 0%nat
          end)
  end.
