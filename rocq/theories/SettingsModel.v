(** The settings of a domain and what becomes of them when the domain is
    distributed over several processes:
    anuga/shallow_water/shallow_water_domain.py lines 236-420 ([__init__]),
    486-533 ([_set_config_defaults]), 583-895 ([_set_DE*_defaults]), 1098-1562
    (setters), anuga/abstract_2d_finite_volumes/generic_domain.py lines
    325-381, 937-1060, 1540-1610, anuga/parallel/parallel_api.py lines 70-145,
    anuga/parallel/sequential_distribute.py lines 24-213 and 277-330,
    anuga/parallel/parallel_shallow_water.py lines 31-120.

    A domain object is its attribute dictionary (only the attributes that hold
    settings), the names of its quantities, the tags of its boundary edges,
    and its place among the processes if it is a [Parallel_domain].  An
    exception is [None]. *)
From Coq Require Import Reals List ZArith Bool String Ascii.
From Coq Require Decimal DecimalString.
From Verif Require Import RealLib.
Import ListNotations.
Local Open Scope string_scope.

(** The Python values stored in the attributes.  [Ref] is any other object,
    given by its identity. *)
Inductive value :=
| Null | Bool (b : bool) | Int (z : Z) | Real (r : R) | Text (s : string)
| Ref (n : nat) | Refs (l : list nat) | Dict (l : list (string * value)).

Record object := Object {
  attrs : string -> option value;
  quantities : list string;
  tags : list string;
  place : option (nat * nat) }.   (* numproc and processor of a Parallel_domain *)

Definition bind {A B} (o : option A) (f : A -> option B) : option B :=
  match o with Some a => f a | None => None end.
Notation "x <- e ; f" := (bind e (fun x => f)) (at level 61, e at next level, right associativity).

(** [self.a = v] *)
Definition put (a : string) (v : value) (o : object) : object :=
  Object (fun b => if String.eqb a b then Some v else attrs o b) (quantities o) (tags o) (place o).

(** Several assignments, in order. *)
Definition assign (l : list (string * value)) (o : object) : object :=
  fold_left (fun o av => put (fst av) (snd av) o) l o.

(** Dictionaries. *)
Fixpoint lookup (k : string) (l : list (string * value)) : option value :=
  match l with
  | [] => None
  | (k', v) :: l' => if String.eqb k k' then Some v else lookup k l'
  end.
Fixpoint store_key (k : string) (v : value) (l : list (string * value)) : list (string * value) :=
  match l with
  | [] => [(k, v)]
  | (k', v') :: l' => if String.eqb k k' then (k', v) :: l' else (k', v') :: store_key k v l'
  end.
Definition has (k : string) (l : list string) : bool := existsb (String.eqb k) l.

(** shallow_water_domain.py lines 1476-1493. *)
Definition set_minimum_allowed_height (v : value) : list (string * value) :=
  [("minimum_allowed_height", v); ("H0", v)].

(** anuga/config.py and [_set_config_defaults], lines 486-533; the setters
    called there store their argument ([set_use_optimise_dry_cells] as an
    integer). *)
Definition config_defaults : list (string * value) :=
  [("using_discontinuous_elevation", Bool false)]
  ++ set_minimum_allowed_height (Real (1 / 100000)) ++
  [("maximum_allowed_speed", Real 0);
   ("minimum_storable_height", Real (1 / 1000));
   ("g", Real (98 / 10));
   ("alpha_balance", Real 2);
   ("tight_slope_limiters", Bool true);
   ("low_froude", Int 0);
   ("optimise_dry_cells", Int 1);
   ("extrapolate_velocity_second_order", Bool true);
   ("use_edge_limiter", Bool false);
   ("optimised_gradient_limiter", Bool true);
   ("use_centroid_velocities", Bool true);
   ("use_sloped_mannings", Bool false);
   ("compute_fluxes_method", Text "wb_2");
   ("distribute_to_vertices_and_edges_method", Text "original");
   ("store_centroids", Bool false)].

(** What distinguishes the five algorithms: CFL number, number of substeps,
    minimum allowed height, and the limiters for wet and for dry cells. *)
Record choice := Choice { c_cfl : R; c_steps : nat; c_height : R; c_beta : R; c_dry : R }.

(** [set_timestepping_method], generic_domain.py lines 1540-1557. *)
Definition set_timestepping_method (n : nat) : list (string * value) :=
  [("timestepping_method", Text (match n with 1 => "euler" | 2 => "rk2" | _ => "rk3" end));
   ("timestep_fluxcalls", Int (Z.of_nat n))].

(** The assignments of [_set_DE0_defaults] ... before and after the call of
    [set_use_kinematic_viscosity(False)], which is modelled below. *)
Definition before_viscosity (c : choice) : list (string * value) :=
  config_defaults ++ [("CFL", Real (c_cfl c))].
Definition after_viscosity (c : choice) : list (string * value) :=
  set_timestepping_method (c_steps c) ++
  [("using_discontinuous_elevation", Bool true);
   ("using_centroid_averaging", Bool true);
   ("compute_fluxes_method", Text "DE");
   ("distribute_to_vertices_and_edges_method", Text "DE");
   ("minimum_allowed_height", Real (c_height c));
   ("use_edge_limiter", Bool true);
   ("default_order", Int 2); ("_order_", Int 2);
   ("extrapolate_velocity_second_order", Bool true);
   ("beta_w", Real (c_beta c)); ("beta_w_dry", Real (c_dry c));
   ("beta_uh", Real (c_beta c)); ("beta_uh_dry", Real (c_dry c));
   ("beta_vh", Real (c_beta c)); ("beta_vh_dry", Real (c_dry c));
   ("store_centroids", Bool true);
   ("optimise_dry_cells", Bool false);
   ("maximum_allowed_speed", Real 0)].

(** [list.remove]: the first occurrence; [ValueError] if there is none. *)
Fixpoint remove_first (n : nat) (l : list nat) : option (list nat) :=
  match l with
  | [] => None
  | m :: l' => if Nat.eqb m n then Some l' else r <- remove_first n l'; Some (m :: r)
  end.

(** [set_use_kinematic_viscosity(False)], shallow_water_domain.py lines 1371-1385. *)
Definition no_viscosity (o : object) : option object :=
  match attrs o "kv_operator" with
  | Some Null => Some o
  | Some (Ref k) =>
      match attrs o "fractional_step_operators" with
      | Some (Refs l) =>
          l' <- remove_first k l;
          Some (put "kv_operator" Null (put "fractional_step_operators" (Refs l') o))
      | _ => None
      end
  | _ => None
  end.

(** The five algorithms, lines 535-895. *)
Definition algorithm_choice (a : string) : option choice :=
  if String.eqb a "DE0" then Some (Choice (9 / 10) 1 (1 / 1000000000000) (1 / 2) 0)
  else if String.eqb a "DE1" then Some (Choice 1 2 (1 / 100000) 1 0)
  else if String.eqb a "DE2" then Some (Choice 1 3 (1 / 100000) 1 0)
  else if String.eqb a "DE0_7" then Some (Choice (9 / 10) 1 (1 / 1000000000000) (7 / 10) (1 / 10))
  else if String.eqb a "DE1_7" then Some (Choice 1 2 (1 / 1000000000000) (75 / 100) (1 / 10))
  else None.

(** [algorithm.replace('.', '_')] *)
Fixpoint undot (s : string) : string :=
  match s with
  | EmptyString => EmptyString
  | String c s' => String (if Ascii.eqb c "."%char then "_"%char else c) (undot s')
  end.

(** [set_flow_algorithm], lines 1258-1298. *)
Definition set_flow_algorithm (v : value) (o : object) : option object :=
  match v with
  | Text s =>
      let a := undot s in
      c <- algorithm_choice a;
      o1 <- no_viscosity (assign (before_viscosity c) (put "flow_algorithm" (Text a) o));
      Some (assign (after_viscosity c) o1)
  | _ => None
  end.

(** [set_low_froude], lines 1349-1357.  Python has [True == 1 == 1.0]. *)
Definition set_low_froude (v : value) (o : object) : option object :=
  let ok := match v with
            | Int z => Z.eqb z 0 || Z.eqb z 1 || Z.eqb z 2
            | Bool _ => true
            | Real r => Reqb r 0 || Reqb r 1 || Reqb r 2
            | _ => false
            end in
  if ok then Some (put "low_froude" v o) else None.

(** [set_quantities_to_be_stored], lines 1520-1561. *)
Definition set_quantities_to_be_stored (v : value) (o : object) : option object :=
  match v with
  | Null => Some (put "store" (Bool false) (put "quantities_to_be_stored" (Dict []) o))
  | Dict l => if forallb (fun kv => has (fst kv) (quantities o)) l
              then Some (put "quantities_to_be_stored" v o) else None
  | _ => None
  end.

(** [name.endswith('.sww')] and [name[:-4]]. *)
Definition strip_sww (s : string) : string :=
  let n := String.length s in
  if String.eqb (substring (n - 4) 4 s) ".sww" then substring 0 (n - 4) s else s.

(** ['%d' % n] *)
Definition decimal (n : nat) : string := DecimalString.NilEmpty.string_of_uint (Nat.to_uint n).

(** [Domain.set_name], generic_domain.py lines 1565-1596, and
    [Parallel_domain.set_name], parallel_shallow_water.py lines 108-120. *)
Definition set_name (v : value) (o : object) : option object :=
  match v with
  | Text s =>
      match place o with
      | None => Some (put "simulation_name" (Text (strip_sww s)) o)
      | Some (n, p) =>
          let g := strip_sww s in
          Some (put "simulation_name" (Text (strip_sww (g ++ "_P" ++ decimal n ++ "_" ++ decimal p)))
                  (put "global_name" (Text g) o))
      end
  | _ => None
  end.

(** [set_boundary], generic_domain.py lines 937-1042: the check of the keys
    (sequential domains only), the update of the map, the check that every
    tag is bound.  (The list [boundary_objects] follows from the map.) *)
Definition set_boundary (m : list (string * value)) (o : object) : option object :=
  let keys_ok := match place o with
                 | Some _ => true
                 | None => forallb (fun kv => has (fst kv) ("ghost" :: tags o)) m
                 end in
  if keys_ok then
    old <- attrs o "boundary_map";
    new <- match old with
           | Null => Some m
           | Dict l => Some (fold_left (fun l kv => store_key (fst kv) (snd kv) l) m l)
           | _ => None
           end;
    if forallb (fun t => match lookup t new with Some _ => true | None => false end) (tags o)
    then Some (put "boundary_map" (Dict new) o) else None
  else None.

(** The attributes of a new domain: generic_domain.py lines 325-381 and
    shallow_water_domain.py lines 299-351, around [set_flow_algorithm()]. *)
Definition standard_quantities : list string :=
  ["stage"; "xmomentum"; "ymomentum"; "elevation"; "friction"; "height"; "xvelocity"; "yvelocity"; "x"; "y"].
Definition generic_attributes (geo : value) : list (string * value) :=
  [("geo_reference", geo);
   ("g", Real (98 / 10)); ("beta_w", Real 1);
   ("centroid_transmissive_bc", Bool false);
   ("default_order", Int 2); ("_order_", Int 2);
   ("CFL", Real 1)]
  ++ set_timestepping_method 1 ++
  [("beta_w", Real 1); ("beta_w_dry", Real 1); ("beta_uh", Real 1); ("beta_uh_dry", Real 1);
   ("beta_vh", Real 1); ("beta_vh_dry", Real 1);
   ("evolve_max_timestep", Real 1000); ("evolve_min_timestep", Real (1 / 1000000));
   ("fixed_flux_timestep", Null);
   ("boundary_map", Null);
   ("starttime", Int 0); ("evolve_starttime", Int 0);
   ("datadir", Text "."); ("simulation_name", Text "domain");
   ("using_discontinuous_elevation", Bool false); ("using_centroid_averaging", Bool false);
   ("use_inscribed_circle", Bool false);
   ("fractional_step_operators", Refs []); ("kv_operator", Null)].
Definition storage_attributes : list (string * value) :=
  [("multiprocessor_mode", Int 0);
   ("timezone", Text "UTC");
   ("store", Bool true); ("store_centroids", Bool true); ("smooth", Bool true);
   ("quantities_to_be_stored",
     Dict [("elevation", Int 1); ("friction", Int 1); ("stage", Int 2); ("xmomentum", Int 2); ("ymomentum", Int 2)]);
   ("checkpoint", Bool false); ("checkpoint_step", Int 10);
   ("max_flux_update_frequency", Int 1);
   ("use_new_velocity_head", Bool false)].

(** [Domain(points, vertices, boundary, geo_reference=...)] and
    [Parallel_domain(...)], which sets [global_name] besides. *)
Definition new_domain (geo : value) (tg : list string) (where_ : option (nat * nat)) : option object :=
  o <- set_flow_algorithm (Text "DE0")
         (assign (generic_attributes geo) (Object (fun _ => None) standard_quantities tg where_));
  let o := assign storage_attributes o in
  Some (match where_ with Some _ => put "global_name" (Text "domain") o | None => o end).

(** The part of the tuple handed to the processes that does not concern the
    mesh; sequential_distribute.py lines 49-63 and 178-207. *)
Record message := Message {
  m_geo : value; m_quantities : list string; m_boundary : list (string * value);
  m_name : value; m_dir : value; m_store : value; m_store_centroids : value;
  m_storable : value; m_allowed : value; m_algorithm : value;
  m_to_be_stored : value; m_smooth : value; m_froude : value }.

(** Reading the settings, lines 49-63; a missing attribute is an
    [AttributeError]. *)
Definition read_settings (o : object) : option message :=
  name <- attrs o "simulation_name"; dir <- attrs o "datadir"; sto <- attrs o "store";
  cen <- attrs o "store_centroids"; stb <- attrs o "minimum_storable_height";
  alg <- attrs o "flow_algorithm"; alw <- attrs o "minimum_allowed_height";
  geo <- attrs o "geo_reference"; qs <- attrs o "quantities_to_be_stored";
  smo <- attrs o "smooth"; fro <- attrs o "low_froude"; bm <- attrs o "boundary_map";
  match bm with
  | Dict l => Some (Message geo (quantities o) l name dir sto cen stb alw alg qs smo fro)
  | _ => None
  end.

(** [Sequential_distribute.distribute] and [extract_submesh]: the boundary map
    is overwritten first.  The original domain is changed too. *)
Definition distribute_message (o : object) : option (object * message) :=
  o1 <- set_boundary (map (fun t => (t, Null)) (tags o)) o;
  m <- read_settings o1;
  Some (o1, m).

(** [Quantity(parallel_domain, name=q, register=True)] *)
Definition register (q : string) (o : object) : object :=
  if has q (quantities o) then o else Object (attrs o) (quantities o ++ [q]) (tags o) (place o).

(** The body of [distribute] after the tuple has arrived, parallel_api.py
    lines 110-144; [tg] are the tags of the local mesh. *)
Definition build_distributed (m : message) (n p : nat) (tg : list string) : option object :=
  d <- new_domain (m_geo m) tg (Some (n, p));
  let d := fold_left (fun d q => register q d) (m_quantities m) d in
  d <- set_boundary (store_key "ghost" Null (m_boundary m)) d;
  d <- set_flow_algorithm (m_algorithm m) d;
  d <- set_name (m_name m) d;
  let d := put "datadir" (m_dir m) d in
  let d := put "store" (m_store m) d in
  d <- set_low_froude (m_froude m) d;
  let d := put "store_centroids" (m_store_centroids m) d in
  let d := put "minimum_storable_height" (m_storable m) d in
  let d := assign (set_minimum_allowed_height (m_allowed m)) d in
  let d := put "geo_reference" (m_geo m) d in
  d <- set_quantities_to_be_stored (m_to_be_stored m) d;
  Some (put "smooth" (m_smooth m) d).

(** [distribute(domain)] as seen by process [p] of [n]: the domain it ends up
    with.  With one process the domain is returned as it is. *)
Definition distribute (o : object) (n p : nat) (tg : list string) : option object :=
  if Nat.eqb n 1 then Some o
  else om <- distribute_message o; build_distributed (snd om) n p tg.

(** [sequential_distribute_load_pickle_file], sequential_distribute.py lines
    277-330, for the tuple pickled by [sequential_distribute_dump]; unknown
    quantities raise [KeyError]. *)
Definition load_distributed (m : message) (n p : nat) (tg : list string) : option object :=
  d <- new_domain (m_geo m) tg (if Nat.ltb 1 n then Some (n, p) else None);
  if forallb (fun q => has q (quantities d)) (m_quantities m) then
    d <- set_boundary (store_key "ghost" Null (m_boundary m)) d;
    d <- set_name (m_name m) d;
    let d := put "datadir" (m_dir m) d in
    d <- set_flow_algorithm (m_algorithm m) d;
    d <- set_low_froude (m_froude m) d;
    let d := put "store" (m_store m) d in
    let d := put "store_centroids" (m_store_centroids m) d in
    let d := put "minimum_storable_height" (m_storable m) d in
    let d := assign (set_minimum_allowed_height (m_allowed m)) d in
    let d := put "geo_reference" (m_geo m) d in
    d <- set_quantities_to_be_stored (m_to_be_stored m) d;
    Some (put "smooth" (m_smooth m) d)
  else None.

(** [sequential_distribute_dump] by one process, then
    [sequential_distribute_load] by process [p]. *)
Definition dump_and_load (o : object) (n p : nat) (tg : list string) : option object :=
  om <- distribute_message o; load_distributed (snd om) n p tg.
