{
 "claims": [
  {
   "property": "C01",
   "status": "proved",
   "theorems": [
    "C01_evolve_yields_requested_times",
    "C01_evolve_terminates",
    "C01_duration_is_finaltime",
    "C01_evolve_without_finaltime_refuted",
    "C01_final_equals_start_yields_twice"
   ],
   "note": "real arithmetic; findings: a first evolve() with neither finaltime nor duration dies with AttributeError; finaltime equal to the start time is yielded twice"
  },
  {
   "property": "C02",
   "status": "partial",
   "theorems": [
    "C02_no_overshoot_float_refuted",
    "C02_no_overshoot_exact_arithmetic_partial"
   ],
   "note": "the property is false in binary64 (concrete counterexample 0.294 -> 0.9); it holds in exact arithmetic"
  },
  {
   "property": "C03",
   "status": "proved",
   "theorems": [
    "C03_timestep_bounds",
    "C03_too_small_exception_iff",
    "C03_evolve_raises_only_after_small_stretch"
   ],
   "note": ""
  },
  {
   "property": "C04",
   "status": "proved",
   "theorems": [
    "C04_rectangular_mesh_valid",
    "C04_rectangular_accepted_by_mesh"
   ],
   "note": "coordinates in real arithmetic"
  },
  {
   "property": "C05",
   "status": "proved",
   "theorems": [
    "C05_rectangular_cross_mesh_valid"
   ],
   "note": "coordinates in real arithmetic"
  },
  {
   "property": "C06",
   "status": "proved",
   "theorems": [
    "C06_rejected_iff_duplicate_edge",
    "C06_neighbour_is_opposite_edge",
    "C06_neighbours_symmetric",
    "C06_boundary_iff_no_opposite_edge",
    "C06_number_of_boundaries_counts",
    "C06_surrogate_neighbours"
   ],
   "note": ""
  },
  {
   "property": "C07",
   "status": "proved",
   "theorems": [
    "C07_area",
    "C07_normals_unit_outward",
    "C07_normals_closed",
    "C07_centroid_inside",
    "C07_radius_positive",
    "C07_inscribed_radius"
   ],
   "note": "real arithmetic"
  },
  {
   "property": "C08",
   "status": "proved",
   "theorems": [
    "C08_mass_conserved",
    "C08_each_edge_once",
    "C08_invariant_preserved",
    "C08_invariant_initial",
    "C08_built_mesh_is_wf",
    "C08_mass_conserved_on_built_mesh"
   ],
   "note": "real arithmetic; riverwalls, weirs, ghosts and partial flux updates included"
  },
  {
   "property": "C09",
   "status": "proved",
   "theorems": [
    "C09_lake_at_rest_preserved"
   ],
   "note": "real arithmetic; no riverwall edges"
  },
  {
   "property": "C10",
   "status": "proved",
   "theorems": [
    "C10_consistent",
    "C10_dry_exchanges_nothing",
    "C10_antisymmetric",
    "C10_max_speed"
   ],
   "note": "real arithmetic; the speed bound holds when a wave speed reaches epsilon, otherwise nothing is transported"
  },
  {
   "property": "C11",
   "status": "proved",
   "theorems": [
    "C11_limit_gradient",
    "C11_edges_within_neighbour_range",
    "C11_edge_momentum",
    "C11_height_nonnegative",
    "C11_height_nonnegative_default",
    "C11_mean_of_edges_is_centroid",
    "C11_edges_are_means_of_vertices"
   ],
   "note": "real arithmetic; up to the 1e-100 cut-off of the limiter"
  },
  {
   "property": "C12",
   "status": "proved",
   "theorems": [
    "C12_protect",
    "C12_protect_again"
   ],
   "note": "real arithmetic; non-negative cut-off heights, as the code sets them (C12_negative_cutoff shows the need)"
  },
  {
   "property": "C13",
   "status": "proved",
   "theorems": [
    "C13_friction_decelerates",
    "C13_no_friction"
   ],
   "note": "real arithmetic; flat and sloped forms"
  },
  {
   "property": "C14",
   "status": "proved",
   "theorems": [
    "C14_update",
    "C14_update_failure"
   ],
   "note": "real arithmetic"
  },
  {
   "property": "C15",
   "status": "partial",
   "theorems": [
    "C15_average_vertex_values",
    "C15_average_centroid_values",
    "C15_shifted_by_orphans",
    "C15_orphan_refuted"
   ],
   "note": "proved for every used node without an orphaned node before it; the full statement is false of the code for later nodes (C15_orphan_refuted), whose actual values C15_shifted_by_orphans gives"
  },
  {
   "property": "C16",
   "status": "partial",
   "theorems": [
    "C16_csr",
    "C16_gap_loses_a_row",
    "C16_refuted",
    "C16_convert_to_csr",
    "C16_convert_to_csr_refuted"
   ],
   "note": "proved for every matrix without an empty row between two non-empty ones; the full statement is false of the code: C16_gap_loses_a_row shows every matrix with such a gap loses a row"
  },
  {
   "property": "C17",
   "status": "proved",
   "theorems": [
    "C17_box_of_points",
    "C17_grow",
    "C17_exact",
    "C17_terminates",
    "C17_depth_exists",
    "C17_point_leaf_refuted"
   ],
   "note": "real arithmetic; the insertion ends for leaves with a positive extent; a leaf that is a single point is passed down for ever and never stored (C17_point_leaf_refuted)"
  },
  {
   "property": "C18",
   "status": "proved",
   "theorems": [
    "C18_search",
    "C18_accepted",
    "C18_terminates",
    "C18_outside_refuted"
   ],
   "note": "real arithmetic; triangles with non-zero area; \"containing\" is the 1e-12 tolerant test of the code, characterised by C18_accepted; triangles outside the extents given for the root are passed down for ever (C18_outside_refuted)"
  },
  {
   "property": "C19",
   "status": "partial",
   "theorems": [
    "C19_partition",
    "C19_decision",
    "C19_triangle",
    "C19_bounding_box",
    "C19_start_vertex",
    "C19_bounding_box_refuted"
   ],
   "note": "for triangles the decision is exact (C19_triangle); everything is proved except the last clause: the bounding-box shortcut agrees with the edge test at all points except those which the 1e-15 length tolerance of the edge test accepts beyond a corner, where it does change the answer (C19_bounding_box_refuted)"
  },
  {
   "property": "C20",
   "status": "proved",
   "theorems": [
    "C20_open",
    "C20_closed"
   ],
   "note": "real arithmetic"
  },
  {
   "property": "C21",
   "status": "partial",
   "theorems": [
    "C21_not_parallel",
    "C21_parallel",
    "C21_overlap",
    "C21_collinear",
    "C21_c_routine",
    "C21_collinear_refuted",
    "C21_short_crossing_refuted"
   ],
   "note": "real arithmetic; false of the code in two ways, both proved: collinear segments with a gap below 1e-15 raise, and crossing segments of length 1e-4 are reported collinear because the parallel test is absolute"
  },
  {
   "property": "C22",
   "status": "proved",
   "theorems": [
    "C22_nonneg",
    "C22_start_vertex",
    "C22_orientation",
    "C22_translate_scale",
    "C22_triangle",
    "C22_diagonal",
    "C22_convex"
   ],
   "note": "real arithmetic"
  },
  {
   "property": "C23",
   "status": "partial",
   "theorems": [
    "C23_python",
    "C23_c",
    "C23_precon",
    "C23_converges",
    "C23_jacobi",
    "C23_imax_one_refuted",
    "C23_breakdown_refuted",
    "C23_columns_refuted"
   ],
   "note": "real arithmetic; holds for imax >= 2 (Python) and always (C) when no denominator vanishes, in particular for every symmetric positive definite matrix, where convergence within n iterations is proved; false of the code for imax = 1, when d.Ad = 0 (nan returned), and for several right hand sides with the C routine, where only the last status is checked"
  },
  {
   "property": "C24",
   "status": "proved",
   "theorems": [
    "C24_inverse",
    "C24_change",
    "C24_absolute",
    "C24_small_offset_refuted",
    "C24_single_point_refuted"
   ],
   "note": "real arithmetic; N x 2 arrays; offsets up to 1e-8 are neglected by get_absolute but not by change_points_geo_ref, and a single point raises (both proved)"
  },
  {
   "property": "C25",
   "status": "partial",
   "theorems": [
    "C25_bounds",
    "C25_bilinear_exact",
    "C25_nodes",
    "C25_constant",
    "C25_interpolate2d",
    "C25_bounds_error",
    "C25_raster",
    "C25_single_point_axis_refuted",
    "C25_nan_wraps_refuted",
    "C25_float_overshoot_refuted"
   ],
   "note": "proved over the reals for axes of at least two points; an axis of a single point gives NaN at its own node, a NaN on the far edge spoils points of the near edge, and in binary64 the value can leave the range of the data (all proved)"
  },
  {
   "property": "C26",
   "status": "proved",
   "theorems": [
    "C26_set_stages_evenly",
    "C26_level",
    "C26_order_irrelevant",
    "C26_negative",
    "C26_set_depths_evenly"
   ],
   "note": "real arithmetic; for every result argsort may return; triangle lists without repetition"
  },
  {
   "property": "C27",
   "status": "proved",
   "theorems": [
    "C27_call",
    "C27_history"
   ],
   "note": "real arithmetic; a negative water volume in the inlet before the call raises; histories interleave calls with arbitrary other changes"
  },
  {
   "property": "C28",
   "status": "partial",
   "theorems": [
    "C28_influx",
    "C28_no_overdrain",
    "C28_no_overdrain_careful",
    "C28_momentum",
    "C28_negative_factor_refuted",
    "C28_duplicate_refuted"
   ],
   "note": "proved for regions without repeated triangles and factor >= 0; a negative factor on a non-negative rate over-drains and a repeated index is counted twice (both proved)"
  },
  {
   "property": "C29",
   "status": "proved",
   "theorems": [
    "C29_conservation",
    "C29_full_discharge",
    "C29_negative_discharge_refuted"
   ],
   "note": "real arithmetic; total water is conserved even for overlapping inlets; a negative discharge can leave a negative depth"
  },
  {
   "property": "C30",
   "status": "partial",
   "theorems": [
    "C30_reflects_momentum",
    "C30_changes_only_the_segment",
    "C30_evaluate_agrees_with_segment",
    "C30_twice_is_identity",
    "C30_velocity_has_opposite_sign",
    "C30_velocity_refuted"
   ],
   "note": "momentum part proved for unit normals; boundary velocities get the opposite sign (normal velocity kept, tangential velocity reversed), proved"
  },
  {
   "property": "C31",
   "status": "partial",
   "theorems": [
    "C31_unknown_tag_rejected",
    "C31_maps_are_merged",
    "C31_succeeds_iff",
    "C31_one_object_per_edge",
    "C31_history",
    "C31_flux_flags",
    "C31_update_boundary",
    "C31_reused_first_map_refuted",
    "C31_failure_not_undone_refuted",
    "C31_flux_flags_shifted_refuted"
   ],
   "note": "proved for sequences of distinct dictionaries; the first dictionary is kept by reference, so passing it again after a change does not restore it, a failing call leaves the map changed, and flux flags shift when a tag has a None object (all proved)"
  },
  {
   "property": "C32",
   "status": "partial",
   "theorems": [
    "C32_any_hash",
    "C32_no_collision",
    "C32_lookup_terminates",
    "C32_dependencies_ignored",
    "C32_dependency_change_refuted",
    "C32_keyword_array_refuted",
    "C32_array_broadcast_refuted",
    "C32_global_names_refuted",
    "C32_failed_forced_evaluation_refuted",
    "C32_expired_arguments_refuted"
   ],
   "note": "correct for every hash function, crash point and failing call when arguments are plain positional values and nothing is forced, and correct for all arguments, forced evaluations and file losses without hash collisions; dependency changes are never noticed, and keyword arrays, broadcastable arrays, changed global names and interrupted forced evaluations give wrong results (all proved)"
  },
  {
   "property": "C33",
   "status": "partial",
   "theorems": [
    "C33_latest_complete",
    "C33_crash_falls_back",
    "C33_explicit_time",
    "every_schedule",
    "schedule_independent",
    "C33_empty_subdirectory_refuted",
    "C33_other_file_refuted",
    "C33_waits_forever_refuted"
   ],
   "note": "Message-passing processes with FIFO channels and an arbitrary scheduler: every execution is finite and ends with all processes holding the greatest complete time (or all raising), for any number of processes and files, including a crash at any point while saving, provided no visited directory is empty and every <name>_x file has a number for x. False without that proviso: an empty subdirectory or a file d_old.sww makes the restart raise although a complete checkpoint exists, and a process with an empty directory leaves the others waiting for ever."
  },
  {
   "property": "C34",
   "status": "proved",
   "theorems": [
    "C34_succeeds",
    "C34_patterns_match",
    "C34_ghosts_owned",
    "C34_layer_width",
    "C34_local_ids",
    "C34_width_zero_refuted"
   ],
   "note": "for every neighbour structure, partition sizes (including empty parts), number of processes and layer width, both for the sequential and the message-passing path of the distribution; a width of 0 still yields one layer (proved)"
  },
  {
   "property": "C35",
   "status": "partial",
   "theorems": [
    "C35_ghosts_current",
    "C35_calls_recorded",
    "C35_calls_final",
    "C35_no_deadlock",
    "C35_patterns_matching",
    "C35_distributed",
    "C35_evolve_synchronised",
    "C35_evolve_unsynchronised",
    "C35_unsynchronised_refuted"
   ],
   "note": "false as stated: the exchange never waits for its send requests, so without a synchronisation between two calls (two- and three-stage methods, fixed flux timestep) a ghost can receive the values of the next call (refuted with an execution). Proved for every execution in which an Allreduce separates the calls (Euler, or two-stage with ghost layer >= 4), or if the sends were waited for; no deadlock; combined with the patterns of C34. A buffer is filled in one step"
  },
  {
   "property": "C36",
   "status": "partial",
   "theorems": [
    "C36_centroids",
    "C36_vertices_non_smooth",
    "C36_triangles_smooth",
    "C36_nodes_smooth",
    "C36_points_smooth",
    "C36_ghosts_ignored",
    "C36_centroid_quantity",
    "C36_lone_node_refuted",
    "C36_static_as_dynamic_refuted",
    "C36_dispatch_refuted",
    "C36_shared_node_order_refuted"
   ],
   "note": "Proved for every partition of the triangles over files: centroid quantities, non-smooth vertex quantities and smooth triangle tables are written at every global triangle with the owner's value, ghost values have no influence. Smooth node values come from the last file in which the node is a vertex of a full triangle. Refuted in full: nodes in no triangle are never written; a static quantity whose length in the first file equals the number of timesteps makes the merge raise; the smooth/non-smooth dispatch looks only at the first file; shared nodes depend on the file order if processes disagree."
  },
  {
   "property": "C37",
   "status": "partial",
   "theorems": [
    "C37_reordering",
    "C37_raises_iff",
    "C37_reorder_agrees",
    "C37_one_process",
    "C37_one_process_index_refuted"
   ],
   "note": "for every partition vector on two or more processes: contiguous blocks in original order, vertices, quantity rows and boundary tags follow, tri_index inverts, exceptions exactly for empty or out-of-range parts; on one process the data is unchanged but tri_index and the order are empty lists instead of the identity (proved)"
  },
  {
   "property": "C38",
   "status": "proved",
   "theorems": [
    "C38_counts",
    "C38_total",
    "C38_create_bins",
    "C38_relative_refuted"
   ],
   "note": "real arithmetic"
  },
  {
   "property": "C39",
   "status": "proved",
   "theorems": [
    "C39_volume_budget",
    "C39_volume_exact",
    "C39_volume_never_lost",
    "C39_stray_call_refuted"
   ],
   "note": "real arithmetic; forcing terms that change stage are excluded; C39_stray_call_refuted: an extra compute_fluxes call between steps shifts the substeps"
  },
  {
   "property": "C40",
   "status": "proved",
   "theorems": [
    "C40_gradient",
    "C40_gradient2",
    "C40_compute_gradients",
    "C40_extrapolation_exact",
    "C40_extrapolation_conservative",
    "C40_interpolation_roundtrip",
    "C40_degenerate_neighbours_undetected"
   ],
   "note": "real arithmetic; C40_degenerate_neighbours_undetected records that collinear centroids are not reported as an error"
  },
  {
   "property": "C41",
   "status": "partial",
   "theorems": [
    "C41_extrema",
    "C41_location_with_polygon_refuted",
    "C41_empty_polygon_raises"
   ],
   "note": "values are exact; with a monitoring polygon the recorded location can lie outside the polygon, which is proved as a refutation"
  },
  {
   "property": "C42",
   "status": "proved",
   "theorems": [
    "C42_max_stage",
    "C42_max_quantities"
   ],
   "note": ""
  },
  {
   "property": "C43",
   "status": "proved",
   "theorems": [
    "C43_fix_negative_cells"
   ],
   "note": ""
  },
  {
   "property": "C44",
   "status": "proved",
   "theorems": [
    "C44_boundary_enumeration",
    "C44_tag_lists",
    "C44_interior_tag_breaks_symmetry_refuted"
   ],
   "note": "for tag dictionaries that only mention boundary edges; finding: a tag on an interior edge is accepted and makes the neighbour relation asymmetric"
  },
  {
   "property": "C45",
   "status": "proved",
   "theorems": [
    "C45_counts",
    "C45_inverse_index"
   ],
   "note": "for every outcome of the unstable argsort"
  },
  {
   "property": "C46",
   "status": "proved",
   "theorems": [
    "C46_cfl_timestep",
    "C46_later_substeps"
   ],
   "note": ""
  },
  {
   "property": "C47",
   "status": "proved",
   "theorems": [
    "C47_riverwall_entry"
   ],
   "note": ""
  },
  {
   "property": "C48",
   "status": "proved",
   "theorems": [
    "C48_still_water_reconstructed_at_rest",
    "C48_still_water_stays_still",
    "C48_momentum_kept"
   ],
   "note": "real arithmetic; no riverwall edges; velocity extrapolation on"
  },
  {
   "property": "C49",
   "status": "proved",
   "theorems": [
    "C49_setitem_getitem",
    "C49_products",
    "C49_add_scale",
    "C49_from_dense"
   ],
   "note": ""
  },
  {
   "property": "C50",
   "status": "proved",
   "theorems": [
    "C50_add_entry",
    "C50_accumulate",
    "C50_add_sparse_dok"
   ],
   "note": "real arithmetic"
  },
  {
   "property": "C51",
   "status": "proved",
   "theorems": [
    "C51_line_triangle",
    "C51_line_intersect",
    "C51_point_refuted"
   ],
   "note": "real arithmetic; a segment of two equal points meets nothing (C51_point_refuted)"
  },
  {
   "property": "C52",
   "status": "partial",
   "theorems": [
    "C52_crossing",
    "C52_disjoint_refuted",
    "C52_inside_refuted"
   ],
   "note": "false of the code in both directions (proved); what holds: every transversal crossing of a polygon edge with a triangle edge is found"
  },
  {
   "property": "C53",
   "status": "proved",
   "theorems": [
    "C53_linear",
    "C53_unmatched",
    "C53_node"
   ],
   "note": "real arithmetic"
  },
  {
   "property": "C54",
   "status": "proved",
   "theorems": [
    "C54_sigma"
   ],
   "note": "real arithmetic"
  },
  {
   "property": "C55",
   "status": "proved",
   "theorems": [
    "C55_normal_equations",
    "C55_smoothing"
   ],
   "note": "real arithmetic; any interleaving of the parallel critical sections"
  },
  {
   "property": "C56",
   "status": "partial",
   "theorems": [
    "C56_first_fit",
    "C56_batches",
    "C56_second_fit",
    "C56_refuted"
   ],
   "note": "proved for the first fit of an object; false of the code for later ones (C56_second_fit, C56_refuted): the first fit overwrites the smoothing matrix and empties A^T A"
  },
  {
   "property": "C57",
   "status": "partial",
   "theorems": [
    "C57_reconcile",
    "C57_failure_not_atomic_refuted"
   ],
   "note": "everything holds except that a failing call can leave its arguments changed"
  },
  {
   "property": "C58",
   "status": "partial",
   "theorems": [
    "C58_get_Q",
    "C58_centroid_array_refuted"
   ],
   "note": "holds for scalar and functional rates and for arrays over the whole domain; for an array and a proper region other triangles are read (proved)"
  },
  {
   "property": "C59",
   "status": "partial",
   "theorems": [
    "C59_base_segment",
    "C59_transmissive",
    "C59_dirichlet",
    "C59_transmissive_normal_momentum",
    "C30_evaluate_agrees_with_segment",
    "C59_flather_segment",
    "C59_flather_refuted"
   ],
   "note": "holds for all classes but Flather, whose vectorised form imposes the outside stage with zero momentum on every edge with outside stage above the bed (proved)"
  },
  {
   "property": "C60",
   "status": "partial",
   "theorems": [
    "C60_flather_characteristics",
    "C60_lake_at_rest_flather",
    "C60_characteristic_riemann_invariants",
    "C60_lake_at_rest_characteristic",
    "C60_characteristic_stage_and_bed",
    "C60_stage_below_bed_refuted"
   ],
   "note": "real arithmetic; the Characteristic boundary returns a stage below the bed whenever the outside stage is (proved)"
  },
  {
   "property": "C61",
   "status": "partial",
   "theorems": [
    "C61_time_boundary_evaluates",
    "C61_default_boundary",
    "C61_roll_over",
    "C61_roll_over_diverges",
    "C61_time_stage_zero_momentum_refuted"
   ],
   "note": "Time_stage_zero_momentum_boundary raises on every evaluation; rolling over does not terminate when the last time is not positive (both proved)"
  },
  {
   "property": "C62",
   "status": "proved",
   "theorems": [
    "C62_flux_schedule_independent",
    "C62_flux_loop_ends",
    "C62_flux_matches_sequential",
    "C62_flux_conserves_mass"
   ],
   "note": "Interleaving semantics over shared memory, one access at a time; real arithmetic, so the order of the reductions does not matter. Agreement with the sequential kernel for full flux updates; the time step agrees without ghosts; the boundary flux is stored where the sequential kernel adds."
  },
  {
   "property": "C63",
   "status": "partial",
   "theorems": [
    "C63_protect_partial",
    "C63_protect_refuted",
    "C63_fix_negative_cells",
    "C63_dry_momentum_removed",
    "C63_calls_end"
   ],
   "note": "Negative-cell kernel: full agreement in every interleaving. Protection: stage, bed, x momentum and mass error agree in every interleaving; the y momentum is never zeroed because lines 1139-1140 zero xmom twice (refuted). The first loop of the reconstruction removes it later, so dry cells keep no momentum after a reconstruction."
  },
  {
   "property": "C64",
   "status": "partial",
   "theorems": [
    "C64_flat_any_interleaving_partial",
    "C64_sloped_any_interleaving_partial",
    "C64_friction_decelerates",
    "C64_one_thread",
    "C64_flat_refuted",
    "C64_sloped_refuted"
   ],
   "note": "false as stated: abs_mom (and the vertex scratch variables of the sloped kernel) are shared between the threads, so a cell can use the momentum of another cell (refuted with executions). Proved: with one thread the result is the sequential one; in every interleaving each cell is updated once with some scratch values seen, and the update never accelerates."
  },
  {
   "property": "C65",
   "status": "partial",
   "theorems": [
    "C65_any_interleaving_partial",
    "C65_matches_sequential",
    "C65_default_parameters",
    "C65_interleaving_refuted"
   ],
   "note": "false as stated: the second loop zeroes the velocity of a surrounded triangle while its neighbours may read it, and with positive beta_*_dry the edge values depend on the order (refuted on a four-triangle mesh). Proved in every interleaving: edge values lie in the family obtained by removing some of the velocities; equal to the sequential result if no removed velocity is visible, and always with the default beta_uh_dry = beta_vh_dry = 0, up to 4e-100 relative to the edge height on triangles with two boundaries."
  },
  {
   "property": "C66",
   "status": "partial",
   "theorems": [
    "C66_quicksort",
    "C66_operator",
    "C66_columns",
    "C66_symmetric",
    "C66_dissipation",
    "C66_dry_refuted"
   ],
   "note": "operator values, sorted rows, sort correctness and dissipation hold for every sound mesh; symmetry holds when every triangle is wet and is false beside a dry triangle, whose row is zeroed while the neighbour keeps its entry (refuted)"
  },
  {
   "property": "C67",
   "status": "partial",
   "theorems": [
    "C67_operator",
    "C67_positive_definite_partial",
    "C67_converges_partial",
    "C67_residual",
    "C67_maximum_principle_partial",
    "C67_sign",
    "C67_energy_partial",
    "C67_uniform",
    "C67_momentum",
    "C67_call_partial",
    "C67_areas_refuted"
   ],
   "note": "false as stated with the default use_triangle_areas=True: the velocities are divided by the areas before the multiplication and the boundary term after it, so a uniform flow over triangles of different areas is not a solution and the operator is not symmetric (refuted, with the exact defect). Proved without the scaling (or with equal areas): positive definite, convergence, maximum principle, energy. Any converged result has a small residual, and signs are kept, with or without the scaling."
  },
  {
   "property": "C68",
   "status": "partial",
   "theorems": [
    "C68_box",
    "C68_pipe",
    "C68_weir",
    "C68_routine",
    "C68_downhill",
    "C68_smoothing",
    "C68_box_sound",
    "C68_pipe_sound",
    "C68_weir_routine",
    "C68_initial_sign_refuted",
    "C68_box_losses_refuted"
   ],
   "note": "over the reals. Bounds, definedness, the velocity limit and the end of the Newton loops hold for every culvert with positive sizes and a positive total loss; without smoothing the flow goes downhill. False as stated in two ways: with smoothing the constructor stores the absolute value of the first difference, so the first calls move water uphill if the second inlet is the higher (refuted); and where the difference in energy is at least the driving energy the box and weir ignore the losses (refuted for the box)."
  },
  {
   "property": "C69",
   "status": "partial",
   "theorems": [
    "C69_box_inlet",
    "C69_pipe_inlet",
    "C69_weir_inlet",
    "C69_weir_section",
    "C69_box_dcrit",
    "C69_pipe_dcrit_refuted",
    "C69_pipe_dcrit_corrected"
   ],
   "note": "inlet flows and the weir equation are similar exactly, the box critical depth up to its exponent 0.999999; the critical depth of the pipe is not (refuted): the code multiplies by D**2.5 where the formula divides; with the division it is."
  },
  {
   "property": "C70",
   "status": "partial",
   "theorems": [
    "C70_interpolates",
    "C70_outside",
    "C70_history",
    "C70_stored",
    "C70_bounds",
    "C70_repeated_refuted",
    "C70_missing",
    "C70_missing_refuted",
    "C70_thinned",
    "C70_thin_series_refuted"
   ],
   "note": "After any history of calls the result is the piecewise linear interpolant, with exceptions exactly outside the interval and no index error. Refuted parts: the constructor admits repeated times, and there the answer depends on earlier calls (C70_repeated_refuted); a missing value followed by a present one gives a not-a-number that the missing-data check of File_boundary does not see (C70_missing_refuted); for series without space only the times are thinned, so kept times get the values of others (C70_thin_series_refuted)."
  },
  {
   "property": "C71",
   "status": "partial",
   "theorems": [
    "C71_start",
    "C71_relative",
    "C71_absolute",
    "C71_served",
    "C71_boundary",
    "C71_boundary_partial",
    "C71_boundary_start_refuted",
    "C71_boundary_covered_refuted",
    "C71_limit",
    "C71_limit_refuted"
   ],
   "note": "The function itself is right when called with times relative to the domain start (C71_relative). File_boundary calls it with absolute time, so the start time counts twice: right for start time zero (C71_boundary_partial), wrong at every time for any other (C71_boundary_start_refuted). With absolute times the function is right if the file starts no earlier than the domain; its time limit is then wrong by the start time (C71_limit_refuted)."
  },
  {
   "property": "C72",
   "status": "partial",
   "theorems": [
    "C72_values",
    "C72_depth",
    "C72_append",
    "C72_overwrite",
    "C72_past",
    "C72_run",
    "C72_restart",
    "C72_range",
    "C72_range_refuted",
    "C72_split_frames",
    "C72_split_ends",
    "C72_split_origin_refuted",
    "C72_origin_partial",
    "C72_time_interp",
    "C72_between",
    "C72_readback",
    "C72_roundtrip"
   ],
   "note": "Everything except: the range is not recomputed when a frame is replaced (C72_range_refuted), and a file made by splitting gets the absolute split time as start while its times still count from the original start, so its frames appear late by the split time (C72_split_origin_refuted). Rounding to single precision is not modelled."
  },
  {
   "property": "C73",
   "status": "partial",
   "theorems": [
    "C73_closed_basin",
    "C73_protection_adds",
    "C73_no_exception",
    "C73_riverwall_refuted"
   ],
   "note": "Holds for every closed basin without riverwalls on boundary edges. Refuted for a boundary edge flagged as riverwall: there the weir formula replaces the boundary condition and water enters where the bed is higher at the edge than at the centroid (C73_riverwall_refuted)."
  },
  {
   "property": "C74",
   "status": "proved",
   "theorems": [
    "C74_lake_with_shores"
   ],
   "note": "For complete steps in exact arithmetic, with the default limiter settings near dry land. In triangles with two boundary edges the differences to the neighbour must be zero or above the cut-off 1e-100 of the limiter."
  },
  {
   "property": "C75",
   "status": "proved",
   "theorems": [
    "C75_depth_nonnegative",
    "C75_euler_repairs"
   ],
   "note": "For complete steps in exact arithmetic; the combination of substeps is covered."
  },
  {
   "property": "C77",
   "status": "partial",
   "theorems": [
    "C77_gradient_refuted",
    "C77_constant"
   ],
   "note": "Refuted as stated: the limiter always removes the gradient, since the neighbour is on one side and some edge midpoint lies on the other; the reconstruction is constant up to 2e-100. What holds is that no new extremum appears (C11)."
  },
  {
   "property": "C76",
   "status": "partial",
   "theorems": [
    "C76_outflow",
    "C76_small_steps",
    "C76_inscribed_circle",
    "C76_reconstruction",
    "C76_default_radius_refuted"
   ],
   "note": "Outflow bound and positivity of small steps hold, and the reconstruction provides what they assume. With the radius of the inscribed circle and a CFL number up to 1/3 the time step of the code is small enough. Refuted for the default radius (distance from centroid to the nearest edge midpoint): for every CFL number there is a right triangle on which the step gives a negative depth."
  },
  {
   "property": "C78",
   "status": "proved",
   "theorems": [
    "C78_distributed_run",
    "C78_every_value",
    "C78_dry_limiter_refuted"
   ],
   "note": "In exact arithmetic. Fluxes of an edge do not depend on which side computes them, so the numbering of triangles does not matter. With the nonzero dry limiters of the algorithms DE0_7 and DE1_7 two layers of ghosts do not suffice (C78_dry_limiter_refuted gives a state)."
  },
  {
   "property": "C79",
   "status": "proved",
   "theorems": [
    "C79_local_meshes_are_parts",
    "C79_every_triangle_once",
    "C79_one_process_map_refuted",
    "C79_received_map_refuted"
   ],
   "note": "For two or more processes, as stated. Findings outside the statement: with one process tri_l2g is the empty list (C79_one_process_map_refuted); rec_submesh, unlike extract_submesh, leaves tri_l2g in the numbering after the division (C79_received_map_refuted)."
  },
  {
   "property": "C80",
   "status": "proved",
   "theorems": [
    "C80_distributed_domain"
   ],
   "note": "In exact arithmetic, for domains that use the default radii; centroid values are the means of the vertex values that are distributed. Composition of C78 and C79 through the arrays that the domain constructor computes from a mesh. use_inscribed_circle is not passed to the parallel domain, so with that option the radii, and with them the time steps, differ."
  },
  {
   "property": "C81",
   "status": "partial",
   "theorems": [
    "C81_distribution_of_settings_partial",
    "C81_settings_kept_partial",
    "C81_other_settings_ignored",
    "C81_boundary_conditions_lost",
    "C81_process_names",
    "C81_dump_and_load",
    "C81_settings_lost_refuted",
    "C81_one_process_refuted",
    "C81_extra_quantity_refuted"
   ],
   "note": "False as stated: the ten settings listed first are kept and the file names differ, but every other setting (CFL number, limiters, time stepping method, gravity, maximum speed, operators, start time ...) is that of a new domain with the same algorithm, whatever it was before (C81_other_settings_ignored, C81_settings_lost_refuted), and all boundary conditions are replaced by None, also on the original domain (C81_boundary_conditions_lost; for a dump by one process C81_one_process_refuted). A dump of a domain with a quantity outside the standard ones cannot be loaded (C81_extra_quantity_refuted). If nothing but the handed-over settings had been changed, all settings survive apart from names, H0 (which the DE kernels do not use) and the boundary map (C81_settings_kept_partial)."
  },
  {
   "property": "C82",
   "status": "partial",
   "theorems": [
    "C82_edge_limiter",
    "C82_vertex_limiter",
    "C82_linear_stays_linear",
    "C82_mean_is_centroid",
    "C82_inactive_in_range",
    "C82_idempotent",
    "C82_fused_routine",
    "C82_second_order_reconstruction",
    "C82_limit_by_own_neighbour",
    "C82_limit_by_true_neighbour",
    "C82_old_limiter",
    "C82_bound_below",
    "C82_bound_below_constant",
    "C82_frame",
    "C82_vertices_leave_range_refuted",
    "C82_beta_above_one_refuted",
    "C82_gradient_left_alone_refuted",
    "C82_bound_below_breaks_vertex_refuted",
    "C82_bound_above_centroid_refuted",
    "C82_combined_routines_raise_refuted"
   ],
   "note": "In exact arithmetic. Everything holds for limiter parameters between 0 and 1, for the values that the routine limits. False as stated: with beta > 1 (values up to 2 are accepted) the range is left; the edge limiters do not bound the vertex values; two routines leave the gradient unscaled; the bounding routines fail if the centroid value is below one of the three bounds and may then push a vertex below a bound it respected; extrapolate_second_order_and_limit_by_edge and _by_vertex read an attribute that a quantity does not have, so second-order advection always raises."
  },
  {
   "property": "C83",
   "status": "partial",
   "theorems": [
    "C83_conservation",
    "C83_constant_state",
    "C83_timestep",
    "C83_python_version",
    "C83_maximum_principle_partial",
    "C83_timestep_independent",
    "C83_constructor_meshes",
    "C83_maximum_principle_inscribed_partial",
    "C83_default_radii_refuted"
   ],
   "note": "Conservation, constant states, the time step and agreement of the Python and C versions are proved in full. The maximum principle is proved for Euler, RK2 and RK3 and any number of steps when radius times perimeter is at most twice the area, which holds for inscribed circles. It fails with the default radii (distance from centroid to nearest edge midpoint): a thin triangle with data in [0,1] gets a value of -1 or less from the returned step. Second order runs are not covered: the advection domain raises in the extrapolation call (C82)."
  },
  {
   "property": "C84",
   "status": "partial",
   "theorems": [
    "C84_agrees_with_sequential",
    "C84_volume_added",
    "C84_reported_volume_refuted",
    "C84_assertion_blocks"
   ],
   "note": "Termination in every interleaving with buffered and with waiting sends, agreement with the sequential operator on every triangle, and the volume added are proved for all divisions of the inlet (stages below the largest float32, time step positive). Two parts of the text are refuted: every process books the whole volume, so the reported fractional step volume integral grows by the number of processes times the volume; and if the water volume of the inlet is negative the assertion of the master leaves all other processes waiting for ever."
  },
  {
   "property": "C85",
   "status": "partial",
   "theorems": [
    "C85_agrees_with_sequential",
    "C85_conservation",
    "C85_box_smoothing",
    "C85_weir_smoothing",
    "C85_weir_formula",
    "C85_region_without_apron",
    "C85_force_elevation",
    "C85_region_refuted",
    "C85_constant_elevation_refuted"
   ],
   "note": "The call: termination in every interleaving with buffered and with waiting sends, agreement with the sequential operator on every triangle, accounts, and conservation are proved for all divisions (open culvert; outward vectors of the two versions equal). The constructor part is refuted twice: with an apron the sequential operator exchanges water over a polygon and the parallel one over the line, and force_constant_inlet_elevations sets the average over the inlet only on the master, the other processes use the average of their own part."
  },
  {
   "property": "C86",
   "status": "partial",
   "theorems": [
    "C86_allocation",
    "C86_factory",
    "C86_has_point",
    "C86_same_points",
    "C86_nothing_found_refuted",
    "C86_enquiry_point_lost_refuted",
    "C86_enquiry_on_interface_refuted",
    "C86_other_callers_wait_refuted",
    "C86_four_points_refuted"
   ],
   "note": "Agreement, composition of the group, its master and the assumptions of C85 are proved for all divisions and schedules when some process has a part of the line and each enquiry point belongs to exactly one process. The rest is refuted: if nothing is found, if the enquiry point is lost, or if it lies on an edge between triangles of two processes, the master raises and all others wait for ever; so does every caller outside the list procs; and for four-point exchange lines given together with end points the operator uses other enquiry points than the allocation."
  },
  {
   "property": "C87",
   "status": "partial",
   "theorems": [
    "C87_depth_kept",
    "C87_volume_kept",
    "C87_outside_untouched",
    "C87_continuity_kept",
    "C87_consistent",
    "C87_values_set",
    "C87_whole_domain_values",
    "C87_shear_lowers",
    "C87_no_flow_no_erosion",
    "C87_slice",
    "C87_fill",
    "C87_dune",
    "C87_dune_default_refuted",
    "C87_region_size_refuted",
    "C87_bed_lifted_refuted",
    "C87_triangles_mixed_refuted",
    "C87_whole_domain_refuted",
    "C87_slice_below_base_refuted",
    "C87_value_forgotten_refuted"
   ],
   "note": "Depth, frame, continuity and given values proved for all operators; erosion bounds proved for the bed shear and sand dune operators. Refuted: Erosion_operator raises unless the region has one or three triangles, mixes the erosion of three triangles, and lifts the bed to its highest vertex; no operator erodes the whole domain; slicing ignores the base level; the sand dune operator fails with its default base; Set_elevation on the whole domain with continuous elevation and centroid averaging forgets the given values."
  },
  {
   "property": "C88",
   "status": "partial",
   "theorems": [
    "C88_segments",
    "C88_length",
    "C88_flow_exact",
    "C88_uniform_flow",
    "C88_closed",
    "C88_energy",
    "C88_inside_refuted",
    "C88_refinement_refuted",
    "C88_vertex_refuted"
   ],
   "note": "real arithmetic, for lines whose position relative to each edge is not within the tolerances of intersection; everything holds unless both ends of a piece are strictly inside one triangle, when the piece is lost (C88_inside_refuted, C88_refinement_refuted); in binary64 the assertion does fail for a line through a vertex of a regular mesh (C88_vertex_refuted)"
  },
  {
   "property": "C89",
   "status": "partial",
   "theorems": [
    "C89_grid",
    "C89_array",
    "C89_function",
    "C89_blocks",
    "C89_read_back",
    "C89_round_trip",
    "C89_corner_refuted",
    "C89_decimals_refuted",
    "C89_array_coordinates_refuted",
    "C89_output_name_refuted"
   ],
   "note": "real arithmetic; the sampling is proved in full, and the way back through the files for corners in whole metres and NODATA values that survive printing. Refuted: the corner is written with %d, which displaces all points by its fraction; with two decimals -9999 is printed as -1.00e+04 and read back as data; save_to_array returns k*cell-xmin instead of k*cell+xmin; dem2pts raises NameError when given a name for its output."
  },
  {
   "property": "C90",
   "status": "partial",
   "theorems": [
    "C90_centroids",
    "C90_vertices",
    "C90_nodes",
    "C90_possible",
    "C90_read_centroids",
    "C90_read_vertices",
    "C90_read_nodes",
    "C90_linear",
    "C90_maximum",
    "C90_integral",
    "C90_arithmetic",
    "C90_nodes_constant_refuted",
    "C90_elsewhere_refuted",
    "C90_subset_refuted",
    "C90_quantity_location_refuted",
    "C90_array_indices_refuted",
    "C90_raster_indices_refuted",
    "C90_sum_refuted",
    "C90_integral_refuted",
    "C90_discontinuous_refuted"
   ],
   "note": "real arithmetic. What is set, what stays and when set_values succeeds is proved for every kind of source and every location. Refuted: a constant at all unique vertices sets nothing; setting centroids of some triangles flattens the others, setting vertices of some overwrites the centroid values of the others; quantities and fitted data cannot be restricted to some triangles; for arrays and rasters at vertices the indices are not triangle numbers; sums and domain.add_quantity drop centroid values that are not means of vertex values; integrals over a region that is the whole domain raise; with discontinuous elevation node values read back are centroid means."
  },
  {
   "property": "C91",
   "status": "partial",
   "theorems": [
    "C91_edges",
    "C91_entries",
    "C91_parameters",
    "C91_unknown",
    "C91_both_sides",
    "C91_whole_wall",
    "C91_path_accepted",
    "C91_gap",
    "C91_second_call_refuted",
    "C91_quiet_refuted",
    "C91_lengths_refuted",
    "C91_crossing_refuted",
    "C91_refused_refuted",
    "C91_defaults_refuted",
    "C91_roundoff_refuted",
    "C91_boundary_gap_refuted"
   ],
   "note": "real arithmetic; placement, elevations, numbering, parameters and agreement of both sides are proved for every first call. Refuted: a second call leaves the old edges marked with row -1 of the parameter table (read out of bounds by the flux kernels); gaps are not reported unless verbose, nor when the outer ends are on the boundary; coordinates with too few values are not noticed; edges that cross the wall at their midpoint are marked; a refused call leaves edges marked and its defaults in force; in binary64 an edge 5 km along a straight wall is not found with the default tolerance."
  },
  {
   "property": "C92",
   "status": "partial",
   "theorems": [
    "C92_circle",
    "C92_polygon",
    "C92_expand_covers",
    "C92_line",
    "C92_other",
    "C92_full",
    "C92_parallel",
    "C92_radius_refuted",
    "C92_polyline_refuted",
    "C92_poly_refuted"
   ],
   "note": "circles, polygons, two-point lines, numbers, ghosts and distribution are proved; that expand_polygon takes every triangle that touches the polygon is proved for triangular polygons. Refuted: a centre without a radius gives the whole domain instead of an error; only the first segment of a polyline counts; a poly of one point is read beyond its end, and poly beside indices is ignored."
  },
  {
   "property": "C93",
   "status": "partial",
   "theorems": [
    "C93_inflow",
    "C93_inflow_everywhere",
    "C93_rainfall",
    "C93_default",
    "C93_order",
    "C93_values",
    "C93_set_values_refuted",
    "C93_default_inflow_refuted",
    "C93_hole_refuted",
    "C93_parallel_refuted",
    "C93_drain_refuted",
    "C93_none_refuted"
   ],
   "note": "proved for described places (circle, polygon) and for rain; an inflow without a place is shown to arrive in the proportion mesh area / boundary polygon area. Refuted: with holes part of the inflow is lost; on several processes the inflow over the whole domain is applied by each; the default rate of an inflow is not divided by the area; a negative rate drains dry places; set_quantity_values ignores the quantity asked for; rate None is not handled as documented."
  },
  {
   "property": "C94",
   "status": "partial",
   "theorems": [
    "C94_wind",
    "C94_pressure",
    "C94_forward",
    "C94_end",
    "C94_pressure_sign_refuted",
    "C94_density_refuted",
    "C94_rk3_refuted",
    "C94_last_interval_refuted",
    "C94_angle_refuted",
    "C94_create_refuted"
   ],
   "note": "wind stress, exact gradient, interpolation for calls at times that do not go back, and the error after the end are proved. Refuted: the pressure force has the wrong sign (and the documented unit hPa is not converted); the density of air is given in other units than that of water; with rk3 the time goes back and values are extrapolated from the wrong interval; a start in the last interval is refused; directions are interpolated through 180 degrees; several documented ways of creating the objects fail."
  },
  {
   "property": "C95",
   "status": "partial",
   "theorems": [
    "C95_start",
    "C95_closed",
    "C95_whole",
    "C95_encloses",
    "C95_hole_refuted",
    "C95_touch_refuted",
    "C95_close_refuted"
   ],
   "note": "for meshes whose boundary is connected and does not touch itself, the polygon runs once through all boundary segments, has the area of all triangles, winds around every point of a triangle and around no point outside; with touching points it is a closed chain if the continuations differ and no two boundary points are within the tolerance of allclose. Refuted: a hole close to the lower left corner is returned instead of the outer boundary; a touching point as the start leaves out a part of the mesh; in absolute coordinates a touching point within metres of the start ends the walk."
  },
  {
   "property": "C96",
   "status": "partial",
   "theorems": [
    "C96_explicit",
    "C96_bounds",
    "C96_converges",
    "C96_implicit",
    "C96_pump",
    "C96_rest",
    "C96_between",
    "C96_reversed",
    "C96_closed_refuted",
    "C96_headwater_refuted",
    "C96_direction_refuted",
    "C96_parallel_refuted",
    "C96_free_refuted"
   ],
   "note": "proved: the explicit discharge, its bounds with smoothing, convergence, the implicit routine with a solved equation, pumps and rating curves; refuted: the sequential implicit (default) routine lets water through a closed structure, with smoothing the headwater passed is not the stage at enquiry point 0, the first smoothed discharge loses its direction, sequential and parallel start differently, rating curves below the first tailwater give flow between equal levels"
  },
  {
   "property": "C97",
   "status": "proved",
   "theorems": [
    "C97_blocking",
    "C97_sendrecv",
    "C97_same",
    "C97_symmetric",
    "C97_no_ghost_sent",
    "C97_distributed"
   ],
   "note": "for arbitrary matching patterns and for every distributed mesh; the exchange in use (non-blocking) is C35"
  },
  {
   "property": "C98",
   "status": "partial",
   "theorems": [
    "C98_mesh",
    "C98_full",
    "C98_ghosts",
    "C98_seamless",
    "C98_cut",
    "C98_conserved",
    "C98_both",
    "C98_left_right",
    "C98_parallel_partial",
    "C98_narrow_refuted",
    "C98_description_refuted",
    "C98_balance_refuted"
   ],
   "note": "proved for rectangular_periodic of mesh_factory.py and, with at least three cells across, for the dictionaries of parallel_meshes.py; the matching of the lists of parallel_rectangle is proved for any balance function cutting the columns into consecutive parts. Refuted: parallel_rectangle calls a balance function that parallel_abstraction does not define; with two columns a ghost is its own source and with one the source is a negative number; the mesh does not have the number of points and the side lengths that the description promises"
  },
  {
   "property": "C99",
   "status": "partial",
   "theorems": [
    "C99_outline",
    "C99_regions",
    "C99_out_of_range",
    "C99_points",
    "C99_markers",
    "C99_region_markers",
    "C99_dictionary",
    "C99_tags",
    "C99_omitted_refuted",
    "C99_inside_refuted",
    "C99_distance_refuted",
    "C99_endless_refuted",
    "C99_closed_refuted"
   ],
   "note": "proved for all requests, with Triangle as a relation (its contract is written out); refuted: a segment without a tag gives only a warning, and negative numbers a wrong warning; only the vertices of interior polygons are tested; the inner point is not within sqrt(2) delta; the search for it has no end for a polygon of two points; a polygon that repeats its first point gives the generator a segment of length zero"
  },
  {
   "property": "C100",
   "status": "partial",
   "theorems": [
    "C100_loops",
    "C100_dot",
    "C100_solver",
    "C100_runs",
    "C100_matrix",
    "C100_jacobi",
    "C100_bitwise_refuted"
   ],
   "note": "proved in exact arithmetic for all executions; refuted: equality bit by bit, since the order of a reduction changes the binary64 sum"
  },
  {
   "property": "C101",
   "status": "partial",
   "theorems": [
    "C101_georeference",
    "C101_sample",
    "C101_clip",
    "C101_split",
    "C101_sum",
    "C101_sum_defined",
    "C101_sum_none",
    "C101_pts",
    "C101_pts_blocks",
    "C101_csv",
    "C101_csv_blocks",
    "C101_outside_refuted",
    "C101_zone_refuted",
    "C101_split_refuted",
    "C101_last_point_refuted",
    "C101_sum_refuted",
    "C101_no_end_refuted",
    "C101_blank_refuted",
    "C101_comment_refuted",
    "C101_construct_refuted"
   ],
   "note": "proved: rows and values stay together in all these operations; refuted: clip_outside raises if no point is outside, samples lose the zone, split raises for some draws (and never draws the last point alone), a sum drops attributes of the second operand only, blocks of no lines never end, a field of blanks shifts a column, a comment without a comma ends the reading, the constructor accepts columns of any length and no tuple as georeference"
  },
  {
   "property": "C102",
   "status": "partial",
   "theorems": [
    "C102_round_trip",
    "C102_stored",
    "C102_missing",
    "C102_triangulation",
    "C102_format",
    "C102_titles_refuted",
    "C102_unreadable_refuted",
    "C102_lost_refuted"
   ],
   "note": "proved at the level of characters for all complete meshes; refuted: with attributes but no titles the header of the triangles is read as a title and triangles vanish silently, titles without attributes or a newline in a tag give an unreadable file, blanks around tags and the hemisphere are lost"
  },
  {
   "property": "C103",
   "status": "partial",
   "theorems": [
    "C103_dem2array",
    "C103_grd2array",
    "C103_tif2array",
    "C103_values",
    "C103_dem2dem",
    "C103_plane",
    "C103_shift_refuted",
    "C103_rows_refuted",
    "C103_drift_refuted",
    "C103_fraction_refuted",
    "C103_name_refuted",
    "C103_nodata_refuted",
    "C103_center_refuted",
    "C103_one_row_refuted",
    "C103_tif_refuted"
   ],
   "note": "proved: the readers place every value as dem2pts does and agree with each other, values of quantities are exact for bilinear surfaces, and dem2dem forms the weighted means of complete blocks; refuted: the new grid is always half an old cell away from the middles of the blocks, further if rows are left over or cell sizes are no multiples; cell sizes below 1, a name for the output, fractional NODATA values and single rows fail; corner and centre of a cell are taken for the same, also in pictures"
  },
  {
   "property": "C104",
   "status": "proved",
   "theorems": [
    "C104_values",
    "C104_defined",
    "C104_defined_region",
    "C104_nearest"
   ],
   "note": "real arithmetic; callables act point by point, polygons are lists of vertices, the k-d tree is any query that returns the k nearest points"
  },
  {
   "property": "C105",
   "status": "partial",
   "theorems": [
    "C105_values_partial",
    "C105_constants_partial",
    "C105_alias_refuted",
    "C105_integers_refuted",
    "C105_empty_refuted"
   ],
   "note": "proved for defaults that are numbers or make arrays of floats, and for constants on all regions; refuted: a default function that returns x itself lets later region functions see changed coordinates, one that makes integers cuts off the values of the regions, no points or no regions raise"
  },
  {
   "property": "C106",
   "status": "partial",
   "theorems": [
    "C106_quantity_partial",
    "C106_stage_partial",
    "C106_depth_partial",
    "C106_triple_partial",
    "C106_friction_partial",
    "C106_mannings_partial",
    "C106_mannings_rest",
    "C106_nothing",
    "C106_below_bed_refuted",
    "C106_ignored_refuted",
    "C106_friction_empty_refuted",
    "C106_friction_integer_refuted",
    "C106_place_refuted",
    "C106_polygonal_refuted"
   ],
   "note": "proved for sources that give one number or one value per triangle, for Set_stage against negative depths, and for Manning in full; refuted: the stage operator and the (w,uh,vh) operator put stage below the bed, wrongly sized results are ignored, friction fails on an empty region and is cut to integers after an integer first value, functions of place fail in the (w,uh,vh) operator, the polygonal operator cannot be built"
  },
  {
   "property": "C107",
   "status": "partial",
   "theorems": [
    "C107_runup_partial",
    "C107_dry_partial",
    "C107_ends_partial",
    "C107_domain_partial",
    "C107_empty_polygon",
    "C107_dries_refuted",
    "C107_first_point_refuted",
    "C107_first_time_refuted",
    "C107_nodes_refuted",
    "C107_domain_indices_refuted"
   ],
   "note": "proved when at each time some other point than the first one is wet whenever any is, the region stays wet once wet, and for the whole domain; refuted: a region that dries again raises, water at the first point only is called dry, an interval with the first time only is refused, nodes are mixed with centroid values, positions in a list of triangles are taken for triangles"
  },
  {
   "property": "C108",
   "status": "partial",
   "theorems": [
    "C108_report",
    "C108_direction",
    "C108_inflow_partial",
    "C108_two_tags_refuted",
    "C108_parallel_refuted",
    "C108_depth_refuted"
   ],
   "note": "the report is proved in full; the rate is proved for one tag on one process; refuted: one object for two tags lets in more, each process lets in the whole rate, the depth is always 1"
  },
  {
   "property": "C109",
   "status": "partial",
   "theorems": [
    "C109_volume_partial",
    "C109_exchange",
    "C109_lines",
    "C109_balance_partial",
    "C109_late_refuted",
    "C109_stale_refuted",
    "C109_below_bed_refuted"
   ],
   "note": "the exchange between processes is proved in full; the volume is proved when the height (or the mean of the vertex values) is up to date and each triangle is full on one process; the line is 0 exactly when the first report precedes any inflow and the volumes balance; refuted: a late first report, a stage set after evolve is called, a stage below the bed"
  },
  {
   "property": "C110",
   "status": "partial",
   "theorems": [
    "C110_set_partial",
    "C110_add_partial",
    "C110_average_partial",
    "C110_quantities_partial",
    "C110_nodes_partial",
    "C110_unknown",
    "C110_order",
    "C110_function_refuted",
    "C110_tags",
    "C110_spread_refuted"
   ],
   "note": "proved at vertices and centroids, and for constants at nodes; a tag that no triangle has is ignored; refuted: setting nodes changes triangles without the tag, adding 0 at nodes changes values that jump, a function at nodes raises; values at the other location on triangles without the tag are recomputed (see C90_elsewhere_refuted)"
  },
  {
   "property": "C111",
   "status": "partial",
   "theorems": [
    "C111_degrees_partial",
    "C111_degrees_refuted",
    "C111_zone_partial",
    "C111_wrap_refuted",
    "C111_no_zone_refuted",
    "C111_symmetry",
    "C111_meridian",
    "C111_any_meridian",
    "C111_points_partial",
    "C111_hemispheres_refuted"
   ],
   "note": "symmetry and meridian are proved in full; the zone from 180 west to (not with) 180 east; refuted: the sign of angles between -1 and 0 is lost, from 180 east on the longitude is at least 357 degrees from the meridian, some longitudes pass as zone -1, points on both sides of the equator get different false northings"
  },
  {
   "property": "C112",
   "status": "partial",
   "theorems": [
    "C112_zone_partial",
    "C112_west_refuted",
    "C112_same_zone_partial",
    "C112_same_zone_refuted",
    "C112_equator",
    "C112_meridian_partial",
    "C112_mirror",
    "C112_back",
    "C112_letter"
   ],
   "note": "the zone is proved from 180 west eastwards, the symmetries below the wider zones, the way back on the meridian (the latitude on the equator); refuted: from 186 west on westwards the zone is 0 or less, since int truncates towards 0; in south-west Norway redfearn has another zone"
  },
  {
   "property": "C113",
   "status": "partial",
   "theorems": [
    "C113_cov",
    "C113_variance",
    "C113_corr",
    "C113_line",
    "C113_lengths",
    "C113_error",
    "C113_max_error",
    "C113_relative_partial",
    "C113_relative_refuted"
   ],
   "note": "covariance, correlation and absolute errors are proved; corr does not raise for different lengths if one vector is constant, it gives 0; refuted: relative errors to a reference that is 0, or in the two norm to an omitted one, are infinite or not a number, since numpy division does not raise"
  },
  {
   "property": "C114",
   "status": "partial",
   "theorems": [
    "C114_calendar",
    "C114_formats",
    "C114_order",
    "C114_dates",
    "C114_no_time_refuted",
    "C114_separator_refuted"
   ],
   "note": "proved for all valid times and formats, and dates that do not exist are refused; refuted: strings that are not times are not refused, without digits they are the start of 1970, and 20120229T1210 is read as 21 minutes past midnight"
  },
  {
   "property": "C115",
   "status": "partial",
   "theorems": [
    "C115_read",
    "C115_merge",
    "C115_back_partial",
    "C115_back_refuted"
   ],
   "note": "reading and the condition of merging are proved in full; reading back for titles that differ and have no blanks around them; refuted: of columns with equal titles the second is lost"
  },
  {
   "property": "C116",
   "status": "partial",
   "theorems": [
    "C116_type_partial",
    "C116_values",
    "C116_range_refuted",
    "C116_inside_refuted",
    "C116_evaluate",
    "C116_sides"
   ],
   "note": "the evaluation is proved in full; the type for functions that give a value or a ValueError on the test arguments, or of time alone that are out of range; refuted: a function of place and time out of range at time 0 raises, and a TypeError inside a function passes as a wrong number of arguments"
  },
  {
   "property": "C117",
   "status": "proved",
   "theorems": [
    "C117_l1",
    "C117_l2",
    "C117_linf",
    "C117_values",
    "C117_order"
   ],
   "note": "in real arithmetic, for vectors given as lists"
  },
  {
   "property": "C118",
   "status": "partial",
   "theorems": [
    "C118_longitudes",
    "C118_latitudes",
    "C118_descending",
    "C118_whole",
    "C118_order",
    "C118_beyond"
   ],
   "note": "partial: the order is tested exactly, where the code compares with allclose; the descending case is for a lower bound not above the upper one"
  },
  {
   "property": "C119",
   "status": "proved",
   "theorems": [
    "C119_least",
    "C119_refused",
    "C119_on",
    "C119_direction",
    "C119_nearest",
    "C119_exists"
   ],
   "note": "in real arithmetic; the corrections of round-off are modelled and shown not to act"
  },
  {
   "property": "C120",
   "status": "partial",
   "theorems": [
    "C120_part",
    "C120_corners",
    "C120_at_least",
    "C120_count",
    "C120_extrema_refuted"
   ],
   "note": "partial: the extrema are not preserved (refuted on a diamond; a comment in the code says as much); the other parts are proved"
  },
  {
   "property": "C121",
   "status": "proved",
   "theorems": [
    "C121_rotation",
    "C121_isometry",
    "C121_centroid",
    "C121_distance",
    "C121_depth"
   ],
   "note": "in real arithmetic with the exact sine, cosine and PI"
  }
 ]
}