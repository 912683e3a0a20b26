{"id": "C01", "title": "evolve() yields exactly at the requested times", "statement": "Iterating domain.evolve(yieldstep, finaltime) (yieldstep > 0, finaltime later than the current time) hands control back first at the start time, then, in increasing order, at start+yieldstep, start+2*yieldstep, ... for every such time before finaltime, and finally once at finaltime; model time never passes a yield time or finaltime, and no other times are yielded. (Exact arithmetic; times closer than 1e-12 to finaltime count as finaltime.)", "quantifier": "every start time, yieldstep, finaltime and every sequence of positive flux timesteps the physics may produce", "why_tests_cant": "the sequence of internal timesteps is decided by the flow and is unbounded; tests fix one flow", "anchors": ["anuga/abstract_2d_finite_volumes/generic_domain.py:_evolve_base", "anuga/abstract_2d_finite_volumes/generic_domain.py:update_timestep"]}
{"id": "C02", "title": "evolve() terminates without spurious time errors in floating point", "statement": "Because each step is clipped to finaltime, evolve() never raises its own 'Model time overshot finaltime' error, whatever the (double precision) current time and finaltime are.", "quantifier": "every pair of IEEE double current time / finaltime with finaltime > current time", "why_tests_cant": "failure needs particular bit patterns of the two times that a test suite does not hit", "anchors": ["anuga/abstract_2d_finite_volumes/generic_domain.py:_evolve_base", "anuga/abstract_2d_finite_volumes/generic_domain.py:update_timestep"]}
{"id": "C03", "title": "Timestep selection respects CFL, the user's maximum and the small-step guard", "statement": "Every timestep taken is positive and at most min(CFL*flux_timestep, evolve_max_timestep); it is never larger than the distance to the next yield time and to finaltime; evolve raises the 'too small timestep' error only after max_smallsteps consecutive steps not larger than evolve_min_timestep with first order fallback already active, and a larger step resets the counter.", "quantifier": "every history of flux timesteps, every CFL, max/min timestep, max_smallsteps and order", "why_tests_cant": "the guard is a history-dependent counter; tests only exercise one or two histories", "anchors": ["anuga/abstract_2d_finite_volumes/generic_domain.py:update_timestep"]}
{"id": "C04", "title": "rectangular() builds a valid mesh for every size", "statement": "rectangular(m, n, len1, len2, origin) returns (m+1)(n+1) points, 2mn triangles with in-range distinct vertices, every triangle counter-clockwise with area len1*len2/(2mn) (total len1*len2); its boundary dictionary tags exactly the edges that have no neighbouring triangle, with 'left','right','bottom','top' on the corresponding side.", "quantifier": "all m,n >= 1, len1,len2 > 0 and all origins", "why_tests_cant": "index arithmetic must be right for all m,n, including non-square grids", "anchors": ["anuga/abstract_2d_finite_volumes/mesh_factory.py:rectangular"]}
{"id": "C05", "title": "rectangular_cross() builds a valid mesh for every size", "statement": "rectangular_cross(m, n, len1, len2, origin) returns (m+1)(n+1)+mn points and 4mn triangles with in-range distinct vertices, each counter-clockwise with area len1*len2/(4mn); boundary tags label exactly the edges without neighbour, on the correct side.", "quantifier": "all m,n >= 1, len1,len2 > 0 and all origins", "why_tests_cant": "index arithmetic must be right for all m,n", "anchors": ["anuga/abstract_2d_finite_volumes/mesh_factory.py:rectangular_cross", "anuga/abstract_2d_finite_volumes/mesh_factory_ext.pyx:rectangular_cross_construct"]}
{"id": "C06", "title": "Neighbour structure is a symmetric matching of edges", "statement": "For a triangle list in which no directed edge occurs twice, the computed neighbours/neighbour_edges satisfy: if triangle k's edge i has neighbour (l,j) then l's edge j has neighbour (k,i) and the two edges join the same two nodes in opposite directions; an edge has no neighbour iff no triangle has the opposite edge; number_of_boundaries counts them. If a directed edge occurs twice the construction is rejected.", "quantifier": "all triangle lists (any size, any node numbering)", "why_tests_cant": "hash-table matching over arbitrary meshes", "anchors": ["anuga/abstract_2d_finite_volumes/neighbour_table.cpp:_build_neighbour_structure", "anuga/abstract_2d_finite_volumes/neighbour_mesh.py:build_neighbour_structure_python"]}
{"id": "C07", "title": "Triangle geometry is consistent", "statement": "For every counter-clockwise triangle: area is positive and equals half the cross product; stored edge normals are unit, outward (each points away from the opposite vertex) and satisfy sum(edgelength*normal)=0; the centroid lies strictly inside; the stored radius is positive.", "quantifier": "all coordinates of a non-degenerate triangle", "why_tests_cant": "real-valued inputs", "anchors": ["anuga/abstract_2d_finite_volumes/general_mesh.py:General_mesh.__init__"]}
{"id": "C08", "title": "Flux computation conserves mass", "statement": "After compute_fluxes, the area-weighted sum over all triangles of the stage update equals the recorded boundary flux sum: every interior edge contributes exactly opposite amounts to its two triangles, each interior edge flux being computed exactly once.", "quantifier": "every mesh with symmetric neighbour structure, every state of stage/momentum/bed, every boundary value", "why_tests_cant": "global sum over arbitrary meshes and states", "anchors": ["anuga/shallow_water/sw_domain_orig.c:_compute_fluxes_central"]}
{"id": "C09", "title": "Lake at rest is preserved", "statement": "If the water surface is flat, velocities are zero and boundary values match (reflective), the flux computation produces zero update for stage, x and y momentum in every triangle, for any bed.", "quantifier": "every mesh, every bed elevation field and every stage level with positive depth at the edges", "why_tests_cant": "balance of flux and bed-slope terms is an algebraic identity over all beds", "anchors": ["anuga/shallow_water/sw_domain_orig.c:_compute_fluxes_central", "anuga/shallow_water/sw_domain_orig.c:_flux_function_central"]}
{"id": "C10", "title": "Numerical flux is consistent and symmetric", "statement": "The numerical flux between two equal wet states equals the exact shallow water flux through the edge normal; two dry sides exchange nothing; exchanging sides and reversing the normal reverses the mass flux and the momentum flux vectors; returned maximum speed is non-negative and at least |normal velocity|+sqrt(g h) of each side.", "quantifier": "all states and unit normals", "why_tests_cant": "real-valued inputs", "anchors": ["anuga/shallow_water/sw_domain_orig.c:_flux_function_central", "anuga/shallow_water/sw_domain_orig.c:_rotate"]}
{"id": "C11", "title": "Second order reconstruction never leaves the neighbouring range", "statement": "For limiter parameter beta in [0,1], edge values reconstructed by the edge limiter stay (up to the 1e-100 cut-off) within the range spanned by the centroid values of the triangle and of the neighbours used, so non-negative neighbouring heights give non-negative edge heights; the mean of the edge values equals the centroid value.", "quantifier": "all centroid values, all edge coordinates, all beta in [0,1]", "why_tests_cant": "real-valued inputs; failure only at sharp extrema", "anchors": ["anuga/shallow_water/sw_domain_orig.c:limit_gradient", "anuga/shallow_water/sw_domain_orig.c:find_qmin_and_qmax", "anuga/shallow_water/sw_domain_orig.c:_extrapolate_second_order_edge_sw"]}
{"id": "C12", "title": "Depth protection yields non-negative depth and exact mass-error accounting", "statement": "After protect_against_infinitesimal_and_negative_heights every centroid stage is at least the bed, stage is only ever raised, momentum is zero in cells it treats as dry, and the reported mass error is exactly the volume of water added.", "quantifier": "all states and areas", "why_tests_cant": "all cells, all values", "anchors": ["anuga/shallow_water/sw_domain_orig.c:_protect_new"]}
{"id": "C13", "title": "Friction only slows the flow", "statement": "The Manning friction update followed by the semi-implicit update never reverses the direction of momentum nor increases its magnitude, for any timestep >= 0, in the absence of other momentum sources.", "quantifier": "all depths, momenta, friction coefficients, timesteps", "why_tests_cant": "real-valued inputs incl. very large timestep and tiny depth", "anchors": ["anuga/shallow_water/sw_domain_orig.c:_manning_friction_flat", "anuga/shallow_water/sw_domain_orig.c:_manning_friction_sloped", "anuga/abstract_2d_finite_volumes/quantity.c:_update"]}
{"id": "C14", "title": "Quantity update integrates explicit and semi-implicit terms", "statement": "Quantity.update(timestep) with no semi-implicit term adds exactly timestep*explicit_update to every centroid; with a semi-implicit term S it solves (1 - timestep*S/x) x' = x + timestep*E; it reports failure exactly when some denominator is not positive; afterwards the semi-implicit term is reset to zero.", "quantifier": "all vectors and timesteps", "why_tests_cant": "vector of arbitrary length with data-dependent branch", "anchors": ["anuga/abstract_2d_finite_volumes/quantity.c:_update"]}
{"id": "C15", "title": "Smooth vertex averaging returns the true node averages", "statement": "smooth_vertex_values / average_vertex_values assigns to each mesh node the mean of the values at all triangle vertices meeting there.", "quantifier": "all meshes, including meshes with nodes that belong to no triangle", "why_tests_cant": "depends on the node/vertex index structure of arbitrary meshes", "anchors": ["anuga/abstract_2d_finite_volumes/quantity.c:_average_vertex_values", "anuga/abstract_2d_finite_volumes/general_mesh.py:build_inverted_triangle_structure"]}
{"id": "C16", "title": "Sparse to CSR conversion preserves the matrix", "statement": "Sparse_CSR(A).todense() equals A.todense() and Sparse_CSR(A)*v equals A*v.", "quantifier": "all sparse matrices A (any pattern of empty rows)", "why_tests_cant": "tests use matrices without interior empty rows", "anchors": ["anuga/utilities/sparse.py:Sparse_CSR", "anuga/utilities/sparse_dok.c:convert_to_csr_ptr", "anuga/utilities/sparse.c:_csr_mv"]}
{"id": "C17", "title": "Quad-tree cells never lose or miss a leaf", "statement": "After any sequence of Cell.insert, count() equals the number of inserted leaves, retrieve() returns exactly them, and search(p) returns exactly the data of those leaves whose bounding box contains p.", "quantifier": "all insert sequences, all boxes, all query points", "why_tests_cant": "tree shape depends on the whole insertion history", "anchors": ["anuga/geometry/quad.py:Cell", "anuga/geometry/aabb.py:AABB"]}
{"id": "C18", "title": "Interpolation quad-tree search finds the containing triangle", "statement": "If a query point lies in some triangle inserted in the C quad tree, search returns a triangle containing the point; if it returns nothing no inserted triangle contains the point.", "quantifier": "all insert sequences and all query points", "why_tests_cant": "depends on all tree shapes; points on split lines", "anchors": ["anuga/utilities/quad_tree.c:quad_tree_insert_triangle", "anuga/utilities/quad_tree.c:search"]}
{"id": "C19", "title": "separate_points_by_polygon partitions the points", "statement": "separate_points_by_polygon returns every point index exactly once; the first count entries, in increasing order, are exactly the points classified inside, the rest, in decreasing order, those outside; inside_polygon and outside_polygon are complementary and in increasing order; for each point the decision is: on an edge -> closed flag, otherwise parity of edges crossed to the left; the bounding-box shortcut never changes the answer.", "quantifier": "all polygons, all point sets, both values of closed", "why_tests_cant": "all sizes and real coordinates", "anchors": ["anuga/geometry/polygon.c:__separate_points_by_polygon", "anuga/geometry/polygon.py:separate_points_by_polygon", "anuga/geometry/polygon.py:inside_polygon", "anuga/geometry/polygon.py:outside_polygon"]}
{"id": "C20", "title": "Point-in-triangle test is exact", "statement": "is_inside_triangle(p, triangle, closed=False) is true exactly for points that are strict convex combinations of the vertices (non-degenerate triangle of any orientation); bounding-box rejection never changes the answer.", "quantifier": "all non-degenerate triangles and all points", "why_tests_cant": "real-valued inputs", "anchors": ["anuga/geometry/polygon.c:__is_inside_triangle"]}
{"id": "C21", "title": "Segment intersection", "statement": "intersection(line0, line1) with status 1 returns a point that lies on both segments; status 0 means the (non-parallel) segments do not meet; collinear segments are classified without raising; non-collinear parallel segments give status 4.", "quantifier": "all pairs of segments", "why_tests_cant": "real-valued inputs, tolerance boundary cases", "anchors": ["anuga/geometry/polygon.py:intersection", "anuga/geometry/polygon.c:__line_segment_intersection"]}
{"id": "C22", "title": "polygon_area is the geometric area", "statement": "polygon_area is non-negative, independent of the starting vertex, of orientation and of translation, scales quadratically, and equals half the absolute cross product for triangles.", "quantifier": "all polygons with at least 3 vertices", "why_tests_cant": "all sizes", "anchors": ["anuga/geometry/polygon.py:polygon_area"]}
{"id": "C23", "title": "Conjugate gradient returns a solution meeting its tolerance", "statement": "conjugate_gradient(A,b,x0,imax,tol,atol) either raises or returns x with |b-Ax|^2 <= max(tol^2*|b-Ax0|^2, atol^2).", "quantifier": "all matrices, right hand sides, starting vectors and iteration limits", "why_tests_cant": "loop of arbitrary length", "anchors": ["anuga/utilities/cg_solve.py:_conjugate_gradient"]}
{"id": "C24", "title": "Geo_reference conversions are mutually inverse", "statement": "get_relative(get_absolute(P)) = P, get_absolute(get_relative(P)) = P, and change_points_geo_ref(points, points_geo_ref) leaves the absolute position of each point unchanged.", "quantifier": "all points arrays and all georeferences", "why_tests_cant": "all sizes/offsets", "anchors": ["anuga/coordinate_transforms/geo_reference.py:Geo_reference"]}
{"id": "C25", "title": "interpolate2d stays within the data and is exact for bilinear data", "statement": "Inside the grid, interpolate2d(x,y,Z,points,mode='linear') lies between the minimum and maximum of the four surrounding grid values, equals the grid value at grid nodes, reproduces a+bx+cy+dxy exactly; outside the grid it is NaN; mode 'constant' returns one of the grid values.", "quantifier": "all strictly increasing axes, all grids, all points", "why_tests_cant": "all sizes", "anchors": ["anuga/fit_interpolate/interpolate2d.py:interpolate2d"]}
{"id": "C26", "title": "Inlet water is distributed conservatively and level", "statement": "Inlet.set_stages_evenly(volume) adds exactly `volume` of water, never lowers any stage, and leaves the filled cells at one common stage not above any unfilled cell's stage.", "quantifier": "all non-empty inlet cell sets with positive areas, all stages, all volume >= 0", "why_tests_cant": "all orders/ties of stages", "anchors": ["anuga/structures/inlet.py:set_stages_evenly"]}
{"id": "C27", "title": "Inlet operator volume bookkeeping is exact", "statement": "Every call of an Inlet_operator changes the water volume in the inlet by exactly the amount it adds to the domain's fractional-step volume integral and to total_applied_volume, and never leaves a negative total volume.", "quantifier": "all discharge functions, timesteps, states, and call histories", "why_tests_cant": "history sum over arbitrary calls", "anchors": ["anuga/structures/inlet_operator.py:Inlet_operator.__call__"]}
{"id": "C28", "title": "Rate operator never over-drains and its influx is exact", "statement": "Rate_operator.__call__ changes the water volume of the full triangles by exactly local_influx, which is added to the fractional-step volume integral; it never extracts more water than a cell holds.", "quantifier": "all rates, factors, timesteps and depths", "why_tests_cant": "sign combinations of rate and factor, all cells", "anchors": ["anuga/operators/rate_operators.py:Rate_operator.__call__"]}
{"id": "C29", "title": "Culvert/structure transfer conserves water", "statement": "A Structure_operator call removes from the inflow inlet exactly the volume it adds to the outflow inlet, and for a non-negative discharge never leaves negative average depth at the inflow.", "quantifier": "all discharges >= 0, timesteps, areas, depths", "why_tests_cant": "real-valued inputs; wet/dry switch", "anchors": ["anuga/structures/structure_operator.py:Structure_operator.__call__"]}
{"id": "C30", "title": "Reflective boundary reverses exactly the normal momentum", "statement": "On a reflective boundary stage, bed and height are copied, the normal momentum component is negated and the tangential one kept; applying it twice gives the original state; single-edge and whole-segment evaluation agree; boundary velocities are reflected the same way.", "quantifier": "all interior states and unit normals", "why_tests_cant": "real-valued inputs; two code paths", "anchors": ["anuga/shallow_water/boundaries.py:Reflective_boundary"]}
{"id": "C31", "title": "set_boundary assigns exactly one boundary object per tagged edge or fails", "statement": "domain.set_boundary(map) either raises (unknown tag, or a tag without object) or afterwards every boundary edge, in the order of the sorted boundary dictionary, is paired with the object the merged map gives for its tag (None excluded); previously set tags persist unless overridden.", "quantifier": "all boundary dictionaries, all sequences of maps", "why_tests_cant": "history of calls", "anchors": ["anuga/abstract_2d_finite_volumes/generic_domain.py:set_boundary"]}
{"id": "C32", "title": "cache() returns what the function would return", "statement": "For a deterministic function, cache(f, args) returns f(args) after any history of earlier cache calls (including hash collisions, failed evaluations and forced evaluations) and process crashes; if a dependency file has changed since, it is recomputed.", "quantifier": "all call histories, crash points, hash functions and dependency changes", "why_tests_cant": "needs hash collisions and crash points", "anchors": ["anuga/caching/caching.py:cache", "anuga/caching/caching.py:CacheLookup", "anuga/caching/caching.py:compare"]}
{"id": "C33", "title": "Restart picks the latest checkpoint complete on all processes", "statement": "load_checkpoint_file without time returns on every process the domain of the same model time, the greatest time for which every process holds a readable checkpoint; if there is none it raises. A crash while writing a checkpoint therefore falls back to the previous one.", "quantifier": "any number of processes, any set of files, any crash point while saving", "why_tests_cant": "crash points across processes", "anchors": ["anuga/shallow_water/checkpoint.py:load_checkpoint_file", "anuga/shallow_water/checkpoint.py:_get_checkpoint_times"]}
{"id": "C34", "title": "Mesh distribution builds matching communication patterns", "statement": "After distribution, for all processes p,q the list of triangles p sends to q equals, entry by entry (same global ids in the same order), the list q receives from p; each ghost triangle of q is owned by exactly one process as a full triangle; every triangle within the ghost layer width of q's full triangles is present on q.", "quantifier": "any mesh, any partition sizes, any number of processes, any layer width", "why_tests_cant": "combinatorial structure over all partitions", "anchors": ["anuga/parallel/distribute_mesh.py:ghost_layer", "anuga/parallel/distribute_mesh.py:ghost_commun_pattern", "anuga/parallel/distribute_mesh.py:full_commun_pattern", "anuga/parallel/distribute_mesh.py:build_local_commun"]}
{"id": "C35", "title": "Ghost exchange delivers current values under every message schedule", "statement": "After update_ghosts every ghost triangle holds the value its owner had when the owner called the same update_ghosts, whatever the interleaving of processes and message deliveries.", "quantifier": "all numbers of processes, all rounds, all schedules permitted by MPI", "why_tests_cant": "schedules cannot be enumerated by tests", "anchors": ["anuga/parallel/parallel_generic_communications.py:communicate_ghosts_non_blocking"]}
{"id": "C36", "title": "Merging parallel SWW files reproduces the global arrays", "statement": "sww_merge_parallel writes, for every global triangle/node, the value held by the process that owns it, independent of ghost copies; every global entry is written.", "quantifier": "all partitions of triangles over files", "why_tests_cant": "all partitions", "anchors": ["anuga/utilities/sww_merge.py:_sww_merge_parallel_non_smooth", "anuga/utilities/sww_merge.py:_sww_merge_parallel_smooth"]}
{"id": "C37", "title": "Partition reordering is a permutation that carries all data along", "statement": "pmesh_divide_metis reorders triangles by part: triangles of part p occupy one contiguous block in original order; quantities and boundary tags follow their triangle; tri_index inverts the reordering.", "quantifier": "all partition vectors", "why_tests_cant": "all sizes", "anchors": ["anuga/parallel/distribute_mesh.py:pmesh_divide_metis_helper"]}
{"id": "C38", "title": "histogram counts every value once", "statement": "histogram(a,bins) entries are the number of values v with bins[i] <= v < bins[i+1] (last bin open); they sum to the number of values >= bins[0].", "quantifier": "all value lists and all increasing bins", "why_tests_cant": "all sizes", "anchors": ["anuga/utilities/numerical_tools.py:histogram"]}
{"id": "C39", "title": "Runge-Kutta stepping conserves volume with the recorded boundary flux", "statement": "Over any number of Euler, RK2 or RK3 steps the total water volume changes by exactly the accumulated boundary flux integral (plus the fractional-step integral), given mass-conserving flux evaluations.", "quantifier": "any number of steps, any timesteps, all three schemes", "why_tests_cant": "history sum; weights differ per scheme", "anchors": ["anuga/abstract_2d_finite_volumes/generic_domain.py:evolve_one_euler_step", "anuga/abstract_2d_finite_volumes/generic_domain.py:evolve_one_rk2_step", "anuga/abstract_2d_finite_volumes/generic_domain.py:evolve_one_rk3_step", "anuga/operators/boundary_flux_integral_operator.py"]}
{"id": "C40", "title": "Gradient reconstruction is exact for linear fields", "statement": "compute_gradients / _gradient returns the exact gradient when the three sample values come from a linear function and the points are not collinear; extrapolating a linear field from it reproduces vertex values exactly.", "quantifier": "all non-collinear point triples and linear functions", "why_tests_cant": "real-valued inputs", "anchors": ["anuga/utilities/util_ext.h:_gradient", "anuga/abstract_2d_finite_volumes/quantity.c:_compute_gradients", "anuga/abstract_2d_finite_volumes/quantity.c:_extrapolate_from_gradient"]}
{"id": "C41", "title": "Monitored extrema are the true extrema over the run", "statement": "After any sequence of update_extrema calls, the recorded min/max of a monitored quantity bounds every value seen in the monitored region and time interval to within the 1e-6 tolerance, and is attained at the recorded location and time.", "quantifier": "all histories of states", "why_tests_cant": "history dependent", "anchors": ["anuga/abstract_2d_finite_volumes/generic_domain.py:update_extrema"]}
{"id": "C42", "title": "Collect-max operators hold the pointwise running maximum", "statement": "After any number of calls the stored maximum for each triangle is the maximum over all calls of the monitored value.", "quantifier": "all histories", "why_tests_cant": "history dependent", "anchors": ["anuga/operators/collect_max_stage_operator.py", "anuga/operators/collect_max_quantities_operator.py"]}
{"id": "C43", "title": "Negative-cell fix touches only full, negative cells", "statement": "After the update of conserved quantities, every full triangle has stage >= bed; triangles with non-negative depth and ghost triangles are unchanged; the reported count is the number of cells changed.", "quantifier": "all states", "why_tests_cant": "all cells", "anchors": ["anuga/shallow_water/sw_domain_orig.c:_orig_fix_negative_cells"]}
{"id": "C44", "title": "Boundary edges are enumerated once and negative neighbour codes point back to them", "statement": "After boundary construction each edge without neighbour has exactly one boundary entry, and neighbours[k,i] = -(m+1) where m is the position of (k,i) in the sorted boundary list; interior entries are never negative.", "quantifier": "all meshes and tag dictionaries", "why_tests_cant": "all sizes", "anchors": ["anuga/abstract_2d_finite_volumes/neighbour_mesh.py:build_boundary_neighbours", "anuga/abstract_2d_finite_volumes/neighbour_mesh_ext.pyx:boundary_dictionary_construct"]}
{"id": "C45", "title": "Node-to-triangle inverse index is exact", "statement": "get_triangles_and_vertices_per_node(n) lists exactly the (triangle, local vertex) pairs whose vertex is node n; the per-node counts sum to three times the number of triangles.", "quantifier": "all triangle lists", "why_tests_cant": "all sizes", "anchors": ["anuga/abstract_2d_finite_volumes/general_mesh.py:build_inverted_triangle_structure", "anuga/abstract_2d_finite_volumes/general_mesh.py:get_triangles_and_vertices_per_node"]}
{"id": "C46", "title": "Flux time step is the exact CFL minimum", "statement": "On the first substep the time step returned by compute_fluxes is at most inradius/speed for both triangles at every edge of a full triangle whose wave speed exceeds epsilon, and it is 1e100 or attained by one of these edges.", "quantifier": "every mesh with symmetric neighbours, every state, every set of ghost flags and update flags", "why_tests_cant": "minimum over arbitrary meshes with edges skipped in data-dependent order", "anchors": ["anuga/shallow_water/sw_domain_orig.c:_compute_fluxes_central"]}
{"id": "C47", "title": "Riverwall edges use their own riverwall entry", "statement": "Whatever edges are skipped because their flux was already computed or is not due, the flux of the j-th riverwall edge (in edge order) is computed with entry j of the riverwall elevation and hydraulic-property arrays.", "quantifier": "every mesh, every placement of riverwall edges, every set of update flags", "why_tests_cant": "a running counter kept in step with data-dependent skips", "anchors": ["anuga/shallow_water/sw_domain_orig.c:_compute_fluxes_central"]}
{"id": "C48", "title": "Still water stays still through reconstruction and flux computation", "statement": "Starting from a flat water surface with no momentum and every triangle wet, the second order reconstruction yields edge values that form a lake at rest over the reconstructed bed, and the flux computation that follows returns zero updates for stage and both momenta in every triangle.", "quantifier": "all meshes, all bed elevations, all limiter parameters in [0,1]", "why_tests_cant": "holds for every bed profile; interaction of two kernels", "anchors": ["anuga/shallow_water/sw_domain_orig.c:_extrapolate_second_order_edge_sw", "anuga/shallow_water/sw_domain_orig.c:_compute_fluxes_central"]}
{"id": "C49", "title": "Sparse matrix arithmetic agrees with dense arithmetic", "statement": "Sparse keeps one entry per key and stores no explicit zeros through assignment; element access, construction from a dense array, addition, scalar multiplication, A*v and A.trans_mult(v) give exactly the entries of the corresponding dense computation; out of range indices fail.", "quantifier": "all sizes, entries and vectors, all assignment sequences", "why_tests_cant": "all sparsity patterns", "anchors": ["anuga/utilities/sparse.py:Sparse"]}
{"id": "C50", "title": "Hash table matrix accumulation is accurate in any order", "statement": "After any sequence of add_dok_entry calls every entry differs from the exact sum of the values added to it by at most 1e-10 per call, entries are never duplicated and the stored counts stay right; add_sparse_dok leaves the first table within 1e-10 of mult1*A+mult2*B in every entry.", "quantifier": "all call sequences and orders, all tables and multipliers", "why_tests_cant": "order of additions depends on thread scheduling; deletion of tiny entries", "anchors": ["anuga/utilities/sparse_dok.c:add_dok_entry", "anuga/utilities/sparse_dok.c:add_sparse_dok"]}
{"id": "C51", "title": "line_intersect selects exactly the triangles the segment meets", "statement": "For a segment with distinct ends and non-degenerate triangles, line_intersect returns, in increasing order, exactly the indices of the triangles having a point in common with the segment, including the case where the whole segment lies inside a triangle.", "quantifier": "all segments and all lists of triangles", "why_tests_cant": "real-valued inputs; touching at vertices and along edges", "anchors": ["anuga/geometry/polygon.c:__triangle_line_intersect", "anuga/geometry/polygon.py:line_intersect"]}
{"id": "C52", "title": "polygon_overlap selects exactly the triangles overlapping the polygon", "statement": "polygon_overlap returns exactly the indices of the triangles having a point in common with the polygon.", "quantifier": "all simple polygons and all lists of non-degenerate triangles", "why_tests_cant": "real-valued inputs; containment without edge crossings", "anchors": ["anuga/geometry/polygon.c:__triangle_polygon_overlap", "anuga/geometry/polygon.py:polygon_overlap"]}
{"id": "C53", "title": "interpolate_polyline is linear along the polyline", "statement": "At a point a fraction t along the segment from node j to its neighbour m, interpolate_polyline gives data_j + t*(data_m - data_j), taking the last segment accepted by the tolerance test; at a node it gives the value of that node; points accepted by no segment get 0.", "quantifier": "all polylines, data and points", "why_tests_cant": "real-valued inputs; overlapping tolerance regions at shared nodes", "anchors": ["anuga/geometry/polygon.c:__interpolate_polyline", "anuga/geometry/polygon.py:interpolate_polyline"]}
{"id": "C54", "title": "Interpolation weights are barycentric coordinates", "statement": "For a triangle of non-zero area calculate_sigma returns the unique barycentric coordinates of the point: they sum to one, reproduce the point, make interpolation exact for linear functions, and are all non-negative exactly when the point is in the triangle, so that interpolated values there lie between the smallest and largest corner value.", "quantifier": "all non-degenerate triangles and all points", "why_tests_cant": "real-valued inputs; orientation and normal direction cases", "anchors": ["anuga/utilities/quad_tree.c:calculate_sigma", "anuga/utilities/quad_tree.c:new_triangle"]}
{"id": "C55", "title": "Least squares matrices are A^T A, A^T z and the Dirichlet form", "statement": "For every interleaving of the parallel loop, build_matrix_AtA_Atz_points yields A^T z exactly and a symmetric matrix within 1e-10 per data point of A^T A, where A is linear interpolation to the data points; build_smoothing_matrix yields a symmetric matrix within 1e-10 per triangle of the integral of grad phi_i . grad phi_j.", "quantifier": "all meshes, point sets, thread interleavings", "why_tests_cant": "schedule-dependent accumulation; real-valued inputs", "anchors": ["anuga/fit_interpolate/fitsmooth.c:_build_matrix_AtA_Atz_points", "anuga/fit_interpolate/fitsmooth.c:_build_smoothing_matrix"]}
{"id": "C56", "title": "Fit.fit always solves (alpha D + A^T A) x = A^T z", "statement": "Each call of Fit.fit on an object solves the system alpha D + A^T A with right hand side A^T z for all the points given to the object so far, where points may be given in several batches and fit may be called several times.", "quantifier": "all sequences of build_fit_subset and fit on one object", "why_tests_cant": "state carried between calls in C hash tables", "anchors": ["anuga/fit_interpolate/fit.py:Fit.fit", "anuga/fit_interpolate/fitsmooth_ext.pyx:build_matrix_B", "anuga/utilities/sparse_dok.c:add_sparse_dok"]}
{"id": "C57", "title": "reconcile_zones gives both georeferences one zone and hemisphere or fails without effect", "statement": "reconcile_zones succeeds exactly when zones and hemispheres are equal or unspecified on one side; then both objects share zone and hemisphere, no specified value or origin has changed, and the order of the two does not matter; when it raises, neither object has changed.", "quantifier": "all pairs of georeferences", "why_tests_cant": "all combinations of specified and unspecified values", "anchors": ["anuga/coordinate_transforms/geo_reference.py:reconcile_zones"]}
{"id": "C58", "title": "Rate_operator.get_Q reports the discharge that is applied", "statement": "When no rate is negative, get_Q() times the timestep is the influx the next call records (same time, factor and state).", "quantifier": "all rate kinds, regions, factors, full flags", "why_tests_cant": "tests use whole-domain regions or constant rates", "anchors": ["anuga/operators/rate_operators.py:get_Q", "anuga/operators/rate_operators.py:__call__"]}
{"id": "C59", "title": "A boundary object gives the same ghost state edge by edge and segment by segment", "statement": "For every boundary class with both methods, evaluate_segment stores for each listed edge the conserved quantities evaluate returns for it, and touches no other edge; the base class loop does so for every evaluate. The transmissive-normal-momentum boundary sets the stage, keeps the normal momentum and removes the tangential momentum.", "quantifier": "all domains, segments, states", "why_tests_cant": "two implementations that must agree on every state", "anchors": ["anuga/abstract_2d_finite_volumes/generic_boundary_conditions.py:Boundary.evaluate_segment", "anuga/shallow_water/boundaries.py:Flather_external_stage_zero_velocity_boundary", "anuga/shallow_water/boundaries.py:Transmissive_n_momentum_zero_t_momentum_set_stage_boundary"]}
{"id": "C60", "title": "Radiation boundaries impose the outside level on the incoming characteristic only", "statement": "The Flather and Characteristic stage boundaries keep the outgoing characteristic of the inside state and take the incoming one from still water at the outside level; water at rest at that level is a fixed point; the ghost stage is never below the bed.", "quantifier": "all states, outside stages, unit normals", "why_tests_cant": "real-valued states; tests check single numbers", "anchors": ["anuga/shallow_water/boundaries.py:Characteristic_stage_boundary.evaluate_segment", "anuga/shallow_water/boundaries.py:Flather_external_stage_zero_velocity_boundary.evaluate"]}
{"id": "C61", "title": "Time dependent boundaries can be evaluated at every model time", "statement": "A boundary object whose constructor succeeded evaluates without error whenever its function does; the default value is used exactly when the model time is past the function's range; rolling the time over the end of the range terminates in (0, last time].", "quantifier": "all functions, times, defaults", "why_tests_cant": "untested classes and unbounded loops", "anchors": ["anuga/abstract_2d_finite_volumes/generic_boundary_conditions.py:get_boundary_values", "anuga/shallow_water/boundaries.py:Time_stage_zero_momentum_boundary", "anuga/shallow_water/boundaries.py:Transmissive_momentum_set_stage_boundary.evaluate"]}
{"id": "C62", "title": "The OpenMP flux kernel gives the sequential result in every interleaving", "statement": "For every assignment of triangles to threads, every interleaving of their memory accesses and every order of the reductions, the parallel flux loop ends, leaves the same updates, boundary flux and time step, conserves mass, and, on a mesh whose interior edges look the same from both sides, agrees with the sequential kernel.", "quantifier": "all domains, memories, thread assignments, interleavings and reduction orders", "why_tests_cant": "a test sees the interleavings the scheduler happens to choose on one machine", "anchors": ["anuga/shallow_water/sw_domain_openmp.c:_openmp_compute_fluxes_central", "anuga/shallow_water/sw_domain_orig.c:_compute_fluxes_central", "anuga/structures/riverwall.py:edge_river_wall_counter"]}
{"id": "C63", "title": "OpenMP protection and negative-cell kernels agree with the sequential kernels in every interleaving", "statement": "For every interleaving of the parallel loops, protecting against negative heights and removing negative cells end, give the result of the sequential kernels cell by cell, return the same mass error and negative-cell count, and leave dry cells without momentum.", "quantifier": "all domains, memories, thread assignments and interleavings", "why_tests_cant": "a test sees only the interleavings chosen by one scheduler", "anchors": ["anuga/shallow_water/sw_domain_openmp.c:_openmp_protect", "anuga/shallow_water/sw_domain_openmp.c:_openmp_fix_negative_cells", "anuga/shallow_water/sw_domain_orig.c:_protect_new"]}
{"id": "C64", "title": "OpenMP friction kernels agree with the sequential ones in every interleaving", "statement": "For every interleaving of the loop of the flat and the sloped Manning friction kernel, the semi-implicit updates equal those of the sequential kernel; friction never accelerates.", "quantifier": "all cells, memories and interleavings", "why_tests_cant": "shared scratch variables are harmless in most schedules", "anchors": ["anuga/shallow_water/sw_domain_openmp.c:_openmp_manning_friction_flat", "anuga/shallow_water/sw_domain_openmp.c:_openmp_manning_friction_sloped"]}
{"id": "C65", "title": "The OpenMP reconstruction does not depend on the interleaving", "statement": "For every interleaving of its three parallel loops, the second order reconstruction leaves the edge values of the sequential reconstruction and restores the centroid momenta.", "quantifier": "all meshes, states, limiter parameters and interleavings", "why_tests_cant": "the race is visible only for particular parameters and schedules", "anchors": ["anuga/shallow_water/sw_domain_openmp.c:_openmp_extrapolate_second_order_edge_sw", "anuga/shallow_water/sw_domain_orig.c:_extrapolate_second_order_edge_sw"]}
{"id": "C66", "title": "The kinematic viscosity matrix is the discrete diffusion operator", "statement": "The matrix built for the kinematic viscosity operator applied to any velocities is, on every triangle, the sum over its edges of mean diffusivity times edge length over distance times velocity difference; its rows are sorted with distinct columns in range; it is symmetric and takes energy out; the sort used ends, stays in bounds and sorts every array.", "quantifier": "all meshes with mutual distinct neighbours, all diffusivities, all velocities, all arrays and ranges", "why_tests_cant": "tests compare a few rows on meshes of a few triangles", "anchors": ["anuga/operators/kinematic_viscosity_operator.c:quicksort", "anuga/operators/kinematic_viscosity_operator.c:_build_geo_structure", "anuga/operators/kinematic_viscosity_operator.c:_build_elliptic_matrix", "anuga/operators/kinematic_viscosity_operator.c:_update_elliptic_matrix", "anuga/operators/kinematic_viscosity_operator.py:build_elliptic_matrix"]}
{"id": "C67", "title": "The implicit viscosity step is well posed and keeps uniform flow", "statement": "The implicit step poses a symmetric positive definite system, the solver converges to it, a uniform velocity with equal boundary values is left unchanged, the new velocities lie between the extremes of the old velocities and boundary values, and energy does not grow.", "quantifier": "all meshes, diffusivities, velocities, boundary values and time steps", "why_tests_cant": "tests use meshes whose triangles have equal areas, and a few time steps", "anchors": ["anuga/operators/kinematic_viscosity_operator.py:__call__", "anuga/operators/kinematic_viscosity_operator.py:parabolic_solve", "anuga/operators/kinematic_viscosity_operator.py:_parabolic_multiply_array", "anuga/operators/kinematic_viscosity_operator.py:_update_elliptic_boundary_term", "anuga/shallow_water/shallow_water_domain.py:update_centroids_of_velocities_and_height"]}
{"id": "C68", "title": "Culvert flows are bounded, never negative and go downhill", "statement": "For every box, pipe or trapezoidal culvert the discharge formula gives a result; the discharge is not negative, at most the inlet flow, zero for no head or a blocked culvert, and its losses at the flow area returned do not exceed the head. The discharge routine takes the end with the higher energy as the inflow, keeps the velocity limit, and takes nothing from a dry end; the loops for the critical depth end.", "quantifier": "all geometries, losses, water levels, velocities, smoothing states and time steps", "why_tests_cant": "tests compare tabulated flows for a few culverts; the bounds and the end of the Newton loop concern all of them", "anchors": ["anuga/structures/boyd_box_operator.py:boyd_box_function", "anuga/structures/boyd_box_operator.py:discharge_routine", "anuga/structures/boyd_box_operator.py:smooth_discharge", "anuga/structures/boyd_box_operator.py:total_energy", "anuga/structures/boyd_pipe_operator.py:boyd_pipe_function", "anuga/structures/weir_orifice_trapezoid_operator.py:weir_orifice_trapezoid_function", "anuga/structures/inlet_enquiry.py:get_enquiry_total_energy"]}
{"id": "C69", "title": "Culvert formulas obey Froude similarity", "statement": "Scaling every length by a factor multiplies inlet flows by its 5/2 power and critical depths by the factor.", "quantifier": "all scale factors, geometries and heads", "why_tests_cant": "tests use single sizes, near one metre, where a wrong power of the diameter is invisible", "anchors": ["anuga/structures/boyd_box_operator.py:boyd_box_function", "anuga/structures/boyd_pipe_operator.py:boyd_pipe_function", "anuga/structures/weir_orifice_trapezoid_operator.py:weir_orifice_trapezoid_function"]}
{"id": "C70", "title": "Time interpolation does not depend on the order of calls", "statement": "Interpolation_function keeps a time index between calls. Whatever calls came before, a call at a time inside the stored interval returns, for every quantity, the piecewise linear interpolant of the stored series: the stored value at a stored time, and between two stored times a value between theirs. It raises exactly for times outside the interval and never indexes outside its arrays. Thinning keeps each kept time with its own values.", "quantifier": "all series with non-decreasing times, all histories of calls, all times", "why_tests_cant": "The index depends on the whole call history; tests step forward through a few times and do not cover arbitrary back and forth, repeated times or every thinning.", "anchors": ["anuga/fit_interpolate/interpolate.py:754-826", "anuga/fit_interpolate/interpolate.py:1012-1116", "anuga/utilities/numerical_tools.py:15"]}
{"id": "C71", "title": "Time axis of functions and boundaries read from files", "statement": "A function read from a file with start time st into a domain with start time ds gives, at a model time, the data the file holds for the same absolute time; after reading, the domain starts at max(ds, st). File_boundary evaluates this function so that the boundary values at model time are those of the file at that time. A time limit keeps exactly the stored times up to the limit.", "quantifier": "all start times of file and domain, all non-decreasing time series, all model times, all call histories", "why_tests_cant": "The error appears only for combinations of nonzero start times that the existing tests avoid by setting both to zero.", "anchors": ["anuga/abstract_2d_finite_volumes/file_function.py:28-163", "anuga/abstract_2d_finite_volumes/file_function.py:226-497", "anuga/abstract_2d_finite_volumes/generic_boundary_conditions.py:518-720", "anuga/abstract_2d_finite_volumes/generic_domain.py:616-619"]}
{"id": "C72", "title": "The output file holds every stored step once, at its time", "statement": "Storing steps at increasing times appends each frame; storing a time already in the file, as a restarted run does, replaces just that frame; any other past time is refused. Stored depth is zero or at least the storable minimum, with zero momentum where zero. The stored range contains every stored value. Splitting into several files loses, repeats and reorders no frame, ends, and leaves each frame at its absolute time. A frame is read back unchanged at its time.", "quantifier": "all sequences of steps, all values and thresholds, all file sizes and size limits", "why_tests_cant": "Tests store a few steps in one file; splitting depends on file sizes reached only in large runs and restart on arbitrary stopping points.", "anchors": ["anuga/file/sww.py:260-432", "anuga/file/sww.py:963-1035", "anuga/file/sww.py:1465-1521"]}
{"id": "C73", "title": "A closed basin keeps its water over whole steps", "statement": "When every boundary edge carries a reflective boundary, complete time steps (protection, reconstruction, boundary, fluxes, forcing, update, protection, combination of substeps) of any time stepping scheme change the volume of water only by what the protection against negative depth adds. That amount is never negative, it is the volume between bed and surface of the triangles whose surface lies below the bed, and the recorded boundary flux integral stays unchanged. Non-negative step sizes lead to no exception.", "quantifier": "all consistent meshes, beds and states, all three time stepping methods, all sequences of step sizes, any number of steps", "why_tests_cant": "Tests run a few steps on small meshes and compare volumes to a tolerance; flags such as riverwalls on boundary edges are never combined with reflective boundaries.", "anchors": ["anuga/abstract_2d_finite_volumes/generic_domain.py:1832-2179", "anuga/shallow_water/shallow_water_domain.py:1828-2150", "anuga/shallow_water/sw_domain_orig.c:764-1083", "anuga/shallow_water/boundaries.py:33-128"]}
{"id": "C74", "title": "Still water with dry shores stays still over whole steps", "statement": "Water at rest at one level, with bed partly above that level, reflective or transmissive boundaries or a Dirichlet boundary at that level, is left exactly unchanged by complete time steps: stage stays max(level, bed), momenta stay zero, no water is created by protection, the boundary flux integral does not change and no exception occurs.", "quantifier": "all consistent meshes, beds and levels, any shore line, all three time stepping methods, all sequences of step sizes, any number of steps", "why_tests_cant": "Well-balancedness at shores depends on the branch combinations of the reconstruction near wet/dry fronts; tests use one bathymetry and a tolerance.", "anchors": ["anuga/shallow_water/sw_domain_orig.c:764-1083", "anuga/shallow_water/sw_domain_orig.c:1306-1342", "anuga/shallow_water/sw_domain_orig.c:1953-2617", "anuga/abstract_2d_finite_volumes/generic_domain.py:1832-2179"]}
{"id": "C75", "title": "Depth is never negative after a step", "statement": "If no centroid surface is below the bed, none is after any number of complete steps, whatever the step sizes; after an Euler step this holds even if it did not hold before.", "quantifier": "all meshes, states, boundaries, schemes and step sizes, any number of steps", "why_tests_cant": "Tests observe a few runs; the claim is for every run, including step sizes for which the explicit update overshoots.", "anchors": ["anuga/abstract_2d_finite_volumes/generic_domain.py:1832-2179", "anuga/shallow_water/sw_domain_orig.c:1087-1180", "anuga/shallow_water/shallow_water_domain.py:1828-2150"]}
{"id": "C77", "title": "Triangles with one neighbour get a limited linear reconstruction", "statement": "In a triangle with two boundary edges the reconstruction follows the gradient towards its only neighbour, limited so that no new extremum appears: a monotone linear variation is not flattened to a constant.", "quantifier": "all triangles with exactly one internal neighbour, all values and limiter factors", "why_tests_cant": "Only corner triangles take this branch and tests check bounds, which a constant reconstruction satisfies.", "anchors": ["anuga/shallow_water/sw_domain_orig.c:1306-1342", "anuga/shallow_water/sw_domain_orig.c:2428-2617"]}
{"id": "C76", "title": "The time step of the flux computation keeps the depth non-negative", "statement": "Outflow through an edge is at most speed times length times the depth at that edge. A step that moves no more than a third of the triangle area through each edge leaves a non-negative depth at the centroid before any protection. The time step chosen by the code (CFL number times radius over speed) is such a step, so protection adds no water.", "quantifier": "all meshes without riverwalls, all reconstructed states, all CFL numbers in use, all triangle shapes", "why_tests_cant": "Protection hides negative depths, so only the volume balance shows them; tests use well shaped triangles.", "anchors": ["anuga/shallow_water/sw_domain_orig.c:300-520", "anuga/shallow_water/sw_domain_orig.c:764-1083", "anuga/abstract_2d_finite_volumes/general_mesh.py:236-277", "anuga/abstract_2d_finite_volumes/generic_domain.py:2340-2400"]}
{"id": "C78", "title": "A distributed run computes the values of the undivided run", "statement": "Let a domain without riverwalls be distributed to any number of processes with two layers of ghost triangles. If every process starts with the values of the undivided domain on its triangles, then after any number of complete steps of the Euler, second order or third order scheme (exchange of ghosts, global minimum of the flux time step, reconstruction, fluxes, friction, update, protection) every process has used the time step of the undivided run and holds exactly its values on all of its triangles, ghosts included, and no process has raised an exception.", "quantifier": "all meshes, all partitions, all numbers of processes and steps, all states and beds, with the zero dry limiter of the algorithms DE0, DE1 and DE2", "why_tests_cant": "The parallel tests compare a few gauges of one run on a few partitions; whether two layers suffice depends on which cells are dry next to a partition border.", "anchors": ["anuga/parallel/parallel_shallow_water.py:30-160", "anuga/parallel/parallel_generic_communications.py:28-170", "anuga/parallel/config.py:11", "anuga/abstract_2d_finite_volumes/generic_domain.py:1800-2180", "anuga/shallow_water/sw_domain_orig.c:764-1143", "anuga/shallow_water/sw_domain_orig.c:1950-2680", "anuga/shallow_water/shallow_water_domain.py:772-900"]}
{"id": "C79", "title": "The mesh a process receives is a part of the mesh of the domain", "statement": "When a domain is divided over two or more processes, reordered by process, cut into submeshes with ghost layers and renumbered locally, the mesh of process p consists of exactly the triangles assigned to p, in their original order, followed by exactly the triangles of other processes that are at most max(ghost_layer_width, 1) edges away; every triangle is a full triangle of exactly one process. Each local triangle has the corner coordinates of its original; two local edges are neighbours exactly if the original edges are; every neighbour of a full triangle is present; an edge is a boundary edge exactly if its neighbour is not in the part, and it carries the tag of the original boundary edge, or the ghost tag where the part was cut off; row j of every quantity is the row of the original triangle; tri_l2g and node_l2g give the numbers in the original domain. Sending the submesh to another process loses nothing.", "quantifier": "all meshes accepted by the mesh constructor, all boundary tags, all quantities, all partitions in which every process owns a triangle, all numbers of processes >= 2, all ghost layer widths, all processes", "why_tests_cant": "The test suite compares a few small meshes with recorded arrays for two or three processes and one metis result; the partition, the numbering and the layer width range over an unbounded set, and an error in one of the five renumberings shows up only for some cuts.", "anchors": ["anuga/parallel/distribute_mesh.py:147-330", "anuga/parallel/distribute_mesh.py:340-560", "anuga/parallel/distribute_mesh.py:960-1260", "anuga/parallel/distribute_mesh.py:1290-1640", "anuga/parallel/sequential_distribute.py:36-200"]}
{"id": "C80", "title": "Distributing a domain and evolving it on several processes gives the results of the undivided domain", "statement": "Take a domain built from a mesh with positive triangle areas, boundary tags and vertex quantities, and distribute it over two or more processes with ghost layers at least two wide. The distribution succeeds on every process and every triangle is a full triangle of some process. If the boundary conditions are then set for all tags of the domain and both are evolved with the same settings (no riverwalls, zero dry limiters, default switches), then after any number of steps of the Euler, RK2 or RK3 scheme no process has raised an exception, all processes have used the time step of the undivided run, and triangle j of every process, ghosts included, has the stage and momenta of triangle tri_l2g[j] of the undivided run.", "quantifier": "all meshes, tags, quantities and settings as described, all partitions in which every process owns a triangle, all numbers of processes >= 2, all widths >= 2, all schemes, all step counts, all admissible sequences of time steps", "why_tests_cant": "Parallel tests compare a few runs within a tolerance; agreement depends on the partition, the cut of the mesh, the message order and the limiter stencils together, over unboundedly many combinations.", "anchors": ["anuga/parallel/parallel_api.py:68-145", "anuga/parallel/distribute_mesh.py:147-1640", "anuga/parallel/parallel_shallow_water.py:30-120", "anuga/parallel/parallel_generic_communications.py:20-260", "anuga/abstract_2d_finite_volumes/generic_domain.py:130-290", "anuga/abstract_2d_finite_volumes/general_mesh.py:150-280"]}
{"id": "C81", "title": "Distributing a domain does not change its settings", "statement": "When a domain is distributed over the processes of a run, directly or through a dump that is loaded again, every process gets a domain with the settings of the original: flow algorithm, output directory, storage flags, quantities to be stored, minimum heights, low Froude correction, georeference, and also every numerical parameter and boundary condition that had been set; and the processes write to files of different names.", "quantifier": "all values of all settings of the domain, all boundary maps, all sets of quantities, all numbers of processes", "why_tests_cant": "A parallel test compares the settings its author thought of; that no other setting of the domain reaches the processes is a statement about all attributes and all values.", "anchors": ["anuga/parallel/parallel_api.py:70-145", "anuga/parallel/sequential_distribute.py:24-213", "anuga/parallel/sequential_distribute.py:277-330", "anuga/shallow_water/shallow_water_domain.py:486-895", "anuga/shallow_water/shallow_water_domain.py:1258-1298", "anuga/abstract_2d_finite_volumes/generic_domain.py:937-1042", "anuga/parallel/parallel_shallow_water.py:108-120"]}
{"id": "C82", "title": "The slope limiters of a quantity keep values in range and conserve the mean", "statement": "Each limiter of a quantity multiplies the deviations of the edge (or vertex) values of a triangle from its centroid value, and its gradient, by one factor between 0 and 1, so that the limited values lie in the range of the centroid values of the triangle and its neighbours, a linear reconstruction stays linear with the centroid value as mean, values already in range are left alone, no other triangle is touched, and the bounding routines leave no vertex below its bound.", "quantifier": "all meshes, all centroid, vertex and edge values, all gradients, all limiter parameters, all bounds", "why_tests_cant": "Tests evaluate the limiters on a handful of triangles with limiter parameters of one or less; range, linearity and the failure cases are statements about all values and parameters.", "anchors": ["anuga/abstract_2d_finite_volumes/quantity.c:131-656", "anuga/abstract_2d_finite_volumes/quantity.c:949-983", "anuga/utilities/util_ext.h:153-184", "anuga/abstract_2d_finite_volumes/quantity_ext.pyx:288-428"]}
{"id": "C83", "title": "Advection domain: conservation, constant states, time step and maximum principle", "statement": "compute_fluxes of the advection domain conserves the advected quantity (area-weighted updates add up to minus the boundary fluxes) for all edge values, leaves constant states unchanged, returns exactly the smallest of the maximum step and radius / |normal velocity| over the crossed edges of full triangles, and agrees with the Python version of the routine; and with time steps no longer than the returned one the first order scheme (Euler, RK2 and RK3) keeps all values between the extremes of the initial and boundary values, for every mesh and number of steps.", "quantifier": "all meshes, velocities, edge values, boundary values, time stepping methods, step sequences and initial states", "why_tests_cant": "The maximum principle concerns every triangle shape and velocity direction; it fails only for thin triangles with the default radii, and runs on regular meshes never show this.", "anchors": ["anuga/advection/advection.c:20-120", "anuga/advection/advection.py:30-275", "anuga/abstract_2d_finite_volumes/generic_domain.py:1915-2182", "anuga/abstract_2d_finite_volumes/general_mesh.py:240-277"]}
{"id": "C84", "title": "Inlet operator on several processes ends and does what the sequential operator does", "statement": "When the triangles of an inlet belong to several processes, one call of Parallel_Inlet_operator by all of them ends in every order of events, whether sends are buffered or wait for the receiver, leaves on every process exactly the stages and momenta that the sequential Inlet_operator leaves on the undivided domain, books the same volumes, and the volume account reported for the whole run grows by the volume added; an error on one process does not leave others waiting.", "quantifier": "all numbers of processes, divisions of the inlet, values, discharges, tie-breaking of argsort, interleavings and send modes", "why_tests_cant": "Deadlock freedom and agreement with the sequential operator concern all interleavings and all divisions of the inlet; tests run few processes on one mesh.", "anchors": ["anuga/parallel/parallel_inlet.py:98-118", "anuga/parallel/parallel_inlet.py:291-310", "anuga/parallel/parallel_inlet.py:407-517", "anuga/parallel/parallel_inlet_operator.py:100-185", "anuga/shallow_water/shallow_water_domain.py:1715-1750"]}
{"id": "C85", "title": "Culverts and weirs on several processes end and do what the sequential ones do", "statement": "When the inlets and enquiry points of a culvert or weir belong to several processes, one call of the parallel structure operator by all of them ends in every order of events, whether sends are buffered or wait for the receiver, leaves on every process exactly the stages and momenta that the sequential operator leaves on the undivided domain, keeps the same accounts and smoothed values, and neither creates nor loses water; the constructor chooses the same exchange regions and levels the inlets as the sequential one does.", "quantifier": "all numbers of processes, divisions of the inlets, values, culvert formulas, interleavings and send modes", "why_tests_cant": "The call exchanges about thirty messages between processes whose roles depend on the flow direction; deadlock freedom and agreement with the sequential operator for all divisions and schedules cannot be tested.", "anchors": ["anuga/parallel/parallel_structure_operator.py:172-246", "anuga/parallel/parallel_structure_operator.py:255-469", "anuga/parallel/parallel_inlet.py:98-118", "anuga/parallel/parallel_inlet.py:134-333", "anuga/parallel/parallel_inlet_enquiry.py:88-215", "anuga/parallel/parallel_boyd_box_operator.py:144-318", "anuga/parallel/parallel_weir_orifice_trapezoid_operator.py:140-330"]}
{"id": "C86", "title": "Processes agree on who takes part in an inlet or structure", "statement": "When all processes call a parallel structure or inlet factory, the call returns on every process in every order of events; all get the same group, consisting of exactly the processes that own triangles met by the line or the enquiry point; its master has the largest part; the operator is created on exactly these processes and satisfies the assumptions of the calls made during the run; lines or points outside the mesh, points on the border between two processes and calls by processes outside the list do not leave processes waiting for ever; and the operator uses the enquiry points for which the allocation was made.", "quantifier": "all numbers of processes, lists of processes, sizes of the parts, positions of the enquiry points, interleavings and send modes", "why_tests_cant": "Whether some division of the mesh and some schedule makes processes disagree or wait for ever needs all divisions and schedules; the failing positions are edges between processes, which depend on the partition.", "anchors": ["anuga/parallel/parallel_operator_factory.py:146-276", "anuga/parallel/parallel_operator_factory.py:806-872", "anuga/parallel/parallel_operator_factory.py:877-989", "anuga/parallel/parallel_structure_operator.py:510-565", "anuga/abstract_2d_finite_volumes/neighbour_mesh.py:1057-1080"]}
{"id": "C87", "title": "Operators that change the bed keep the water and change only what they should", "statement": "For every mesh, region, flow, parameters and state: Set_elevation, the erosion operators and the sand dune operator leave the depth of water at every centroid unchanged (so the volume of water is kept); they change no triangle outside the region (with continuous elevation: no triangle without a corner in the region); with continuous elevation they keep one value per node and centroid and edge values equal to the means of the vertex values; Set_elevation produces the given values; erosion never raises the bed and never takes it below the base level, erodes each triangle of the region by its own rate, and acts on the whole domain when no region is given.", "quantifier": "all meshes with a valid node index, all regions (any list of triangles or the whole domain), all states of elevation, stage and momentum, all thresholds, base levels, time steps and given values, both elevation modes", "why_tests_cant": "The tests of the erosion operator use one region of exactly three triangles with a flat bed and still pass where numpy combines arrays of the wrong shapes; the error for any other region size, the mixing of triangles and the lifted bed only appear for other sizes and beds, and conservation is checked for single states only.", "anchors": ["anuga/operators/set_elevation.py", "anuga/operators/set_quantity.py", "anuga/operators/erosion_operators.py", "anuga/operators/sanddune_erosion_operator.py", "anuga/abstract_2d_finite_volumes/quantity.py"]}
{"id": "C88", "title": "Cross-sections are cut into segments that make up the whole polyline, and the flow through them is exact", "statement": "get_intersecting_segments returns, for a polyline over a conforming mesh, one segment for each part of a piece of the polyline inside a triangle: its ends are the first and last points of the piece in the triangle, its direction is that of the piece, its normal is the right-hand unit normal, its length is right, and an edge shared by two triangles is used once. The lengths add up to the length of the polyline, so get_flow_through_cross_section returns the exact integral of the normal momentum when the momentum is linear in each triangle, the flow of a uniform momentum depends only on the two ends of the polyline and is zero around a closed one, and get_energy_through_cross_section is an average of the energies of the segments. The assertion that there are two or no intersections never fails.", "quantifier": "all conforming meshes of non-degenerate triangles, all polylines covered by the mesh (through vertices, along edges, ending inside triangles), all momentum fields linear in each triangle, all bounds on the energy", "why_tests_cant": "the tests use rectangular meshes and straight lines at a few positions; that nothing is lost or counted twice, in any mesh and for lines through vertices and along edges, is a statement about all of them, and the assertion fails only by rounding", "anchors": ["anuga/abstract_2d_finite_volumes/neighbour_mesh.py:1216-1462", "anuga/shallow_water/sww_interrogate.py:73-136", "anuga/shallow_water/sww_interrogate.py:286-377", "anuga/geometry/polygon.py:112-186"]}
{"id": "C89", "title": "Grids exported from results hold the interpolated quantity at the stated places", "statement": "sww2dem and save_to_array sample a quantity on a regular grid: each grid point inside a triangle of the mesh gets the linear interpolant of the triangle's corner values (up to a tolerance of 1e-12 side lengths), each point outside all triangles gets NODATA, no point of the mesh is missed by the search windows, the grid covers the given extent up to one cell, and nothing outside the array is written. A quantity that is linear on each triangle is reproduced exactly and no value leaves the range of the vertex values. The values at the vertices do not depend on the block size. The coordinates returned with the values, and the header of an .asc file, give the places of the samples, so that asc2dem and dem2pts read back the sampled points and values (to the printed number of decimals) and drop exactly the NODATA points.", "quantifier": "all meshes of non-degenerate triangles, all cell sizes, extents and georeferences, all vertex values, all block sizes, all numbers of decimal places", "why_tests_cant": "the tests compare a handful of grids on one small rectangular mesh with integer corners and default formats; missed cells, displaced corners and printed NODATA values show up only for particular geometry and options", "anchors": ["anuga/file_conversion/calc_grid_values.c:94-403", "anuga/file_conversion/sww2dem.py:231-477", "anuga/abstract_2d_finite_volumes/quantity.py:422-547", "anuga/file_conversion/asc2dem.py:118-198", "anuga/file_conversion/dem2pts.py:81-353"]}
{"id": "C90", "title": "Setting a quantity sets what was asked for, and nothing else", "statement": "After set_values, the values at the selected triangles, vertices or nodes are those given by the constant, array, function, quantity, fitted data or raster, at the location asked for; the values at that location elsewhere are unchanged; edge and centroid values go with the vertex values (vertex and edge values with the centroid values), and linear functions are exact everywhere. get_values returns what was set, get_maximum_index and get_maximum_value return the largest value among the selected triangles and where it is, the integral over a region is the sum of area times value, and sums, differences and products of quantities hold the sums, differences and products of the values.", "quantifier": "all meshes, all quantities, all sources of values, all locations, all selections by index", "why_tests_cant": "there are 9 kinds of source, 3 locations and selections by triangle or node, with and without indices; the tests try some of the combinations on one mesh of four triangles and look at the values they set, not at the others", "anchors": ["anuga/abstract_2d_finite_volumes/quantity.py:120-305", "anuga/abstract_2d_finite_volumes/quantity.py:655-1568", "anuga/abstract_2d_finite_volumes/quantity.py:1803-2145", "anuga/abstract_2d_finite_volumes/quantity.py:2221-2268", "anuga/abstract_2d_finite_volumes/quantity.c:665-688", "anuga/abstract_2d_finite_volumes/quantity.c:922-947", "anuga/abstract_2d_finite_volumes/generic_domain.py:823-895"]}
{"id": "C91", "title": "Riverwalls are placed on exactly the edges of the wall, with its elevation and parameters", "statement": "create_riverwalls marks exactly the mesh edges that lie on a segment of a wall (to the given tolerance), on both sides of the edge alike, gives each the elevation of the wall interpolated along the segment and the hydraulic parameters given for its wall (or the defaults), and numbers the edges so that the flux computation finds the entries of each edge inside the arrays. A wall described along mesh edges is found without gaps, a wall with gaps is refused, ill-formed coordinates and parameters are refused and then leave the domain as it was, and a new call replaces the walls of the previous one.", "quantifier": "all meshes, all sets of walls, parameters, tolerances and previous states", "why_tests_cant": "the tests use one mesh and walls of a few hundred metres parallel to the axes, in one call, always verbose; round-off on long walls, leftovers of earlier calls and gaps between walls that end on the boundary do not occur in them", "anchors": ["anuga/structures/riverwall.py:55-670", "anuga/abstract_2d_finite_volumes/general_mesh.py:599-630", "anuga/shallow_water/shallow_water_domain.py:366-379", "anuga/shallow_water/sw_domain_simd.c:600-620"]}
{"id": "C92", "title": "A region holds exactly the triangles of the place described", "statement": "A Region given by a circle holds exactly the triangles with the centroid in the circle, by a polygon those with the centroid inside (with expand_polygon every triangle that has a point in common with the polygon), by a line or polyline those the line meets, by numbers exactly these, and without a description all triangles. get_indices leaves out exactly the ghost triangles, so on several processes every triangle of the region of the undivided domain is in the region of the one process that owns it. A description that is incomplete or contradictory is refused.", "quantifier": "all meshes, all circles, polygons, lines, lists of triangles and all distributions over processes", "why_tests_cant": "the tests describe a few regions of one small mesh; all combinations of arguments, polylines of several segments and all distributions of the mesh cannot be listed", "anchors": ["anuga/abstract_2d_finite_volumes/region.py:23-289", "anuga/geometry/polygon.py:261-278", "anuga/geometry/polygon.c:446-556"]}
{"id": "C93", "title": "Rain and inflow add exactly the water that was asked for", "statement": "The forcing terms Inflow and Rainfall change only the stage update of the triangles described, evenly, so that an inflow of Q m^3/s adds exactly Q per second (in total over all processes, and also when the whole domain is the place) and rain of r mm/s raises every triangle by r/1000 m/s. After the end of the data the default rate is used in the same units, before the beginning or without a default the call fails without effect. The order of the terms does not matter, and reading and setting values through a term concerns the quantity asked for.", "quantifier": "all domains, places, rates (constants and functions of time), times, default rates, updates and orders", "why_tests_cant": "the tests use a few rectangles without holes on one process and constant or simple rates; default rates are tested for rain only", "anchors": ["anuga/shallow_water/forcing.py:233-678", "anuga/abstract_2d_finite_volumes/generic_domain.py:2417-2427"]}
{"id": "C94", "title": "Wind and pressure act on the water with the right force at all times", "statement": "Wind_stress adds to the momentum of every triangle the stress eta_w*rho_a/rho_w*s*|s| in the direction given, and Barometric_pressure the force of the pressure gradient (minus depth over density times gradient, exact for linear pressure); nothing else changes. The classes that read a file give at every model time inside the file the value interpolated between the neighbouring times, whatever the time stepping method, and an error outside. Every documented way of creating the objects works.", "quantifier": "all wind and pressure fields, meshes, times, files and sequences of calls", "why_tests_cant": "the tests compare with the same formula, evolve with Euler steps over uniform data, and create the objects in one way", "anchors": ["anuga/shallow_water/forcing.py:27-227", "anuga/shallow_water/forcing.py:805-1340", "anuga/config.py:50-52", "anuga/abstract_2d_finite_volumes/generic_domain.py:2060-2175"]}
{"id": "C95", "title": "The bounding polygon encloses the whole mesh", "statement": "get_boundary_polygon ends for every mesh and returns a closed counter-clockwise polygon that consists of boundary segments, starts in the boundary point closest to the lower left corner of the extent, goes around every point of every triangle, and around no point outside.", "quantifier": "all meshes of counter-clockwise triangles, with or without holes and points where the boundary touches itself, in any coordinates, and all points of the plane", "why_tests_cant": "the tests try nine small meshes and a few points; whether a point is enclosed depends on the whole walk along the boundary", "anchors": ["anuga/abstract_2d_finite_volumes/neighbour_mesh.py:518-665", "anuga/utilities/numerical_tools.py:60-96", "anuga/abstract_2d_finite_volumes/general_mesh.py:856-872"]}
{"id": "C96", "title": "Internal boundary structures pass the discharge of their function", "statement": "An internal boundary operator without smoothing moves exactly the discharge of its function at the two enquiry levels, in the direction of its sign; with smoothing it never moves more than the function gives nor against it, and approaches a steady discharge geometrically; the implicit routine, when the root finder solves its equation, moves water downhill without the levels crossing and not more than the explicit value. A closed structure passes nothing, the function always gets the stage at enquiry point 0 as headwater, and the sequential and parallel operators start alike. Pump rates stay within their capacity, change with the given accelerations and keep still between the two levels; rating curves give no flow between equal levels, a discharge between those of the neighbouring curves, and the reverse discharge for reversed levels.", "quantifier": "all functions, levels, time steps, time scales, states of the operator, sequences of pump calls, and rating tables", "why_tests_cant": "Tests run single configurations with one function; the smoothing is a stateful recurrence over all histories of levels, and the faults need particular combinations of closed gates, reverse flow and smoothing.", "anchors": ["anuga/structures/internal_boundary_operator.py:85-300", "anuga/structures/internal_boundary_functions.py:149-475", "anuga/parallel/parallel_internal_boundary_operator.py:105-471"]}
{"id": "C97", "title": "Blocking and Sendrecv ghost exchanges end and deliver the values of the call", "statement": "communicate_ghosts_blocking and communicate_ghosts_asynchronous (MPI_Sendrecv with the partners in increasing order), called any number of times with arbitrary computations in between and without any other synchronisation, never deadlock whether the message library buffers messages or makes senders wait, and after each call every ghost triangle has the value its owner had at that call while all other triangles keep theirs. On every mesh distributed by ANUGA the conditions for this hold: processes receive from exactly those they send to, and no ghost is sent.", "quantifier": "all numbers of processes, communication patterns, values, computations between calls, numbers of calls, and schedules of the message library", "why_tests_cant": "Deadlocks and mixed up messages depend on the buffering of the MPI implementation and on timing; tests see one schedule with small, always buffered messages.", "anchors": ["anuga/parallel/parallel_generic_communications.py:92-156", "anuga/parallel/parallel_generic_communications.py:251-300", "anuga/utilities/parallel_abstraction.py:245-273", "anuga/parallel/distribute_mesh.py:515-554"]}
{"id": "C98", "title": "Periodic meshes behave like an endless channel", "statement": "rectangular_periodic of mesh_factory.py returns a valid rectangle of m+2 columns in which the triangles outside the given rectangle are exactly the ghosts, and update_ghosts gives each ghost the value of the triangle lying one period away and changes nothing else. A run of any explicit scheme whose rule depends on the triangle, its neighbours and theirs, with a common time step taken from the full triangles, then has on the whole mesh the values of the run on an endless channel with periodic data, does not depend on where the channel is cut, and conserves what is exchanged through edges except through the bottom and top sides. The ghost dictionaries of rectangular_periodic and rectangular_periodic_lr in parallel_meshes.py name the triangle one period away, which is not a ghost. parallel_rectangle produces lists that match on all pairs of processes.", "quantifier": "all numbers of columns, rows and processes, all sizes and origins, all explicit schemes with that dependence, all values, and all numbers of passes", "why_tests_cant": "Tests compare the lists for one or two sizes; that ghosts of ghosts never matter and that runs agree with an endless channel is a statement about all schemes and all step counts.", "anchors": ["anuga/abstract_2d_finite_volumes/mesh_factory.py:317-460", "anuga/parallel/parallel_meshes.py:32-448", "anuga/abstract_2d_finite_volumes/generic_domain.py:284-289", "anuga/abstract_2d_finite_volumes/generic_domain.py:2448-2469"]}
{"id": "C99", "title": "Polygons, tags and resolutions given by the user reach the mesh generator, and its tags reach the domain", "statement": "create_mesh_from_regions hands to the mesh generator exactly the breaklines, the sides of the bounding polygon with the tag of the dictionary entry that lists them, the sides of the interior polygons and the sides of the holes with their tags, in absolute coordinates whatever georeferences are used, one point inside each region with the area asked for, and one point inside each hole. Merging repeated points moves no segment, and tags survive the conversion to integers and back. Whatever triangulation comes back, every boundary edge of the domain has the tag of a segment of the user on which it lies ('exterior' if that segment has none). Segments without a tag, numbers that are not segments, and polygons that leave the bounding polygon are refused; the search for an inner point ends and stays within sqrt(2) delta of a vertex.", "quantifier": "all polygons, tag dictionaries, holes, breaklines and georeferences, all lists of tags and points, and all triangulations satisfying the stated contract of Triangle", "why_tests_cant": "Tests compare a few polygons; the mapping of tags goes through dictionaries, negative indices, integer markers and a renumbering of points, for which only a proof covers all combinations.", "anchors": ["anuga/pmesh/mesh_interface.py:143-370", "anuga/pmesh/mesh.py:712-804", "anuga/pmesh/mesh.py:916-948", "anuga/pmesh/mesh.py:2232-2330", "anuga/mesh_engine/mesh_engine.py:127-154", "anuga/geometry/polygon.py:946-982", "anuga/abstract_2d_finite_volumes/pmesh2domain_ext.pyx:33-137"]}
{"id": "C100", "title": "The parallel linear solver gives the sequential result in every execution", "statement": "Every OpenMP loop of cg.c (dot product, scaling, copy, axpy, sparse products, diagonal products, Jacobi preconditioner) is free of races: no execution runs for ever, and all of them store the same values, in their output array only. For every interleaving of the accesses, every distribution of the iterations over threads and every order of combining the sums of the reductions, _cg_solve_c and _cg_solve_c_precon return the status and the solution of the sequential algorithm and leave the matrix, the right hand side and the preconditioner unchanged. On a symmetric positive definite matrix in CSR format, conjugate_gradient with the Jacobi preconditioner and the C routine therefore always returns status 0 and a solution within the tolerance. The values are the same bit by bit in floating point.", "quantifier": "all matrices, right hand sides, starting vectors, tolerances and iteration limits, and all interleavings, distributions over threads and reduction orders", "why_tests_cant": "A test runs a few of the interleavings of a few threads; a missing private clause or an output array read by another iteration shows up only in rare schedules.", "anchors": ["anuga/utilities/cg.c:36-183", "anuga/utilities/cg.c:191-219", "anuga/utilities/cg.c:232-366", "anuga/utilities/cg_solve.py:79-104"]}
{"id": "C101", "title": "Points and their attributes stay together through subsets, sums and points files", "statement": "For a Geospatial_data object, each point keeps its location and its own attribute values: a change of georeference moves no point; clip keeps exactly the points inside the polygon and clip_outside exactly the others, in order; split gives two parts that together are the data, the first of the size asked for, whatever random numbers are drawn; a sum has the points of both operands, the attributes of the one followed by those of the other, and their common zone; export and import through .pts (absolute or relative) and .csv files give back the same points and values; and reading a file in blocks gives, one block after the other, the rows of the whole file, each once, in blocks of the size asked for. No operation loses the zone, drops an attribute, or fails on well-formed data.", "quantifier": "all point sets, attribute tables, georeferences, polygons, random draws, block sizes and well-formed files", "why_tests_cant": "The tests use a few points with one or two attributes; a wrong row in one column, an unlucky draw or a block boundary shows up only for particular sizes and values.", "anchors": ["anuga/geospatial_data/geospatial_data.py:200-262", "anuga/geospatial_data/geospatial_data.py:274-331", "anuga/geospatial_data/geospatial_data.py:410-468", "anuga/geospatial_data/geospatial_data.py:573-827", "anuga/geospatial_data/geospatial_data.py:889-1068", "anuga/geospatial_data/geospatial_data.py:1110-1199"]}
{"id": "C102", "title": "A mesh written to a text file is read back unchanged", "statement": "export_mesh_file to a .tsh file followed by import_mesh_file returns the same mesh: vertices, attributes and their titles, triangles, neighbours, region tags, segments and boundary tags, outline points, segments and tags, holes, regions, region tags, maximum areas (None included) and the georeference (None included), also for tags that are empty or contain blanks. A mesh that the format cannot hold (attributes without titles, titles without attributes, a newline in a tag) is refused or kept, never damaged silently.", "quantifier": "all meshes of any size, all tags and titles, all formats of numbers that read back what they print", "why_tests_cant": "The tests write a few small meshes with ordinary tags; the reader cuts lines at blanks by position, so that tags with blanks, empty tags and missing parts need to be examined for all strings.", "anchors": ["anuga/load_mesh/loadASCII.py:85-153", "anuga/load_mesh/loadASCII.py:156-376", "anuga/load_mesh/loadASCII.py:379-570", "anuga/coordinate_transforms/geo_reference.py:250-293"]}
{"id": "C103", "title": "Elevation grids are read and decimated with each value at its place", "statement": "grd2array, dem2array and tif2array return each elevation of a grid with the coordinates of its place and NaN exactly for NODATA, and the text and .dem readers agree; a quantity set from these arrays is exact for bilinear surfaces, stays within the range of the elevations and is NaN outside the grid. dem2dem gives, for every block of the old grid, the weighted mean of its elevations, or NODATA if the block has a hole, placed at the middle of the block, so that a plane stays the same plane; no block leaves the grid and no complete block is left out. Cell sizes, corners, NODATA values and names of any admissible kind are treated alike.", "quantifier": "all grids of any size, corner, cell size and NODATA value, all stencils and new cell sizes, all points", "why_tests_cant": "The tests decimate two small grids with integral data and compare the numbers but not the places; displacements, remainders and fractional cell sizes or NODATA values are not tried.", "anchors": ["anuga/file_conversion/dem2dem.py:8-144", "anuga/file_conversion/dem2array.py:61-89", "anuga/file_conversion/grd2array.py:64-121", "anuga/file_conversion/tif2array.py:4-31", "anuga/file_conversion/asc2dem.py:132-148", "anuga/abstract_2d_finite_volumes/quantity.py:1342-1375"]}
{"id": "C104", "title": "Composite quantity functions take each point's value from the pair that has priority", "statement": "The function made by composite_quantity_setting_function either raises or returns one number per point. The number is the value of the first (polygon, function) pair whose polygon contains the point (boundary included, in absolute coordinates) and whose function is not NaN there, clipped to the clip range of that pair; pairs with polygon None are ignored. A point that is NaN in the first pair that covers it and lies in the region for interpolation gets instead the inverse-distance mean of the k nearest points not treated in this way. Without such a region it returns exactly if there are points and pairs, the clip ranges fit, 'All' comes last, and every point has such a pair, where NaN is met before it only with 'fall_through'. Nearest-neighbour functions return the background value where no data point is nearer than the threshold, and elsewhere a mean between the smallest and the largest value, the minimum or the maximum (for values up to 9e100 in size) of the k nearest data points, or raise if there are fewer than k.", "quantifier": "for all lists of pairs of polygons and functions, clip ranges, NaN treatments, interpolation regions, numbers of neighbours, geo-references and sets of points", "why_tests_cant": "The tests try a handful of pairs on one small mesh; which pair sets a point depends on the overlap of all polygons, the NaN pattern of all functions and the order of the pairs, and the values interpolated again depend on all other points.", "anchors": ["anuga/utilities/quantity_setting_functions.py:composite_quantity_setting_function", "anuga/utilities/quantity_setting_functions.py:make_nearestNeighbour_quantity_function"]}
{"id": "C105", "title": "Polygon functions give each point the value of the last polygon that contains it", "statement": "A Polygon_function called with the relative coordinates of points returns one value per point: the value (or the function applied to the coordinates of the point) of the last region in its list whose polygon, given in absolute coordinates, contains the point or has it on its boundary, and the default value (or default function at the point) where no polygon contains it.", "quantifier": "for all lists of polygons with values or functions, all defaults, georeferences and sets of points", "why_tests_cant": "Tests use a few squares and points; overlapping polygons, points on boundaries, default functions that return their own argument or an array of integers, and offsets of the georeference combine in unboundedly many ways.", "anchors": ["anuga/geometry/polygon_function.py:Polygon_function"]}
{"id": "C106", "title": "Operators that set stage, momentum and friction set exactly the triangles of their region, keep depths non-negative, and Manning's operator only slows the flow", "statement": "A call of Set_quantity, Set_stage, their operators, Set_w_uh_vh_operator or Set_depth_friction_operator sets the centroid values of exactly the triangles of its region to the given number or to the value of the given function at the centroid and the current time (Set_stage: but not below the bed; friction: at the depth of the triangle), changes no other quantity, and never leaves a negative depth in the region. Mannings_operator multiplies both momenta of each triangle by one factor in (0,1], the exact decay for the friction rate at the start of the step, and exp(-100 dt) where there is no water.", "quantifier": "for all values, functions of time and place, regions, states of the domain, gravities and time steps", "why_tests_cant": "Tests set a constant on a few triangles; empty regions, values below the bed, functions that return the wrong number of values or mix integers and floats, and all combinations of depth, friction and time step cannot be enumerated.", "anchors": ["anuga/operators/set_quantity.py:Set_quantity", "anuga/operators/set_stage.py:Set_stage", "anuga/operators/set_stage_operator.py:Set_stage_operator", "anuga/operators/set_quantity_operator.py:Polygonal_set_quantity_operator", "anuga/operators/set_w_uh_vh_operator.py:Set_w_uh_vh_operator", "anuga/operators/set_friction_operators.py:Set_depth_friction_operator", "anuga/operators/mannings_operator.py:Mannings_operator"]}
{"id": "C107", "title": "The maximum inundation of a run is the highest elevation that is ever under water", "statement": "get_maximum_inundation_data returns the largest elevation over all points (centroids, or nodes) inside the polygon that have positive depth at some stored time inside the interval, with the absolute coordinates of such a point and the first stored time at which this elevation is under water, and None exactly when no such point is ever under water. The methods get_maximum_inundation_elevation and get_maximum_inundation_location of the domain return the largest elevation, and its location, over the given triangles deeper than the minimum height.", "quantifier": "for all sww files, polygons, time intervals, states of the domain and lists of triangles", "why_tests_cant": "Tests look at runs up a beach that stay wet; runs that dry again, regions in which only one point is wet, intervals at the start of the run and lists of triangles are not tried, and their combinations are unbounded.", "anchors": ["anuga/shallow_water/sww_interrogate.py:get_maximum_inundation_data", "anuga/shallow_water/shallow_water_domain.py:get_wet_elements", "anuga/shallow_water/shallow_water_domain.py:get_maximum_inundation_elevation", "anuga/shallow_water/shallow_water_domain.py:get_maximum_inundation_location"]}
{"id": "C108", "title": "The report of boundary flows balances, and an inflow boundary lets in its rate", "statement": "compute_boundary_flows gives every tag that occurs the sum of the flows (minus the normal momentum times the length) through its own boundary edges, gives no other tag a flow, and its total inflow and outflow are the sums of the positive and of the negative edge flows, which together equal the sum over the tags. An Inflow_boundary of a given rate sets momenta that point into the domain with a total inflow over its edges equal to the rate, with the depth by Manning's formula.", "quantifier": "for all sets of boundary edges with tags, all normals, lengths and momenta, all rates, and all orders of evaluation", "why_tests_cant": "The test of the inflow boundary is disabled, and tests of the flows use one channel; objects used for two tags, boundaries split over processes and tags in any order cannot be enumerated.", "anchors": ["anuga/shallow_water/shallow_water_domain.py:compute_boundary_flows", "anuga/shallow_water/boundaries.py:Inflow_boundary"]}
{"id": "C109", "title": "The report of the volume of water is the volume, the same on all processes, and its balance line is 0 in a run that balances", "statement": "get_water_volume returns on every process the sum over the triangles of the whole mesh of area times depth at the centroid, before and after evolve is called, however the mesh is split over processes. get_boundary_flux_integral and get_fractional_step_volume_integral return on every process the sum over the processes. The last line of report_water_volume_statistics is 0 at every report of a run in which the volume changes by exactly what these integrals say.", "quantifier": "for all meshes and splits into processes, all values of stage, elevation and height, and all sequences of reports", "why_tests_cant": "Tests look at a few domains on one process with reports from the start; splits over processes, reports that start late and values set between steps cannot be enumerated.", "anchors": ["anuga/shallow_water/shallow_water_domain.py:get_water_volume", "anuga/shallow_water/shallow_water_domain.py:get_boundary_flux_integral", "anuga/shallow_water/shallow_water_domain.py:get_fractional_step_volume_integral", "anuga/shallow_water/shallow_water_domain.py:report_water_volume_statistics", "anuga/abstract_2d_finite_volumes/quantity.py:get_integral"]}
{"id": "C110", "title": "Quantities set by regional tag change on the triangles with the tag and nowhere else", "statement": "set_tag_region with a Set_tag_region gives the quantity the constant or the function on the triangles with the tag, with an Add_value_to_region the initial quantity (or its mean over those triangles) plus the value, and with an Add_quantities the sum of the two quantities, at each of the documented locations (vertices, centroids, unique vertices). The values on triangles without the tag and the other quantities stay as they are, and a list of functions is applied in its order.", "quantifier": "for all meshes, dictionaries of tagged triangles (also overlapping ones), quantities, constants, functions and locations", "why_tests_cant": "Tests use one mesh of six triangles with tags at its ends; overlapping tags, shared nodes and quantities that jump between triangles cannot be enumerated.", "anchors": ["anuga/abstract_2d_finite_volumes/generic_domain.py:set_tag_region", "anuga/abstract_2d_finite_volumes/tag_region.py:Set_tag_region", "anuga/abstract_2d_finite_volumes/tag_region.py:Add_value_to_region", "anuga/abstract_2d_finite_volumes/tag_region.py:Add_quantities", "anuga/abstract_2d_finite_volumes/neighbour_mesh.py:build_tagged_elements_dictionary"]}
{"id": "C111", "title": "Latitudes and longitudes are projected in the zone that contains them, symmetrically, and all points of a list in one projection", "statement": "decimal_degrees2degminsec gives minutes and seconds in [0, 60) and degminsec2decimal_degrees gives the angle back. redfearn chooses for every longitude that it accepts a zone from 1 to 60 whose central meridian is within 3 degrees. The projection is symmetric about the central meridian and the equator, whose crossing has the false easting and northing, and a central meridian given in place of the zone gives the same coordinates. convert_from_latlon_to_utm projects all points of a list with one zone and one false northing or raises.", "quantifier": "for all angles, latitudes, longitudes, zones, meridians, scale factors, false origins and lists of points", "why_tests_cant": "Tests check a few points, most of them near Australia; longitudes at and beyond 180, angles just below 0 and lists across the equator or a zone edge cannot be enumerated.", "anchors": ["anuga/coordinate_transforms/redfearn.py:redfearn", "anuga/coordinate_transforms/redfearn.py:degminsec2decimal_degrees", "anuga/coordinate_transforms/redfearn.py:decimal_degrees2degminsec", "anuga/coordinate_transforms/redfearn.py:convert_from_latlon_to_utm"]}
{"id": "C112", "title": "LLtoUTM and UTMtoLL use the zone that contains the longitude, and mirror each other about the meridian and the equator", "statement": "LLtoUTM brings every longitude back to [-180, 180) and chooses a zone from 1 to 60 whose meridian is within 3 degrees, or within 6 in the wider zones of Norway and Svalbard; outside these it is the zone of redfearn. Latitudes of opposite sign have the same easting and northings that add up to 10000000. On the meridian the easting is 500000 and UTMtoLL gives the longitude back; mirrored eastings or northings give mirrored longitudes or latitudes. The letter designates the band of the latitude.", "quantifier": "for all ellipsoids, latitudes, longitudes, zones, eastings and northings", "why_tests_cant": "The tests convert five points there and back; longitudes beyond 180, edges of zones and bands and the exceptional zones cannot be enumerated.", "anchors": ["anuga/coordinate_transforms/lat_long_UTM_conversion.py:LLtoUTM", "anuga/coordinate_transforms/lat_long_UTM_conversion.py:UTMtoLL", "anuga/coordinate_transforms/lat_long_UTM_conversion.py:_UTMLetterDesignator"]}
{"id": "C113", "title": "Covariance, correlation and errors of vectors have the properties of their names", "statement": "cov is symmetric, follows changes of scale and origin, and cov(x) is not negative and 0 for constant vectors only. corr is between -1 and 1, symmetric, unchanged by scale and origin but for the sign, 1 or -1 on a line and 0 for a constant vector; vectors of different lengths raise. The absolute err is a distance in the two norm and the greatest difference in the maximum norm; the relative err is the absolute one divided by the norm of y, and the absolute one if y is omitted or has norm 0.", "quantifier": "for all vectors of real numbers and all changes of scale and origin", "why_tests_cant": "The tests of err call it with relative=False on three pairs of vectors; vectors of any length, constant vectors and references equal to 0 cannot be enumerated.", "anchors": ["anuga/utilities/numerical_tools.py:cov", "anuga/utilities/numerical_tools.py:corr", "anuga/utilities/numerical_tools.py:err", "anuga/utilities/numerical_tools.py:norm"]}
{"id": "C114", "title": "parse_time reads every valid time in all its formats as the seconds since 1970, in order, and refuses what is not a time", "statement": "parse_time gives for a date with hours, minutes and seconds, run together or with a separator '_', ':', '/' or ' ' after the date, the number of seconds since the start of 1970 in the Gregorian calendar, with missing parts taken as 0. Each day starts 86400 seconds after the day before, and later times have greater numbers. Dates that do not exist raise, and so do strings that are not times.", "quantifier": "for all years from 1 to 9999, all dates and times of day, all formats and all strings of ASCII characters", "why_tests_cant": "No test calls parse_time; leap years, ends of months and malformed strings cannot be enumerated.", "anchors": ["anuga/utilities/parse_time.py:parse_time"]}
{"id": "C115", "title": "Merged CSV files keep every column in line with its keys, and files with other keys are refused", "statement": "read_csv_file takes the first columns with the titles of key and data, of all rows that are long enough, in order, and raises if a title is missing. merge_csv_key_values succeeds exactly when there are files, all can be read and all have the same keys in the same order. Reading any column of its output gives the column of its file back.", "quantifier": "for all lists of files, rows of any length, titles and contents of cells", "why_tests_cant": "The tests merge one, two, four or ten files and try single defects; rows too short, repeated titles and any number of files cannot be enumerated.", "anchors": ["anuga/utilities/csv_tools.py:read_csv_file", "anuga/utilities/csv_tools.py:merge_csv_key_values"]}
{"id": "C116", "title": "The type of a function is found from the arguments it takes, and a function of time has a value or its default at every time", "statement": "determine_function_type gives for None, numbers and arrays their own types and for a function the greatest of the numbers of arguments (t), (x, y), (x, y, t) that it takes, also if it is out of range on the test arguments. evaluate_temporal_function gives the value of the function where it is in range, before and after its range the default of that side, called if it can be called, and raises the exception again if there is no default; the default of the other side is not used.", "quantifier": "for all functions, values, times and defaults, and all exceptions that functions raise", "why_tests_cant": "The tests classify a few values and functions and none of them raises an exception in its body; functions out of range and errors inside functions cannot be enumerated.", "anchors": ["anuga/utilities/function_utils.py:determine_function_type", "anuga/utilities/function_utils.py:evaluate_temporal_function"]}
{"id": "C117", "title": "The three norms used in consistency checks are norms", "statement": "l1_norm, l2_norm and linf_norm are not negative, 0 for vectors of zeros (and the empty vector) only, homogeneous and satisfy the triangle inequality. They are the sum of the absolute values, the root of the sum of the squares and the greatest absolute value, and linf_norm <= l2_norm <= l1_norm <= n linf_norm for n entries.", "quantifier": "for all vectors of real numbers of all lengths, and all factors", "why_tests_cant": "Tests evaluate norms of single vectors; inequalities between norms of all vectors of all lengths cannot be enumerated.", "anchors": ["anuga/utilities/norms.py:l1_norm", "anuga/utilities/norms.py:l2_norm", "anuga/utilities/norms.py:linf_norm"]}
{"id": "C118", "title": "The slices of a latitude-longitude grid cover the requested extent and no more", "statement": "For ascending longitudes, and ascending or descending latitudes, the slices returned by get_min_max_indices have every entry within the requested extent, reach an entry below the lower bound and one not below the upper bound wherever the grid has such entries, and are the smallest such slices. For descending latitudes the slice is the mirror image of the slice of the ascending list. Without bounds the slices are the whole lists. Exactly the lists in no order (and descending longitudes) are refused.", "quantifier": "for all lists of latitudes and longitudes of all lengths and all bounds, given or not", "why_tests_cant": "The conversions are tested on single small grids; off-by-one errors in the indices depend on the order of the list, on ties with a bound and on bounds outside the grid.", "anchors": ["anuga/file_conversion/file_conversion.py:get_min_max_indices"]}
{"id": "C119", "title": "The distance to a segment is the least distance to its points, and the nearest segment is nearest", "statement": "compute_squared_distance_to_segment gives the least squared distance of the point from the points of the segment, attained at one of them; it is 0 for points of the segment only, does not depend on the direction of the segment, and is refused for repeated points only. find_nearest_segment gives the first segment that attains the least distance over the whole polyline, and exists for every polyline of two or more points without repeated neighbours.", "quantifier": "for all points, segments and polylines of all lengths, in real arithmetic", "why_tests_cant": "Tests compare distances for a few points; that no point of the segment or polyline is nearer is a statement about a continuum.", "anchors": ["anuga/utilities/spatialInputUtil.py:compute_squared_distance_to_segment", "anuga/utilities/spatialInputUtil.py:find_nearest_segment"]}
{"id": "C120", "title": "A decimated polygon keeps the extrema and one point in so many", "statement": "decimate_polygon leaves points out and moves or adds none; it preserves the extrema of both axes; it keeps at least (n-1)/factor points, and that number rounded up if no point lies at a corner of the bounding box, whose corners are always kept.", "quantifier": "for all polygons of all lengths and all positive factors", "why_tests_cant": "The test counts the points left of a single polygon and does not look at the extrema; it cannot show which polygons lose them.", "anchors": ["anuga/geometry/polygon.py:decimate_polygon"]}
{"id": "C121", "title": "Rotations are rotations, and the centroid of a slip surface lies half its diagonal from Okada's origin", "statement": "rotate_coordinates rotates anticlockwise: by 0 and by right angles as expected, composing by adding angles, with period 360, keeping distances and orientation. okada_origin_2_slip_centroid moves the origin by half the length along the strike (clockwise from north), and by half the width up the dip, whose direction is to the right of the strike: the distance is half the diagonal of the surface, and the centroid is not deeper than the origin for dips from 0 to 180 degrees.", "quantifier": "for all points, angles, origins, depths, lengths, widths, strikes and dips, in real arithmetic", "why_tests_cant": "Tests use a few orientations; identities in the angles for all strikes and dips are needed to exclude errors of sign and of sense of rotation.", "anchors": ["anuga/tsunami_source/okada_tsunami.py:rotate_coordinates", "anuga/tsunami_source/okada_tsunami.py:okada_origin_2_slip_centroid"]}
