# A machine-checked model of ANUGA

This directory contains a Coq (Rocq) model of parts of ANUGA (`/repo`, pinned
commit) and proofs of the properties listed in `properties.jsonl`.

## 1. Trusted base

* Coq 8.16.1's kernel and its standard library.
* Axioms.  Theorems about integers, lists, maps and state machines are closed
  under the global context.  Theorems about real-valued code use the standard
  library's real numbers, and therefore
  `ClassicalDedekindReals.sig_forall_dec`, `ClassicalDedekindReals.sig_not_dec`
  and `FunctionalExtensionality.functional_extensionality_dep`.  Theorems whose
  proofs use classical reasoning about the reals may in addition list
  `Classical_Prop.classic`.  No other axiom is used and none is added here.
  `Print Assumptions` is run below each property theorem in the `*Props.v`
  files, so the build log contains the exact list for each theorem.
* The translation of the Python / C / Cython source to Gallina, done by hand.
  Each definition cites the file and lines it models and states where it
  simplifies.

## 2. Modelling conventions

* Models are total Gallina functions mirroring the code branch by branch.
  Exceptions and error returns are values (`option`, `result`, or an inductive
  outcome), never silently dropped.
* `double` is modelled by the real numbers `R` unless a definition says
  otherwise: no rounding, overflow or NaN.  Where rounding matters for the
  property (C02, C25, C88, C91, C100) the exact IEEE-754 binary64 operations of the standard
  library (`Coq.Floats.SpecFloat`) are used.
* Comparisons in the code are boolean functions `Rltb`, `Rleb`, `Reqb` of
  `RealLib.v`, each with a specification lemma.
* Index code (`long`, `int`, Python `int`) is modelled by `Z` or `nat` without
  overflow.
* Loops over independent cells are maps over lists of records (structure of
  arrays turned into list of structures); loops carrying state are folds;
  `while` loops use explicit fuel and an explicit out-of-fuel outcome, with a
  theorem bounding the fuel needed, or are inductive relations.
* Each area has `XModel.v` (definitions only), `XProofs.v` (lemmas) and
  `XProps.v` (the property theorems, each followed by `Print Assumptions`,
  with concrete non-vacuity examples next to them).
* Where the code violates the property as users would state it, the file
  contains a theorem with suffix `_refuted`: a concrete counterexample in the
  model, next to the strongest true version.  A property that holds only in
  part has theorems with suffix `_partial`, and the missing part is stated in
  the comment and in `MANIFEST.json`.

## 3. Execution models

* `KahnLib`: processes with sends and receives over first-in first-out
  channels, sends buffered, arbitrary scheduler.  If one execution ends, all
  end in the same state.
* `SyncLib`: the same programs with sends that wait for the receiver, and
  `always_ends`: both semantics end in the same state from every reachable
  state.
* `SwapLib`: `MPI_Sendrecv`, where the library decides for each message
  whether it is buffered or handed over.
* `PhaseLib`: patterns of group communication for the parallel structures.
* `GhostModel`: non-blocking sends and receives; the library reads send buffers
  and writes receive buffers at times of its choosing.
* `ParLib`: parallel loops over shared memory, one access at a time in an
  arbitrary order, used for the OpenMP kernels; includes a rely/guarantee lemma.
* `ends_in` (`AllocationProofs`): as `always_ends`, for executions that stop
  half-way, with the final states for waiting and for buffered sends given
  separately.

## 4. Models and proof ideas per property

| Id | Model | Proof idea |
|----|-------|-----------|
| C01 | `EvolveModel`: domain clock record; `update_timestep` (clip to finaltime, then yieldtime); `_evolve_base` loop as a fuelled state machine fed by an arbitrary stream of flux timesteps, emitting yield events | loop invariant: time <= next yield time <= ...; trace equals the arithmetic progression; termination from a lower bound on flux timesteps |
| C02 | same two lines over `SpecFloat` binary64 | concrete doubles by `vm_compute` (`_refuted`); exactness theorem in reals as the true part |
| C03 | `update_timestep` including smallsteps counter and order fallback | case analysis and induction over the history of steps |
| C04, C05 | `MeshFactoryModel`: both constructors as nested loops producing points, elements and boundary dictionary | closed form of the index maps; boundary edges = edges with no reversed partner, by arithmetic on (i,j) |
| C06, C44 | `NeighbourModel`: hash table as association list; two passes of the C code; boundary numbering | invariants of the fold; symmetry from uniqueness of directed edges |
| C07 | `GeometryModel`: formulas for area, normals, lengths, centroid, radii over R | `field`/`nra` |
| C08, C09, C10 | `FluxModel`: `_rotate`, `_flux_function_central`, edge loop of `_compute_fluxes_central` | flux antisymmetry, fold invariant giving sum over triangles = boundary flux; lake at rest by algebra and closure of normals |
| C11 | `ReconModel`: `find_qmin_and_qmax`, `limit_gradient`, edge extrapolation for one triangle | interval reasoning |
| C12, C43 | `CentroidModel` | induction over cells |
| C13, C14 | `CentroidModel`: `_update`, Manning friction | algebra of the semi-implicit formula |
| C15, C45 | `InvertedModel`: inverted triangle structure, averaging loop | induction over node segments; counterexample with an orphan node |
| C16 | `SparseModel`: DOK dictionary, CSR conversion, CSR product | counterexample with an interior empty row; equality when no interior row is empty |
| C17 | `QuadModel`: AABB, Cell insert/search with fuel | tree invariant: leaves below a child lie in the child's box |
| C18 | `QuadTreeModel` | the quadrant chosen for a point is the quadrant of every triangle containing it stored below |
| C19, C20, C21, C22 | `PolygonModel` | permutation invariant of the two-ended fill; parity; algebra |
| C23 | `CGModel`: vectors over R, loop with fuel imax | invariant r = b - A x |
| C24 | `GeoRefModel` | algebra |
| C25 | `Interp2dModel` | searchsorted specification; convex combination bounds |
| C26, C27, C28, C29 | `InletModel` | sorted prefix sums; algebra; induction on histories |
| C30 | `BoundaryModel` | algebra with n1^2+n2^2 = 1 |
| C31 | `SetBoundaryModel` | induction over the sorted key list |
| C32 | `CacheModel`: file system of (args, data, adm) per file name, CacheLookup probing, crash points | invariant: readable data belongs to its args; counterexamples for forced evaluation and dependencies |
| C33 | `CheckpointModel`: per process file tables | all processes scan the same list; greatest common readable time |
| C34, C37 | `DistributeModel` | monotonicity of owner map; sortedness |
| C35 | `GhostModel`: processes with send/receive buffers, nondeterministic delivery | counterexample schedule; correct when rounds are separated by a collective |
| C36 | `MergeModel` | partition of unity of the ownership map |
| C38 | `HistogramModel` | searchsorted counting |
| C39 | `RKModel` | linearity of total volume |
| C40 | `GradientModel` | `field` |
| C41, C42 | `ExtremaModel` | induction over histories |
| C46, C47 | `FluxModel`, in `FluxTimestepProps` | invariants of the fold over edges: a minimum over the candidates, and the counter of riverwall edges |
| C48 | `ReconModel`, `FluxModel`, in `ReconProps` | algebra, edge by edge |
| C49, C50 | `SparseModel` | the dictionary entry for each key, by induction over the operations |
| C51, C52, C53 | `PolygonModel`, in `LineIntersectProps` | the line leaves a triangle through an edge; induction over the segments; counterexamples for C52 |
| C54 | `QuadTreeModel` | barycentric algebra |
| C55, C56 | `FitModel` | what becomes of one matrix entry under a sequence of additions |
| C57 | `GeoRefModel` | case analysis |
| C58 | `InletModel`, in `RateProps` | algebra |
| C59, C60, C61 | `BoundaryModel` | case analysis per boundary class; algebra |
| C62, C63, C64, C65 | `OmpModel` on `ParLib` | iterations that do not write what others access; `rely_guarantee` otherwise |
| C66, C67 | `KinematicModel`, `CGModel` | rows of the matrix; comparison at an extreme entry; positive definiteness |
| C68, C69 | `CulvertModel`, in `CulvertProps`, `CulvertRoutineProps`, `CulvertScaleProps` | bounds and scaling of each formula |
| C70, C71 | `TimeSeriesModel`, in `TimeSeriesProps`, `FileFunctionProps` | invariant of the index kept between calls |
| C72 | `SwwModel` | induction over the stored steps |
| C73, C75 | `StepModel`, in `StepProps` | the stages of a step composed |
| C74, C77 | `StepModel`, in `LakeProps` | invariant of the still lake through each stage |
| C76 | `FluxModel`, in `PositivityProps` | bound of the outflow by the time step |
| C78 | `ParallelStepModel` | locality: the step on own triangles equals the step of the undivided domain there |
| C79, C80, C81 | `LocalMeshModel`, `DistributedRunModel`, `SettingsModel` | local numbering carries mesh and data along; composed with C78 |
| C82 | `QuantityLimiterModel` | interval reasoning, algebra |
| C83 | `AdvectionModel` | sums over edges; convex combinations |
| C84, C85, C86 | `ParallelInletModel`, `ParallelStructureModel`, `AllocationModel` on `KahnLib`, `SyncLib`, `PhaseLib` | one execution is exhibited; schedule independence gives all others |
| C87 | `ElevationModel` | volume bookkeeping, set semantics of node neighbourhoods |
| C88 | `CrossSectionModel` | the cutting points partition the parameter interval |
| C89 | `GridModel` | barycentric weights, counting of grid points |
| C90 | `SetValuesModel` | frame conditions per location and index set |
| C91 | `RiverwallModel` | loop invariants of the edge marking |
| C92 | `RegionModel` | membership |
| C93 | `ForcingModel` | area sums |
| C94 | `WindModel` | algebra; invariants of the index search |
| C95 | `BoundaryPolygonModel` | antisymmetric edge sums (area and winding number) telescope over inner edges |
| C96 | `InternalBoundaryModel` | recurrence of the smoothing; sign argument for the implicit equation; interpolation |
| C97 | `ExchangeModel` on `SyncLib`, `SwapLib` | one execution by turns (or in lexicographic order of the pairs); confluence |
| C98 | `PeriodicModel` on `MeshFactoryModel`, `NeighbourModel` | neighbour rows by cells; the mesh holds one period of an endless channel and a column on either side; telescoping sums |
| C99 | `MeshInputModel` on `PolygonModel`, `NeighbourModel` | the outline in absolute coordinates is appended part by part; the merge keeps the places of segments; last assignment in dictionaries; Triangle as a relation |
| C100 | `OmpCGModel` on `ParLib`, `CGModel`, `SparseModel` | an iteration writes entry i of one array and reads no other entry of it; a reduction is the sum whatever the threads; simulation of the sequential solver |
| C101 | `GeospatialModel` on `GeoRefModel`, `PolygonModel` | a record is a located point with its attribute values; each operation is a selection, permutation or concatenation of records; text files as a relation between lines and rows |
| C102 | `TshModel` | text as characters; Python's readline, split, strip and find as functions; each line read gives the row written, for any faithful format of numbers |
| C103 | `RasterModel` on `GridModel`, `Interp2dModel` | a grid is a table of values with corner and cell size; each reader is compared with the place of row i, column k; decimation of a plane gives the exact displacement of the new nodes |
| C104 | `CompositeModel` on `PolygonModel` | the loop over pairs with arrays of flags is compared, point by point, with the first pair that covers the point and has a number there; the nearest-neighbour functions with the k nearest data points |
| C105 | `PolygonFunctionModel` on `PolygonModel`, `GeoRefModel` | the arrays of a call are kept as memory, so that a result that is the array of coordinates shows; moving polygon and point together changes no decision |
| C106 | `SetOperatorsModel` | the result of a user function is a number, an array or a ValueError, so that ignored errors and numpy's broadcasting show; numpy's `vectorize` with its type taken from the first result |
| C107 | `InundationModel` on `ExtremaModel`, `PolygonModel` | lists of values with numpy's `take` and its IndexError; the loop over times keeps an exception apart from no result |
| C108 | `FlowReportModel` | the dictionary of boundary edges as a list in its order; the memory of the inflow boundary is threaded through the evaluations of a step |
| C109 | `WaterVolumeModel` | the processes as a list, each with its triangles; messages as one exchange of the values of all processes |
| C110 | `TagRegionModel` on `SetValuesModel` | the dictionary of tags as a list in its order; quantities as a function of the name |
| C111 | `RedfearnModel` | the formula in real arithmetic, with the powers written out; `int` truncates towards 0 |
| C112 | `LatLongModel` | radius and eccentricity are arguments in place of the table of ellipsoids; real arithmetic, powers written out |
| C113 | `StatisticsModel` | vectors are lists of real numbers; quotients by 0 are the values `Inf` and `Nan`, as numpy gives |
| C114 | `ParseTimeModel` | `int` of ASCII strings and the calendar of `datetime` are modelled from their documentation |
| C115 | `CsvMergeModel` | a file is the list of its rows of cells; `strip` is an argument |
| C116 | `FunctionTypeModel` | a function is given by what its calls return or raise; exceptions are values of a sum type |
| C117 | `NormsModel` | vectors are lists of real numbers |
| C118 | `ExtentIndexModel` | order tested exactly rather than with allclose |
| C119 | `SegmentDistanceModel` | real arithmetic; `**0.5` is the square root |
| C120 | `DecimateModel` | coordinates are real numbers, the factor a natural number |
| C121 | `SlipCentroidModel` | real arithmetic, exact sine, cosine and PI |

## 5. What is not modelled

GUI and visualisation, NetCDF and pickle encodings (files are abstract values),
the Triangle mesh generator, the Fortran tsunami sources, GPU variants of the
kernels, MPI transport other than the message semantics above,
floating-point rounding except where stated.  In particular:

* C79: the result of METIS is an arbitrary assignment; node ids stored in float
  columns are exact integers; `get_boundary_polygon` is C95.
* C81: objects are attribute dictionaries; aliasing of dictionaries between the
  original domain and that of process 0 is not modelled.
* C85: four-point exchange lines, where sequential and parallel code take
  different outward vectors, and the missing check for closed culverts in the
  parallel box and weir operators are outside the theorems.
* C86: whether an inlet meets a process is an arbitrary relation.
* C87: Python sets are lists in arbitrary order; `get_value` and gradients are
  arbitrary functions.
* C88: interpolation at midpoints is an arbitrary function; shifts by a
  geo-reference and caching are left out.
* C89: number formats are relations; ERS output is left out.
* C90: negative indices, NaN in rasters, smoothing in polygon mode and functions
  that return arrays of wrong length are left out.
* C91: printing, text export and barriers are left out; only the on-segment test
  is generic in the arithmetic.
* C92: negative indices are left out.
* C93: the bounding polygon is a parameter; logging is left out.
* C94: user functions are arbitrary and of the right length.
* C95: edge ids other than 0 to 2 are left out; inner edges come in opposite
  pairs.
* C96: the outcome of the root finder is arbitrary unless it solves the equation;
  reading rating tables from files is left out.
* C97: quantities are exchanged together as one row of values per triangle.
* C98: a scheme is any rule for the new value of a full triangle from its
  values, those of its neighbours and of their neighbours; what is computed on
  ghosts is arbitrary.
* C99: Triangle is a relation between its input and its output
  (`triangulation`): each segment of the output lies on a segment of the input
  and has its marker (0 may become 1 on the boundary), each boundary edge is a
  segment of the output, and no directed edge occurs twice.  Tags are numbers;
  the georeferences are their corners (zones are not compared).  The endless
  loop of `point_in_polygon` has fuel, and running out of it is a result.
* C100: the solver is a sequence of parallel loops and reductions, with the
  barrier OpenMP puts at the end of each.  A division by zero is a result of
  its own.  The arrays of a call are distinct, as in `cg_solve.py`.
* C101: files are their parsed content (numbers survive printing and
  parsing); latitudes and longitudes, the attribute of length 1 that netCDF
  would repeat, and the verbose output are left out.  `honest`: a georeference
  whose corners count as zero (within 1e-8) has corners zero.
* C102: how numbers are printed is a parameter (`format`) with the assumption
  `faithful`, which an instance satisfies; carriage returns, which reading in
  text mode turns into newlines, are left out, as are attributes that are not
  rows and tags that are not strings.
* C103: positive cell sizes; a GeoTIFF is what GDAL presents (origin, steps,
  values, NODATA), without rotation; the storage of a `.dem` file as a vector or
  a matrix is left out (every reader reshapes it).
* C104: callables act point by point; polygons and points files are their
  vertices and rows (a raster is a callable with its extent as polygon).
  `cKDTree.query` is a parameter with the assumption `is_query`: the k nearest
  points, nearest first; a query that sorts all points satisfies it.
* C105: polygons are tables of vertices; functions of regions act on one point
  and leave the arrays alone.
* C106: regions are lists of triangles (see C92 for how they are found); user
  functions do not change the domain; `power(h, 7/3)` is `Rpower`, used only for
  positive depths.
* C107: the elevation in the file does not change in time (one row); times and
  values are read as real numbers.
* C108: edges with tags are a list without repeated edges; the flow that an
  inflow boundary lets in is taken from the momenta it returns, not from the
  flux function.
  The rate is proved for normals of length 1 and edges of positive length.
* C109: sends and receives are taken to arrive; every process makes the call.
  That the height is up to date at the yields is not proved here.
* C110: the keys of the dictionary are distinct; numbers of triangles are not
  negative.
* C111: how close the series is to the exact projection is not treated; the
  hemisphere of the georeferences is undefined on both sides, as in the code.
* C112: that the series of UTMtoLL inverts that of LLtoUTM off the meridian
  holds only approximately and is not treated; the southern flag is an argument.
* C113: `y` of err is a list or omitted (an array with more than one entry
  raises in `if y`); integers are not distinguished from floats.
* C114: numbers are returned as they are and None as None, which is not
  modelled; digits beyond ASCII are not treated.
* C115: the csv module (quoting, line ends) is not modelled; reading back
  assumes that `strip` is idempotent.
* C116: a function is what its calls give; side effects of the test calls are
  not modelled.
* C117: `vector + [0.0]` is the concatenation of lists; for a numpy array it
  would add 0 to the entries, and the maximum of an empty array would raise.
* C118: the order of the lists is tested exactly; the code compares with
  `allclose`, so a list that is nearly in order (or descending latitudes within
  one tolerance of each other) passes as ascending. The upper index of the
  longitudes may lie beyond the list, which slicing permits.
* C119: the branches for distances below 0, which only round-off can reach, are
  modelled and proved not to act in real arithmetic.
* C120: the documented preservation of extrema is refuted; a comment in the code
  says that the function does not work.
* C121: angles are in degrees and converted with the exact PI; horizontal
  positions are in metres, the other lengths in kilometres, as in the code.
