{"id": "C01", "title": "Wells structure records exactly the wells and controls that were added", "statement": "After create_wells followed by any sequence of add_well, append_well_controls, set_current_control and clear_well_controls calls that report success, the public structure describes exactly the wells added, in order: type, name, reference depth, component fractions, perforated cells and well indices of each well are those passed to its add_well call; the connection pointer splits the perforation arrays into consecutive per-well segments; and the control list of each well is the sequence of controls appended since the last clear, unaffected by operations on other wells.", "quantifier": "every number of phases, every initial size hint, every finite sequence of operations with arbitrary arguments, every growth of the internal tables", "why_tests_cant": "the tables are reallocated and default-initialised at sizes that depend on the whole history; a test only sees a few histories", "anchors": ["opm/core/wells/wells.c: create_wells, add_well, append_well_controls, set_current_control, clear_well_controls, well_controls_reserve, wells_reserve", "opm/core/wells.h"]}
{"id": "C02", "title": "A failed well operation leaves the visible wells unchanged", "statement": "If add_well or append_well_controls returns 0 because memory could not be obtained at any point, then the wells, perforations and controls visible through the public structure are the same as before the call, and later successful calls continue to behave as if the failed call had not been made.", "quantifier": "every pattern of allocation failures over every sequence of operations", "why_tests_cant": "needs fault injection at every allocation in every history", "anchors": ["opm/core/wells/wells.c: add_well, append_well_controls, wells_allocate, wells_reserve, well_controls_reserve"]}
{"id": "C03", "title": "clone_wells produces an equal copy", "statement": "For every wells structure reachable through the public operations, clone_wells returns a structure with the same wells, perforations, controls and current control selections, and does not touch memory out of bounds or fail an assertion.", "quantifier": "every reachable wells structure", "why_tests_cant": "the claim quantifies over all operation histories, including those that clear controls before cloning", "anchors": ["opm/core/wells/wells.c: clone_wells, set_current_control, clear_well_controls"]}
{"id": "C04", "title": "SparseTable behaves as a sequence of rows", "statement": "A SparseTable built by any combination of the range constructor, assign, allocate, appendRow, swap and clear answers size, rowSize, dataSize, operator[] and operator== exactly as the sequence of rows it represents; indexing rows outside [0,size) is the only undefined access.", "quantifier": "every element type, every sequence of rows and every finite history of operations", "why_tests_cant": "offset arithmetic must hold for all row sizes including empty rows and empty tables", "anchors": ["opm/core/utility/SparseTable.hpp: SparseTable"]}
{"id": "C05", "title": "SparseVector behaves as a vector that is zero except at the stored indices", "statement": "A SparseVector built with increasing indices answers element(i) with the stored value for i when an element was added at i and with the default value otherwise, for all i below size; nonzeroElement and nonzeroIndex enumerate exactly the added pairs in order.", "quantifier": "every element type, every strictly increasing index sequence below the declared size and every query index", "why_tests_cant": "element lookup is a binary search whose correctness is a statement about all sorted sequences", "anchors": ["opm/core/utility/SparseVector.hpp: SparseVector::addElement, element, nonzeroElement"]}
{"id": "C06", "title": "Compressed row construction by counting and push-back keeps every entry", "statement": "Given per-row counts, the two phase construction of a compressed sparse matrix yields row pointers that are nondecreasing, start at 0 and end at the number of nonzeros; after pushing back exactly the counted entries each row holds exactly the entries pushed to it, and after sorting every pushed column can be located by the element index search.", "quantifier": "every number of rows, every count vector and every interleaving of push-backs among rows that respects the counts", "why_tests_cant": "the shifted-pointer construction depends on all counts and on push-back order", "anchors": ["opm/core/linalg/sparse_sys.c: csrmatrix_new_count_nnz, csrmatrix_new_elms_pushback, csrmatrix_sortrows, csrmatrix_elm_index"]}
{"id": "C07", "title": "Inverting a partition lists every cell once in its own block", "statement": "partition_invert turns a partition vector into a block-to-cell map in which each cell occurs exactly once, in the segment of its own block, in increasing order; partition_localidx gives each cell its position inside that segment.", "quantifier": "every number of cells and every assignment of cells to nonnegative block numbers", "why_tests_cant": "counting sort correctness for all partitions", "anchors": ["opm/core/pressure/msmfem/partition.c: partition_invert, partition_localidx, partition_allocate_inverse"]}
{"id": "C08", "title": "Uniform partitioning is load balanced and uses all blocks", "statement": "partition_unif_idx assigns to every fine cell a block number in range such that in every coordinate direction the blocks are contiguous intervals of fine indices in increasing order and the interval lengths differ by at most one; the assignment is defined without division by zero whenever the number of bins does not exceed the number of cells in any direction.", "quantifier": "all dimensions, all fine and coarse sizes", "why_tests_cant": "integer division with truncation must be right for every combination of size, bins and index", "anchors": ["opm/core/pressure/msmfem/partition.c: partition_unif_idx, partition_loadbal_lin_dist, partition_coord_idx, partition_lin_idx"]}
{"id": "C09", "title": "Partition compression renumbers blocks densely without merging or splitting", "statement": "After partition_compress two cells are in the same block exactly when they were before, the block order is preserved, every number from 0 to the returned maximum is used.", "quantifier": "every partition vector of nonnegative block numbers", "why_tests_cant": "a bijection claim over all partitions", "anchors": ["opm/core/pressure/msmfem/partition.c: partition_compress"]}
{"id": "C10", "title": "Depth first search colours connected components", "statement": "dfs/dfs_iterative colouring gives two vertices the same component number exactly when they are connected, numbers components 0..ncomp-1 in order of first vertex, and stays inside its work arrays, for every undirected graph.", "quantifier": "every undirected graph in compressed form, with and without self loops, in any edge order", "why_tests_cant": "stack depth and visitation order depend on the whole graph", "anchors": ["opm/core/pressure/msmfem/dfs.c: dfs"]}
{"id": "C11", "title": "Splitting disconnected blocks yields connected blocks that refine the partition", "statement": "After partition_split_disconnected each block is connected through the fine neighbour relation, the new partition refines the old one, cells of a block that was already connected keep their number, and the return value is the number of blocks added.", "quantifier": "every partition and every neighbour list", "why_tests_cant": "composes counting sort, subgraph extraction and graph search for arbitrary graphs", "anchors": ["opm/core/pressure/msmfem/partition.c: partition_split_disconnected, partition_create_c2c, partition_create_block_conns"]}
{"id": "C12", "title": "hash_set is a set", "statement": "Inserting any sequence of nonnegative keys into a hash_set makes exactly those keys members, once each; hash_set_count_elms equals the number of distinct keys; insertion always succeeds when memory is available, and without growing while the number of distinct keys does not exceed the allocated capacity.", "quantifier": "every sequence of keys, every initial capacity, every hash function behaviour", "why_tests_cant": "probing must visit every slot for every key and table size; only an argument about odd strides modulo powers of two settles it", "anchors": ["opm/core/pressure/msmfem/hash_set.c: hash_set_insert, hash_set_allocate, hash_set_count_elms, insert_core_hash, hash_set_expand"]}
{"id": "C13", "title": "Coarse topology contains exactly the block interfaces of the partition", "statement": "coarse_topology_create produces one coarse face for each unordered pair of distinct blocks (or block and exterior) that share a fine face and no others; block_facepos/faces list for each block exactly the coarse faces touching it; and the sub-face lists partition the fine faces between different blocks.", "quantifier": "every grid neighbour list and every partition", "why_tests_cant": "relates sorted insertion, hash sets and compressed lists for all inputs", "anchors": ["opm/core/pressure/msmfem/coarse_conn.c: coarse_topology_create, derive_block_faces, coarse_topology_build_coarsef, coarse_topology_build_final"]}
{"id": "C14", "title": "Tarjan ordering finds the strongly connected components in dependency order", "statement": "tarjan() terminates on every directed graph without leaving its arrays, outputs a permutation of the vertices split into segments that are exactly the strongly connected components, and every edge leads from a component to itself or to one listed earlier.", "quantifier": "every directed graph in compressed form", "why_tests_cant": "a linear-time graph algorithm with overlapping stacks; correctness is a statement about every graph", "anchors": ["opm/core/transport/reorder/tarjan.c: tarjan"]}
{"id": "C15", "title": "The transport sequence processes every cell after its upwind neighbours", "statement": "compute_sequence returns a permutation of the cells such that if the flux over some face goes from cell i to cell j, then i is in the same component as j or in an earlier one; when the flow has no cycles all components are single cells.", "quantifier": "every grid and every flux field", "why_tests_cant": "composition of graph construction and component search for arbitrary sign patterns", "anchors": ["opm/core/transport/reorder/reordersequence.cpp: compute_sequence, make_upwind_graph"]}
{"id": "C16", "title": "Reordered cell-by-cell solution solves the coupled upwind system", "statement": "When no two cells depend on each other, running the single cell solver once per cell in the computed sequence leaves every cell satisfying its local equation with the final values of all of its upwind neighbours; in particular time-of-flight satisfies the discrete balance in every cell.", "quantifier": "every grid, every acyclic flux field, every local solver that reads only upwind values", "why_tests_cant": "a whole-loop property over all orderings and graphs", "anchors": ["opm/core/transport/reorder/ReorderSolverInterface.cpp: reorderAndTransport", "opm/core/tof/TofReorder.cpp: solveTof, solveSingleCell"]}
{"id": "C17", "title": "Cartesian grid topology is consistent in three dimensions", "statement": "create_grid_cart3d numbers cells, faces and nodes so that each face's two neighbour cells are exactly the cells listing that face, the first on the negative and the second on the positive side along the face's direction, exterior faces have exactly one neighbour, every cell lists six distinct faces tagged west to top in order, and the four nodes of every face belong to the cells at both sides.", "quantifier": "all positive dimensions nx, ny, nz", "why_tests_cant": "index formulas must agree for every size, including degenerate sizes of one", "anchors": ["opm/core/grid/cart_grid.c: fill_cart_topology_3d, create_grid_cart3d, create_grid_tensor3d"]}
{"id": "C18", "title": "Cartesian grid topology is consistent in two dimensions", "statement": "create_grid_cart2d numbers cells, faces and nodes consistently in the same sense as in three dimensions.", "quantifier": "all positive dimensions nx, ny", "why_tests_cant": "index formulas must agree for every size", "anchors": ["opm/core/grid/cart_grid.c: fill_cart_topology_2d, create_grid_cart2d"]}
{"id": "C19", "title": "Cartesian grid geometry is consistent with the topology", "statement": "For tensor and Cartesian grids, cell volumes are the products of the coordinate spacings, face areas and normals have length equal to the area and point from the first to the second neighbour, the outward normals of every cell sum to zero, and the total volume equals that of the bounding box.", "quantifier": "all sizes and all increasing coordinate vectors", "why_tests_cant": "holds for all real spacings; floating tests check only few sizes", "anchors": ["opm/core/grid/cart_grid.c: fill_cart_geometry_3d, fill_cart_geometry_2d, create_grid_tensor3d"]}
{"id": "C20", "title": "Boundary conditions and sources are recorded in order, also under memory failure", "statement": "flow_conditions_append, flow_conditions_append_multi, append_transport_source and append_compr_source_term store the given entries after those already present; when an append reports failure the recorded entries are unchanged and the structure remains usable and can be destroyed.", "quantifier": "every sequence of appends and every pattern of allocation failure", "why_tests_cant": "requires injecting failure at each allocation of each history", "anchors": ["opm/core/pressure/flow_bc.c", "opm/core/transport/implicit/transport_source.c: expand_source_tables, append_transport_source", "opm/core/pressure/tpfa/compr_source.c: append_compr_source_term"]}
{"id": "C21", "title": "Parameter lookup returns the last value inserted for a path", "statement": "In a ParameterGroup, after inserting a value at a path, get returns that value, has returns true, and all other paths are unaffected; getDefault of a missing path returns the default (or a parent's value); lookups never change stored values.", "quantifier": "all sequences of insertions with arbitrary paths and values", "why_tests_cant": "nested path splitting and parent fallback interact over all histories", "anchors": ["opm/core/utility/parameters/ParameterGroup.cpp: insertParameter, has, insert", "opm/core/utility/parameters/ParameterGroup_impl.hpp: get, getDefault"]}
{"id": "C22", "title": "Writing parameters and reading them back restores the group", "statement": "writeParamToStream followed by readParam produces a ParameterGroup with the same paths and values, for groups whose names and values do not contain the delimiter characters.", "quantifier": "every parameter tree with well formed names and values", "why_tests_cant": "round trip over all trees and strings", "anchors": ["opm/core/utility/parameters/ParameterGroup.cpp: writeParamToStream, readParam, parseCommandLineArguments"]}
{"id": "C23", "title": "Parameter reading terminates on every input", "statement": "readParam and parseCommandLineArguments finish (with success or an exception) for every input text.", "quantifier": "every text file and every argument list", "why_tests_cant": "termination over all inputs", "anchors": ["opm/core/utility/parameters/ParameterGroup.cpp: insertParameter, readParam", "opm/core/utility/parameters/ParameterTools.cpp: split"]}
{"id": "C24", "title": "The simulation clock is the sum of completed steps", "statement": "With nonnegative step sizes, a SimulatorTimer started at step 0 reports currentTime equal to the sum of the steps completed, done exactly after all steps, and setCurrentStepNum accepts exactly the valid step numbers and makes the timer agree with stepping there.", "quantifier": "every list of step lengths and every sequence of increments and step selections", "why_tests_cant": "holds over all histories of calls", "anchors": ["opm/core/simulator/SimulatorTimer.cpp: init, setCurrentStepNum, currentTime, done, operator++"]}
{"id": "C25", "title": "Column extraction partitions the cells into vertical stacks", "statement": "extractColumn appends columns such that every cell occurs exactly once, all cells of a column share the same horizontal index, are sorted by depth index and consecutive cells are neighbours through a common face; cells with the same horizontal index in one connected stack are in one column.", "quantifier": "every grid with any global cell numbering", "why_tests_cant": "ordering and splitting depends on arbitrary cell orders and gaps", "anchors": ["opm/core/grid/ColumnExtract.hpp: extractColumn"]}
{"id": "C26", "title": "StopWatch laps add up", "statement": "For every sequence of start, stop, secsSinceLast and secsSinceStart calls with a nondecreasing clock, the reported intervals are nonnegative, successive secsSinceLast values add up to secsSinceStart while running, and calls made in the wrong state are rejected without changing the state.", "quantifier": "every call sequence and every nondecreasing clock reading", "why_tests_cant": "state machine over all histories and schedules", "anchors": ["opm/core/utility/StopWatch.cpp"]}
{"id": "C27", "title": "Uniform tables interpolate linearly and clamp outside", "statement": "UniformTableLinear evaluates to the linear interpolant of the samples inside the domain, equals the sample at every grid point, is continuous across cells, stays between the neighbouring samples, and returns the end samples outside; the index used is always inside the table.", "quantifier": "all real arguments, all domains and all tables with at least two samples", "why_tests_cant": "a continuum of arguments", "anchors": ["opm/core/utility/UniformTableLinear.hpp: operator(), derivative"]}
{"id": "C28", "title": "Nonuniform tables and linear interpolation bracket the argument correctly", "statement": "tableIndex returns an index i with 0 <= i <= n-2 such that the argument lies between abscissae i and i+1 whenever it lies inside the table (ascending or descending); linearInterpolation reproduces the table at the nodes and is monotone for monotone data.", "quantifier": "all arguments and all strictly monotone tables", "why_tests_cant": "binary search invariant over all tables; continuum of arguments", "anchors": ["opm/core/utility/linearInterpolation.hpp: tableIndex, linearInterpolation, linearInterpolationDerivative"]}
{"id": "C29", "title": "Inverse table lookup inverts the table", "statement": "For strictly monotone data, inverse(y) returns x with table value y, for every history of rescaleDomain and inverse calls.", "quantifier": "all strictly monotone tables, all values in range, all call histories", "why_tests_cant": "the lazily cached reversed tables make the result history dependent", "anchors": ["opm/core/utility/NonuniformTableLinear.hpp: inverse, rescaleDomain"]}
{"id": "C30", "title": "Monotone cubic interpolation preserves monotonicity", "statement": "If the data are monotone then MonotCubicInterpolator evaluates to a monotone function passing through the data, constant outside the data range.", "quantifier": "all monotone data sets and all real arguments", "why_tests_cant": "monotonicity over a continuum; the Fritsch-Carlson condition must be implied by the limiter for all slopes", "anchors": ["opm/core/utility/MonotCubicInterpolator.cpp: evaluate, adjustDerivativesForMonotoneness, computeSimpleDerivatives"]}
{"id": "C31", "title": "Cached monotonicity information agrees with the data", "statement": "The monotonicity queries and the maximum/minimum value queries of MonotCubicInterpolator agree with the data after every sequence of addPair, scaleData, chopFlatEndpoints and shrinkFlatAreas.", "quantifier": "all data sets and call histories", "why_tests_cant": "cached flags make the answers history dependent", "anchors": ["opm/core/utility/MonotCubicInterpolator.cpp: computeInternalFunctionData, scaleData, getMaximumF, getMinimumF, chopFlatEndpoints"]}
{"id": "C32", "title": "Regula Falsi keeps a bracket and returns a point inside it", "statement": "RegulaFalsi::solve, given a function with a sign change over [a,b], only evaluates inside the interval, keeps a sign change in its shrinking bracket at each iteration, and returns either a point whose residual is below tolerance or one inside a bracket narrower than tolerance, or reports exceeding the iteration limit.", "quantifier": "every function and every initial interval with opposite signs", "why_tests_cant": "quantifies over all functions", "anchors": ["opm/core/utility/RootFinders.hpp: RegulaFalsi::solve"]}
{"id": "C33", "title": "bracketZero returns an interval with a sign change", "statement": "When bracketZero returns normally the two end points have function values of opposite sign (or zero), whatever the function; otherwise it throws after a bounded number of evaluations.", "quantifier": "every function, every starting point and increment", "why_tests_cant": "quantifies over all functions", "anchors": ["opm/core/utility/RootFinders.hpp: bracketZero"]}
{"id": "C34", "title": "Explicit transport conserves mass", "statement": "spu_explicit changes the total amount exactly by sources: contributions over interior faces cancel, for any flux and mobility values; each cell changes by its source and the water fluxes of its interior faces, each flux being evaluated with the mobilities of the cells upstream for the respective phase (except for oil when the total flux is exactly zero, refuted with a witness); and the assertion on the mobilities cannot fail.", "quantifier": "every grid, saturation field and flux field", "why_tests_cant": "global cancellation over all faces for all fields", "anchors": ["opm/core/transport/minimal/spu_explicit.c: spu_explicit"]}
{"id": "C35", "title": "The two-point pressure matrix is symmetric with zero row sums before sources", "statement": "The matrix assembled by ifs_tpfa without wells or boundary conditions is symmetric, has nonpositive off-diagonals for nonnegative transmissibilities, zero row sums, and its right hand side sums to the total source; every entry written was part of the sparsity pattern.", "quantifier": "every grid (including multiple faces between two cells) and all transmissibilities", "why_tests_cant": "assembly over all faces of arbitrary topology", "anchors": ["opm/core/pressure/tpfa/ifs_tpfa.c: ifs_tpfa_construct_matrix, assemble_incompressible, ifs_tpfa_assemble"]}
{"id": "C36", "title": "Fluxes computed from the pressure solution satisfy mass balance in every cell", "statement": "If the cell pressures solve the assembled system, the face fluxes from ifs_tpfa_press_flux have net outflow equal to the source in every cell, and well perforation rates add to the rate target for rate-controlled wells.", "quantifier": "every grid, all transmissibilities, sources, boundary conditions and wells", "why_tests_cant": "algebraic identity over all inputs", "anchors": ["opm/core/pressure/tpfa/ifs_tpfa.c: ifs_tpfa_press_flux, boundary_fluxes, well_solution"]}
{"id": "C37", "title": "Corner-point pillar numbering is complete and monotone", "statement": "finduniquepoints never fails and writes inside its arrays. For every pillar the point list consists of depths of its active corners, consecutive points are more than the tolerance apart, the deepest corner is kept exactly. Every active corner is numbered with a point of its own pillar (numbers of different pillars are disjoint); if the active corners above it are no deeper, this is the first point within the tolerance of its depth. Inactive corners repeat the number above. Numbers, padding included, do not decrease down a column. Node coordinates are the points of the pillars.", "quantifier": "all ZCORN inputs, tolerances and activity masks; the tolerance claim for corners with no deeper active corner above them", "why_tests_cant": "merging and numbering interplay over all depth values", "anchors": ["opm/core/grid/cpgpreprocess/uniquepoints.c: finduniquepoints, uniquify, assignPointNumbers, createSortedList"]}
{"id": "C38", "title": "Collapsed and inactive corner-point cells are removed and the rest renumbered bijectively", "statement": "process_horizontal_faces and the final renumbering give numbers 0..n-1 exactly to the cells that are not collapsed, in increasing Cartesian order, the output index map is strictly increasing, and the horizontal faces in each column form a chain separating exactly the successive non-collapsed cells.", "quantifier": "all point number columns", "why_tests_cant": "holds for all collapse patterns", "anchors": ["opm/core/grid/cpgpreprocess/preprocess.c: process_horizontal_faces, process_grdecl, linearindex"]}
{"id": "C39", "title": "Vertical face detection pairs exactly the overlapping cells", "statement": "findconnections emits, for two neighbouring columns of cells, exactly one face for every pair of cells whose traces on the two pillars overlap with positive area.", "quantifier": "all nondecreasing point-number columns", "why_tests_cant": "sweep line with skip logic must be right for all layerings", "anchors": ["opm/core/grid/cpgpreprocess/facetopology.c: findconnections, computeFaceTopology, faceintersection"]}
{"id": "C40", "title": "Group targets are distributed fully and proportionally to guide rates", "statement": "A group production or injection control (also reinjection and voidage replacement, with the produced amount as total) gives every participating well below the group a current control on the right phases whose target is the group target times its guide rate over the sum of guide rates, so the targets add up to the group target; wells and controls not participating are unchanged. Participating are the wells under group control, and all wells if the control is forced. (Refuted with witnesses: a well with its own mode below a subgroup under field control and a well without a mode are asked for rate zero; injectors with a production guide rate, a zero sum of injection guide rates, and exhausted memory.)", "quantifier": "every tree of groups and wells, all guide rates, modes and targets", "why_tests_cant": "recursion over arbitrary trees", "anchors": ["opm/core/wells/WellsGroup.cpp: applyInjGroupControl, applyProdGroupControl, applyInjGroupControls, applyProdGroupControls, injectionGuideRate, productionGuideRate"]}
{"id": "C41", "title": "Group constraint handling shuts the worst offender and keeps it shut", "statement": "When the children of a group are satisfied and a group limit is exceeded, the first exceeded limit is acted upon: an injection limit is distributed by guide rates and becomes the group's mode; a production limit with procedure RATE is distributed, with procedure NONE only reported, and with procedure WELL the well with the largest signed rate is toggled between open and shut and nothing else changes. (That this well is the producer contributing most, and that it remains shut by later checks, is refuted with witnesses.)", "quantifier": "every tree of groups and wells, all rates and all sequences of constraint checks", "why_tests_cant": "history dependent", "anchors": ["opm/core/wells/WellsGroup.cpp: WellsGroup::conditionsMet, getWorstOffending, WellNode::shutWell"]}
{"id": "C42", "title": "Well constraint checks switch to a violated control only", "statement": "A well's constraint check reports success exactly when no inactive non-group control is violated, and otherwise switches to the first violated control and reports failure; the check of a tree succeeds, changing nothing, exactly if all wells observe their controls and no group limit is exceeded, and stops at the first child that fails. (A shut well with a violated control is opened by the check: refuted with a witness that shut wells stay shut.)", "quantifier": "all control lists and rates", "why_tests_cant": "all combinations of controls", "anchors": ["opm/core/wells/WellsGroup.cpp: WellNode::conditionsMet"]}
{"id": "C43", "title": "Two-point transmissibilities are symmetric, positive and harmonic", "statement": "tpfa_htrans_compute gives each half-face |c.K.n|/|c|^2, which is nonnegative, and positive exactly when c.K.n is not zero; from positive one-sided values tpfa_trans_compute and tpfa_eff_trans_compute give each interior face their harmonic combination, independent of the order of the cells and bounded by each of them, and each boundary face its one value. (Positive definite permeability alone does not make the one-sided values positive: refuted with a witness.)", "quantifier": "all grids, geometries and permeability tensors", "why_tests_cant": "real-valued identity over all geometries", "anchors": ["opm/core/pressure/tpfa/trans_tpfa.c: tpfa_htrans_compute, tpfa_trans_compute, tpfa_eff_trans_compute"]}
{"id": "C44", "title": "Reading a grid file never writes out of bounds", "statement": "read_grid either returns a grid equal to the file's content or NULL, without writing outside the arrays it allocated, for every file content.", "quantifier": "all token sequences", "why_tests_cant": "all malformed inputs", "anchors": ["opm/core/grid/grid.c: read_grid, allocate_grid"]}
{"id": "C45", "title": "Defaulted record reading respects positions and bounds", "statement": "readDefaultedVectorData places values at the position obtained by counting repeat counts and defaults, leaves defaulted entries untouched and never writes past the requested number of values.", "quantifier": "all record texts", "why_tests_cant": "all malformed inputs and repeat counts", "anchors": ["opm/core/io/eclipse/EclipseGridParserHelpers.hpp: readDefaultedVectorData, readVectorData"]}
{"id": "C46", "title": "Phase usage maps active phases to consecutive positions", "statement": "phaseUsageFromDeck accepts exactly decks with oil and at least one other phase and gives active phases distinct positions 0..n-1 in the order water, oil, gas.", "quantifier": "all decks", "why_tests_cant": "finite but part of every multi-phase index computation", "anchors": ["opm/core/props/phaseUsageFromDeck.hpp", "opm/core/props/BlackoilPhases.hpp"]}
{"id": "C47", "title": "Total volumes and transport sources balance", "statement": "computeTransportSource puts into each cell exactly the water inflow and total outflow of its sources, boundary faces and perforations; computeSaturatedVol and computeAverageSat are the weighted sums over all cells, and phase fractions produced add up to the total outflow.", "quantifier": "all grids, fields, wells", "why_tests_cant": "global sums over all inputs", "anchors": ["opm/core/utility/miscUtilities.cpp: computeTransportSource, computeSaturatedVol, computeAverageSat, computeInjectedProduced, computeFractionalFlow"]}
{"id": "C48", "title": "Rock compressibility is consistent with the pore volume multiplier", "statement": "With a table rockComp(p) is the logarithmic derivative of poroMult at every pressure that is not a table entry and where the multiplier is positive (everywhere between the ends for positive tables). Without a table poroMult is a positive quadratic and its logarithmic derivative is the compressibility only at the reference pressure, elsewhere less by a term of second order (that it is the compressibility everywhere is refuted; so is that extrapolation is always defined). Constructors take the first region and record.", "quantifier": "all pressures and both constant and tabulated models", "why_tests_cant": "identity over a continuum", "anchors": ["opm/core/props/rock/RockCompressibility.cpp: poroMult, rockComp"]}
{"id": "C49", "title": "Tracer concentrations of all injectors sum to one", "statement": "solveTofTracer gives, for an acyclic flow in which sources and fluxes balance in each cell and all inflow comes from source cells, tracer values between 0 and 1 that sum to one in every cell reached.", "quantifier": "all grids and balanced flux fields", "why_tests_cant": "invariant through the whole sequence", "anchors": ["opm/core/tof/TofReorder.cpp: solveTofTracer, solveSingleCell"]}
{"id": "C50", "title": "getMissingX finds the largest jump", "statement": "MonotCubicInterpolator::getMissingX returns the largest difference between neighbouring function values and a point strictly inside the interval where it occurs.", "quantifier": "all data sets with at least two points", "why_tests_cant": "the expression reads and increments the same iterator in one expression, so the result depends on the compiler's evaluation order", "anchors": ["opm/core/utility/MonotCubicInterpolator.cpp: getMissingX"]}
{"id": "C51", "title": "Reordering of corner-point input", "statement": "copy_and_permute_actnum and copy_and_permute_zcorn copy ACTNUM (all ones if it is absent) and ZCORN (times the sign) so that the values of every column of the grid are adjacent, top to bottom, columns in the order of i, then j; every value is copied exactly once and nothing outside the arrays is touched.", "quantifier": "For all grid dimensions, all arrays and all contents of the output before the call.", "why_tests_cant": "An index error shows only for grids whose three dimensions differ and for particular positions; tests use a few small, often cubic grids.", "anchors": ["opm/core/grid/cpgpreprocess/preprocess.c:501-558"]}
{"id": "C52", "title": "Orientation of depths", "statement": "get_zcorn_sign returns 1 if the depths of vertically adjacent corners of active cells do not decrease downwards anywhere, -1 if they do not increase anywhere (and do decrease somewhere), and reports an error exactly if neither holds; it never reads outside its arrays.", "quantifier": "For all grid dimensions, all ACTNUM (or none) and all ZCORN.", "why_tests_cant": "The claim ranges over every arrangement of active cells and depths; a missed pair of corners shows only in a grid that violates the order exactly there.", "anchors": ["opm/core/grid/cpgpreprocess/preprocess.c:561-621"]}
{"id": "C53", "title": "Nodes at crossings of fault lines", "statement": "compute_intersection_coordinates gives each crossing listed by the processing of vertical faces one node, behind the nodes of the pillars, which stay as they are. The node has the depth at which the two lines cross, strictly between the pillars, and its place is the same fraction of the way between the points of the two pillars at that depth.", "quantifier": "For all node coordinates and all lists of crossing lines, vertical or slanted pillars.", "why_tests_cant": "The division is by differences of depths that vary over all reals; particular crossings do not show that the denominators never vanish nor that every node lies on both lines.", "anchors": ["opm/core/grid/cpgpreprocess/preprocess.c:412-498"]}
{"id": "C54", "title": "Processing a corner-point grid from end to end", "statement": "process_grdecl turns COORD, ZCORN and ACTNUM into a grid: nodes on the pillars at the merged depths of active corners, nodes at crossings of fault lines, one face wherever two cells (or a cell and the outside) overlap on a vertical plane and one above and below each cell, cells numbered in the Cartesian order, with the orientation of faces and the coordinates given back in the orientation of the input.", "quantifier": "For all grid dimensions, pillars, depths, ACTNUM and tolerances.", "why_tests_cant": "The end result composes several phases over global arrays; tests compare a few grids with stored output, where wrong values were stored as well.", "anchors": ["opm/core/grid/cpgpreprocess/preprocess.c:672-755", "opm/core/grid/cpgpreprocess/preprocess.c:761-937"]}
{"id": "C55", "title": "Implicit two-phase transport of one cell", "statement": "In TransportSolverTwophaseReorder the equation of a cell has a sign change on [0,1] whatever the fluxes, so solveSingleCell never fails: it gives a saturation in [0,1] that settles the equation (small residual, or the middle of a narrow bracket, or the last bracket when the iterations are used up) and its fractional flow in [0,1]. With balanced fluxes and a nondecreasing fractional flow the error of the saturation is at most the residual.", "quantifier": "For all grids, fluxes, sources, positive pore volumes, time steps, tolerances and relative permeabilities with immobile water at 0 and immobile oil at 1.", "why_tests_cant": "The bracket must hold for every combination of flux, source and relative permeability; tests run a few nice cases.", "anchors": ["opm/core/transport/reorder/TransportSolverTwophaseReorder.cpp:131-197", "opm/core/transport/reorder/TransportSolverTwophaseReorder.cpp:454-462"]}
{"id": "C56", "title": "Implicit two-phase transport of the whole field", "statement": "A step of TransportSolverTwophaseReorder::solve either throws the exception for lack of convergence (only possible with circulation) or gives saturations of both phases in [0,1] adding up to 1, each settling the equation of its cell for the final saturations upstream (within 3e-7 on a cycle); summed over the field, without circulation, water is conserved up to what is left in the equations of the cells.", "quantifier": "For all grids, fluxes with or without circulation, sources, initial saturations in [0,1] and old contents of work arrays.", "why_tests_cant": "Whether a cell saw its final upstream values depends on the order of components, on Gauss-Seidel marking and on thresholds; a test sees a few flow patterns only.", "anchors": ["opm/core/transport/reorder/TransportSolverTwophaseReorder.cpp:88-119", "opm/core/transport/reorder/TransportSolverTwophaseReorder.cpp:227-453"]}
{"id": "C57", "title": "Gravity segregation in columns", "statement": "TransportSolverTwophaseReorder::solveGravity either throws for lack of convergence or gives saturations of both phases adding up to 1 within the range of each cell, where every cell settles its equation for saturations of its neighbours in the column within twice the tolerance of the final ones; the equation always changes sign over the range; what leaves a cell enters its neighbour, so a column keeps its water up to the residuals; initGravity gives the flux from transmissibility, densities and height, so that heavier water moves down.", "quantifier": "For all grids, gravity fluxes, pore volumes, ranges, relative permeabilities vanishing at the ends of the range, time steps, tolerances and divisions of the cells into columns.", "why_tests_cant": "Convergence of symmetric Gauss-Seidel sweeps is checked by a change that is measured at different moments; a test cannot tell which value a neighbour had at the last solve.", "anchors": ["opm/core/transport/reorder/TransportSolverTwophaseReorder.cpp:464-672"]}
{"id": "C58", "title": "Geometry of polygonal faces", "statement": "compute_face_geometry gives every face with positive area its area vector as normal, the sum of the areas of the triangles around the mean of its corners as area, and their weighted centre as centroid; the normal is never longer than the area, and for a flat face that is star shaped around that mean normal, area and centroid are those of the polygon, whatever point of the plane they are computed from. In two dimensions every edge gets its midpoint, its length and the normal to its right.", "quantifier": "For all numbers of faces and corners, all coordinates with faces of positive area, and all old contents of the arrays.", "why_tests_cant": "Tests use boxes; skewed or warped faces with any number of corners are where triangulation around the mean, and the order of corners, matter.", "anchors": ["opm/core/grid/cpgpreprocess/geometry.c:12-200"]}
{"id": "C59", "title": "Geometry of polyhedral cells", "statement": "compute_cell_geometry gives every cell with a closed surface, positive or negative volume and no triangle turned against the normal of its face the volume and the centroid of the body bounded by the triangles of its faces; the normals of a cell add up to zero, satisfy the discrete Green identity with the face centroids and the volume if the faces are flat, and the volumes add up to the volume within the outer faces. In two dimensions centres are means of corners and areas those of star shaped polygons. Faces with a notch break the volume, and in two dimensions the centre is not the centroid.", "quantifier": "For all grids of polyhedra (polygons) that meet the topological conditions, all coordinates and all old contents of the arrays.", "why_tests_cant": "Volumes of a few boxes hold by symmetry for many wrong weights; the identities that discretizations rely on concern all shapes.", "anchors": ["opm/core/grid/cpgpreprocess/geometry.c:202-461", "opm/core/grid/cornerpoint_grid.c:137-158"]}
{"id": "C60", "title": "Unstructured grid of corner-point input", "statement": "fill_cell_topology gives every cell exactly the faces that have it as a neighbour, in ascending order, with the tag of each half-face telling direction and side, or NULL if memory runs out. create_grid_cornerpoint returns NULL only if an allocation failed; otherwise the grid is that of process_grdecl, neighbours and nodes of faces are in range, and if no face or cell is degenerate, normals, areas, volumes and centroids are those of the polygons and bodies.", "quantifier": "For all dimensions, all oriented corner-point input, all tolerances, all outcomes of allocations and all contents of new memory.", "why_tests_cant": "Tests compare a few grids; inactive cells, faults and failing allocations combine freely, and an error in the half-face order only shows in grids with faults.", "anchors": ["opm/core/grid/cornerpoint_grid.c:24-105", "opm/core/grid/cornerpoint_grid.c:107-134", "opm/core/grid/cornerpoint_grid.c:163-235"]}
{"id": "C61", "title": "Inner products of the mimetic method", "statement": "mim_ip_simple_all puts for each cell, at the place where the matrices of the cells before it end, a matrix that is symmetric and nonnegative along with the permeability, gives the exact fluxes for every linear pressure, and is positive definite if the permeability is, provided normals and centres of the faces fit together; the geometry that compute_geometry computes for cells with flat faces fits. Nothing changes if an allocation fails. mim_ip_compute_gpress, mim_ip_mobility_update and mim_ip_density_update compute gravity terms and scale the matrices and terms of each cell by its own factor.", "quantifier": "For all grids of dimension 1 to 3, all cells with any number of faces, all permeability tensors, volumes other than 0, outcomes of allocations and contents of new memory; the QR factorization of LAPACK is assumed to return an orthonormal basis of what it is given.", "why_tests_cant": "Exactness and definiteness are statements about all linear pressures and all fluxes on arbitrary polyhedra; a test sees a few cells, mostly Cartesian ones with scalar permeability where errors in the off-diagonal parts cancel.", "anchors": ["opm/core/pressure/mimetic/mimetic.c:29-78", "opm/core/pressure/mimetic/mimetic.c:82-150", "opm/core/pressure/mimetic/mimetic.c:154-190", "opm/core/pressure/mimetic/mimetic.c:194-253"]}
{"id": "C62", "title": "Sources, pressure drops, flow rates and reports of wells", "statement": "wellsToSrc accepts exactly wells with one perforation under control of their total reservoir rate and gives each cell the rate of the last well in it; with a fresh vector and no two wells in a cell the sources add up to the rates. computeFlowRatePerWell and computePhaseFlowRatesPerWell add up rates over exactly the perforations of each well, and nothing is lost in total. computeWDP gives each perforation the weight of the column between the reference depth and its cell, with the mean density of the fluid. WellReport::push appends time, and for each well pressure, rate and water cut; the cut lies between 0 and 1 if a well does not both inject and produce. Wells in the same cell, a vector that is not fresh, wells injecting different fluids and more than two incompressible phases are shown to break these claims.", "quantifier": "For all sets of wells (any number of wells, perforations, controls and phases), all rates, saturations, densities and depths, all fluids with nonzero viscosities and total mobilities, all earlier contents of the output vectors.", "why_tests_cant": "The claims concern running offsets over wells with different numbers of perforations, including none; a test fixes the wells, usually one perforation each, where most mistakes in offsets and weights do not show.", "anchors": ["opm/core/utility/miscUtilities.cpp:452-485", "opm/core/utility/miscUtilities.cpp:488-531", "opm/core/utility/miscUtilities.cpp:534-546", "opm/core/utility/miscUtilities.cpp:555-578", "opm/core/utility/miscUtilities.cpp:590-694"]}
{"id": "C63", "title": "Saturation functions: curves, derivatives, bounds, end points from a deck", "statement": "For water-oil, gas-oil and three phases, the three saturation functions (Simple, Stone2, Gwseg) give the curves of their model: with tables in [0,1] the relative permeabilities of Simple and Gwseg lie in [0,1], Stone's oil curve lies below both of its two-phase curves, without gas Stone2 and Gwseg equal the water-oil tables, at connate water Gwseg equals the gas-oil tables. evalKrDeriv and evalPcDeriv return the same values as evalKr and evalPc and a matrix whose rows are the derivatives of the curves (for Simple in all directions that keep the sum of the saturations). init of Simple from a proper SWOF table sets bounds and critical saturations such that krw is 0 up to swcr and positive above, krow positive below 1-sowcr and 0 above, and keeps the values of the curves there. buildUniformMonotoneTable samples an interpolant of the data, keeps end values and monotonicity. Shown false: Stone2's derivative of oil by gas; Stone2 at connate water; Simple's matrix as partial derivatives; the derivative of oil cut off at 0; Gwseg's derivative at and below connate water; critical saturations after init of Stone2 and Gwseg.", "quantifier": "For all tables (any number of nodes, also extrapolated), all saturations at which the tables have a slope, all directions, all earlier contents of the output arrays, all phase combinations a deck can select.", "why_tests_cant": "Derivatives, bounds and end points are statements about all saturations and all tables; a test samples a few saturations of one table and compares with differences up to a tolerance.", "anchors": ["opm/core/props/satfunc/SatFuncSimple.cpp:36-248", "opm/core/props/satfunc/SatFuncSimple.cpp:261-474", "opm/core/props/satfunc/SatFuncStone2.cpp:36-218", "opm/core/props/satfunc/SatFuncStone2.cpp:230-412", "opm/core/props/satfunc/SatFuncGwseg.cpp:36-230", "opm/core/props/satfunc/SatFuncGwseg.cpp:241-435", "opm/core/utility/buildUniformMonotoneTable.hpp:28-44"]}
{"id": "C64", "title": "Saturation properties from a deck: end-point scaling, many points, reading of keywords", "statement": "With end-point scaling, in both modes, the relative permeabilities of water and of oil of a cell are nondecreasing curves through the scaled points: 0 up to the critical saturation of the cell, the value KRWR (KRORW) at the point given by the critical saturation of the other phase, KRW (KRO) from the largest saturation on; numbers not given are those of the tables. Tables of a proper deck meet the hypotheses. relperm, capPress and satRange for n points write exactly the n blocks of their outputs, each with the values of the saturation function of the point's cell; with scaling derivatives are refused. init: the function of a cell is the one of its SATNUM; each array of end points is that of its keyword's field, or of the column of ENPTVD/ENKRVD with its name, interpolated at the cell's depth, with the table's own number outside the depths or for a defaulted column, or absent. Shown false: with KRWR and KRO but without KRW an empty array is read; KRW is disregarded if KRO is absent (wrong array tested); with SOWCR as the only saturation the value at 1-SOWCR is not KRWR; with Stone2 and Gwseg the end points of oil have no effect; SATNUM 0 is accepted.", "quantifier": "For all tables, all end-point arrays that keep the points in order, both modes, all saturations, all numbers of points and cells, all earlier contents of outputs and local arrays, all decks and grids.", "why_tests_cant": "There are eight arrays each present or not, two modes and nearly coinciding points: thousands of combinations, each a statement about a whole curve. The defects found lie in combinations no test of the project has.", "anchors": ["opm/core/props/satfunc/SaturationPropsFromDeck_impl.hpp:44-128", "opm/core/props/satfunc/SaturationPropsFromDeck_impl.hpp:151-182", "opm/core/props/satfunc/SaturationPropsFromDeck_impl.hpp:195-217", "opm/core/props/satfunc/SaturationPropsFromDeck_impl.hpp:229-243", "opm/core/props/satfunc/SaturationPropsFromDeck_impl.hpp:248-252", "opm/core/props/satfunc/SaturationPropsFromDeck_impl.hpp:256-373", "opm/core/props/satfunc/SaturationPropsFromDeck_impl.hpp:378-540"]}
{"id": "C65", "title": "Pressure-dependent fluid properties: dBdp and dRdp are derivatives of B and R", "statement": "Water and dead oil of constant compressibility: B and viscosity are defined and positive at all pressures, B is the reference value at the reference pressure, and dBdp is the derivative of B (negative for positive compressibility above the reference pressure). Dead oil and dry gas: dBdp is the derivative of the reciprocal of the table, at all points of an array. Live oil: 1/B and viscosity are defined at all pressures, and away from the bubble point and the tabulated pressures dBdp is the derivative of B; the solution factor is the smaller of the saturated one and of what there is, and dRdp its derivative. Live gas: the same below the dew point within the range of pressures; at a tabulated pressure the value is that of this pressure's table at the present factor. BlackoilPvtProperties puts the value of phase ph at point i at place np*i+ph and touches nothing behind. Shown false: B of live oil is continuous at the bubble point; dBdp of undersaturated gas outside the tabulated pressures is the derivative (B is constant there, dBdp is not 0); a gas table of one row after one with more rows is read beyond its end.", "quantifier": "For all tables with ordered first columns, all pressures, surface volumes, numbers of points and phases, all earlier contents of outputs.", "why_tests_cant": "Derivatives are limits at each of infinitely many pressures in each regime; a test compares difference quotients at a few points of one table, and the defects found lie at regime changes and outside the table.", "anchors": ["opm/core/props/pvt/SinglePvtConstCompr.hpp:69-139", "opm/core/props/pvt/SinglePvtDead.cpp:37-125", "opm/core/props/pvt/SinglePvtDeadSpline.cpp:38-126", "opm/core/props/pvt/SinglePvtLiveOil.cpp:167-348", "opm/core/props/pvt/SinglePvtLiveGas.cpp:90-305", "opm/core/props/pvt/BlackoilPvtProperties.cpp:139-219"]}
{"id": "C66", "title": "Tables of live oil and live gas made from PVTO and PVTG", "statement": "For a proper PVTO the constructor of SinglePvtLiveOil ends (its loop over pressures terminates), does not read outside its tables and divides by nothing that is 0. The saturated table has the first rows; a record with undersaturated rows gives exactly its rows (1/B instead of B); a record with one row is continued by at least one row, pressures strictly increasing, with slopes of 1/B and viscosity that are those of the next record with undersaturated rows if no earlier record has some, and otherwise lie between those of an earlier such record and of the next one with weight by Rs. So the tables meet the hypotheses of C65. The same for PVTG without continuation. Shown false: the earlier record is the nearest one (iPrev is set back to an older iNext); a PVTO whose last record has one row is refused (instead tables are read beyond the last one).", "quantifier": "For all decks of any number of records and rows, with pressures and factors increasing.", "why_tests_cant": "Termination and the choice of neighbours depend on the pattern of one-row records and on how pressures of two other records interleave; a test deck has one pattern.", "anchors": ["opm/core/props/pvt/SinglePvtLiveOil.cpp:40-158", "opm/core/props/pvt/SinglePvtLiveGas.cpp:49-82"]}
{"id": "C67", "title": "Porosity and permeability of the rock", "statement": "For a deck whose components off the diagonal come with those on the diagonal in their row and column, RockFromDeck::init reads nothing outside the fields and gives each cell, at the position global_cell says, the porosity of the deck (1 without PORO) and a symmetric tensor: off the diagonal the lower triangle's keyword, else the upper one's, else 0; on the diagonal its own keyword, else the first given of PERMX, PERMY, PERMZ, and never less than 0. permfield_valid_ says whether any component was given. Other sets of components are refused. RockBasic::init gives one porosity and the same multiple of the identity everywhere. Shown false: different values for PERMXZ and PERMZX are refused.", "quantifier": "For all decks (any of the 512 sets of keywords, any values), boxes, maps of cells and numbers of cells; for RockBasic any dimension and number of cells.", "why_tests_cant": "The indirection map is filled by nine steps that overwrite each other; which value ends where depends on the set of keywords, of which a test has one.", "anchors": ["opm/core/props/rock/RockFromDeck.cpp:58-138", "opm/core/props/rock/RockFromDeck.cpp:160-336", "opm/core/props/rock/RockBasic.cpp:35-52"]}
{"id": "C68", "title": "Simple fluid properties", "statement": "SaturationPropsBasic::relperm writes for every point the constant, linear or quadratic permeabilities and, if asked, the matrix of their partial derivatives in Fortran order, and writes nothing else; the values do not depend on whether derivatives are asked for; capillary pressures are 0, saturations range from 0 to 1. PvtPropertiesBasic gives each point the viscosities and volume factors of the phases, and derivatives 0. IncompPropertiesBasic accepts exactly the parameters documented and puts given or default values in their places; from arguments it refuses wrong numbers of phases and of densities. Shown false: too few viscosities are refused (they are read beyond the end); constant permeability of two phases is refused by both constructors.", "quantifier": "For all numbers of points, phases and cells, all values and buffers, all parameter groups.", "why_tests_cant": "Indices of points, phases and matrix entries mix; values left untouched beyond the written range and rejected inputs are seldom checked.", "anchors": ["opm/core/props/satfunc/SaturationPropsBasic.cpp:34-216", "opm/core/props/pvt/PvtPropertiesBasic.cpp:36-154", "opm/core/props/IncompPropertiesBasic.cpp:31-68"]}
{"id": "C69", "title": "Boundary conditions on the sides of a grid", "statement": "findSideFaces returns exactly the faces tagged with the side of the cells in the outermost layer of the box, each half-face once (each face once if boundary faces have one half-face), and refuses if one of them is inside the grid; cartCoord inverts the numbering of cells. pressureSide records one condition for all of them. fluxSide records one condition per face, all with the same flux per area, adding up to the given flux. Conditions recorded before stay, also when memory runs out. Shown false: a flux is either recorded or refused (on a side without faces it is lost, and pressureSide is undefined).", "quantifier": "For all grids of up to three dimensions with any active cells, any tags, areas, conditions recorded before, and patterns of memory failure.", "why_tests_cant": "Tests use boxes with all cells active; inactive cells, missing layers and failing allocations are not tried.", "anchors": ["opm/core/pressure/FlowBCManager.cpp:76-138", "opm/core/pressure/FlowBCManager.cpp:173-236"]}
{"id": "C70", "title": "Inspection of corner-point grids", "statement": "cellIdxToLogicalCoords inverts the numbering of cells. cellZvals returns the eight corners of a cell in order. cellVolumeVerticalPillars is the area of the base (formula of Gauss) times the mean height, and the volumes of a column of cells without gaps add up to the area times the mean height of the column. getGridLimits returns least and greatest coordinates of the ends of pillars and of the corners. cellDips of a cell between two parallel planes are the slopes of the planes if in each direction some edge of the cell stays clear of the top and bottom of the model, and 0/0 otherwise. Shown false: the dips of a flat layer are 0 (0/0 if it spans the model); a grid sized by DIMENS that has volumes has dips.", "quantifier": "For all sizes of grids, all COORD and ZCORN of the right sizes, all cells.", "why_tests_cant": "Tests use a few grids; the numbering is done with roundings of quotients, and edges at the top and bottom of the model only appear for special depths.", "anchors": ["opm/core/io/eclipse/EclipseGridInspector.cpp:88-166", "opm/core/io/eclipse/EclipseGridInspector.cpp:176-332"]}
