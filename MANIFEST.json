{
 "claims": [
  {
   "property": "C01",
   "status": "proved",
   "theorems": [
    "C01_view_is_history",
    "C01_no_undefined_behaviour",
    "C01_exact_contents",
    "C01_create_empty",
    "C01_reserved_space",
    "C01_null_distribution_refuted"
   ],
   "note": "Refinement of wells.c to a list of well descriptions for all histories and all allocation outcomes. A control appended without a distribution after a clear shows stale data (refutation with witness)."
  },
  {
   "property": "C02",
   "status": "proved",
   "theorems": [
    "C02_failure_changes_nothing",
    "C02_retry_after_failure",
    "C02_create_refuted"
   ],
   "note": "Any failed add/append leaves the visible wells unchanged. Creation itself reads through NULL when the management structure cannot be allocated (refutation with witness)."
  },
  {
   "property": "C03",
   "status": "proved",
   "theorems": [
    "C03_clone",
    "C03_clone_after_clear_refuted"
   ],
   "note": "Proved for every reachable structure whose current controls exist; without that hypothesis cloning trips an assertion (refutation with witness)."
  },
  {
   "property": "C04",
   "status": "proved",
   "theorems": [
    "C04_step",
    "C04_observers",
    "C04_bounds",
    "C04_equality",
    "C04_assign_throws_refuted"
   ],
   "note": "Any history of constructor/assign/allocate/appendRow/clear refines a list of rows. An assign that throws leaves a broken table (refutation with witness)."
  },
  {
   "property": "C05",
   "status": "proved",
   "theorems": [
    "C05_add_accepts",
    "C05_element",
    "C05_construct"
   ],
   "note": "Includes the binary search of std::lower_bound."
  },
  {
   "property": "C06",
   "status": "proved",
   "theorems": [
    "C06_two_phase",
    "C06_allocation_failure",
    "C06_new_count_nnz_refuted",
    "C06_sortrows",
    "C06_elm_index",
    "C06_tpfa_pattern",
    "C06_pattern_symmetric"
   ],
   "note": "qsort and bsearch enter through the C standard's contract (qsort_contract, bsearch_contract), satisfied by qsort0/bsearch0. C06_new_count_nnz_refuted: on failure of the second allocation unassigned pointers are freed."
  },
  {
   "property": "C07",
   "status": "proved",
   "theorems": [
    "C07_invert",
    "C07_block_count",
    "C07_localidx",
    "C07_allocate",
    "C07_failure_code_refuted"
   ],
   "note": "C07_failure_code_refuted: allocate_inverse returns 0, not the documented -1."
  },
  {
   "property": "C08",
   "status": "proved",
   "theorems": [
    "C08_one_direction",
    "C08_all_directions",
    "C08_every_index",
    "C08_unif_idx",
    "C08_failure",
    "C08_more_bins_than_cells_refuted"
   ],
   "note": "More bins than cells divides by zero (refuted)."
  },
  {
   "property": "C09",
   "status": "proved",
   "theorems": [
    "C09_compress",
    "C09_failure",
    "C09_idempotent"
   ],
   "note": ""
  },
  {
   "property": "C10",
   "status": "proved",
   "theorems": [
    "C10_directed",
    "C10_components",
    "C10_self_loops_refuted"
   ],
   "note": "Components for every undirected graph whose self connections come first in their rows (the only graphs the code builds); a self connection elsewhere in a row gives wrong components, shown by C10_self_loops_refuted."
  },
  {
   "property": "C11",
   "status": "partial",
   "theorems": [
    "C11_split_partial",
    "C11_split_if_pointer_reset",
    "C11_cell_zero_refuted",
    "C11_overflow_refuted"
   ],
   "note": "The code never sets pc2c[0] back to 0, so the claim is false of it: cell 0 is always separated from its block and arrays can be overrun (two refutations). Proved: the exact behaviour of the existing code when the arrays are large enough, and the full claim once pc2c[0] = 0 is added."
  },
  {
   "property": "C12",
   "status": "proved",
   "theorems": [
    "C12_allocate",
    "C12_set_semantics",
    "C12_no_growth",
    "C12_failure"
   ],
   "note": "The hash function is arbitrary with the single assumption that indices are below the table size."
  },
  {
   "property": "C13",
   "status": "proved",
   "theorems": [
    "C13_interfaces",
    "C13_block_faces",
    "C13_sub_faces",
    "C13_partition",
    "C13_total"
   ],
   "note": "coarse_topology_create with the hash sets of C12; every allocation outcome"
  },
  {
   "property": "C14",
   "status": "proved",
   "theorems": [
    "C14_components",
    "C14_reads",
    "C14_acyclic"
   ],
   "note": "Any directed graph; termination, array bounds and all four assertions included. Array contents before the call are irrelevant since they are cleared."
  },
  {
   "property": "C15",
   "status": "proved",
   "theorems": [
    "C15_sequence",
    "C15_acyclic"
   ],
   "note": "for every flux value type with a sign test, including NaN; an empty grid fails an assertion (C15_example_empty)"
  },
  {
   "property": "C16",
   "status": "proved",
   "theorems": [
    "C16_components",
    "C16_general",
    "C16_solves",
    "C16_tof"
   ],
   "note": "any flow: components visited once each in flow order; acyclic: general local solver, and time-of-flight over the reals (balance in every cell, non-negativity)"
  },
  {
   "property": "C17",
   "status": "proved",
   "theorems": [
    "C17_numbering",
    "C17_topology",
    "C17_corners"
   ],
   "note": "fill_cart_topology_3d for all positive dimensions and any previous contents of the arrays; int overflow not modelled."
  },
  {
   "property": "C18",
   "status": "proved",
   "theorems": [
    "C18_numbering",
    "C18_topology"
   ],
   "note": "fill_cart_topology_2d for all positive dimensions and any previous contents of the arrays; int overflow not modelled."
  },
  {
   "property": "C19",
   "status": "proved",
   "theorems": [
    "C19_values3",
    "C19_faces3",
    "C19_cells3",
    "C19_values2",
    "C19_faces2",
    "C19_cells2",
    "C19_spaced"
   ],
   "note": "Real arithmetic; layered grids with a depth array (compute_geometry) are not covered."
  },
  {
   "property": "C20",
   "status": "partial",
   "theorems": [
    "C20_flow_conditions",
    "C20_flow_conditions_succeed",
    "C20_transport_create",
    "C20_transport_append",
    "C20_transport_clear",
    "C20_transport_destroy",
    "C20_transport_history",
    "C20_transport_failure_refuted",
    "C20_compr_create",
    "C20_compr_append",
    "C20_compr_failure_refuted",
    "C20_compr_bc_second_append_refuted"
   ],
   "note": "Fully proved for flow boundary conditions under every pattern of allocation failure. For transport and compressible sources recording is proved for every history and the outcome of every single append under every failure pattern is characterised exactly; the claim that a failed append leaves the structure usable is refuted for them (dangling pointers after a partial realloc failure). For compr_bc the second append always fails its assertion."
  },
  {
   "property": "C21",
   "status": "proved",
   "theorems": [
    "C21_insert",
    "C21_get_stored",
    "C21_has",
    "C21_insert_get",
    "C21_get_inherits",
    "C21_last_assignment_wins",
    "C21_command_line",
    "C21_same_string_refuted"
   ],
   "note": "Proved for every tree, every path and every history, including inheritance from enclosing groups and the command line. A name with leading or doubled slashes is normalised by insertion but not by lookup: refuted as a separate theorem."
  },
  {
   "property": "C22",
   "status": "partial",
   "theorems": [
    "C22_round_trip",
    "C22_subgroup",
    "C22_inserted_round_trip",
    "C22_empty_group_refuted",
    "C22_comment_value_refuted"
   ],
   "note": "Proved for all nonempty trees whose inner groups are nonempty and whose values contain no equals sign, newline or double slash (types are forgotten, as documented). Refuted for an empty group (comes back with a parameter dummy) and for values containing the comment mark."
  },
  {
   "property": "C23",
   "status": "partial",
   "theorems": [
    "C23_insert_terminates",
    "C23_line",
    "C23_file_terminates",
    "C23_lookup_terminates",
    "C23_blank_line_refuted",
    "C23_argument_refuted"
   ],
   "note": "The claim is false: a blank line or an argument =5 never returns. The set of lines on which reading hangs is characterised exactly, and termination is proved for all files without such lines and for all lookups."
  },
  {
   "property": "C24",
   "status": "partial",
   "theorems": [
    "C24_init",
    "C24_call",
    "C24_history",
    "C24_done",
    "C24_set_refuted",
    "C24_reinit_refuted",
    "C24_total_param",
    "C24_monotone"
   ],
   "note": "Proved for every history of calls and every addition (so also bitwise for doubles): the current time is the sum of the steps before the current step. Refuted: setCurrentStepNum accepts a step outside the schedule, and a second init keeps the old step number."
  },
  {
   "property": "C25",
   "status": "proved",
   "theorems": [
    "C25_extract",
    "C25_consecutive",
    "C25_connected",
    "C25_append_refuted"
   ],
   "note": "Proved for every sort function that meets the std::sort contract, when the vector passed in is empty (as in all callers). C25_append_refuted: with a non-empty vector the function also reorders and splits the columns that were there."
  },
  {
   "property": "C26",
   "status": "proved",
   "theorems": [
    "C26_nonnegative",
    "C26_rejected",
    "C26_laps_add_up",
    "C26_stopped"
   ],
   "note": "The clock is any non-decreasing sequence of readings; time points are integers."
  },
  {
   "property": "C27",
   "status": "proved",
   "theorems": [
    "C27_constructor",
    "C27_interpolant",
    "C27_nodes",
    "C27_outside",
    "C27_between",
    "C27_continuous",
    "C27_continuity",
    "C27_slope",
    "C27_derivative"
   ],
   "note": "Over the reals (no rounding), for every table built by the constructor and any number of rescaleDomain calls to proper intervals."
  },
  {
   "property": "C28",
   "status": "proved",
   "theorems": [
    "C28_index",
    "C28_interpolant",
    "C28_nodes",
    "C28_extrapolate",
    "C28_monotone",
    "C28_derivative",
    "C28_nondecreasing_refuted"
   ],
   "note": "Over the reals, for strictly monotone tables in either direction. C28_nondecreasing_refuted: the constructor of NonuniformTableLinear also accepts tables with equal abscissae, where the look-up divides by zero."
  },
  {
   "property": "C29",
   "status": "partial",
   "theorems": [
    "C29_increasing",
    "C29_decreasing_partial",
    "C29_inverse_refuted"
   ],
   "note": "Increasing data: proved for every history. Decreasing data: proved when no rescaleDomain follows the first inverse; refuted otherwise (stale cached abscissae)."
  },
  {
   "property": "C30",
   "status": "proved",
   "theorems": [
    "C30_interpolates",
    "C30_outside",
    "C30_total",
    "C30_monotone",
    "C30_new",
    "C30_no_failure",
    "C30_affine"
   ],
   "note": "Over the reals, for every object reachable by the public functions (constructor, addPair, scaleData, chop, shrink, queries): passes through the data, constant outside, monotone if the data are; straight lines are reproduced. std::map by its contract."
  },
  {
   "property": "C31",
   "status": "partial",
   "theorems": [
    "C31_queries",
    "C31_extremes",
    "C31_shrink",
    "C31_chop",
    "C31_chop_refuted",
    "C31_scale_refuted",
    "C31_single_refuted"
   ],
   "note": "Proved for all histories where scaleData only gets positive factors and at least two points are left. False as stated: a negative factor leaves wrong flags (C31_scale_refuted), chopFlatEndpoints is undefined whenever it has something to chop (C31_chop, C31_chop_refuted), with one point the flags are uninitialised (C31_single_refuted)."
  },
  {
   "property": "C32",
   "status": "proved",
   "theorems": [
    "C32_solve",
    "C32_solve_guess",
    "C32_rejects",
    "C32_policies",
    "C32_iterations_refuted"
   ],
   "note": "Over the reals, for every function. All evaluation points stay in [a,b], the loop interval is always a bracket and shrinks, the returned point has a small residual or is the midpoint of a bracket narrower than the tolerance; both overloads. No failed ASSERT. C32_iterations_refuted: iterations_used is left unset on an early return."
  },
  {
   "property": "C33",
   "status": "proved",
   "theorems": [
    "C33_bracket",
    "C33_throws"
   ],
   "note": "For every function: the returned ends are ordered and enclose a sign change; it throws exactly if none of the 100 tried points does."
  },
  {
   "property": "C34",
   "status": "proved",
   "theorems": [
    "C34_spu_explicit",
    "C34_oil_upstream_refuted"
   ],
   "note": "Per-cell balance, exact total, upwind mobilities, no failed assertion, for all inputs with nonnegative mobilities and positive total mobility per cell. C34_oil_upstream_refuted: with total flux exactly zero and negative gravity flux the oil mobility is taken from the downstream cell."
  },
  {
   "property": "C35",
   "status": "proved",
   "theorems": [
    "C35_pattern",
    "C35_system",
    "C35_symmetric",
    "C35_semidefinite"
   ],
   "note": "Over the reals: the pattern, the assembled coefficients entry by entry, symmetry and positive semi-definiteness for non-negative transmissibilities and well indices."
  },
  {
   "property": "C36",
   "status": "proved",
   "theorems": [
    "C36_balance",
    "C36_unsupported",
    "C36_flux_unique",
    "C36_comprock",
    "C36_increment",
    "C36_mult",
    "C36_two_conditions_refuted",
    "C36_increment_null_refuted"
   ],
   "note": "Any solution of the assembled system gives face and perforation fluxes that balance in every cell. Two conditions on one face break the balance (refuted form); the increment path without forces dereferences a null pointer (refuted form)."
  },
  {
   "property": "C37",
   "status": "proved",
   "theorems": [
    "C37_numbering",
    "C37_near",
    "C37_merge",
    "C37_apart",
    "C37_monotone",
    "C37_nodes_on_pillars"
   ],
   "note": "All of finduniquepoints, for all inputs with arrays of the right sizes; node coordinates on the pillar lines over the reals."
  },
  {
   "property": "C38",
   "status": "proved",
   "theorems": [
    "C38_horizontal",
    "C38_renumber",
    "C38_neighbours",
    "C38_padded",
    "C38_inactive"
   ],
   "note": "Arrays of the grid under construction, horizontal faces, numbering of the live cells, renumbering and remapped neighbours for all point-number columns; the point numbers made by finduniquepoints meet the hypothesis."
  },
  {
   "property": "C39",
   "status": "proved",
   "theorems": [
    "C39_findconnections",
    "C39_vertical",
    "C39_unfaulted",
    "C39_one_face",
    "C39_levels",
    "C39_depths",
    "C39_pillars",
    "C39_live",
    "C39_intersections_refuted"
   ],
   "note": "Faces, nodes, neighbours, tags and crossings of all planes; the only failure is the overflow of the array of crossings, for which a witness is given."
  },
  {
   "property": "C40",
   "status": "proved",
   "theorems": [
    "C40_forced",
    "C40_production",
    "C40_injection",
    "C40_own_control_kept",
    "C40_reinjection",
    "C40_voidage_replacement",
    "C40_own_control_refuted",
    "C40_no_mode_refuted",
    "C40_injector_guide_refuted",
    "C40_zero_guide_refuted",
    "C40_out_of_memory_refuted"
   ],
   "note": "All trees of groups and wells, over R. Production and injection controls of a whole tree (fields governed by one rate group per branch), forced controls, reinjection and voidage replacement. Witnesses show the cases in which the code asks wells with their own mode or no mode for rate zero, fails an assertion, divides by zero, or shuts a well when memory is exhausted."
  },
  {
   "property": "C41",
   "status": "proved",
   "theorems": [
    "C41_worst_offender",
    "C41_group_rate",
    "C41_no_procedure",
    "C41_injection_limit",
    "C41_worst_offender_refuted",
    "C41_reopened_refuted",
    "C41_injector_shut_refuted",
    "C41_empty_group_refuted"
   ],
   "note": "The well chosen is the one with the largest signed rate and its state is toggled. The plain reading (largest producer is shut and stays shut) is refuted: production is negative, so the smallest producer or an injector is chosen, and a shut well is opened again."
  },
  {
   "property": "C42",
   "status": "proved",
   "theorems": [
    "C42_well_check",
    "C42_tree_check",
    "C42_first_failing",
    "C42_reopened_refuted"
   ],
   "note": "All control lists, rates and trees. A shut well with a violated control is opened by the check (refuted witness)."
  },
  {
   "property": "C43",
   "status": "proved",
   "theorems": [
    "C43_htrans",
    "C43_htrans_positive",
    "C43_htrans_aligned",
    "C43_trans",
    "C43_eff_trans",
    "C43_positive_refuted"
   ],
   "note": "Harmonic combination for all grids; C43_positive_refuted shows that positive definite permeability does not guarantee positive one-sided values (then 1/0)."
  },
  {
   "property": "C44",
   "status": "partial",
   "theorems": [
    "C44_read",
    "C44_sound",
    "C44_dimension_refuted",
    "C44_positions_refuted",
    "C44_negative_refuted"
   ],
   "note": "For every file whose announced numbers are consistent, and every allocation history, read_grid returns the content of the file or NULL without touching memory outside; a grid is only ever returned for consistent files. 'For every file content' is false: three kinds of inconsistent files make it write outside its arrays (refuted theorems)."
  },
  {
   "property": "C45",
   "status": "partial",
   "theorems": [
    "C45_read",
    "C45_slash",
    "C45_full",
    "C45_vector",
    "C45_vector_all",
    "C45_repeat_refuted",
    "C45_requested_refuted",
    "C45_negative_refuted"
   ],
   "note": "Positions, defaults and termination proved for every text with non-negative counts, and readVectorData for every text; 'never writes past the requested number' is false (three refutations) and replaced by: only a repeat count beyond the end of the vector writes outside."
  },
  {
   "property": "C46",
   "status": "proved",
   "theorems": [
    "C46_phase_usage",
    "C46_inactive_position_refuted"
   ],
   "note": "For every deck. Positions of inactive phases coincide with others (refuted form)."
  },
  {
   "property": "C47",
   "status": "partial",
   "theorems": [
    "C47_porevolume",
    "C47_porevolume_comp",
    "C47_saturated",
    "C47_average",
    "C47_average_unit",
    "C47_average_bounds",
    "C47_injected_produced",
    "C47_produced_total",
    "C47_mobilities",
    "C47_fractional",
    "C47_shares",
    "C47_total_mobility",
    "C47_omega",
    "C47_omega_bounds",
    "C47_transport_cells",
    "C47_transport",
    "C47_boundary",
    "C47_transport_total",
    "C47_mixed_refuted",
    "C47_crossflow_refuted"
   ],
   "note": "Sums over all cells, phases, boundary faces and perforations for any grid and wells. Partial: what flows into a cell from a producer is dropped by the code (C47_crossflow_refuted), and inflow and outflow of one cell cancel in the single number (C47_mixed_refuted), so the claim holds per source, not for the sign of the sum."
  },
  {
   "property": "C48",
   "status": "proved",
   "theorems": [
    "C48_table",
    "C48_constant",
    "C48_constant_refuted",
    "C48_extrapolation_refuted",
    "C48_from_deck",
    "C48_from_param"
   ],
   "note": "Over the reals. The constant case is refuted as a logarithmic derivative and its exact deviation is proved."
  },
  {
   "property": "C49",
   "status": "proved",
   "theorems": [
    "C49_tracers_sum_to_one",
    "C49_tracers_sum_to_one_refuted"
   ],
   "note": "proved when injection cells have no inflow from other cells; refuted without that condition although sources and fluxes balance"
  },
  {
   "property": "C50",
   "status": "partial",
   "theorems": [
    "C50_missing",
    "C50_total",
    "C50_order_refuted"
   ],
   "note": "Proved for left-to-right evaluation of the operands; with the other permitted order the returned x is an existing data point (C50_order_refuted)."
  },
  {
   "property": "C51",
   "status": "proved",
   "theorems": [
    "C51_actnum",
    "C51_zcorn",
    "C51_permutation"
   ],
   "note": "by_columns: values of each column adjacent; the copy is a permutation. The temporary array of the C code and malloc failure are not modelled."
  },
  {
   "property": "C52",
   "status": "proved",
   "theorems": [
    "C52_sign",
    "C52_both_refuted",
    "C52_gap_refuted"
   ],
   "note": "Doubles as reals. The documented value -1 for broken input is -3 in fact (C52_both_refuted); corners separated by an inactive cell are never compared (C52_gap_refuted)."
  },
  {
   "property": "C53",
   "status": "proved",
   "theorems": [
    "C53_crossing",
    "C53_nodes"
   ],
   "note": "Doubles as reals; the depth need not lie between the listed points of a pillar, so the place on the pillar may be extrapolated."
  },
  {
   "property": "C54",
   "status": "partial",
   "theorems": [
    "C54_grid",
    "C54_depths",
    "C54_on_pillars",
    "C54_column",
    "C54_reverse",
    "C54_each",
    "C54_handed",
    "C54_slanted_refuted",
    "C54_broken_refuted"
   ],
   "note": "The whole composition is proved for input with an orientation and volume: points, faces in three directions, crossings, cells, renumbering, reflections, reversal (iff the sides turn clockwise). Partial because process_grdecl writes out of bounds when the crossings exceed its array (see C39; the theorem shows this needs more than 16 crossings), because nodes leave slanted pillars when depths decrease downwards (C54_slanted_refuted), and because input without orientation is scaled by -3 (C54_broken_refuted). Doubles are reals."
  },
  {
   "property": "C55",
   "status": "proved",
   "theorems": [
    "C55_bracket",
    "C55_cell",
    "C55_error"
   ],
   "note": "Doubles are reals; relative permeabilities are any function of cell and saturations."
  },
  {
   "property": "C56",
   "status": "proved",
   "theorems": [
    "C56_step",
    "C56_mass",
    "C56_conservation"
   ],
   "note": "Gauss-Seidel variant of solveMultiCell, as compiled; boundary faces are ignored by the code (their flux belongs to the sources)."
  },
  {
   "property": "C57",
   "status": "partial",
   "theorems": [
    "C57_fluxes",
    "C57_bracket",
    "C57_solve",
    "C57_mass",
    "C57_nearby",
    "C57_init",
    "C57_falls",
    "C57_faces_refuted"
   ],
   "note": "All of it for one face between consecutive cells; with several faces only the flux of the last one counts (C57_faces_refuted)."
  },
  {
   "property": "C58",
   "status": "proved",
   "theorems": [
    "C58_faces",
    "C58_values",
    "C58_triangle",
    "C58_edges"
   ],
   "note": "Faces: normals, areas and centroids as sums over triangles, and their meaning for flat star shaped faces; every triangle is one. Edges in two dimensions."
  },
  {
   "property": "C59",
   "status": "proved",
   "theorems": [
    "C59_geometry",
    "C59_outward",
    "C59_green",
    "C59_total",
    "C59_notch_refuted",
    "C59_plane",
    "C59_plane_total",
    "C59_plane_green",
    "C59_dart_refuted",
    "C59_centroid_refuted"
   ],
   "note": "Volumes and centroids of bodies with a closed surface, Green identity, total volume; the conditions on the faces are needed (refuted without)."
  },
  {
   "property": "C60",
   "status": "proved",
   "theorems": [
    "C60_topology",
    "C60_faces",
    "C60_create"
   ],
   "note": "Memory requested within process_grdecl is taken to be available."
  },
  {
   "property": "C61",
   "status": "proved",
   "theorems": [
    "C61_matrices",
    "C61_inner",
    "C61_geometry",
    "C61_gravity",
    "C61_density",
    "C61_mobility"
   ],
   "note": "LAPACK's QR factorization is a parameter; its contract (orthonormal columns spanning those of its argument) is a hypothesis of C61_inner."
  },
  {
   "property": "C62",
   "status": "proved",
   "theorems": [
    "C62_source",
    "C62_source_only",
    "C62_source_total",
    "C62_flow",
    "C62_flow_total",
    "C62_phase",
    "C62_phase_total",
    "C62_wdp",
    "C62_report_incomp",
    "C62_report_blackoil",
    "C62_cut",
    "C62_shared_cell_refuted",
    "C62_stale_source_refuted",
    "C62_report_composition_refuted",
    "C62_report_three_phases_refuted"
   ],
   "note": "The reports are proved for wells that inject the same fluid as the first well (the code reads comp_frac[0] for all); the four _refuted theorems show what happens otherwise."
  },
  {
   "property": "C63",
   "status": "partial",
   "theorems": [
    "C63_nonuniform",
    "C63_uniform",
    "C63_two",
    "C63_simple3",
    "C63_stone3_partial",
    "C63_gwseg3",
    "C63_gwseg_bounds",
    "C63_gwseg_limits",
    "C63_simple_bounds",
    "C63_stone_bounds",
    "C63_stone_limit",
    "C63_pc",
    "C63_init",
    "C63_init_others",
    "C63_build",
    "C63_stone_derivative_refuted",
    "C63_stone_connate_refuted",
    "C63_simple_partial_derivative_refuted",
    "C63_cut_off_refuted",
    "C63_gwseg_connate_refuted",
    "C63_gwseg_below_refuted",
    "C63_init_refuted"
   ],
   "note": "Everything stated is proved except for the oil row of Stone's matrix: C63_stone3_partial gives the exact error of its entry for gas, which C63_stone_derivative_refuted shows to be nonzero. At kinks of the tables no derivative exists and nothing is claimed. The other defects of the statement are the _refuted theorems."
  },
  {
   "property": "C64",
   "status": "proved",
   "theorems": [
    "C64_one",
    "C64_scaled",
    "C64_tables",
    "C64_relperm",
    "C64_relperm_deriv",
    "C64_relperm_scaled",
    "C64_cap_press",
    "C64_cap_press_deriv",
    "C64_sat_range",
    "C64_init",
    "C64_keyword",
    "C64_arrays",
    "C64_no_krw_refuted",
    "C64_krw_refuted",
    "C64_krwr_refuted",
    "C64_stone_refuted",
    "C64_satnum_refuted"
   ],
   "note": "The combinations of arrays for which the curve property fails are excluded by the record proper; the _refuted theorems show that the exclusions are defects of the code."
  },
  {
   "property": "C65",
   "status": "proved",
   "theorems": [
    "C65_const",
    "C65_dead",
    "C65_oil_rate",
    "C65_oil_values",
    "C65_oil_B",
    "C65_oil_R",
    "C65_gas_rate",
    "C65_gas_undersaturated",
    "C65_gas_B",
    "C65_gas_R",
    "C65_blackoil",
    "C65_blackoil_derivatives",
    "C65_oil_continuous_refuted",
    "C65_gas_outside_refuted",
    "C65_gas_one_row_refuted"
   ],
   "note": "Derivatives are stated away from bubble/dew point and tabulated pressures, where the functions have kinks or jumps."
  },
  {
   "property": "C66",
   "status": "proved",
   "theorems": [
    "C66_oil",
    "C66_gas",
    "C66_nearest_refuted",
    "C66_last_row_refuted"
   ],
   "note": "std::upper_bound is modelled as the first larger element, which is what it is on sorted ranges."
  },
  {
   "property": "C67",
   "status": "proved",
   "theorems": [
    "C67_permeability",
    "C67_refuses",
    "C67_symmetric",
    "C67_basic",
    "C67_conflict_refuted"
   ],
   "note": "The deck is the map from keywords to vectors; how the parser reads it is not part of this."
  },
  {
   "property": "C68",
   "status": "proved",
   "theorems": [
    "C68_relperm",
    "C68_simple",
    "C68_pvt",
    "C68_pvt_derivatives",
    "C68_params",
    "C68_args",
    "C68_viscosities_refuted",
    "C68_constant_refuted"
   ],
   "note": "Exceptions and undefined behaviour are told apart in the constructors."
  },
  {
   "property": "C69",
   "status": "proved",
   "theorems": [
    "C69_faces",
    "C69_inside",
    "C69_pressure",
    "C69_flux",
    "C69_no_faces",
    "C69_start",
    "C69_flux_lost_refuted"
   ],
   "note": "The condition tables are those of C20, with failing allocations."
  },
  {
   "property": "C70",
   "status": "proved",
   "theorems": [
    "C70_index",
    "C70_corners",
    "C70_volume",
    "C70_column",
    "C70_limits",
    "C70_dips",
    "C70_flat_refuted",
    "C70_dimens_refuted"
   ],
   "note": "Whole of EclipseGridInspector except the constructors (the size is given, with a flag for where it came from) and gridSize; doubles are reals, so the floors of quotients of doubles are quotients of integers; a division 0/0 is no result. Cells that are not between parallel planes have no statement on dips."
  }
 ]
}
