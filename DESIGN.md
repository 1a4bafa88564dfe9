# Formal model of opm-core: design

Source of truth: the C/C++ text in `/repo` (opm-core at the pinned commit).
The code is read as text; it is never built or run.  The model is written in
Rocq (Coq 8.16.1) under `rocq/theories`.

## 1. Method

* One family of files per modelled component `X`:
  * `XModel.v`  – Gallina transcription of the functions, function by
    function.  Every definition cites file and lines in `/repo` and says where
    it simplifies.
  * `XSpec.v`   – a small vocabulary for stating the properties that does
    not use the model's helper functions (lists of rows, finite maps,
    connectivity as an inductive relation, ...).
  * `XProof.v`  – lemmas.
  * `XProps.v`  – the theorems, each one `exact`-ing a lemma, followed by
    `Print Assumptions`, and `Example`s showing that the hypotheses are met by
    non-trivial inputs.
* Undefined behaviour of the C/C++ code (out-of-bounds access, failed
  `assert`, division by zero, use after free, non-termination) is a distinct
  outcome (`None`, an `error` constructor or "out of fuel"), never silently
  given a value.  A theorem that the outcome is the good one is therefore also
  a memory-safety statement for the modelled function.
* Memory allocation, hash values, clocks and user-supplied callbacks are
  oracles: the theorems quantify over all of them.
* Machine integers are modelled by `nat`/`Z` without overflow unless the
  definition says otherwise.
* `double`: where the code only copies or compares values, the model is
  polymorphic in the value type (and in an ordering with the few laws needed),
  so the results hold for IEEE doubles without NaN.  Where the code computes
  (interpolation, geometry, assembly) the model uses the real numbers `R`, i.e.
  rounding is NOT modelled; this is repeated at each such definition.
* When a property is false of the faithful model the file contains a theorem
  `..._refuted` with a concrete witness and, where there is one, the strongest
  true variant.  Parts that could not be proved in full carry the suffix
  `_partial` and the comment says what is missing.

## 2. Trusted base

* Coq's kernel (8.16.1) and, for `Print Assumptions`, its printing.
* No axioms of our own.  Theorems over `R` depend on the axioms of the
  standard library's real numbers
  (`ClassicalDedekindReals.sig_forall_dec`, `ClassicalDedekindReals.sig_not_dec`,
  `FunctionalExtensionality.functional_extensionality_dep`).  The discrete theorems are
  "Closed under the global context".  Section 5 lists it per file.
* The transcription from C/C++ to Gallina is by hand.

## 3. Properties: model and proof plan

(C-numbers refer to `properties.jsonl`.)

| id | model | proof |
|----|-------|-------|
| C01 | `Wells*`: struct Wells with explicit capacities and arrays; each reserve/realloc is modelled with defaults | refinement to a list of wells, induction over the operation list |
| C02 | same model with an allocation oracle consumed at each malloc/realloc | failed operation leaves the abstraction unchanged, invariant kept |
| C03 | clone_wells as the same sequence of calls the code makes | equality of abstractions under `current < num`; refuted after clear |
| C04 | `SparseTable*`: data_ and row_start_ | refinement to list of rows |
| C05 | `SparseVector*` incl. lower_bound as binary search | refinement to association list / function |
| C06 | `Csr*`: arrays ia, ja with the shifted pointer trick, insertion order arbitrary | loop invariants |
| C07 | `Partition*` arrays | counting sort invariants |
| C08 | `Partition*` Z arithmetic with C division | closed form, counting |
| C09 | `Partition*` | order isomorphism |
| C10 | `Dfs*`: iterative DFS with the shared work array | invariant; refutation for self loops |
| C11 | composition of C07 and C10 | as above |
| C12 | `HashSet*`: open addressing with hash oracle | odd stride generates Z/2^k; set refinement |
| C13 | `CoarseConn*` | refinement to a finite map block pair -> set of faces |
| C14 | `Tarjan*`: iterative Tarjan with shared arrays | invariant of the stack machine; SCC characterisation |
| C15 | `Reorder*`: make_upwind_graph | from C14 |
| C16 | generic single-cell solver in sequence order | from C15 |
| C17-C18 | `Cart*`: index formulas | arithmetic |
| C19 | real-number geometry over C17 | `field`/`ring`/sums |
| C20 | `Bc*`: tables with pointers as heap blocks, allocation oracle | invariant; refutation for the source tables |
| C21-C23 | `Param*`: trees over strings, the parsing loops with fuel | induction on paths/trees; non-termination witness |
| C24 | `Timer*` | induction over calls; refutation |
| C25 | `Column*` | sorting and splitting invariants |
| C26 | `StopWatch*` state machine with clock oracle | induction over calls |
| C27-C29 | `Table*` over R | real arithmetic, binary search invariant |
| C30-C31 | `MonotCubic*` over R | Fritsch-Carlson condition, sign of the derivative via factorisation |
| C32-C33 | `RootFind*` over R with arbitrary function | loop invariant |
| C34 | `Spu*` sums over faces | regrouping sums |
| C35-C36 | `Tpfa*` | sums over faces |
| C37-C39 | `Cpg*` over an ordered type | list invariants |
| C40-C42 | `WellsGroup*` tree | induction over trees; refutations |
| C43 | `Trans*` over R | field arithmetic |
| C44 | `GridFile*` token reader | outcome never out of bounds; refutation |
| C45 | `Deck*` tokens | refutation and conditional theorem |
| C46 | `Phase*` | case analysis |
| C47 | `Misc*` over R | sums |
| C48 | `Rock*` over R | derivative; refuted for the constant case |
| C49 | `Tof*` over R | induction over the sequence; refuted in general |
| C50 | `Mono*`: the scan for the largest jump | loop invariant; refuted for data without a jump |
| C51-C53 | `Grd*`: copying, orientation and crossings of corner-point input | permutation of indices, sign analysis, ruled-surface algebra |
| C54 | `Grd*` on top of C37-C39 and C51-C53 | composition of the invariants of every stage |
| C55, C56 | `Two*` on top of C16, C32 | sign change of the cell equation; invariant of Gauss-Seidel passes; exchange of sums over faces |
| C57 | `Grav*` on top of C32, C55 | sign change; invariant of symmetric Gauss-Seidel passes; telescoping sum |
| C58 | `Poly*` | sums over sides of a closed polygon, telescoping; flat faces seen from any point of their plane |
| C59 | `PolyCell*`, `PolyPlane*` on top of C58 | closed surfaces: each side in both directions, so sums do not depend on the apex; counterexamples with a notch |
| C60 | `TopoModel`, `TopoProps`, `TopoGrid`, `TopoCases` on top of C54 and C59 | the CSR lemmas of C06 with a second array for tags; node ranges from the numbering of C37 |
| C61 | `MimModel`, `MimSpec`, `MimLoop`, `MimProof`, `MimAlg`, `MimGrid`, `MimProps` on top of C59 | loops over matrices by columns; algebra of the projection; the QR factorization is a function with a contract |
| C62 | `WrepModel`, `WrepSpec`, `WrepProof`, `WrepProps`, `WrepCases` on top of C01 | loops over wells and perforations against the abstract wells of C01; relative permeability and viscosity are functions |
| C63 | `KrModel`, `KrSpec`, `KrProof`, `KrProps`, `KrSeg`, `KrInitModel`, `KrInit`, `KrCases` on top of C27, C28, C30 | a table is its value and its derivative; one model for the six classes; derivatives are statements about movement in a direction; init separately |
| C64 | `EpsModel`, `EpsSpec`, `EpsProof`, `EpsProps`, `EpsPoints`, `EpsMany`, `EpsInit`, `EpsCases` on top of C28, C63 | a curve through points; scaling of one phase proved once for both; evaluation at one point reads and writes one block, hence many points; reading of keywords separately |
| C65 | `PvtModel`, `PvtMakeModel`, `PvtSpec`, `PvtProof`, `PvtProps`, `PvtGas`, `PvtCases` on top of C28, C63 | closed form of each regime, then the derivative of a function equal to it in a neighbourhood; loops over points and phases by invariants |
| C66 | `PvtMakeModel`, `PvtMakeSpec`, `PvtMakeProof`, `PvtMakeProps`, `PvtMakeCases` on top of C65 | measure: pressures of both neighbours still ahead; invariant of the loop over records: earlier tables are final, later ones as read |
| C67 | `RdeckModel`, `RdeckSpec`, `RdeckProof`, `RdeckProps` | all sets of keywords by computation with abstract fields; invariants of the loops over cells and components |
| C68 | `BasicPropsModel`, `BasicPropsProps`, `BasicPropsCases`, rock from C67 | invariants of the loops over points and phases; derivatives by standard analysis; cases of the parameters |
| C69 | `SideModel`, `SideSpec`, `SideProps`, `SideCases` on top of C20 | invariants of the loops over cells and half-faces; induction over the faces of the side |
| C70 | `InspectModel`, `InspectSpec`, `InspectProps`, `InspectDips`, `InspectCases` | arithmetic of quotients; invariant of the loop over pillars; induction over the layers of a column |

The table is the plan; section 4 records what is actually modelled and what is not, and MANIFEST.json which theorem covers which property.

## 4. What is modelled

Per model file: definitions and the source lines they transcribe (each definition repeats this, with its simplifications, in its comment).

* **WellsModel**: `wtype` (wells.h:32-35), `ctype` (wells.h:42-46), `ctrl` (wells.h:75-108; wells.c:44-46), `wells` (wells.h:114-166; wells.c:48-51), `fresh_ctrl` (wells.c:115-141), `well_controls_reserve` (wells.c:144-178), `wells_allocate` (wells.c:181-211), `perfs_allocate` (wells.c:214-230), `init_connpos` (wells.c:253), `init_ctrls` (wells.c:256-266), `initialise_new_wells` (wells.c:233-269), `initialise_new_perfs` (wells.c:272-287), `reserve_wells_part` (wells.c:306-316), `reserve_perfs_part` (wells.c:318-325), `wells_reserve` (wells.c:290-328), `destroy_wells` (wells.c:401-434), `create_wells` (wells.c:355-398; wells.c:411-413), `alloc_size` (wells.c:437-451), `add_well` (wells.c:454-520), `ctrl_append` (wells.c:523-565), `append_well_controls` (wells.c:523-565), `set_current_control` (wells.c:568-581), `clear_well_controls` (wells.c:584-595), `clone_ctrls` (wells.c:642-652), `clone_loop` (wells.c:624-660; wells.c:628-629), `clone_wells` (wells.c:598-670).
* **HashModel**: `is_pow2` (hash_set.c:33), `shifts` (hash_set.c:61-63), `hash_set_size` (hash_set.c:39-66), `hash_set` (hash_set.h:37-40), `probe_loop` (hash_set.c:102-105), `insert_core` (hash_set.c:84-114), `reinsert` (hash_set.c:133-136), `expand` (hash_set.c:120-150), `allocate` (hash_set.c:169-192), `insert` (hash_set.c:197-225), `count_elms` (hash_set.c:229-241).
* **SparseModel**: `table` (SparseTable.hpp:209-212), `psums` (SparseTable.hpp:230), `set_row_starts` (SparseTable.hpp:214-236), `assign` (SparseTable.hpp:67-73), `zsum` (SparseTable.hpp:94-102), `append_row` (SparseTable.hpp:106-115), `clear` (SparseTable.hpp:157-161), `t_empty` (SparseTable.hpp:118-154), `t_row` (SparseTable.hpp:168-181), `t_eq` (SparseTable.hpp:184-187), `svec` (SparseVector.hpp:179-185), `sv_new` (SparseVector.hpp:59-69), `sv_check` (SparseVector.hpp:86-94), `sv_construct` (SparseVector.hpp:76-96), `sv_add` (SparseVector.hpp:102-108), `sv_clear` (SparseVector.hpp:130-135), `sv_element` (SparseVector.hpp:147-157), `sv_nnz` (SparseVector.hpp:124-177).
* **CsrModel**: `count_one` (ifs_tpfa.c:122-123; partition.c:253), `scan_loop` (sparse_sys.c:100-103; partition.c:255-258), `push_one` (ifs_tpfa.c:149; partition.c:262), `new_count_nnz` (sparse_sys.c:29-57), `new_elms_pushback` (sparse_sys.c:91-121), `csr_count` (ifs_tpfa.c:112-136; ifs_tpfa.c:147-173), `sort_loop` (sparse_sys.c:133-147), `elm_index` (sparse_sys.c:150-163), `self_keys` (ifs_tpfa.c:92-182), `construct_matrix` (ifs_tpfa.c:112-114).
* **PartModel**: `coord_idx` (partition.c:35-47), `lin_idx` (partition.c:52-64), `lin_dist` (partition.c:79-87), `unif_one` (partition.c:111-117), `unif_idx` (partition.c:100-127), `max_block` (partition.c:141-146), `compr_count` (partition.c:152), `compr_scan` (partition.c:155-157), `compress` (partition.c:135-169), `allocate_inverse` (partition.c:189-216), `zero_loop` (partition.c:248-250), `invert` (partition.c:239-268), `localidx_block` (partition.c:274-286).
* **DfsModel**: `dfs_init` (dfs.c:39-42), `dfs_step` (dfs.c:54-68), `dfs_while` (dfs.c:53-69), `dfs_seeds` (dfs.c:45-71), `dfs_call` (dfs.c:29-72).
* **SplitModel**: `scan1_loop` (partition.c:341-346), `create_c2c` (partition.c:311-379), `count_conns` (partition.c:430-452), `allocate_dfs` (partition.c:397-424), `renumber` (partition.c:558-562), `split_loop` (partition.c:549-567), `split` (partition.c:521-582).
* **TarjanModel**: `push` (tarjan.c:113), `peek` (tarjan.c:120), `visit` (tarjan.c:122-134), `pop_comp` (tarjan.c:145-156), `finish` (tarjan.c:139-170), `descend` (tarjan.c:175-198), `tj_step` (tarjan.c:118-199), `tj_outer` (tarjan.c:103-201), `tarjan` (tarjan.c:64-202).
* **GridModel**: `ugrid` (grid.h:87-235).
* **ReorderModel**: `out_flux` (reordersequence.cpp:58-59), `up_row` (reordersequence.cpp:55-66), `up_cells` (reordersequence.cpp:53-67), `fill_row` (reordersequence.cpp:74-93), `fill_cells` (reordersequence.cpp:72-95), `make_upwind_graph` (reordersequence.cpp:36-96), `compute_sequence` (reordersequence.cpp:101-148).
* **TofModel**: `tof_loop` (TofReorder.cpp:156-182), `tof_cell` (TofReorder.cpp:142-194), `tof_multi` (TofReorder.cpp:248-254), `tracer_heads` (TofReorder.cpp:118-123), `solve_tof` (TofReorder.cpp:58-81).
* **CartModel**: `cells3` (cart_grid.c:251-265), `tags3` (cart_grid.c:267-271), `xfaces3` (cart_grid.c:278-302), `yfaces3` (cart_grid.c:303-327), `zfaces3` (cart_grid.c:328-352), `ncells3` (cart_grid.c:186-222), `sized3` (cart_grid.c:169-183), `topology3` (cart_grid.c:226-353), `cells2` (cart_grid.c:562-572), `tags2` (cart_grid.c:574-579), `xfaces2` (cart_grid.c:588-607), `yfaces2` (cart_grid.c:610-629), `ncells2` (cart_grid.c:505-538), `topology2` (cart_grid.c:542-630), `gcells3` (cart_grid.c:377-391), `gxfaces3` (cart_grid.c:399-416, 418-435), `gnodes3` (cart_grid.c:457-465), `geometry3` (cart_grid.c:357-466), `gcells2` (cart_grid.c:653-663), `gxfaces2` (cart_grid.c:672-684), `gnodes2` (cart_grid.c:702-707), `geometry2` (cart_grid.c:634-708), `spaced` (cart_grid.c:73-75, 108-109).
* **AppendModel**: `fbc` (flow_bc.h:39-50), `alloc_size` (flow_bc.c:32-45), `expand_tables` (flow_bc.c:69-113), `fbc_destroy` (flow_bc.c:157-169), `fbc_construct` (flow_bc.c:51-65, 126-151), `fbc_append` (flow_bc.c:193-222), `fbc_clear` (flow_bc.c:227-234), `tsrc` (transport_source.h:43-54), `ts_expand` (transport_source.c:44-71), `ts_destroy` (transport_source.c:118-129), `ts_create` (transport_source.c:80-114), `ts_append` (transport_source.c:133-173), `ts_clear` (transport_source.c:177-182), `csrc` (compr_source.h:52-85), `cs_expand` (compr_source.c:43-66), `cs_destroy` (compr_source.c:113-124), `cs_create` (compr_source.c:74-109), `cs_append` (compr_source.c:128-161), `cs_clear` (compr_source.c:165-170), `cbc` (compr_bc.h:45-57), `cb_expand` (compr_bc.c:43-70), `cb_append` (compr_bc.c:137-174), `cb_destroy` (compr_bc.c:79-133).
* **ParamModel**: `slash` (ParameterStrings.hpp:45-63), `item` (Parameter.hpp:51-77; ParameterGroup.hpp:262-272), `split` (ParameterTools.cpp:43-53), `skip_empty` (ParameterGroup.cpp:212-214), `insert_parameter` (ParameterGroup.cpp:208-246), `has` (ParameterGroup.cpp:72-84), `get_item` (ParameterGroup_impl.hpp:169-214, 226-285), `translate` (ParameterGroup_impl.hpp:287-322; Parameter.cpp:44-72), `get` (ParameterGroup_impl.hpp:169-214), `get_default` (ParameterGroup_impl.hpp:226-285), `write` (ParameterGroup.cpp:158-177), `read_line` (ParameterGroup.cpp:121-142), `read_param` (ParameterGroup.cpp:111-144), `extension` (ParameterGroup_impl.hpp:88-95), `sort_args` (ParameterGroup_impl.hpp:121-143), `parse_args` (ParameterGroup_impl.hpp:116-161).
* **ClockModel**: `timer` (SimulatorTimer.hpp:88-93), `tm_new` (SimulatorTimer.cpp:32-37), `tm_init_param` (SimulatorTimer.cpp:42-50), `tm_init_deck` (SimulatorTimer.cpp:53-58), `tm_set` (SimulatorTimer.cpp:73-82), `tm_done` (SimulatorTimer.cpp:141-144), `tm_length` (SimulatorTimer.cpp:86-90), `tm_inc` (SimulatorTimer.cpp:132-138), `sw_start` (StopWatch.cpp:54-59), `sw_stop` (StopWatch.cpp:61-68), `sw_since_last` (StopWatch.cpp:70-84), `sw_since_start` (StopWatch.cpp:86-99).
* **ColumnModel**: `index_of` (ColumnExtract.hpp:27, 29, 66), `compare` (ColumnExtract.hpp:24-33), `neighbours_from` (ColumnExtract.hpp:40-45), `neighbours` (ColumnExtract.hpp:38-47), `collect` (ColumnExtract.hpp:64-82), `split_body` (ColumnExtract.hpp:95-107), `split_column` (ColumnExtract.hpp:92-114), `extract_column` (ColumnExtract.hpp:57-124).
* **TableModel**: `utable` (UniformTableLinear.hpp:96-101), `ut_make` (UniformTableLinear.hpp:117-146), `ut_rescale` (UniformTableLinear.hpp:155-164), `ut_eval` (UniformTableLinear.hpp:165-185), `ut_derivative` (UniformTableLinear.hpp:186-212), `index_loop` (linearInterpolation.hpp:43-50), `table_index` (linearInterpolation.hpp:31-52), `linear_derivative` (linearInterpolation.hpp:55-62), `linear_interpolation` (linearInterpolation.hpp:64-81), `ntable` (NonuniformTableLinear.hpp:83-86), `is_nondecreasing` (NonuniformTableLinear.hpp:97-112), `nt_make` (NonuniformTableLinear.hpp:123-131), `nt_rescale` (NonuniformTableLinear.hpp:141-155), `nt_eval` (NonuniformTableLinear.hpp:156-162), `nt_inverse` (NonuniformTableLinear.hpp:172-190).
* **RootModel**: `throw_on_error` (RootFinders.hpp:49-97), `regula_falsi_step` (RootFinders.hpp:282-290), `rf_loop` (RootFinders.hpp:140-180), `rf_solve` (RootFinders.hpp:112-181), `rf_guess_rest` (RootFinders.hpp:224-278), `rf_solve_guess` (RootFinders.hpp:191-278), `bz_loop` (RootFinders.hpp:309-316), `bracket_zero` (RootFinders.hpp:299-327).
* **MonoModel**: `mci` (MonotCubicInterpolator.hpp:497-520), `H00` (MonotCubicInterpolator.hpp:527-538), `is_monotone_coeff` (MonotCubicInterpolator.hpp:570-576), `simple_inner` (MonotCubicInterpolator.cpp:646-669), `simple_derivatives` (MonotCubicInterpolator.cpp:619-672), `adjust` (MonotCubicInterpolator.cpp:675-711), `mono_flags` (MonotCubicInterpolator.cpp:405-485), `compute` (MonotCubicInterpolator.cpp:385-501).
* **AccModel**: `csr_step` (trans_tpfa.c:74-80).
* **SpuModel**: `spu_cell` (spu_explicit.c:28-43), `spu_mob` (spu_explicit.c:51-84), `spu_face` (spu_explicit.c:46-92), `spu_explicit` (spu_explicit.c:16-93).
* **TransModel**: `ugeom` (grid.h:87-235), `htrans_dim` (trans_tpfa.c:47-53), `htrans_body` (trans_tpfa.c:38-57), `htrans_compute` (trans_tpfa.c:13-60), `zero_body` (trans_tpfa.c:70-72), `trans_body` (trans_tpfa.c:64-85), `eff_trans_body` (trans_tpfa.c:89-113).
* **IfsModel**: `bctype` (flow_bc.h:29-31), `flowbc` (flow_bc.h:39-50), `forces` (ifs_tpfa.h:68-76), `vector_zero` (sparse_sys.c:194-200), `mult_body` (ifs_tpfa.c:17-32), `sgn` (ifs_tpfa.c:189-212), `face_body` (ifs_tpfa.c:599-615), `face_step` (ifs_tpfa.c:596-616), `assemble_bhp_well` (ifs_tpfa.c:217-251), `assemble_rate_well` (ifs_tpfa.c:256-298), `assemble_shut_well` (ifs_tpfa.c:303-339), `distr_one` (ifs_tpfa.c:382-387), `well_body` (ifs_tpfa.c:362-404), `assemble_wells` (ifs_tpfa.c:344-405), `bc_face` (ifs_tpfa.c:430-434), `bc_press_body` (ifs_tpfa.c:429-446), `bc_flux_body` (ifs_tpfa.c:453-464), `bc_body` (ifs_tpfa.c:410-470), `src_body` (ifs_tpfa.c:642-647), `assemble_incompressible` (ifs_tpfa.c:575-651), `ifs_assemble` (ifs_tpfa.c:691-707), `comprock_body` (ifs_tpfa.c:712-750), `increment_body` (ifs_tpfa.c:755-802), `flux_body` (ifs_tpfa.c:830-840), `bflux_press_body` (ifs_tpfa.c:475-526), `wpress_body` (ifs_tpfa.c:531-570), `press_flux` (ifs_tpfa.c:807-850).
* **PhaseModel**: `max_num_phases` (BlackoilPhases.hpp:27-34), `phase_usage` (BlackoilPhases.hpp:36-41), `number_phases` (phaseUsageFromDeck.hpp:50-53), `phase_usage_from_deck` (phaseUsageFromDeck.hpp:33-68).
* **RockModel**: `rock` (RockCompressibility.hpp:57-60), `rock_from_param` (RockCompressibility.cpp:31-37), `copy_rocktab` (RockCompressibility.cpp:45-50), `rock_from_deck` (RockCompressibility.cpp:39-59), `is_active` (RockCompressibility.cpp:61-64), `poro_mult` (RockCompressibility.cpp:66-76), `rock_comp` (RockCompressibility.cpp:78-90).
* **GroupModel**: `pmode` (ProductionSpecification.hpp:12-20), `pspec` (ProductionSpecification.hpp:29-39), `imode` (InjectionSpecification.hpp:12-20), `ispec` (InjectionSpecification.hpp:29-37), `node` (WellsGroup.hpp:304, 396-399), `rates_sum` (WellsGroup.cpp:121-146), `rate_by_imode` (WellsGroup.cpp:149-169), `ptarget` (WellsGroup.cpp:171-199), `guide_rate` (WellsGroup.cpp:512-531), `set3` (WellsGroup.cpp:870-913), `overwrite_control` (WellsGroup.cpp:810-815, 922-927), `enter_control` (WellsGroup.cpp:805-817), `apply_well` (WellsGroup.cpp:854-930), `apply_control` (WellsGroup.cpp:283-301), `share_out` (WellsGroup.cpp:451-459, 482-490, 577-592), `apply_prod_controls` (WellsGroup.cpp:438-472), `apply_inj_controls` (WellsGroup.cpp:474-507), `apply_group_controls` (WellCollection.cpp:148-154), `total_production` (WellsGroup.cpp:539-547), `add_used` (WellsGroup.cpp:558-619), `summed` (WellsGroup.hpp:34-43; WellsGroup.cpp:31-50), `weighted` (WellsGroup.cpp:662-704), `find_violated` (WellsGroup.cpp:656-709), `report` (WellsGroup.cpp:642-651), `well_conditions` (WellsGroup.cpp:636-711), `worst_offending` (WellsGroup.cpp:422-436), `shut_well` (WellsGroup.cpp:739-764), `inj_violated` (WellsGroup.cpp:323-347), `prod_violated` (WellsGroup.cpp:353-379), `group_conditions` (WellsGroup.cpp:320-400), `conditions_met` (WellsGroup.cpp:304-402), `all_conditions_met` (WellCollection.cpp:126-140).
* **CoarseModel**: `nbr` (coarse_conn.c:39-50), `nbr_allocate` (coarse_conn.c:76-100), `nbr_insert_fconn` (coarse_conn.c:105-121), `nbrs_allocate` (coarse_conn.c:149-177), `clear_from` (coarse_conn.c:198-200), `nbrs_expand` (coarse_conn.c:183-206), `search` (coarse_conn.c:233-247), `add_neighbour` (coarse_conn.c:252-278), `insert_neighbour` (coarse_conn.c:215-283), `count_blocks` (coarse_conn.c:289-302), `block_of` (coarse_conn.c:332-364), `derive_loop` (coarse_conn.c:331-365), `derive_block_faces` (coarse_conn.c:321-378), `coarsef_nbrs` (coarse_conn.c:388-429), `final_faces` (coarse_conn.c:443-497), `copy_set` (coarse_conn.c:478-482), `sub_nbrs` (coarse_conn.c:471-491), `topology` (coarse_conn.h:27-38), `build` (coarse_conn.c:508-581), `create` (coarse_conn.c:590-621).
* **UniqModel**: `vector_positions` (uniquepoints.c:187-204), `collect_row` (uniquepoints.c:66-81), `uniq_loop` (uniquepoints.c:101-106), `uniquify` (uniquepoints.c:87-123), `advance` (uniquepoints.c:163-165), `assign_loop` (uniquepoints.c:152-177), `assign_point_numbers` (uniquepoints.c:128-182), `put_nodes` (uniquepoints.c:330-334), `one_pillar` (uniquepoints.c:323-341), `one_column` (uniquepoints.c:353-374), `finduniquepoints` (uniquepoints.c:263-383).
* **PillarModel**: `interpolate_pillar` (uniquepoints.c:240-262).
* **PrepModel**: `ftag` (preprocess.h:67-71), `pgrid` (preprocess.h:78-108), `linearindex` (preprocess.c:68-80), `grow` (preprocess.c:151-156), `checkmemory` (preprocess.c:137-190), `put_face` (preprocess.c:363-375; facetopology.c:271-283), `horizontal_step` (preprocess.c:346-396), `horizontal_column` (preprocess.c:323-396), `process_horizontal_faces` (preprocess.c:300-401), `enumerate_cells` (preprocess.c:894-901), `remap` (preprocess.c:903-909).
* **VertModel**: `line_intersection` (facetopology.c:184-186), `faceintersection` (facetopology.c:188-197), `compute_face_topology` (facetopology.c:64-156), `matching_nodes` (facetopology.c:276-281), `meaningful` (facetopology.c:200-202), `emit` (facetopology.c:266-289), `new_intersection` (facetopology.c:296-309), `connect` (facetopology.c:263-343), `inner_step` (facetopology.c:247-350), `inner` (facetopology.c:242-351), `outer_step` (facetopology.c:233-364), `findconnections` (facetopology.c:206-365), `compute_cell_index` (preprocess.c:114-134), `vertical_pair` (preprocess.c:232-283), `process_vertical_faces` (preprocess.c:203-286).
* **FileModel**: `allocate_grid` (grid.c:71-149), `read_meta` (grid.c:189-194), `allocate_grid_from_file` (grid.c:178-257), `read_grid_nodes` (grid.c:260-284), `read_grid_faces` (grid.c:287-388), `read_tagged` (grid.c:420-425), `discard_ints` (grid.c:451-457), `read_grid_cells` (grid.c:391-504), `read_grid` (grid.c:507-543).
* **DeckModel**: `ignore_line` (EclipseGridParserHelpers.hpp:53-57), `defaulted_loop` (EclipseGridParserHelpers.hpp:137-183), `vector_loop` (EclipseGridParserHelpers.hpp:93-125).
* **MiscModel**: `compute_porevolume` (miscUtilities.cpp:42-52), `compute_porevolume_comp` (miscUtilities.cpp:61-72), `compute_saturated_vol` (miscUtilities.cpp:101-116), `compute_average_sat` (miscUtilities.cpp:126-149), `produce_cell` (miscUtilities.cpp:184-194), `compute_injected_produced` (miscUtilities.cpp:164-197), `compute_phase_mobilities` (miscUtilities.cpp:267-289), `compute_total_mobility` (miscUtilities.cpp:206-225), `compute_total_mobility_omega` (miscUtilities.cpp:234-259), `compute_fractional_flow` (miscUtilities.cpp:297-315), `source_face` (miscUtilities.cpp:348-360), `source_cell` (miscUtilities.cpp:345-361), `source_perf` (miscUtilities.cpp:373-388), `compute_transport_source` (miscUtilities.cpp:334-392).
* **GrdModel**: `copy_and_permute_actnum` (preprocess.c:501-532), `copy_and_permute_zcorn` (preprocess.c:535-558), `sign_step` (preprocess.c:586-605), `sign_error` (preprocess.c:580-609), `get_zcorn_sign` (preprocess.c:561-621), `vert_size` (preprocess.c:645-668; preprocess.c:625-641; preprocess.c:687-694), `search` (preprocess.c:709-719), `is_lefthanded` (preprocess.c:672-730), `approximate_intersection_pt` (preprocess.c:412-464), `compute_intersection_coordinates` (preprocess.c:468-498), `swap_ends` (preprocess.c:746-753), `reverse_face_nodes` (preprocess.c:734-755), `start_grid` (preprocess.c:796-811; preprocess.c:869), `process_grdecl` (preprocess.c:761-937).
* **TwoModel**: `mobility` (TransportSolverTwophaseReorder.cpp:526-532), `frac_flow` (TransportSolverTwophaseReorder.cpp:454-462), `residual` (TransportSolverTwophaseReorder.cpp:131-140), `residual_loop` (TransportSolverTwophaseReorder.cpp:153-174), `make_residual` (TransportSolverTwophaseReorder.cpp:141-175), `residual_at` (TransportSolverTwophaseReorder.cpp:176-179), `two_cell` (TransportSolverTwophaseReorder.cpp:183-197), `positions` (TransportSolverTwophaseReorder.cpp:325-330), `init_cells` (TransportSolverTwophaseReorder.cpp:341-346), `mark` (TransportSolverTwophaseReorder.cpp:390-396), `sweep` (TransportSolverTwophaseReorder.cpp:354-405), `rounds` (TransportSolverTwophaseReorder.cpp:352-415), `lift` (TransportSolverTwophaseReorder.cpp:88-119), `to_water_sat` (miscUtilities.cpp:424-432), `to_both_sat` (miscUtilities.cpp:436-445), `two_solve` (TransportSolverTwophaseReorder.cpp:88-119).
* **GravModel**: `grav_residual` (TransportSolverTwophaseReorder.cpp:472-479), `make_grav` (TransportSolverTwophaseReorder.cpp:480-502), `grav_term` (TransportSolverTwophaseReorder.cpp:508-521), `grav_at` (TransportSolverTwophaseReorder.cpp:503-523), `grav_single` (TransportSolverTwophaseReorder.cpp:571-585), `col_face` (TransportSolverTwophaseReorder.cpp:594-607), `grav_from` (TransportSolverTwophaseReorder.cpp:624-625), `grav_body` (TransportSolverTwophaseReorder.cpp:620-631), `grav_rounds` (TransportSolverTwophaseReorder.cpp:615-640), `grav_column` (TransportSolverTwophaseReorder.cpp:589-640), `grav_columns` (TransportSolverTwophaseReorder.cpp:663-667), `grav_solve` (TransportSolverTwophaseReorder.cpp:644-672).
* **PolyModel**: `cross` (geometry.c:12-20; geometry.c:22-28), `face_start` (geometry.c:65-83; geometry.c:264-284), `face_tri` (geometry.c:87-113), `face_body` (geometry.c:62-122), `face_geometry3` (geometry.c:31-124), `cell_tri` (geometry.c:288-326), `cell_face` (geometry.c:258-327), `cell_body` (geometry.c:232-330), `cell_geometry3` (geometry.c:202-331), `edge_ends` (geometry.c:158-166; geometry.c:155), `edge_body` (geometry.c:152-184), `edge_geometry2` (geometry.c:127-186), `cell2_body` (geometry.c:363-415), `cell_geometry2` (geometry.c:334-417), `compute_geometry3` (cornerpoint_grid.c:137-158).
* **TopoModel**: `count_face` (cornerpoint_grid.c:40-46), `push_half` (cornerpoint_grid.c:89-92), `push_face` (cornerpoint_grid.c:83-101), `fill_cell_topology` (cornerpoint_grid.c:24-105), `tag_number` (preprocess.h:56), `to_grid` (cornerpoint_grid.c:187-195), `allocate_geometry` (cornerpoint_grid.c:107-134), `create_grid_cornerpoint` (cornerpoint_grid.c:163-235).
* **MimModel**: `dsyrk_upper` (mimetic.c:134), `dgemm_nn0` (mimetic.c:180), `dgemm_nt` (mimetic.c:187), `mim_ip_span_nullspace` (mimetic.c:96-150), `mim_ip_linpress_exact` (mimetic.c:154-190), `mim_ip_simple` (mimetic.c:82-92), `gather` (mimetic.c:59-69), `mim_cell` (mimetic.c:52-75), `mim_ip_simple_all` (mimetic.c:29-78), `upto` (mimetic.c:210), `mim_ip_compute_gpress` (mimetic.c:194-219), `mim_ip_mobility_update` (mimetic.c:222-240), `mim_ip_density_update` (mimetic.c:243-255).
* **WrepModel**: `well_src` (miscUtilities.cpp:459-484), `wells_to_src` (miscUtilities.cpp:452-485), `wdp_perf` (miscUtilities.cpp:488-531), `compute_wdp` (miscUtilities.cpp:495-530), `compute_flow_rate_per_well` (miscUtilities.cpp:534-546), `compute_phase_flow_rates_per_well` (miscUtilities.cpp:555-578), `day` (Units.hpp:93-96; Units.hpp:214-217), `first_share` (miscUtilities.cpp:623-631), `report_perf` (miscUtilities.cpp:608-640), `report_push` (miscUtilities.cpp:596-642), `report_push_incomp` (miscUtilities.cpp:590-642), `report_push_blackoil` (miscUtilities.cpp:647-694).
* **KrModel**: `table` (NonuniformTableLinear.hpp:156-170), `of_utable` (UniformTableLinear.hpp:165-212), `of_ntable` (NonuniformTableLinear.hpp:156-170), `satfunc` (SatFuncSimple.hpp:41-59), `simple3` (SatFuncSimple.cpp:109-119), `stone3` (SatFuncStone2.cpp:85-99), `eps` (SatFuncGwseg.cpp:90), `gwseg3` (SatFuncGwseg.cpp:84-104), `two` (SatFuncSimple.cpp:124-143; SatFuncStone2.cpp:101-118; SatFuncGwseg.cpp:105-122), `eval_kr` (SatFuncSimple.cpp:105-144; SatFuncStone2.cpp:81-119; SatFuncGwseg.cpp:81-123), `fill0` (SatFuncSimple.cpp:150), `simple3_deriv` (SatFuncSimple.cpp:152-181), `stone3_deriv` (SatFuncStone2.cpp:127-152), `gwseg3_deriv` (SatFuncGwseg.cpp:131-164), `two_deriv` (SatFuncSimple.cpp:183-209; SatFuncStone2.cpp:154-179; SatFuncGwseg.cpp:166-191), `eval_kr_deriv` (SatFuncSimple.cpp:147-211; SatFuncStone2.cpp:122-181; SatFuncGwseg.cpp:126-193), `eval_pc` (SatFuncSimple.cpp:214-225; SatFuncStone2.cpp:184-195; SatFuncGwseg.cpp:196-207), `eval_pc_deriv` (SatFuncSimple.cpp:227-248; SatFuncStone2.cpp:197-218; SatFuncGwseg.cpp:209-230).
* **KrInitModel**: `build_uniform` (buildUniformMonotoneTable.hpp:28-44), `mk_uniform` (SatFuncSimple.cpp:53-55), `mk_nonuniform` (SatFuncSimple.cpp:278-280), `scan_up` (SatFuncSimple.cpp:68-74), `scan_down` (SatFuncSimple.cpp:75-81), `init_water` (SatFuncSimple.cpp:46-82; SatFuncStone2.cpp:46-61; SatFuncGwseg.cpp:46-61), `init_gas` (SatFuncSimple.cpp:83-98; SatFuncStone2.cpp:62-74; SatFuncGwseg.cpp:62-74), `sat_init` (SatFuncSimple.cpp:36-102; SatFuncStone2.cpp:36-78; SatFuncGwseg.cpp:36-78).
* **EpsModel**: `eps_params` (SaturationPropsFromDeck.hpp:110-119), `satprops` (SaturationPropsFromDeck.hpp:106-121), `func_for_cell` (_impl.hpp:248-252), `or_default` (_impl.hpp:393), `onto` (_impl.hpp:398), `scale_sat` (_impl.hpp:386-400), `scale_val` (_impl.hpp:460-498), `relperm_eps` (_impl.hpp:378-540), `relperm` (_impl.hpp:151-182), `cap_press` (_impl.hpp:195-217), `sat_range` (_impl.hpp:229-243), `itab` (_impl.hpp:271-299), `from_table` (_impl.hpp:276, 283, 290, 297, 311, 318, 325), `deck_pos` (_impl.hpp:66), `init_eps` (_impl.hpp:256-373), `sp_init` (_impl.hpp:44-128).
* **PvtModel**: `each` (SinglePvtDead.cpp:77-80), `each2` (SinglePvtConstCompr.hpp:111-116), `const_compr` (SinglePvtConstCompr.hpp:141-145), `cc_make` (SinglePvtConstCompr.hpp:43-63), `cc_mu` (SinglePvtConstCompr.hpp:69-84, 86-101), `cc_dB` (SinglePvtConstCompr.hpp:103-121), `dead` (SinglePvtDead.hpp:76-77; SinglePvtDeadSpline.hpp:77-78), `dd_make` (SinglePvtDead.cpp:37-63; SinglePvtDeadSpline.cpp:38-64), `dd_mu` (SinglePvtDead.cpp:72-81), `dd_dBdp` (SinglePvtDead.cpp:94-106; SinglePvtDeadSpline.cpp:95-107), `live` (SinglePvtLiveOil.hpp:87-88; SinglePvtLiveGas.hpp:85-86), `miscible_oil` (SinglePvtLiveOil.cpp:292-348), `oil_B` (SinglePvtLiveOil.cpp:239-251), `oil_R` (SinglePvtLiveOil.cpp:253-266), `oil_dR` (SinglePvtLiveOil.cpp:268-289), `miscible_gas` (SinglePvtLiveGas.cpp:225-305), `gas_B` (SinglePvtLiveGas.cpp:160-180), `gas_R` (SinglePvtLiveGas.cpp:182-223), `pvt_mu` (SinglePvtConstCompr.hpp:69-84; SinglePvtDead.cpp:72-81; SinglePvtDeadSpline.cpp:73-82; SinglePvtLiveOil.cpp:167-176; SinglePvtLiveGas.cpp:90-99), `pvt_B` (SinglePvtConstCompr.hpp:86-101; SinglePvtDead.cpp:83-92; SinglePvtDeadSpline.cpp:84-93; SinglePvtLiveOil.cpp:180-190; SinglePvtLiveGas.cpp:103-113), `pvt_dBdp` (SinglePvtConstCompr.hpp:103-121; SinglePvtDead.cpp:94-106; SinglePvtDeadSpline.cpp:95-107; SinglePvtLiveOil.cpp:194-204; SinglePvtLiveGas.cpp:117-127), `pvt_R` (SinglePvtConstCompr.hpp:123-129; SinglePvtDead.cpp:109-115; SinglePvtDeadSpline.cpp:110-116; SinglePvtLiveOil.cpp:208-218; SinglePvtLiveGas.cpp:131-141), `pvt_dRdp` (SinglePvtConstCompr.hpp:131-139; SinglePvtDead.cpp:117-125; SinglePvtDeadSpline.cpp:118-126; SinglePvtLiveOil.cpp:222-232; SinglePvtLiveGas.cpp:145-155), `resize` (BlackoilPvtProperties.cpp:144), `spread` (BlackoilPvtProperties.cpp:148-150), `bo_one` (BlackoilPvtProperties.cpp:139-152, 154-167), `bo_two` (BlackoilPvtProperties.cpp:169-185).
* **PvtMakeModel**: `column` (SinglePvtLiveOil.cpp:52-57; SinglePvtLiveGas.cpp:62-67), `und_table` (SinglePvtLiveOil.cpp:61-71; SinglePvtLiveGas.cpp:71-80), `gas_make` (SinglePvtLiveGas.cpp:49-82), `find_next` (SinglePvtLiveOil.cpp:77-79), `pick` (SinglePvtLiveOil.cpp:105-119), `extend` (SinglePvtLiveOil.cpp:101-155), `fill_record` (SinglePvtLiveOil.cpp:81-157), `oil_make` (SinglePvtLiveOil.cpp:40-158).
* **RdeckModel**: `perm_kind` (RockFromDeck.cpp:30), `classify` (RockFromDeck.cpp:160-207), `copy_if_zero` (RockFromDeck.cpp:228-233), `diag` (RockFromDeck.cpp:285-290), `cross` (RockFromDeck.cpp:291-294), `fill_tensor` (RockFromDeck.cpp:268-336), `deck_pos` (RockFromDeck.cpp:76), `cell_tensor` (RockFromDeck.cpp:119-132), `assign_permeability` (RockFromDeck.cpp:84-138), `assign_porosity` (RockFromDeck.cpp:68-80), `drock` (RockFromDeck.hpp:79-81; RockFromDeck.cpp:58-65), `rock_basic` (RockBasic.cpp:35-52).
* **BasicPropsModel**: `kr_fun` (SaturationPropsBasic.hpp:48), `kr_of` (SaturationPropsBasic.cpp:35-38, 47-50), `dkr_of` (SaturationPropsBasic.cpp:39-42, 51-54), `eval_all` (SaturationPropsBasic.cpp:70-92), `satb` (SaturationPropsBasic.hpp:99-100), `sat_init` (SaturationPropsBasic.cpp:111-132), `sat_relperm` (SaturationPropsBasic.cpp:155-179), `sat_cap` (SaturationPropsBasic.cpp:193-202), `sat_range` (SaturationPropsBasic.cpp:210-216), `pvtb` (PvtPropertiesBasic.hpp:93-95), `pvt_init_param` (PvtPropertiesBasic.cpp:36-61), `pvt_init` (PvtPropertiesBasic.cpp:63-75), `pvt_np` (PvtPropertiesBasic.cpp:83-86), `per_phase` (PvtPropertiesBasic.cpp:95-101), `pvt_mu` (PvtPropertiesBasic.cpp:90-102), `pvt_B` (PvtPropertiesBasic.cpp:104-116), `pvt_dBdp` (PvtPropertiesBasic.cpp:118-133), `pvt_R` (PvtPropertiesBasic.cpp:136-154), `incomp` (IncompPropertiesBasic.hpp:158-161), `incomp_end` (IncompPropertiesBasic.cpp:42-47), `params` (IncompPropertiesBasic.cpp:31-48), `incomp_args` (IncompPropertiesBasic.cpp:50-68; SaturationPropsBasic.hpp:51-56).
* **SideModel**: `bctype` (flow_bc.h:29-31), `cart_coord` (FlowBCManager.cpp:173-187), `side_face` (FlowBCManager.cpp:222-233), `find_side` (FlowBCManager.cpp:197-236), `bcm_append` (FlowBCManager.cpp:76-84), `pressure_side` (FlowBCManager.cpp:93-103), `append_fluxes` (FlowBCManager.cpp:131-137), `flux_side` (FlowBCManager.cpp:116-138).
* **InspectModel**: `inspector` (EclipseGridInspector.cpp:52-77), `idx_to_logical` (EclipseGridInspector.cpp:176-193), `in_box` (EclipseGridInspector.cpp:249-257), `sizes_ok` (EclipseGridInspector.cpp:91-100), `cell_z` (EclipseGridInspector.cpp:313-332), `cell_volume` (EclipseGridInspector.cpp:195-240), `grid_limits` (EclipseGridInspector.cpp:260-300), `rise` (EclipseGridInspector.cpp:111-162), `cell_dips` (EclipseGridInspector.cpp:88-166).

Not modelled, besides the simplifications given at each definition:

* rounding of doubles, NaN and infinities; overflow of `int` and `size_t`;
* exceptions thrown by the standard library, `operator new` failing, I/O other
  than the token streams of C22, C23, C44 and C45, locales, printed messages;
* concurrency (the code has none);
* whole components: `EclipseGridParser.cpp`,
  `WellsManager`, hybrid pressure
  solvers (`hybsys*.c`), compressible pressure solvers
  (`cfs_tpfa*.c`, `CompressibleTpfa.cpp`), `spu_implicit.c`, the selection
  of PVT classes by keywords (`BlackoilPvtProperties::init`), the classes that bundle properties (`props/*.cpp`) other than `IncompPropertiesBasic`, the simulators, linear solvers, output
  writers, vag grids, polymer and time-of-flight with discontinuous Galerkin
  basis, unless listed above;
* in `cart_grid.c` the depths of layers (lines 470-500); in `grid.c` the
  writing of grids; in `ParameterGroup` the merging of groups through XML files;
  in `wells.c` nothing is left out but printing.

## 5. Axioms per file

`Print Assumptions` of every theorem named in MANIFEST.json, grouped by file; all other files only serve these. `R1` = `ClassicalDedekindReals.sig_forall_dec`, `R2` = `ClassicalDedekindReals.sig_not_dec`, `FE` = `FunctionalExtensionality.functional_extensionality_dep`: all from Coq's standard library, brought in by its real numbers.

* **WellsProps** — closed: C01_view_is_history, C01_no_undefined_behaviour, C01_exact_contents, C01_create_empty, C01_reserved_space, C01_null_distribution_refuted, C02_failure_changes_nothing, C02_retry_after_failure, C02_create_refuted, C03_clone, C03_clone_after_clear_refuted.
* **HashProps** — closed: C12_allocate, C12_set_semantics, C12_no_growth, C12_failure.
* **SparseProps** — closed: C04_step, C04_observers, C04_bounds, C04_equality, C04_assign_throws_refuted, C05_add_accepts, C05_element, C05_construct.
* **CsrProps** — closed: C06_two_phase, C06_allocation_failure, C06_new_count_nnz_refuted, C06_sortrows, C06_elm_index, C06_tpfa_pattern, C06_pattern_symmetric.
* **PartProps** — closed: C07_invert, C07_block_count, C07_localidx, C07_allocate, C07_failure_code_refuted, C08_one_direction, C08_all_directions, C08_every_index, C08_unif_idx, C08_failure, C08_more_bins_than_cells_refuted, C09_compress, C09_failure, C09_idempotent.
* **DfsProps** — closed: C10_directed, C10_components, C10_self_loops_refuted.
* **SplitProps** — closed: C11_split_partial, C11_split_if_pointer_reset, C11_cell_zero_refuted, C11_overflow_refuted.
* **TarjanProps** — closed: C14_components, C14_reads, C14_acyclic.
* **ReorderProps** — closed: C15_sequence, C15_acyclic, C16_components, C16_general, C16_solves.
* **TofProps** — FE, R1: C16_tof, C49_tracers_sum_to_one, C49_tracers_sum_to_one_refuted.
* **CartProps** — closed: C17_numbering, C17_topology, C17_corners, C18_numbering, C18_topology.
* **CartGeomProps** — FE, R1: C19_values3, C19_faces3, C19_cells3, C19_values2, C19_faces2, C19_cells2, C19_spaced.
* **AppendProps** — closed: C20_flow_conditions, C20_flow_conditions_succeed, C20_transport_create, C20_transport_append, C20_transport_clear, C20_transport_destroy, C20_transport_history, C20_transport_failure_refuted, C20_compr_create, C20_compr_append, C20_compr_failure_refuted, C20_compr_bc_second_append_refuted.
* **ParamProps** — closed: C21_insert, C21_get_stored, C21_has, C21_insert_get, C21_get_inherits, C21_last_assignment_wins, C21_command_line, C21_same_string_refuted, C22_round_trip, C22_subgroup, C22_inserted_round_trip, C22_empty_group_refuted, C22_comment_value_refuted, C23_insert_terminates, C23_line, C23_file_terminates, C23_lookup_terminates, C23_blank_line_refuted, C23_argument_refuted.
* **ClockProps** — closed: C24_init, C24_call, C24_history, C24_done, C24_set_refuted, C24_reinit_refuted, C26_nonnegative, C26_rejected, C26_laps_add_up, C26_stopped; FE, R1: C24_total_param, C24_monotone.
* **ColumnProps** — closed: C25_extract, C25_consecutive, C25_connected, C25_append_refuted.
* **UTableProps** — FE, R1: C27_constructor, C27_interpolant, C27_nodes, C27_outside, C27_between, C27_continuous, C27_continuity, C27_slope, C27_derivative.
* **NTableProps** — FE, R1: C28_index, C28_interpolant, C28_nodes, C28_extrapolate, C28_monotone, C28_derivative, C28_nondecreasing_refuted, C29_increasing, C29_decreasing_partial, C29_inverse_refuted.
* **RootProps** — FE, R1: C32_solve, C32_solve_guess, C32_rejects, C32_policies, C32_iterations_refuted, C33_bracket, C33_throws.
* **MonoProps** — FE, R1, R2: C30_interpolates, C30_outside, C30_total, C30_monotone, C30_new, C30_no_failure, C30_affine, C31_queries, C31_extremes, C31_shrink, C31_chop, C31_chop_refuted, C31_scale_refuted, C31_single_refuted, C50_missing, C50_order_refuted; FE, R1: C50_total.
* **SpuProps** — FE, R1: C34_spu_explicit, C34_oil_upstream_refuted.
* **TransProps** — FE, R1: C43_htrans, C43_htrans_positive, C43_htrans_aligned, C43_trans, C43_eff_trans, C43_positive_refuted.
* **IfsProps** — closed: C35_pattern; FE, R1: C35_system, C35_symmetric, C35_semidefinite, C36_balance, C36_unsupported, C36_flux_unique, C36_comprock, C36_increment, C36_mult, C36_two_conditions_refuted, C36_increment_null_refuted.
* **PhaseProps** — closed: C46_phase_usage, C46_inactive_position_refuted.
* **RockProps** — FE, R1: C48_table, C48_constant, C48_constant_refuted, C48_extrapolation_refuted, C48_from_deck, C48_from_param.
* **GroupProps** — FE, R1: C40_forced, C40_production, C40_injection, C40_own_control_kept, C40_reinjection, C40_voidage_replacement, C40_own_control_refuted, C40_no_mode_refuted, C40_injector_guide_refuted, C40_zero_guide_refuted, C40_out_of_memory_refuted, C41_worst_offender, C41_group_rate, C41_no_procedure, C41_injection_limit, C41_worst_offender_refuted, C41_reopened_refuted, C41_injector_shut_refuted, C41_empty_group_refuted, C42_well_check, C42_tree_check, C42_first_failing, C42_reopened_refuted.
* **CoarseProps** — closed: C13_interfaces, C13_block_faces, C13_sub_faces, C13_partition, C13_total.
* **UniqProps** — closed: C37_numbering, C37_near, C37_merge, C37_apart, C37_monotone; FE, R1: C37_nodes_on_pillars.
* **HorizProps** — closed: C38_horizontal, C38_renumber, C38_neighbours, C38_padded, C38_inactive.
* **VertProps** — FE, R1: C39_findconnections, C39_vertical, C39_unfaulted, C39_one_face, C39_depths, C39_live; closed: C39_levels, C39_pillars, C39_intersections_refuted.
* **FileProps** — closed: C44_read, C44_sound, C44_dimension_refuted, C44_positions_refuted, C44_negative_refuted.
* **DeckProps** — closed: C45_read, C45_slash, C45_full, C45_repeat_refuted, C45_requested_refuted, C45_negative_refuted.
* **DeckVec** — closed: C45_vector, C45_vector_all.
* **MiscProps** — R1: C47_porevolume, C47_porevolume_comp; FE, R1: C47_saturated, C47_average, C47_average_unit, C47_average_bounds, C47_injected_produced, C47_produced_total.
* **MiscMob** — FE, R1: C47_mobilities, C47_fractional, C47_shares, C47_total_mobility, C47_omega, C47_omega_bounds.
* **MiscTrans** — FE, R1: C47_transport_cells, C47_transport, C47_boundary, C47_transport_total, C47_mixed_refuted, C47_crossflow_refuted.
* **GrdProps** — closed: C51_actnum, C51_permutation; R1: C51_zcorn; FE, R1: C52_sign, C52_both_refuted, C52_gap_refuted, C53_crossing.
* **GrdNodes** — FE, R1: C53_nodes, C54_handed; closed: C54_reverse, C54_each.
* **GrdCases** — FE, R1: C54_grid, C54_depths, C54_on_pillars, C54_column, C54_slanted_refuted, C54_broken_refuted.
* **TwoProps** — FE, R1: C55_bracket, C55_cell, C55_error, C56_step, C56_mass, C56_conservation.
* **GravProps** — R1: C57_fluxes; FE, R1: C57_bracket, C57_solve, C57_mass, C57_nearby, C57_init, C57_falls, C57_faces_refuted.
* **PolyProps** — FE, R1, R2: C58_faces, C58_values.
* **PolyPlane** — FE, R1, R2: C58_edges, C59_plane, C59_plane_total, C59_plane_green.
* **PolyPlaneCases** — FE, R1, R2: C59_dart_refuted, C59_centroid_refuted.
* **PolyCellProps** — FE, R1, R2: C59_geometry, C59_outward, C59_green, C59_total.
* **PolyCases** — FE, R1, R2: C58_triangle.
* **PolyNotch** — FE, R1, R2: C59_notch_refuted.
* **TopoProps** — closed: C60_topology.
* **TopoGrid** — FE, R1: C60_faces; FE, R1, R2: C60_create.
* **MimGrid** — FE, R1: C61_matrices.
* **MimProps** — FE, R1: C61_inner, C61_gravity; FE, R1, R2: C61_geometry; R1: C61_density, C61_mobility.
* **WrepProps** — FE, R1: C62_source, C62_source_only, C62_source_total, C62_flow, C62_flow_total, C62_phase, C62_phase_total, C62_wdp, C62_report_incomp, C62_report_blackoil, C62_cut.
* **WrepCases** — FE, R1: C62_shared_cell_refuted, C62_stale_source_refuted, C62_report_composition_refuted, C62_report_three_phases_refuted.
* **KrProps** — FE, R1: C63_nonuniform, C63_uniform, C63_two, C63_simple3, C63_stone3_partial.
* **KrSeg** — FE, R1: C63_gwseg3, C63_gwseg_bounds, C63_gwseg_limits, C63_simple_bounds, C63_stone_bounds, C63_stone_limit, C63_pc.
* **KrInit** — FE, R1: C63_init, C63_init_others; FE, R1, R2: C63_build.
* **KrCases** — FE, R1: C63_stone_derivative_refuted, C63_stone_connate_refuted, C63_simple_partial_derivative_refuted, C63_cut_off_refuted, C63_gwseg_connate_refuted, C63_gwseg_below_refuted, C63_init_refuted.
* **EpsProof** — FE, R1: C64_one.
* **EpsProps** — FE, R1: C64_scaled, C64_tables.
* **EpsMany** — FE, R1: C64_relperm, C64_relperm_deriv, C64_relperm_scaled; R1: C64_cap_press, C64_cap_press_deriv; closed: C64_sat_range.
* **EpsInit** — FE, R1: C64_init, C64_keyword, C64_arrays.
* **EpsCases** — FE, R1: C64_no_krw_refuted, C64_krw_refuted, C64_krwr_refuted, C64_stone_refuted, C64_satnum_refuted.
* **PvtProps** — FE, R1: C65_const, C65_dead, C65_oil_rate, C65_oil_values, C65_oil_B, C65_oil_R.
* **PvtGas** — FE, R1: C65_gas_rate, C65_gas_undersaturated, C65_gas_B, C65_gas_R, C65_blackoil, C65_blackoil_derivatives.
* **PvtCases** — FE, R1: C65_oil_continuous_refuted, C65_gas_outside_refuted, C65_gas_one_row_refuted.
* **PvtMakeProps** — FE, R1: C66_oil, C66_gas.
* **PvtMakeCases** — FE, R1: C66_nearest_refuted, C66_last_row_refuted.
* **RdeckProps** — FE, R1: C67_permeability, C67_refuses, C67_symmetric, C67_conflict_refuted; R1: C67_basic.
* **BasicPropsProps** — FE, R1: C68_relperm; R1: C68_simple, C68_pvt, C68_pvt_derivatives.
* **BasicPropsCases** — FE, R1: C68_params; R1: C68_args, C68_viscosities_refuted, C68_constant_refuted.
* **SideProps** — closed: C69_faces, C69_inside.
* **SideCases** — closed: C69_pressure, C69_start; FE, R1: C69_flux, C69_no_faces, C69_flux_lost_refuted.
* **InspectProps** — closed: C70_index; R1: C70_corners; FE, R1: C70_volume, C70_column, C70_limits.
* **InspectDips** — FE, R1: C70_dips.
* **InspectCases** — FE, R1: C70_flat_refuted, C70_dimens_refuted.
