# Formal model of devsim in Rocq (Coq 8.16.1)

## Method

* `rocq/theories/<Area>.v` — executable / mathematical model of one part of the
  code.  Each definition cites `file:lines` in /repo/src.  No proofs.
* `rocq/theories/<Area>Spec.v` — what the properties mean, independent of the model's functions.
* `rocq/theories/<Area>Proofs.v` and others — lemmas.
* `rocq/theories/<Area>Properties.v` — the property theorems `Cnn_...`,
  non-vacuity examples and `Print Assumptions`.

Naming: `..._partial` for a theorem which proves part of a property,
`..._refuted` for a theorem which exhibits a counterexample of the property in
the faithful model (a defect of the code, or a limit of the claim).

Numbers: where a property does not use laws of arithmetic the model is
parametric in the scalar type (so it also covers IEEE doubles and the extended
precision type); where laws are needed the scalars are Coq's reals `R`
(rounding is then not modelled, stated at the definition).  Properties that
depend on rounding are stated with Flocq's binary64 (C03, C10, C16, C22, C31, C51).
Machine integers are `nat`/`Z` unless wrap-around matters; then the wrap is explicit.

Undefined behaviour (out of bounds access, erase(end()), null dereference,
negative table index) is a distinct outcome.  `OutputStream::FATAL` (throws)
is modelled as an error result.

## Trusted base

1. Coq's kernel (and `vm_compute` where used).
2. Standard library axioms listed by `Print Assumptions` (table at the end of
   this file).  No axioms of other libraries and none of our own; Flocq and
   Coquelicot are used as libraries of definitions and lemmas only.
3. The reading of the C++ code: the model was written by hand from the source;
   each definition cites the lines it models and says where it simplifies.
4. Not verified: the C++ compiler and library (std::map, std::sort, iostream
   formatting are modelled by their specifications), zlib, BLAS/LAPACK/SuperLU/
   UMFPACK/PARDISO (abstract solvers with a stated contract), Python (the
   commands are modelled from the arguments that reach them).

## What is modelled

| area | source | model files |
|---|---|---|
| base64, zlib blocks | utility/base64.cc | Base64* |
| sparse matrix | math/CompressedMatrix.cc | CMatrix* |
| loading into matrix and right-hand side | math/Newton.cc (Load*), Permutation | Load* |
| Newton iteration, convergence, backup/restore, transient shifts | math/Newton.cc, data/Device.cc, Region.cc, Equation/Equation.cc | Newton*, UpdateProperties |
| time integration | math/TimeData, Newton.hh, commands/MathCommands.cc | TimeMethods*, TimeOrder |
| equation numbering and tables | Region.cc, Device.cc, NodeKeeper.cc | Numbering*, EqTable*, NodeKeeper* |
| bulk assembly (node, edge, element, volume models) | Equation/*.cc | Assembly* |
| contact and interface equations | Equation/ContactEquation.cc, InterfaceEquation.cc | Contact*, Interface* |
| circuit elements, nodes and commands | Circuit/* | Circuit*, NodeKeeper* |
| parallel evaluation | models/ParallelOpEqual.cc, MathEval/MathPacket.cc | Parallel* |
| parameters | GlobalData.cc | Params* |
| model cache and dependencies | models/NodeModel.cc, EdgeModel.cc, ModelExprEval.cc, Region.cc callbacks | Stale* |
| model data, expression evaluation | models/ModelDataHolder.cc, ScalarData.cc, ModelExprEval.cc | ModelData*, ModelExpr* |
| symbolic derivative and simplification | src/adiff | Sym*, Simplify*, ConText* |
| Bernoulli functions | MathEval/Bernoulli.cc | Bernoulli* |
| 1D and 2D meshing, imported meshes, create_device | meshing/*.cc | MeshLine*, Mesh2*, Loader*, ImportSpec |
| connections of a region | geometry/Region.cc (FinalizeMesh) | Adjacency* |
| centres, lengths, couples, volumes | Geometry/Triangle.cc, Tetrahedron.cc, GeomModels/*.cc | Geometry*, Volume*, GeomLine |
| surfaces, interface normals, cylindrical models | GeomModels/SurfaceArea*.cc, InterfaceNormal.cc, Cylindrical*.cc, TriangleCylindrical*.cc | Surface*, Cylindrical* |
| edge averages, gradients, element fields | models/EdgeFromNodeModel, AverageEdgeModel, VectorGradient, TriangleElementField, TetrahedronElementField | EdgeAverage*, VectorGradient*, ElementField* |
| command options | commands/CommandHandler.cc, dsGetArgs | Options* |

## What is not modelled

Linear solvers and preconditioners, AC/noise solves beyond the loading of
their matrices (C18, C22), file readers and writers except the VTK data encoding and
the loading of devsim meshes from lists, the parser of the
model compiler and of mesh files, extended precision arithmetic (it is covered
only where a theorem is parametric in the scalar), Python objects and their
conversion except as stated for C42, text of messages, timing, GaussFermi and
Fermi functions, MPI.  The floating-point exception flag of the workers
is accessed without synchronisation in the code (a data race); the model of
C07 takes these accesses as atomic.

## Plan per property

| id | modelled | how proved |
|----|----------|-----------|
| C01 | base64.cc to_base64/from_base64 byte for byte | induction over 3-byte groups; table inversion by finite sweep |
| C02 | block splitting in convertVectorToZlibBase64 (zlib abstract, lossless) | refuted for sizes multiple of the block size, proved for the others |
| C03-C06 | CompressedMatrix state machine, scalar type abstract | simulation against the list of contributions; C06 refuted with a history |
| C07 | OpEqualRun/MathPacketRun chunking with size_t arithmetic, workers as interleaved steps | chunk list is a partition; any interleaving of disjoint writes gives the serial result |
| C08 | TimeParams coefficients over R | field; Taylor expansions for the error bounds |
| C09, C11, C12 | Newton::Solve as a state machine over an abstract iteration oracle | induction over iterations and over solve histories |
| C10 | aggregation of errors from Equation to Solve, over R and in binary64 | lemmas about max/sum folds; NaN refuted |
| C13, C23 | equation numbering, circuit numbering | arithmetic over offsets, bijection; histories of commands |
| C14, C15 | Region equation tables | invariant over histories; C15 refuted |
| C16-C19, C45 | assembly over an abstract mesh graph with models given by values and derivatives | sums over edge lists; derivative by linearity; total current by exchanging sums |
| C20, C46 | ContactEquation with arbitrary pointer order | exclusivity proved, completeness refuted; residual and derivative compared with a specification |
| C21 | update rules over R | pointwise, folds. The circuit rule "positive", which need not end, is not reachable through the API because add_circuit_node ignores variable_update (C44_variable_update_refuted) |
| C22 | stamps of resistor, capacitor, inductor, sources over R and C, histories of time steps, phasors | Kirchhoff's laws by case analysis and induction over histories |
| C24, C44 | alias map, circuit commands | histories; refuted / proved part |
| C25, C27 | model cache with callback lists, signals of parameters | invariant over evaluations; refuted for replacement |
| C26 | three level lookup | refinement to a map over histories |
| C28, C48 | ModelDataHolder / ScalarData / expression evaluator with shared cache | refinement to vectors; evaluation equals the element-by-element value |
| C29-C31 | symbolic expressions, derivative, simplifier, texts of constants | derivable_pt_lim by induction; counterexamples; decimal rounding with Flocq |
| C32 | MeshUtil | real arithmetic, termination measure |
| C33, C34, C37 | Mesh1d.cc as commands on a mesh state | invariants over command sequences; refuted: RegionSort, same names, retry |
| C35, C36 | Mesh2d.cc: lines, grid, triangles, FindRegion, boxes, region meshes, contacts, interfaces as commands | barycentric coordinates over R; fold invariants; refuted: second box lost |
| C38 | triangle and tetrahedron centres | real algebra; solver abstract |
| C39 | couples and volumes of 1D, 2D, 3D regions from the connections of C50 | weights of the circumcentre; double counting |
| C40 | Bernoulli over R with thresholds | analysis (monotonicity, mean value theorem) |
| C41, C43, C49 | gmsh and devsim loaders, create_device | set arguments, fold invariants; UB refuted |
| C42 | processOptions | decision rules against a specification |
| C47 | InterfaceEquation | sums over node pairs |
| C50 | Region::FinalizeMesh lists | correctness of each list for complete regions; UB outcomes |
| C51 | edge_from_node_model, edge_average_model | derivatives over R; binary64 witnesses |
| C52 | element_from_edge_model/element_from_node_model in 2D and 3D | weighted solutions of linear systems |
| C53 | vector_gradient | exactness on linear functions; refuted in 3D |
| C54, C55 | surface areas, normals, interface_normal_model | sums over once-listed boundary elements; fold invariants |
| C56 | cylindrical models | Pappus' theorem against the code's formula; refuted for parts widest at the ends |
| C57, C58, C59 | DevsimRestartWriter, DevsimScanner.l states, DevsimParser.y, DevsimLoader | characters to lexemes by regular-expression derivatives and longest match for any blanks; %.15e/atof over Flocq; round trip writer/parser by sections, then loader to normal form; refuted: state that outlives a failed load, forgotten failures |
| C60 | DevsimRestartWriter of a device built by DevsimLoader | what the loader stores is what the writer looks up again; refuted: point interfaces, reversed pairs, point contacts |
| C61 | Newton::ACSolve, LoadMatrixAndRHSAC, Equation::DefaultACUpdate, NodeKeeper AC update | system entry by entry via C18, results via C13; refuted: shared variables, names that collide |
| C62 | Newton::NoiseSolve, DefaultNoiseUpdate | adjoint identity for the transposed system; refuted: equations copied with KeepCopy |
| C63 | gmres.cc, IterativeLinearSolver::SolveImpl over exact reals | Arnoldi and Givens invariants, back substitution, Bessel bound; refuted: success reported without convergence |
| C64 | BlockPreconditioner CreateBlockInfo, ProcessBlockInfo on the numbered system of C13, std::sort as any sorted permutation | layout of blocks, induction over the sorted row; refuted: out of bounds index for circuit rows, dropped diagonal |
| C65 | Newton AssembleTclEquation(s), GlobalData AddTclEquation; Python objects of Options.v, loading of Load.v | induction over the procedures and their flat lists, composed with C18; refuted: rows that are no integers, rows out of range |
| C66 | Newton GetMatrixAndRHSForExternalUse, MathCommands format option; Load.v on the matrix of CMatrix.v | composition of C18 with C03, C04, C06; refuted: out of bounds after ClearMatrix |
| C67 | VTKWriter.cc, base64.cc (zlib is a parameter: decompress undoes compress) | separate reader of the VTK format: base64 by cases of bytes, blocks by induction, elements by a stack parser, cells by offsets; files as a map from names; refuted: multiples of 4096, include_test for vectors, unwritable files, names relative to the .vtm |
| C68 | TecplotWriter.cc (the header lines are records: title, variables, zone counts, cell variables; the number text is a parameter, printf %g for the refutation) | separate reader of zones; BreakLine by induction on the turns of the loop; variables: one invariant of the two/three sets (the first display wins) for node and edge models; zones: words of each line, columns counted; refuted: six digits, equal names, kinds that differ, 30000-character words |
| C69 | ModelCommands.cc set_*_values, set_node_value, get_*_values, delete_* with SetValues, SetNodeValue, GetScalarValues of the models (evaluation: any function of the region; dependents: any relation, C25) | observations are the replies of the get commands only; one frame invariant (what a command does to the models it does not write) for all commands, then induction on histories; refuted on a concrete device |
| C70 | InterfaceModelExprEval.cc (all but debugging output), InterfaceModelExprData.cc, InterfaceNodeExprModel.cc calcNodeScalarValues, InterfaceNodeModel.cc CalculateValues/GetScalarValues; arithmetic, functions, parameters, circuit nodes, node models: any | the specification is a value per node without cache, sharing or uniform vectors; invariant: every cached object denotes the value of the expression with its key; converse by the monotonicity of messages; refuted on two nodes |
| C71 | EquationCommands.cc (all commands), constructors, Serialize and GetCommandOptions_Impl of ExprEquation.cc, ExprContactEquation.cc, InterfaceExprEquation.cc, Contact.cc and Interface.cc AddEquation/DeleteEquation, Region.cc (EqTable.v); models of a place: environment | the specification is the log of commands and replies; invariant: each table entry reports the options of its last command; by_index is the order of introduction; refuted on commands that name no existing model |
| C72 | ModelCommands.cc 157-384, 595-680, 1767-1903; Serialize of the expression models; constructors, submodels and Serialize of the eleven classes of models made from models (values: other properties); which models exist: any functions | names as the set of the manual, put together from coordinates and corners; an inversion of the accepted commands, then each class; refuted for the derivatives of element_from_edge_model in 3D |


## Print Assumptions of every theorem of the manifest

D = `ClassicalDedekindReals.sig_forall_dec`, N = `ClassicalDedekindReals.sig_not_dec`, F = `FunctionalExtensionality.functional_extensionality_dep`, C = `Classical_Prop.classic` (all of the standard library); - = closed under the global context.

| property | axioms | theorems |
|---|---|---|
| C01 | - | C01_decode_ascii_safe, C01_decode_exact, C01_decode_safe_refuted, C01_encode_length, C01_encode_shape, C01_round_trip, C01_round_trip_unpadded, C01_round_trip_whitespace, C01_trailing_text_ignored |
| C02 | - | C02_all_blocks_partial, C02_all_blocks_refuted, C02_empty, C02_header, C02_header_sizes, C02_multiple_of_block_loses_last_block |
| C03 | - | C03_accumulation, C03_scalar_laws_int |
| C03 | CDFN | C03_scalar_laws_double |
| C04 | - | C04_same_symbolic, C04_well_formed |
| C05 | - | C05_multiply, C05_multiply_int, C05_transpose_refuted |
| C05 | CDFN | C05_mul_comm_double |
| C06 | - | C06_safe_partial, C06_safe_refuted, C06_safe_without_clear |
| C07 | - | C07_chunks_partition, C07_terminates, C07_thread_count_partial, C07_thread_count_refuted, C07_threaded_evaluation |
| C08 | CDFN | C08_bdf1_exact, C08_bdf1_order, C08_bdf2_exact, C08_bdf2_order, C08_tr_exact, C08_tr_order |
| C08 | DF | C08_bdf2_default_gamma_refuted |
| C09 | - | C09_failed_or_dc, C09_history, C09_no_history_throws |
| C10 | - | C10_converged_partial, C10_nan_converges_refuted |
| C10 | CDFN | C10_charge_error, C10_converged_exact, C10_num_laws_double |
| C11 | - | C11_backup_kind_refuted, C11_exception_not_restored_refuted, C11_failed_solve_restores, C11_failures, C11_frame, C11_name_clash_refuted |
| C12 | - | C12_bounded, C12_device_order_refuted, C12_divergence_count, C12_stops_when_done |
| C13 | - | C13_bijection |
| C14 | - | C14_equation_table, C14_indexes_bijective |
| C15 | - | C15_old_variable_refuted, C15_take_over_refuted, C15_variables_partial |
| C16 | CDFN | C16_edge_flux_double, C16_opposite_double |
| C16 | DF | C16_edge_flux, C16_no_source, C16_total |
| C17 | CDF | C17_jacobian_partial |
| C17 | DF | C17_changed_variable_refuted |
| C18 | DF | C18_load, C18_newton_matrix, C18_redirection_conserves, C18_removed_row |
| C19 | DF | C19_charge, C19_current, C19_kirchhoff, C19_sum_zero |
| C20 | - | C20_exclusive, C20_first, C20_one_partial, C20_order_dependent, C20_uncovered_refuted |
| C21 | CDFN | C21_circuit_default_log, C21_circuit_positive, C21_circuit_positive_hang_refuted, C21_default, C21_errors, C21_log_damp, C21_log_damp_monotone_refuted, C21_positive, C21_positive_double, C21_relative_error_node_refuted |
| C22 | - | C22_alter, C22_alter_named, C22_element, C22_opposite |
| C22 | CDFN | C22_opposite_double |
| C22 | DF | C22_clash_refuted, C22_ground, C22_jacobian, C22_kirchhoff, C22_phasor |
| C23 | - | C23_ground, C23_numbering |
| C24 | - | C24_alias, C24_element_on_alias_refuted, C24_not_hidden_partial |
| C25 | - | C25_circuit_alias_refuted, C25_cycle, C25_fresh_partial, C25_product_refuted, C25_recreate_refuted, C25_redefine_data_refuted, C25_redefine_refuted, C25_restore_refuted, C25_reverse_refuted, C25_setexpr_refuted, C25_string_refuted, C25_substitute_refuted, C25_terminates |
| C26 | - | C26_deleted, C26_list, C26_lookup, C26_override |
| C27 | - | C27_complete, C27_once, C27_signalled |
| C28 | - | C28_extended_refuted, C28_holder_const, C28_holder_double, C28_holder_partial |
| C28 | CDFN | C28_double_infinity_refuted, C28_double_step, C28_double_sum_refuted |
| C28 | DF | C28_representation, C28_values, C28_vec_sum |
| C29 | CDFN | C29_declared_before_refuted, C29_declared_only_refuted, C29_derivative_partial, C29_one_factor_refuted, C29_repeated_partial |
| C29 | DF | C29_models_names_refuted, C29_models_partial |
| C30 | CDFN | C30_constants, C30_log_refuted, C30_repeated_partial, C30_root_refuted, C30_twice_refuted, C30_value_partial, C30_zero_refuted |
| C31 | CDFN | C31_close, C31_exact_partial, C31_kinds, C31_merged_refuted, C31_refuted, C31_small, C31_written |
| C32 | CDFN | C32_nan_refuted, C32_terminates_refuted |
| C32 | DF | C32_duplicates, C32_lines_partial, C32_points_partial, C32_terminates_partial |
| C33 | CDFN | C33_kept_refuted, C33_retry_refuted, C33_same_name_refuted |
| C33 | DF | C33_valid_partial |
| C34 | - | C34_disjoint_partial, C34_irreflexive_refuted, C34_order_partial, C34_overlap_refuted |
| C35 | DF | C35_accepted_partial, C35_grid, C35_mesh_partial, C35_terminates_partial |
| C36 | - | C36_last |
| C36 | DF | C36_contacts_partial, C36_interfaces_partial, C36_outer_contact, C36_region_partial, C36_second_box_refuted |
| C37 | DF | C37_sum |
| C37 | DFN | C37_device_partial, C37_length_partial |
| C38 | DFN | C38_tetrahedron, C38_tetrahedron_complete, C38_tiny_refuted, C38_triangle_partial |
| C39 | DFN | C39_area_2d_partial, C39_corner_refuted, C39_length_1d, C39_node_2d_partial, C39_node_3d_partial, C39_obtuse_refuted, C39_volume_3d_partial |
| C40 | CDFN | C40_decreasing, C40_derivative, C40_derivative_bound, C40_derivative_large, C40_derivative_refuted, C40_large, C40_positive, C40_small, C40_symmetry, C40_symmetry_large, C40_symmetry_refuted, C40_value |
| C41 | - | C41_arguments, C41_arguments_accepted, C41_decompose, C41_devsim_finalize, C41_devsim_partial, C41_devsim_refuted, C41_devsim_undefined_refuted, C41_import, C41_number_refuted, C41_truncated_refuted |
| C42 | - | C42_accepts, C42_accepts_partial, C42_call, C42_values |
| C42 | CDFN | C42_exception_refuted, C42_integer_refuted, C42_positive_refuted, C42_unknown_refuted |
| C43 | - | C41_devsim_device, C43_computed_pairs, C43_explicit_pairs, C43_import, C43_off_region_refuted, C43_order_refuted, C43_unmatched_refuted |
| C44 | - | C44_failed_element_refuted, C44_locked, C44_node_list_refuted, C44_variable_update_refuted |
| C45 | - | C45_positions |
| C45 | D | C45_one_volume_model_refuted |
| C45 | DF | C45_edge_volume_refuted, C45_residual_partial, C45_time_residual |
| C46 | - | C46_replaces |
| C46 | CDF | C46_jacobian_partial |
| C46 | D | C46_missing_derivative_refuted |
| C46 | DF | C46_circuit_entry_refuted, C46_circuit_row, C46_rows |
| C47 | - | C47_active, C47_contacts_first, C47_exclusive, C47_shared_refuted |
| C47 | CDF | C47_jacobian |
| C47 | DF | C47_balance, C47_conservation, C47_rows |
| C48 | - | C48_contact_refuted, C48_exception_refuted, C48_history_partial, C48_if_if_refuted, C48_if_test_refuted, C48_if_truth_refuted, C48_no_value, C48_order_partial, C48_tetrahedron_refuted, C48_unknown_times_zero_refuted |
| C48 | DF | C48_real_partial |
| C49 | - | C49_create_device_partial, C49_create_device_refuted, C49_create_mesh_refuted |
| C50 | - | C50_connections, C50_degenerate_refuted, C50_missing_edge_refuted, C50_missing_edge_tet_refuted |
| C51 | - | C51_rejected |
| C51 | CDFN | C51_geometric_overflow_refuted, C51_geometric_underflow_refuted |
| C51 | DFN | C51_average, C51_derivative_partial, C51_failed_command_refuted, C51_from_node, C51_negative_geometric_refuted |
| C52 | D | C52_node_2d, C52_node_3d |
| C52 | DFN | C52_constant_2d, C52_constant_3d, C52_derivative_2d, C52_derivative_3d, C52_field_2d, C52_field_3d |
| C53 | DF | C53_2d, C53_2d_linear, C53_3d_always_zero_refuted, C53_3d_refuted |
| C53 | DFN | C53_1d_branch_refuted, C53_1d_partial |
| C54 | DF | C54_area_1d, C54_at_contact, C54_other_region_refuted |
| C54 | DFN | C54_contact_2d, C54_contact_3d, C54_corner_refuted, C54_cylindrical, C54_interface_2d, C54_interface_3d |
| C55 | DFN | C55_distance_refuted, C55_interface_normal |
| C56 | - | C56_parameters |
| C56 | DFN | C56_body_partial, C56_couple, C56_edge_volume_refuted, C56_node_volume_partial, C56_square_refuted |
| C57 | - | C57_characters, C57_infinity_refuted, C57_quote_refuted, C57_restart_partial |
| C57 | CDFN | C57_largest_refuted, C57_number_close, C57_number_exact, C57_number_refuted, C57_restart_text_partial |
| C58 | - | C58_loader_refuted, C58_name_refuted, C58_next_file_partial, C58_stuck_refuted, C58_truncated_refuted, C58_unfinished_refuted |
| C59 | - | C59_earlier_command_refuted, C59_last_command_partial, C59_values_refuted |
| C60 | - | C60_again_partial, C60_contact_refuted, C60_pairs_refuted, C60_point_refuted, C60_search_partial |
| C61 | DF | C61_operating_point_refuted, C61_shared_variable_refuted |
| C61 | DFN | C61_ac |
| C62 | D | C62_refused |
| C62 | DFN | C62_copy_refuted, C62_noise_partial |
| C63 | DFN | C63_gmres, C63_reported_refuted |
| C64 | DF | C64_block_matrix, C64_circuit_refuted, C64_singular_refuted |
| C65 | - | C65_register |
| C65 | D | C65_range_refuted, C65_refused |
| C65 | DF | C65_loaded, C65_row_refuted |
| C66 | - | C66_export_refuted, C66_format |
| C66 | DF | C66_export_partial, C66_jacobian, C66_same_as_solve |
| C67 | - | C67_choice, C67_files, C67_unwritable_refuted |
| C67 | CDFN | C67_array, C67_array_refuted, C67_include_refuted, C67_reference_refuted, C67_region_partial, C67_region_refuted |
| C68 | - | C68_digits_refuted, C68_file_partial, C68_kinds_refuted, C68_lines, C68_lines_refuted, C68_names_refuted, C68_numbers, C68_word_refuted |
| C69 | - | C69_accepted, C69_all, C69_both_refuted, C69_contact_refuted, C69_error, C69_init_from, C69_init_from_refuted, C69_kept, C69_kept_all, C69_kept_refuted, C69_last, C69_list, C69_no_such_node, C69_not_numbers_refuted, C69_one |
| C70 | - | C70_circular_refuted, C70_differ, C70_exception_refuted, C70_history_partial, C70_if_if_refuted, C70_missing, C70_missing_refuted, C70_parameter_refuted, C70_silent_partial, C70_unknown, C70_value_partial |
| C71 | - | C71_again, C71_checked, C71_element_model_refuted, C71_failed_nothing, C71_interface_checked, C71_interface_model_refuted, C71_listed, C71_model_refuted, C71_reported, C71_saved |
| C72 | - | C72_distinct, C72_expression_made, C72_expression_saved_partial, C72_expression_saved_refuted, C72_names, C72_saved_derivative_refuted, C72_saved_partial, C72_saved_refuted |
