{
 "claims": [
  {
   "property": "C01",
   "status": "proved",
   "theorems": [
    "C01_round_trip",
    "C01_round_trip_whitespace",
    "C01_round_trip_unpadded",
    "C01_encode_length",
    "C01_encode_shape",
    "C01_decode_ascii_safe",
    "C01_decode_safe_refuted",
    "C01_trailing_text_ignored",
    "C01_decode_exact"
   ],
   "note": "Round trip and shape proved for all byte strings; the decoder is refuted to be safe on non-ASCII text (signed char table index)."
  },
  {
   "property": "C02",
   "status": "partial",
   "theorems": [
    "C02_all_blocks_partial",
    "C02_empty",
    "C02_header",
    "C02_header_sizes",
    "C02_multiple_of_block_loses_last_block",
    "C02_all_blocks_refuted"
   ],
   "note": "False of the code: last block lost when the length is a positive multiple of 4096; proved for all other lengths."
  },
  {
   "property": "C03",
   "status": "proved",
   "theorems": [
    "C03_accumulation",
    "C03_scalar_laws_double",
    "C03_scalar_laws_int"
   ],
   "note": "For every history of API calls; scalar laws shown for IEEE double (Flocq)."
  },
  {
   "property": "C04",
   "status": "proved",
   "theorems": [
    "C04_well_formed",
    "C04_same_symbolic"
   ],
   "note": "Structure invariants for every history; symbolic reuse is sound."
  },
  {
   "property": "C05",
   "status": "partial",
   "theorems": [
    "C05_multiply",
    "C05_mul_comm_double",
    "C05_multiply_int",
    "C05_transpose_refuted"
   ],
   "note": "Multiply proved for all histories and vectors; TransposeMultiply is false of the code (row/column arrays swapped), refuted."
  },
  {
   "property": "C06",
   "status": "partial",
   "theorems": [
    "C06_safe_partial",
    "C06_safe_without_clear",
    "C06_safe_refuted"
   ],
   "note": "False of the code in general (ClearMatrix resizes by nnz); proved when each Clear follows a Finalize with full diagonal."
  },
  {
   "property": "C07",
   "status": "partial",
   "theorems": [
    "C07_threaded_evaluation",
    "C07_terminates",
    "C07_chunks_partition",
    "C07_thread_count_partial",
    "C07_thread_count_refuted"
   ],
   "note": "Result, safety and FPE reporting proved for every interleaving (fpe_raised_ accesses atomic in the model); that threads_available bounds the number of worker threads is false (refuted, < 2x proved)."
  },
  {
   "property": "C08",
   "status": "proved",
   "theorems": [
    "C08_bdf1_exact",
    "C08_tr_exact",
    "C08_bdf2_exact",
    "C08_bdf1_order",
    "C08_tr_order",
    "C08_bdf2_order",
    "C08_bdf2_default_gamma_refuted"
   ],
   "note": "Exactness on polynomials and error bounds for smooth charges, for all steps and all 0<gamma<1 (BDF2). The command accepts gamma=1 for BDF2, which divides by zero (refuted)."
  },
  {
   "property": "C09",
   "status": "proved",
   "theorems": [
    "C09_history",
    "C09_failed_or_dc",
    "C09_no_history_throws"
   ],
   "note": "For every sequence of solve / set_initial_condition / edits."
  },
  {
   "property": "C10",
   "status": "partial",
   "theorems": [
    "C10_converged_partial",
    "C10_num_laws_double",
    "C10_converged_exact",
    "C10_charge_error",
    "C10_nan_converges_refuted"
   ],
   "note": "Proved for every linear solver in exact arithmetic and, up to NaN, in IEEE double; false for NaN updates (refuted): a NaN step counts as converged."
  },
  {
   "property": "C11",
   "status": "partial",
   "theorems": [
    "C11_failed_solve_restores",
    "C11_failures",
    "C11_frame",
    "C11_exception_not_restored_refuted",
    "C11_name_clash_refuted",
    "C11_backup_kind_refuted"
   ],
   "note": "Proved for well named variables when the solve ends without exception; false when an update throws, and for clashing _prev names (refuted)."
  },
  {
   "property": "C12",
   "status": "proved",
   "theorems": [
    "C12_bounded",
    "C12_stops_when_done",
    "C12_divergence_count",
    "C12_device_order_refuted"
   ],
   "note": "The divergence count compares with the previous device in the list, not the previous iteration of the same device (refuted reading)."
  },
  {
   "property": "C21",
   "status": "partial",
   "theorems": [
    "C21_default",
    "C21_positive",
    "C21_positive_double",
    "C21_log_damp",
    "C21_log_damp_monotone_refuted",
    "C21_errors",
    "C21_relative_error_node_refuted",
    "C21_circuit_default_log",
    "C21_circuit_positive",
    "C21_circuit_positive_hang_refuted"
   ],
   "note": "All rules proved; false: the reported relative error node, and the circuit positive rule does not terminate from non positive values (refuted; not reachable through the Python API, because add_circuit_node ignores its variable_update option)."
  },
  {
   "property": "C14",
   "status": "proved",
   "theorems": [
    "C14_equation_table",
    "C14_indexes_bijective"
   ],
   "note": "For every sequence of equation and delete_equation commands on a region."
  },
  {
   "property": "C15",
   "status": "partial",
   "theorems": [
    "C15_variables_partial",
    "C15_old_variable_refuted",
    "C15_take_over_refuted"
   ],
   "note": "False of the code when an existing equation is given another variable (two witnesses); proved for every history without such a change."
  },
  {
   "property": "C23",
   "status": "proved",
   "theorems": [
    "C23_numbering",
    "C23_ground"
   ],
   "note": "For every history of circuit commands."
  },
  {
   "property": "C24",
   "status": "partial",
   "theorems": [
    "C24_alias",
    "C24_not_hidden_partial",
    "C24_element_on_alias_refuted"
   ],
   "note": "Alias lookup proved for all histories; hiding happens when an element is connected to an alias (refuted), proved otherwise."
  },
  {
   "property": "C44",
   "status": "partial",
   "theorems": [
    "C44_locked",
    "C44_node_list_refuted",
    "C44_failed_element_refuted",
    "C44_variable_update_refuted"
   ],
   "note": "False of the code: three witnesses; proved: after a solve every circuit_element command fails."
  },
  {
   "property": "C13",
   "status": "proved",
   "theorems": [
    "C13_bijection"
   ],
   "note": "For all systems whose equation tables and circuit are the result of any command histories; number of unknowns below 2^64."
  },
  {
   "property": "C16",
   "status": "proved",
   "theorems": [
    "C16_edge_flux",
    "C16_edge_flux_double",
    "C16_opposite_double",
    "C16_total",
    "C16_no_source"
   ],
   "note": "exact arithmetic for totals; per edge pairs also for IEEE doubles"
  },
  {
   "property": "C17",
   "status": "partial",
   "theorems": [
    "C17_jacobian_partial",
    "C17_changed_variable_refuted"
   ],
   "note": "proved (all kinds of models, all dimensions) after histories in which no equation was given another variable; refuted otherwise (stale variable)"
  },
  {
   "property": "C45",
   "status": "partial",
   "theorems": [
    "C45_residual_partial",
    "C45_time_residual",
    "C45_edge_volume_refuted",
    "C45_one_volume_model_refuted",
    "C45_positions"
   ],
   "note": "edge_volume_model without edge_model is silently ignored; one of volume_node0/1_model alone makes every solve fail"
  },
  {
   "property": "C18",
   "status": "proved",
   "theorems": [
    "C18_load",
    "C18_removed_row",
    "C18_redirection_conserves",
    "C18_newton_matrix"
   ],
   "note": "For every list of devices and every set of row permutations, in every load mode."
  },
  {
   "property": "C19",
   "status": "proved",
   "theorems": [
    "C19_current",
    "C19_charge",
    "C19_kirchhoff",
    "C19_sum_zero"
   ],
   "note": "Exact arithmetic; the active nodes are those selected by the code (C20), currents integrated from the flux models of the bulk equation; with sources the sum of the currents is the sum of the interior sources."
  },
  {
   "property": "C20",
   "status": "partial",
   "theorems": [
    "C20_first",
    "C20_exclusive",
    "C20_one_partial",
    "C20_uncovered_refuted",
    "C20_order_dependent"
   ],
   "note": "At most one contact treats a node, exactly one if every contact of the region at the node has the equation; refuted otherwise: a contact without the equation that precedes in address order takes the node away from the contact that has it (the code searches its own equation list)."
  },
  {
   "property": "C46",
   "status": "partial",
   "theorems": [
    "C46_replaces",
    "C46_rows",
    "C46_circuit_row",
    "C46_jacobian_partial",
    "C46_circuit_entry_refuted",
    "C46_missing_derivative_refuted"
   ],
   "note": "Exact arithmetic. Refuted: with several variables in the region and a current (or charge) edge or triangle model depending on the circuit node, its diagonal entry is loaded once per variable; a contact edge model with derivative @n0 but not @n1 dereferences a null pointer, with @n1 but not @n0 the derivative is dropped."
  },
  {
   "property": "C47",
   "status": "proved",
   "theorems": [
    "C47_active",
    "C47_exclusive",
    "C47_contacts_first",
    "C47_shared_refuted",
    "C47_rows",
    "C47_balance",
    "C47_conservation",
    "C47_jacobian"
   ],
   "note": "Exact arithmetic. A coordinate shared by two interfaces with the equation in the same region is coupled by neither of them (C47_shared_refuted refutes the stronger reading that every interface node without a contact is coupled)."
  },
  {
   "property": "C22",
   "status": "partial",
   "theorems": [
    "C22_ground",
    "C22_kirchhoff",
    "C22_phasor",
    "C22_jacobian",
    "C22_opposite",
    "C22_opposite_double",
    "C22_clash_refuted",
    "C22_element",
    "C22_alter",
    "C22_alter_named"
   ],
   "note": "Exact arithmetic except C22_opposite (any scalar, doubles). Kirchhoff equivalences need resistances other than zero and that no element is connected to a node that has the name of an internal unknown (<element>.I); without the latter the property is refuted (C22_clash_refuted): the code merges both equations into one row."
  },
  {
   "property": "C26",
   "status": "proved",
   "theorems": [
    "C26_lookup",
    "C26_override",
    "C26_deleted",
    "C26_list"
   ],
   "note": "For every history of set_parameter, delete_device and device creations; the value looked up is compared with a specification over the history (last assignment per scope since the last deletion of the device)."
  },
  {
   "property": "C27",
   "status": "proved",
   "theorems": [
    "C27_signalled",
    "C27_once",
    "C27_complete"
   ],
   "note": "Exactly the regions in which the assigned scope decides the value are signalled, each once, and no other parameter of any region changes."
  },
  {
   "property": "C25",
   "status": "partial",
   "theorems": [
    "C25_fresh_partial",
    "C25_terminates",
    "C25_cycle",
    "C25_redefine_refuted",
    "C25_redefine_data_refuted",
    "C25_recreate_refuted",
    "C25_reverse_refuted",
    "C25_product_refuted",
    "C25_setexpr_refuted",
    "C25_restore_refuted",
    "C25_circuit_alias_refuted",
    "C25_string_refuted",
    "C25_substitute_refuted"
   ],
   "note": "Refuted in general, with a concrete history for each cause: replacing or re-creating a model does not notify its users; references of replaced definitions stay registered; the short circuit of products; set_node_values on an expression; circuit values restored after a failed solve, circuit node aliases and string parameters; substituted element edge models. Proved for every history that avoids these (orderly definitions, replacement followed by evaluation), with any graph of models, devices, regions, parameters and circuit updates. Contact and interface models, models with siblings (edge_from_node_model) and the sub-expression cache are not modelled."
  },
  {
   "property": "C28",
   "status": "partial",
   "theorems": [
    "C28_values",
    "C28_representation",
    "C28_vec_sum",
    "C28_holder_double",
    "C28_holder_const",
    "C28_holder_partial",
    "C28_double_step",
    "C28_extended_refuted",
    "C28_double_infinity_refuted",
    "C28_double_sum_refuted"
   ],
   "note": "Proved: for exact arithmetic every history of products, sums and assignments acts element by element whatever the storage (C28_values, C28_representation, C28_vec_sum); the double-precision store returns the elements last written after every history (C28_holder_double); with extended precision when no single element is written after a read in the other precision (C28_holder_partial); in double precision each operation on finite values agrees with the elements up to the sign of zero (C28_double_step). Refuted: extended precision returns stale values after set_node_value (C28_extended_refuted); uniform 0 times infinity (C28_double_infinity_refuted); rounding of vec_sum depends on the storage (C28_double_sum_refuted)."
  },
  {
   "property": "C48",
   "status": "partial",
   "theorems": [
    "C48_history_partial",
    "C48_order_partial",
    "C48_no_value",
    "C48_real_partial",
    "C48_if_if_refuted",
    "C48_if_test_refuted",
    "C48_if_truth_refuted",
    "C48_contact_refuted",
    "C48_exception_refuted",
    "C48_unknown_times_zero_refuted",
    "C48_tetrahedron_refuted"
   ],
   "note": "Any expression tree, any acyclic definitions, any sequence of evaluations with a shared cache: the result is the cache-free, element-by-element value, when that value is defined (no floating point exception, no error), the test of \"if\" is a number (ifelse is unrestricted), no contact model is pending, and edge values are mixed with tetrahedron values only if 6*triangles = 6*tetrahedra; the excluded cases are false of the code: if(t,a)+if(t,b) overwrites the cached t, contact models leave partial values in the cache used by ordinary models, exceptions of early factors are forgotten, uniform edge values on tetrahedra have the length of the triangle list (read outside the vector). The text of an expression (cache key, external library) is assumed injective."
  },
  {
   "property": "C29",
   "status": "partial",
   "theorems": [
    "C29_derivative_partial",
    "C29_repeated_partial",
    "C29_one_factor_refuted",
    "C29_declared_before_refuted",
    "C29_declared_only_refuted",
    "C29_models_partial",
    "C29_models_names_refuted"
   ],
   "note": "Proved over the reals for every expression of constants, variables, sums, products, exp, pow, log and user functions, every order of the sorted operands and every regular point, to any order of differentiation; for models over every history of derivatives without clashing names. Refuted: functions declared before they are defined (arguments captured), functions only declared (derivative 0), derivative names of models can clash. Missing: logical functions, models inside models, rounding of the constants."
  },
  {
   "property": "C32",
   "status": "partial",
   "theorems": [
    "C32_points_partial",
    "C32_lines_partial",
    "C32_duplicates",
    "C32_terminates_partial",
    "C32_terminates_refuted",
    "C32_nan_refuted"
   ],
   "note": "Proved over the reals: distribution ends, points increase from line to line, gaps bounded by the spacings (up to the 1e-10 tolerance of the code), tags at their lines, after every sequence of mesh commands; duplicates rejected. Refuted in double precision: spacing 1 at 2^54 never ends; a NaN spacing is accepted and the last point is NaN. Missing: rounding in general."
  },
  {
   "property": "C33",
   "status": "partial",
   "theorems": [
    "C33_valid_partial",
    "C33_same_name_refuted",
    "C33_retry_refuted",
    "C33_kept_refuted"
   ],
   "note": "Proved over the reals for every sequence of mesh commands and one finalize_mesh: the device is a chain of intervals with one edge per cell, declared contacts at the ends, a declared interface at each junction, for any order given by std::sort. Refuted: two regions of the same name pass validation and create_device aborts; after a failed finalize_mesh the next one aborts, or succeeds with the points of both attempts."
  },
  {
   "property": "C34",
   "status": "partial",
   "theorems": [
    "C34_irreflexive_refuted",
    "C34_overlap_refuted",
    "C34_disjoint_partial",
    "C34_order_partial"
   ],
   "note": "The comparison holds of a region with itself (undefined behaviour of std::sort) and both ways for overlapping regions; for distinct regions that do not overlap it is the order of their positions."
  },
  {
   "property": "C37",
   "status": "partial",
   "theorems": [
    "C37_sum",
    "C37_length_partial",
    "C37_device_partial"
   ],
   "note": "Proved over the reals for every device of C33 (node volumes add up to the length of region and device; each is half the distance between neighbours), and for any region that node volumes add up to twice the edge node volumes. Missing: rounding."
  },
  {
   "property": "C35",
   "status": "partial",
   "theorems": [
    "C35_grid",
    "C35_mesh_partial",
    "C35_terminates_partial",
    "C35_accepted_partial"
   ],
   "note": "Proved over the reals for every sequence of 2D mesh commands: finalize_mesh ends (accepted, or refused without two lines in each direction or without a triangle in a region); the grid is a conforming triangulation (coverage, barycentric coordinates agree on common points, areas); region meshes consist of their triangles, vertices and edges. Missing: rounding; materials."
  },
  {
   "property": "C36",
   "status": "partial",
   "theorems": [
    "C36_last",
    "C36_region_partial",
    "C36_contacts_partial",
    "C36_interfaces_partial",
    "C36_outer_contact",
    "C36_second_box_refuted"
   ],
   "note": "Last declared region wins, for any arithmetic; contacts and interfaces have exactly the nodes at shared coordinates in their boxes (first declared takes the coordinate), over the reals for every sequence of commands; a contact on the outer boundary gets no node. Refuted: the second box of a name is silently lost."
  },
  {
   "property": "C41",
   "status": "partial",
   "theorems": [
    "C41_devsim_finalize",
    "C41_devsim_device",
    "C41_decompose",
    "C41_arguments",
    "C41_arguments_accepted",
    "C41_import",
    "C41_truncated_refuted",
    "C41_number_refuted",
    "C41_devsim_partial",
    "C41_devsim_refuted",
    "C41_devsim_undefined_refuted"
   ],
   "note": "Proved for every gmsh mesh given by lists, every sequence of add_gmsh_* commands and every outcome of finalize_mesh and create_device. Refuted: a list without its last node is read past its end; a physical number equal to the number of names is accepted; in the devsim format given edges are not completed (null connections, undefined behaviour). Missing: the scanners of files, coordinate values."
  },
  {
   "property": "C43",
   "status": "partial",
   "theorems": [
    "C41_devsim_device",
    "C43_import",
    "C43_computed_pairs",
    "C43_explicit_pairs",
    "C43_off_region_refuted",
    "C43_unmatched_refuted",
    "C43_order_refuted"
   ],
   "note": "Proved for every imported gmsh mesh; for the devsim format the computed pairs match coordinates and explicit pairs are used. Refuted: a contact line off its region dereferences null; an unmatched coordinate erases end(); the computed pairs are not used for the first device. Missing: edges and triangles of interfaces in the devsim format."
  },
  {
   "property": "C49",
   "status": "partial",
   "theorems": [
    "C49_create_device_partial",
    "C49_create_device_refuted",
    "C49_create_mesh_refuted"
   ],
   "note": "Other devices are never changed by create_device, for every mesh and outcome; an existing name or unfinalized mesh changes nothing. Refuted: a device or mesh whose creation fails remains and blocks its name. Missing: other meshing commands."
  },
  {
   "property": "C50",
   "status": "partial",
   "theorems": [
    "C50_connections",
    "C50_missing_edge_refuted",
    "C50_missing_edge_tet_refuted",
    "C50_degenerate_refuted"
   ],
   "note": "For every complete region of elements with distinct nodes: exact condition of acceptance, no undefined behaviour and correct lists; C41_import (region_made) shows that imported gmsh regions are complete. Refuted for incomplete regions (reachable in the devsim format) and for elements that name a node twice."
  },
  {
   "property": "C42",
   "status": "partial",
   "theorems": [
    "C42_accepts",
    "C42_accepts_partial",
    "C42_values",
    "C42_call",
    "C42_integer_refuted",
    "C42_positive_refuted",
    "C42_unknown_refuted",
    "C42_exception_refuted"
   ],
   "note": "The exact condition under which a command accepts its options, the values it then sees and the effect-free rejection are proved for every option table and argument dictionary. Refuted: INTEGER options accept any object (float, True, text and lists read as 0; integers beyond 64 bits as -1); a positive option accepts NaN; the keyword \"\" is ignored; a command that raises because of a floating point exception has done its work."
  },
  {
   "property": "C40",
   "status": "partial",
   "theorems": [
    "C40_value",
    "C40_large",
    "C40_positive",
    "C40_symmetry",
    "C40_symmetry_large",
    "C40_symmetry_refuted",
    "C40_derivative",
    "C40_derivative_large",
    "C40_derivative_refuted",
    "C40_derivative_bound",
    "C40_decreasing",
    "C40_small"
   ],
   "note": "Proved over the reals for every argument: value and derivative below the threshold, relative deviation beyond it (eps for B, 8 eps for dBdx), positivity, monotonicity, small-argument branch for any rounded expm1. Refuted beyond the threshold: B(-x) = B(x) + x exactly, and dBdx is not the derivative of B for x < -threshold. Missing: rounding of exp and the quotients."
  },
  {
   "property": "C38",
   "status": "partial",
   "theorems": [
    "C38_triangle_partial",
    "C38_tetrahedron",
    "C38_tetrahedron_complete",
    "C38_tiny_refuted"
   ],
   "note": "Over the real numbers. Triangles: for coordinates that are equal or differ by at least the tolerance 1e-20 that the code uses; a triangle smaller than the tolerance gets one of its corners as centre (refuted). Tetrahedra: for any linear solver that returns solutions, and existence with Cramer's rule; LAPACK itself and rounding are not modelled."
  },
  {
   "property": "C39",
   "status": "partial",
   "theorems": [
    "C39_length_1d",
    "C39_node_2d_partial",
    "C39_area_2d_partial",
    "C39_node_3d_partial",
    "C39_volume_3d_partial",
    "C39_obtuse_refuted",
    "C39_corner_refuted"
   ],
   "note": "Over the real numbers. The node volumes add up to at least the length/area/volume of the region; equality holds in 1D always, in 2D exactly if no triangle is obtuse, in 3D if every tetrahedron is well centred. The two refuted theorems show an obtuse triangle and a corner tetrahedron for which the total is strictly larger. Partial because triangles must have coordinates that are equal or at least the tolerance apart (C38_tiny_refuted shows why), and because in 3D the linear solver is any function that returns solutions."
  },
  {
   "property": "C30",
   "status": "partial",
   "theorems": [
    "C30_value_partial",
    "C30_repeated_partial",
    "C30_constants",
    "C30_root_refuted",
    "C30_log_refuted",
    "C30_zero_refuted",
    "C30_twice_refuted"
   ],
   "note": "Over the real numbers, for every order of the terms and every comparison of text lengths. The claim as stated is refuted: pow(pow(x,2),1/2), log(pow(x,2)) and pow(0,y) change their values at points at which they are defined. Proved: the value is kept, for any number of simplifications, at every point of the domain described by SimplifySpec.tame (arguments of logs and bases of powers positive, or integer exponents). Partial: that simplify returns is proved for constants only; equal texts are assumed to belong to equal expressions (C31 shows when this fails); logical functions and references to models are not modelled."
  },
  {
   "property": "C31",
   "status": "partial",
   "theorems": [
    "C31_kinds",
    "C31_exact_partial",
    "C31_small",
    "C31_close",
    "C31_written",
    "C31_refuted",
    "C31_merged_refuted"
   ],
   "note": "The claim as stated is refuted: constants are compared by their texts, 1234567 and 1234568 have the same one, and simplification turns pow(1234567,x)*pow(1234568,y) into a power of 1234568 (for every order of the terms). Proved: texts of integers and of other numbers are never the same; integers of at most 6 and others of at most 16 significant digits are only merged if equal; merged constants differ by at most 5e-6 (integers) or 5e-16 of their sum; constants written with at most 14 digits are never merged unless both are integers. The formatting of the C++ library is modelled as correct rounding; no -0, infinity, NaN."
  },
  {
   "property": "C51",
   "status": "partial",
   "theorems": [
    "C51_from_node",
    "C51_average",
    "C51_derivative_partial",
    "C51_rejected",
    "C51_negative_geometric_refuted",
    "C51_failed_command_refuted",
    "C51_geometric_overflow_refuted",
    "C51_geometric_underflow_refuted"
   ],
   "note": "Over the real numbers, for every mesh and every node model that is a differentiable function of the variable. Derivatives: the geometric mean for positive values only; for negative values the derivative model has the wrong sign (refuted). A command that fails for want of the derivative model has replaced the models of the same names (refuted); other failures change nothing. In double precision the geometric mean of 2^600 and 2^600 is infinite, of 2^-600 and 2^-600 zero (refuted)."
  },
  {
   "property": "C52",
   "status": "proved",
   "theorems": [
    "C52_field_2d",
    "C52_constant_2d",
    "C52_derivative_2d",
    "C52_node_2d",
    "C52_field_3d",
    "C52_constant_3d",
    "C52_derivative_3d",
    "C52_node_3d"
   ],
   "note": "Over the real numbers, for every dense solver that returns solutions and fails only for singular matrices, and nondegenerate elements (flat_triangle, good3). In two dimensions the ends are weighted by the distance from the centre of the triangle to the other edge at that end; the sum of the weights is never zero."
  },
  {
   "property": "C53",
   "status": "partial",
   "theorems": [
    "C53_2d",
    "C53_2d_linear",
    "C53_1d_partial",
    "C53_1d_branch_refuted",
    "C53_3d_refuted",
    "C53_3d_always_zero_refuted"
   ],
   "note": "Over the real numbers, for every dense solver that returns solutions and fails only for singular matrices. Two dimensions: proved. One dimension: proved for nodes with at most two edges; with three edges the gradient of x is 2/3 (refuted: the division by the number of edges is inside the loop). Three dimensions: refuted: the z coordinates are read from the model y, the matrix is singular and the gradient of every node model is zero."
  },
  {
   "property": "C54",
   "status": "partial",
   "theorems": [
    "C54_contact_2d",
    "C54_interface_2d",
    "C54_contact_3d",
    "C54_interface_3d",
    "C54_at_contact",
    "C54_area_1d",
    "C54_other_region_refuted",
    "C54_corner_refuted",
    "C54_cylindrical"
   ],
   "note": "Proved over the reals for all meshes with non-degenerate boundary elements (2D edges, 3D triangles), regardless of sharing and order. Refuted: in 1D a contact of another region at the same coordinate counts; at a corner the nodal normal can be tangential (the signs of the edge normals depend on node order only). Missing: floating-point rounding; that coordinates are indexed as in the mesh reader."
  },
  {
   "property": "C55",
   "status": "partial",
   "theorems": [
    "C55_interface_normal",
    "C55_distance_refuted"
   ],
   "note": "Proved: nearest node, distance, sign and length of the normal, over the reals. Refuted: the distance is from the nearest node, not from the interface. Missing: rounding, the 1D case (which fails an assertion)."
  },
  {
   "property": "C56",
   "status": "partial",
   "theorems": [
    "C56_parameters",
    "C56_node_volume_partial",
    "C56_body_partial",
    "C56_couple",
    "C56_square_refuted",
    "C56_edge_volume_refuted"
   ],
   "note": "Over the reals. The claim on volumes is refuted: a piece whose vertex opposite to the side of constant height is farther from the axis than the centre of that side is counted too large (absolute value of a difference of squares): for the unit square turned about the y axis the volume of node 0 is 5 PI/24 instead of PI/8 and the total exceeds PI. Proved: node volumes are never too small, and exact if no part of a triangle is of this kind (example: a double cone). CylindricalEdgeNodeVolume@n0 is refuted: it is overwritten by zeros, as many as nodes. Couples: proved for edges and centres on one side of the axis. Missing: rounding."
  },
  {
   "property": "C57",
   "status": "partial",
   "theorems": [
    "C57_restart_partial",
    "C57_restart_text_partial",
    "C57_characters",
    "C57_number_exact",
    "C57_number_close",
    "C57_number_refuted",
    "C57_largest_refuted",
    "C57_quote_refuted",
    "C57_infinity_refuted"
   ],
   "note": "For any list of devices, from the characters of the file: the flex rules (longest match, first rule, states) and the parser are modelled, C57_characters holds for any blanks between words; numbers are written as %.15e and read by atof (nearest double), so values with at most 16 digits come back exactly, others within 7e-16 (refuted: no reader restores every double; the largest double becomes infinity). Refuted: names with a quotation mark and values that are infinite or not a number give a file that cannot be loaded. Missing: what the commands creating models do (they are an arbitrary function), elements of interfaces other than their node pairs; an interface written by elements must have its nodes in increasing order on both sides (as the program pairs them by rank when reading); integers beyond int."
  },
  {
   "property": "C58",
   "status": "partial",
   "theorems": [
    "C58_stuck_refuted",
    "C58_loader_refuted",
    "C58_name_refuted",
    "C58_truncated_refuted",
    "C58_unfinished_refuted",
    "C58_next_file_partial"
   ],
   "note": "The claim is refuted: a truncated file, a device with the name of an existing mesh, and a device refused before it was complete leave the scanner inside a section or the loader in place, and then every later load fails whatever the file says. Proved: after a file that is well formed, whatever its commands do (fail or not), the next file can be read."
  },
  {
   "property": "C59",
   "status": "partial",
   "theorems": [
    "C59_last_command_partial",
    "C59_earlier_command_refuted",
    "C59_values_refuted"
   ],
   "note": "The claim is refuted: the result is that of the last command, earlier failures are forgotten, and a list of values that is too short is replaced by zeros, both without error. Proved: the failure of the last command is reported."
  },
  {
   "property": "C60",
   "status": "partial",
   "theorems": [
    "C60_again_partial",
    "C60_search_partial",
    "C60_point_refuted",
    "C60_pairs_refuted",
    "C60_contact_refuted"
   ],
   "note": "The claim is refuted for 2D/3D devices with an interface given by one node pair, an interface whose sides are numbered in opposite directions, and a contact made of a node only. Proved: the second file equals the first when the device is 1D or all interfaces are written by elements, and the elements written for an interface given by pairs are exactly those on the border of its regions with all nodes on the interface."
  },
  {
   "property": "C61",
   "status": "partial",
   "theorems": [
    "C61_ac",
    "C61_shared_variable_refuted",
    "C61_operating_point_refuted"
   ],
   "note": "Proved for every reachable system in which no two equations of a region have the same variable. Refuted without that: equation() can give two equations one variable, the results of the first are then lost; and a variable named like the result of another (V and V_Real) has its operating point overwritten. What the assembly yields and the linear solver are parameters."
  },
  {
   "property": "C62",
   "status": "partial",
   "theorems": [
    "C62_noise_partial",
    "C62_refused",
    "C62_copy_refuted"
   ],
   "note": "Proved for every equation that is not copied (KeepCopy) at a contact or interface; for a copied one the stored value is the transfer from the other equation alone (C62_copy_refuted). The vector gradients of the noise models are not modelled."
  },
  {
   "property": "C63",
   "status": "partial",
   "theorems": [
    "C63_gmres",
    "C63_reported_refuted"
   ],
   "note": "In exact arithmetic, with drotg, the matrix product and the preconditioner as parameters (linear, the product not singular): no division by zero, the residual printed is that of the solution returned, it never exceeds that of the zero vector, convergence as reported by GMRES implies the tolerance, and at most 50 unknowns always converge. Refuted: that a reported success implies convergence - IterativeLinearSolver::SolveImpl shadows the variable that holds the result of GMRES, so a solve that did not converge is reported as successful (cyclic shift of 51 unknowns). Rounding is not modelled."
  },
  {
   "property": "C64",
   "status": "partial",
   "theorems": [
    "C64_block_matrix",
    "C64_circuit_refuted",
    "C64_singular_refuted"
   ],
   "note": "For every system commands can build whose regions with equations have nodes, and every result of std::sort: exactly which entries are kept. Refuted: a circuit equation that depends on a device unknown (every mixed mode simulation) makes ProcessBlockInfo read blockInfoList_ at index size_t(-1); and a diagonal entry is dropped when a larger entry of its row is, so that the factored matrix can be singular when the system is not. Exact reals; the factorization itself is not modelled."
  },
  {
   "property": "C65",
   "status": "partial",
   "theorems": [
    "C65_loaded",
    "C65_refused",
    "C65_row_refuted",
    "C65_range_refuted",
    "C65_register"
   ],
   "note": "Proved for every answer in the documented form with rows of the system, and refusal of every other form. Refuted: a row or column that is no integer (2.0, None, True, a numpy integer) is accepted as row 0, and a row number outside of the system is used unchecked (undefined behaviour). Procedures without side effects on the simulator."
  },
  {
   "property": "C66",
   "status": "partial",
   "theorems": [
    "C66_export_partial",
    "C66_same_as_solve",
    "C66_jacobian",
    "C66_format",
    "C66_export_refuted"
   ],
   "note": "In exact arithmetic, when no diagonal entry of the static matrix vanishes; refuted in general: a static matrix with fewer entries than equations leads to an access out of bounds when the charges are added (ClearMatrix, C06). Rows are naturals, the arrays lists."
  },
  {
   "property": "C67",
   "status": "partial",
   "theorems": [
    "C67_array",
    "C67_array_refuted",
    "C67_region_partial",
    "C67_region_refuted",
    "C67_include_refuted",
    "C67_files",
    "C67_choice",
    "C67_unwritable_refuted",
    "C67_reference_refuted"
   ],
   "note": "Arrays: see also C02. Read by a separate reader of the VTK format (base64 of RFC 4648, block header, doubles bit by bit, elements, decimal numbers, offsets); zlib is any pair of functions that undo each other. Refuted: an array whose length is a multiple of 4096 cannot be read (its last block is written empty), so neither can any region with such a number of nodes; include_test does not keep out vectors (and tetrahedron models); an unwritable file is reported as success; a .vtm file in another directory names files that are not there. Missing: characters of tags (names are not escaped), values of models (taken as the results of the Get...Values functions)."
  },
  {
   "property": "C68",
   "status": "partial",
   "theorems": [
    "C68_lines",
    "C68_lines_refuted",
    "C68_word_refuted",
    "C68_file_partial",
    "C68_numbers",
    "C68_digits_refuted",
    "C68_names_refuted",
    "C68_kinds_refuted"
   ],
   "note": "Read by a separate reader of BLOCK-packed zones (words between blanks and newlines, nodal and cell columns counted from the header, element lists). partial: refuted are the numbers (the precision is never set: six digits, so different values and node positions have the same text), distinct names of the variables (a node model and an edge model of the same name), models of different kinds in different regions (the program ends), and lines that hold a word of 30000 characters (endless loop, or a character lost). The quoted strings of the header lines (names with quotation marks) are not modelled."
  },
  {
   "property": "C69",
   "status": "partial",
   "theorems": [
    "C69_list",
    "C69_accepted",
    "C69_init_from",
    "C69_one",
    "C69_all",
    "C69_no_such_node",
    "C69_kept",
    "C69_kept_all",
    "C69_last",
    "C69_error",
    "C69_contact_refuted",
    "C69_both_refuted",
    "C69_not_numbers_refuted",
    "C69_init_from_refuted",
    "C69_kept_refuted"
   ],
   "note": "Any device made by any commands. partial: refuted are contact models (set_node_value ignores the index and zeroes the other values), values together with init_from (the error is lost; which one is taken depends on the type of the model), values that are not numbers (same), init_from for a model that is not a solution, and the permanence of values given to models that have an expression. The evaluation of a model is any function of the region that gives a value for each element; what it stores in other models is C25."
  },
  {
   "property": "C70",
   "status": "partial",
   "theorems": [
    "C70_value_partial",
    "C70_silent_partial",
    "C70_history_partial",
    "C70_differ",
    "C70_unknown",
    "C70_missing",
    "C70_circular_refuted",
    "C70_missing_refuted",
    "C70_parameter_refuted",
    "C70_if_if_refuted",
    "C70_exception_refuted"
   ],
   "note": "Any models, parameters, functions and arithmetic. partial: a model whose expression has a value gets it (C70_value_partial), and a model that is calculated without a message has the value its expression has (C70_silent_partial: without exceptions and without \"if\"); excluded are the cases refuted: \"if\" on the values of a model (which changes them), missing and circular models (0.0, with a message), a parameter that is not in the region of its name (no message), exceptions of a product or sum that is not finished. Functions are any functions of numbers applied to each node."
  },
  {
   "property": "C71",
   "status": "partial",
   "theorems": [
    "C71_reported",
    "C71_listed",
    "C71_again",
    "C71_saved",
    "C71_failed_nothing",
    "C71_checked",
    "C71_interface_checked",
    "C71_model_refuted",
    "C71_element_model_refuted",
    "C71_interface_model_refuted"
   ],
   "note": "Any history of the commands. partial: refuted is that an equation names models that exist (contact equations and the element and volume models are not looked up: C71_model_refuted, C71_element_model_refuted); proved for the node and edge models of regions and for interface models. interface_model, optional, is required (C71_interface_model_refuted). Devices, regions, contacts and interfaces are not added or removed within the history; whether a model exists is decided by the environment of each command; arguments are strings."
  },
  {
   "property": "C72",
   "status": "partial",
   "theorems": [
    "C72_names",
    "C72_distinct",
    "C72_saved_partial",
    "C72_saved_derivative_refuted",
    "C72_saved_refuted",
    "C72_expression_made",
    "C72_expression_saved_partial",
    "C72_expression_saved_refuted"
   ],
   "note": "partial: that the saved command makes the models again is proved for all commands except element_from_edge_model with derivative in 3D, for which it is refuted in general: the saved command is element_pair_from_edge_model (TetrahedronEdgeFromEdgeModelDerivative.cc:150), which is accepted and makes models none of which has the name of a saved one (C72_saved_derivative_refuted). The values of the models are C05/Element*.v; vector_gradient and the option calc_type are not modelled. For node_model, edge_model and element_model: the accepted command makes the model of its options (C72_expression_made); the saved command makes it again where the text of the expression is read back as the same expression (hypothesis), except element models in 2D with display_type nodisplay, for which display_type is not saved (TriangleEdgeExprModel.cc:135, C72_expression_saved_refuted); contact models are left out."
  }
 ]
}