{
 "claims": [
  {
   "property": "C01",
   "status": "proved",
   "theorems": [
    "C01_solve_uses_current_data",
    "C01_generated_code_qualifies"
   ],
   "note": "Any Num carrier (no algebra assumed). Dependency lists and column layout of generated code satisfy the hypotheses by C01_generated_code_qualifies."
  },
  {
   "property": "C02",
   "status": "proved",
   "theorems": [
    "C02_clarabel_reads_current_data"
   ],
   "note": "Clarabel: the workspace is rebuilt each solve from Canon_Params."
  },
  {
   "property": "C03",
   "status": "proved",
   "theorems": [
    "C03_ecos_data_survive_overwriting",
    "C03_single_entry_refuted"
   ],
   "note": "ECOS with arbitrary overwriting of its data by the solver; the single-entry case is refuted."
  },
  {
   "property": "C04",
   "status": "proved",
   "theorems": [
    "C04_update_writes_one_entry",
    "C04_entry_belongs_to_parameter",
    "C04_slices_consecutive",
    "C04_slices_disjoint",
    "C04_slices_cover",
    "C04_vector_after_history"
   ],
   "note": ""
  },
  {
   "property": "C05",
   "status": "proved",
   "theorems": [
    "C05_updated_params_sufficient"
   ],
   "note": ""
  },
  {
   "property": "C06",
   "status": "proved",
   "theorems": [
    "C06_unregistered_parameter_is_irrelevant",
    "C06_kept_entries_are_registered"
   ],
   "note": ""
  },
  {
   "property": "C07",
   "status": "proved",
   "theorems": [
    "C07_constant_blocks"
   ],
   "note": "Blocks with no dependency: the baked constant equals the map for every parameter vector."
  },
  {
   "property": "C08",
   "status": "proved",
   "theorems": [
    "C08_loops_compute_product",
    "C08_arrays_encode_rows"
   ],
   "note": ""
  },
  {
   "property": "C09",
   "status": "proved",
   "theorems": [
    "C09_update_code_pushes_everything",
    "C09_analysis_succeeds",
    "C09_order_irrelevant"
   ],
   "note": ""
  },
  {
   "property": "C10",
   "status": "proved",
   "theorems": [
    "C10_bounds_survive_validation",
    "C10_update_call"
   ],
   "note": ""
  },
  {
   "property": "C11",
   "status": "proved",
   "theorems": [
    "C11_idle_solve_sends_nothing",
    "C11_scs_idle_refuted",
    "C11_ecos_idle_refuted"
   ],
   "note": ""
  },
  {
   "property": "C12",
   "status": "proved",
   "theorems": [
    "C12_reported_objective"
   ],
   "note": "The solver is an oracle reporting its own objective value for the data passed."
  },
  {
   "property": "C13",
   "status": "proved",
   "theorems": [
    "C13_lower_bounds_of_inequalities"
   ],
   "note": ""
  },
  {
   "property": "C14",
   "status": "proved",
   "theorems": [
    "C14_qp_equivalent"
   ],
   "note": ""
  },
  {
   "property": "C15",
   "status": "proved",
   "theorems": [
    "C15_conic_residuals"
   ],
   "note": ""
  },
  {
   "property": "C16",
   "status": "proved",
   "theorems": [
    "C16_well_formed",
    "C16_entries"
   ],
   "note": ""
  },
  {
   "property": "C17",
   "status": "proved",
   "theorems": [
    "C17_right_hand_sides"
   ],
   "note": ""
  },
  {
   "property": "C18",
   "status": "proved",
   "theorems": [
    "C18_baked_data_match_baked_parameters"
   ],
   "note": ""
  },
  {
   "property": "C19",
   "status": "proved",
   "theorems": [
    "C19_duals_reach_their_constraint",
    "C19_slices"
   ],
   "note": ""
  },
  {
   "property": "C20",
   "status": "proved",
   "theorems": [
    "C20_dual_bookkeeping",
    "C20_equality_only_refuted"
   ],
   "note": ""
  },
  {
   "property": "C21",
   "status": "proved",
   "theorems": [
    "C21_primal_variables",
    "C21_slices_disjoint"
   ],
   "note": ""
  },
  {
   "property": "C22",
   "status": "proved",
   "theorems": [
    "C22_symmetric_variables",
    "C22_packed_length"
   ],
   "note": ""
  },
  {
   "property": "C23",
   "status": "proved",
   "theorems": [
    "C23_reshape_after_flatten",
    "C23_flatten_after_reshape",
    "C23_position"
   ],
   "note": ""
  },
  {
   "property": "C24",
   "status": "proved",
   "theorems": [
    "C24_maps_compose",
    "C24_dependencies_sound",
    "C24_solves_use_current_data",
    "C24_generated_stages"
   ],
   "note": ""
  },
  {
   "property": "C25",
   "status": "proved",
   "theorems": [
    "C25_parameter_in_offset_fails",
    "C25_reported_objective",
    "C25_constant_offset_refuted",
    "C25_parameter_offset_refuted"
   ],
   "note": ""
  },
  {
   "property": "C26",
   "status": "proved",
   "theorems": [
    "C26_bounds_declared",
    "C26_other_rejected",
    "C26_clamped",
    "C26_all_written",
    "C26_equality_bound_refuted"
   ],
   "note": ""
  },
  {
   "property": "C27",
   "status": "proved",
   "theorems": [
    "C27_box",
    "C27_mixed_signs_refuted"
   ],
   "note": ""
  },
  {
   "property": "C28",
   "status": "proved",
   "theorems": [
    "C28_reduction",
    "C28_always_within"
   ],
   "note": ""
  },
  {
   "property": "C29",
   "status": "proved",
   "theorems": [
    "C29_bounds_last",
    "C29_bounds_first_refuted"
   ],
   "note": ""
  },
  {
   "property": "C30",
   "status": "proved",
   "theorems": [
    "C30_stored_entries",
    "C30_dropped_fails",
    "C30_dropped_refuted",
    "C30_single_entry_refuted",
    "C30_negative_index_refuted",
    "C30_symmetric_refuted"
   ],
   "note": ""
  },
  {
   "property": "C31",
   "status": "proved",
   "theorems": [
    "C31_explicit_gradient",
    "C31_dropped_refuted",
    "C31_before_solve_refuted"
   ],
   "note": ""
  },
  {
   "property": "C32",
   "status": "proved",
   "theorems": [
    "C32_objective",
    "C32_minimise_iff",
    "C32_maximise_iff",
    "C32_offset_refuted"
   ],
   "note": ""
  },
  {
   "property": "C33",
   "status": "proved",
   "theorems": [
    "C33_uncanonicalize_is_adjoint",
    "C33_generated_adjoint"
   ],
   "note": "Inner-product identity for every adjoint direction; for generated code against CVXPY's slopes of the problem data. Exact field arithmetic."
  },
  {
   "property": "C34",
   "status": "proved",
   "theorems": [
    "C34_active_set_exact",
    "C34_gradient_independent_of_marks",
    "C34_sign_refuted"
   ],
   "note": "Active marks = duals beyond the tolerance after every call of any session; gradient independent of the marks' signs; wrong sign witness."
  },
  {
   "property": "C35",
   "status": "proved",
   "theorems": [
    "C35_matrices_of_latest_solve",
    "C35_gradients_of_latest_solve",
    "C35_c_level_refuted"
   ],
   "note": "Python-level sessions: matrices and gradients belong to the parameters at the last solve; witness that direct C calls (gradient between update and solve) break it."
  },
  {
   "property": "C36",
   "status": "proved",
   "theorems": [
    "C36_backward_order_irrelevant",
    "C36_parametric_matrix_refuted",
    "C36_explicit_order_irrelevant"
   ],
   "note": "Constant matrices: gradient independent of the interleaving; explicit mode always; witness for parametric matrices."
  },
  {
   "property": "C37",
   "status": "proved",
   "theorems": [
    "C37_rank_one_update",
    "C37_without_fill_in_refuted"
   ],
   "note": ""
  },
  {
   "property": "C38",
   "status": "proved",
   "theorems": [
    "C38_activations"
   ],
   "note": ""
  },
  {
   "property": "C39",
   "status": "proved",
   "theorems": [
    "C39_insert",
    "C39_insert_above",
    "C39_remove"
   ],
   "note": ""
  },
  {
   "property": "C40",
   "status": "proved",
   "theorems": [
    "C40_mask_index",
    "C40_first_flags",
    "C40_fill_in"
   ],
   "note": ""
  },
  {
   "property": "C41",
   "status": "proved",
   "theorems": [
    "C41_refresh",
    "C41_generated_arrays",
    "C41_new_values",
    "C41_symmetric_refuted"
   ],
   "note": "Any previous contents of the right pattern; generated arrays qualify. Additional witness: the true matrix uses only the stored triangle of P."
  },
  {
   "property": "C42",
   "status": "proved",
   "theorems": [
    "C42_position",
    "C42_directional",
    "C42_symmetric_refuted",
    "C42_symmetric_clash_refuted"
   ],
   "note": "Position theorem for non-symmetric variables; symmetric variables of size >= 2 always miss the packed range; clash witness."
  },
  {
   "property": "C43",
   "status": "proved",
   "theorems": [
    "C43_storage",
    "C43_initial",
    "C43_tight_refuted"
   ],
   "note": ""
  },
  {
   "property": "C44",
   "status": "proved",
   "theorems": [
    "C44_solver_names",
    "C44_windows",
    "C44_explicit",
    "C44_two_stage",
    "C44_default_refuted",
    "C44_lower_case_osqp_refuted"
   ],
   "note": "Positive statement for explicit names plus refuted witnesses for the default and for lower case."
  },
  {
   "property": "C45",
   "status": "proved",
   "theorems": [
    "C45_failed_canonicalization_keeps_directory",
    "C45_problem_errors_keep_directory",
    "C45_two_stage_errors_keep_directory",
    "C45_explicit_refuted",
    "C45_explicit_bounds_refuted"
   ],
   "note": "Positive statements for the non-explicit interfaces, refuted witnesses for explicit mode."
  },
  {
   "property": "C46",
   "status": "proved",
   "theorems": [
    "C46_enabled_settings_accumulate",
    "C46_settings_refuted",
    "C46_update_code_independent_of_history",
    "C46_scs_independent_without_lp",
    "C46_scs_refuted"
   ],
   "note": "Update code and settings; SCS and settings refuted where stated."
  },
  {
   "property": "C47",
   "status": "proved",
   "theorems": [
    "C47_prefix_is_identifier_start",
    "C47_prefix_injective",
    "C47_no_clash",
    "C47_independent_prefixes",
    "C47_nested_prefixes_refuted",
    "C47_gradient_prefix_refuted"
   ],
   "note": "Prefix collisions; nested prefixes and gradient prefix refuted."
  },
  {
   "property": "C48",
   "status": "proved",
   "theorems": [
    "C48_literal_close",
    "C48_literal_exact",
    "C48_literal_small",
    "C48_literal_unique",
    "C48_double_round_trip",
    "C48_small_double_refuted",
    "C48_array",
    "C48_int_array",
    "C48_matrix",
    "C48_dense"
   ],
   "note": "Exact rationals; Python's %.20f is taken as correctly rounded half to even."
  },
  {
   "property": "C49",
   "status": "proved",
   "theorems": [
    "C49_replaced",
    "C49_length",
    "C49_idempotent",
    "C49_matrix",
    "C49_text",
    "C49_objective",
    "C49_objective_infinite",
    "C49_round_trip",
    "C49_unreplaced_refuted"
   ],
   "note": "Extended rationals; witness for values written without the replacement."
  },
  {
   "property": "C50",
   "status": "proved",
   "theorems": [
    "C50_settings_of_the_call",
    "C50_scs_refuted",
    "C50_scs_settings"
   ],
   "note": ""
  },
  {
   "property": "C51",
   "status": "proved",
   "theorems": [
    "C51_rejected_call_has_no_effect",
    "C51_unknown_names_are_rejected"
   ],
   "note": ""
  },
  {
   "property": "C52",
   "status": "proved",
   "theorems": [
    "C52_distinct",
    "C52_clash_solver",
    "C52_clash_dual",
    "C52_clash_delta",
    "C52_clash_declaration",
    "C52_clarabel_refuted",
    "C52_dual_refuted",
    "C52_delta_refuted",
    "C52_clash_unprefixed",
    "C52_dimension_refuted",
    "C52_solver_name_refuted",
    "C52_closed",
    "C52_example_prefix_refuted",
    "C52_scs_empty_refuted",
    "C52_two_stage_undefined",
    "C52_two_stage_refuted",
    "C52_two_programs",
    "C52_plain_programs",
    "C52_gradient_programs_clash"
   ],
   "note": "Identifier structure of all generated C files; distinctness and closedness proved, each exception witnessed."
  },
  {
   "property": "C53",
   "status": "proved",
   "theorems": [
    "C53_count",
    "C53_seen",
    "C53_order",
    "C53_rows",
    "C53_cut_refuted",
    "C53_cut_rows_refuted",
    "C53_order_refuted",
    "C53_order_witness_refuted"
   ],
   "note": "Positive statements with exact boundary (iff), refuted witnesses beyond it."
  },
  {
   "property": "C54",
   "status": "proved",
   "theorems": [
    "C54_two_stage_succeeds_iff",
    "C54_quadratic_term"
   ],
   "note": ""
  },
  {
   "property": "C55",
   "status": "proved",
   "theorems": [
    "C55_plain_order",
    "C55_reordered_refuted"
   ],
   "note": ""
  },
  {
   "property": "C56",
   "status": "proved",
   "theorems": [
    "C56_scs",
    "C56_scs_rejects",
    "C56_others",
    "C56_unchecked_refuted",
    "C56_generated"
   ],
   "note": "CVXPY's row order zero, nonneg, soc, psd, exp, p3d."
  },
  {
   "property": "C57",
   "status": "proved",
   "theorems": [
    "C57_gradients_never_break_down",
    "C57_pivot_signs",
    "C57_nonconvex_refuted"
   ],
   "note": "Exact arithmetic over ordered fields with square roots; the example is over the real numbers (library axioms listed there, the theorems themselves use none)."
  },
  {
   "property": "C58",
   "status": "proved",
   "theorems": [
    "C58_gradients_are_derivatives",
    "C58_first_order",
    "C58_zero_dual_refuted",
    "C58_products_refuted"
   ],
   "note": ""
  },
  {
   "property": "C59",
   "status": "proved",
   "theorems": [
    "C59_calls_are_needed",
    "C59_once_refuted"
   ],
   "note": ""
  },
  {
   "property": "C60",
   "status": "proved",
   "theorems": [
    "C60_user_gradients",
    "C60_entries",
    "C60_reduced_parameters",
    "C60_wrong_size"
   ],
   "note": "Composition of C57, C58, C42 with the array marshalling; wrong sizes raise."
  },
  {
   "property": "C61",
   "status": "proved",
   "theorems": [
    "C61_multipliers",
    "C61_multipliers_onto",
    "C61_optimal",
    "C61_variables",
    "C61_duals",
    "C61_variables_refuted",
    "C61_undefined_refuted",
    "C61_duals_refuted"
   ],
   "note": "KKT correspondence of the two problems, execution of the retrieval code; witnesses for wrongly stored variables and duals."
  },
  {
   "property": "C62",
   "status": "proved",
   "theorems": [
    "C62_written",
    "C62_type_checks",
    "C62_literals",
    "C62_first_solve",
    "C62_prints",
    "C62_gradient_prints",
    "C62_scalar_refuted",
    "C62_prefix_refuted",
    "C62_explicit_refuted"
   ],
   "note": "Syntax and typing of the emitted program against the emitted declarations, its calls replayed on the run-time model, its output compared with the retrieval model; witnesses for scalar variables, prefixes and explicit storage."
  },
  {
   "property": "C63",
   "status": "proved",
   "theorems": [
    "C63_compiles",
    "C63_field",
    "C63_no_value",
    "C63_arrays_reach_the_solver",
    "C63_single_entry_rejected",
    "C63_single_entry_refuted"
   ],
   "note": "Marshalling of the user's arrays composed with the session theorems (C01-C03); exceptions characterised; witness for one stored entry of a larger array."
  },
  {
   "property": "C64",
   "status": "proved",
   "theorems": [
    "C64_generation",
    "C64_optimal_values",
    "C64_multipliers"
   ],
   "note": "Composition of C01-C03, C12, C14, C15, C19, C21, C63; the solver is an oracle under a per-call contract."
  },
  {
   "property": "C65",
   "status": "proved",
   "theorems": [
    "C65_generation",
    "C65_constant_matrices",
    "C65_optimal_values",
    "C65_multipliers",
    "C65_near_optimal",
    "C65_equality_indices_refuted"
   ],
   "note": "Composition of C14, C26-C30, C63 with the contract of MPQP as hypothesis on the table; the regularisation is part of the statement; _refuted: a parameter-only equality before another equality shifts the equality indices."
  },
  {
   "property": "C66",
   "status": "proved",
   "theorems": [
    "C66_selection",
    "C66_values",
    "C66_vector_slices_refused",
    "C66_tuple_refused",
    "C66_rows_refuted",
    "C66_mask_refuted",
    "C66_twice_refuted",
    "C66_two_lists_refuted",
    "C66_nothing_refuted"
   ],
   "note": "NumPy's indexing rules as separate specification; composition with C30 (and the hypotheses of C65); _refuted: row lists of matrices, masks, repeated variables, combined lists, empty selections."
  },
  {
   "property": "C67",
   "status": "proved",
   "theorems": [
    "C67_layers",
    "C67_missing_variable",
    "C67_partial_context_refuted",
    "C67_changed_matrices_refuted"
   ],
   "note": "Simulation of layer sessions by sessions of the user-level model (C60), which gives totality and derivatives; P, A transport lemma; _refuted: changed matrices, contexts listing some variables; C67_missing_variable."
  },
  {
   "property": "C68",
   "status": "proved",
   "theorems": [
    "C68_first_generation_wins",
    "C68_own_code",
    "C68_names",
    "C68_current_directory",
    "C68_same_directory_refuted",
    "C68_other_directory_refuted",
    "C68_names_refuted"
   ],
   "note": "Model of the file system, sys.path, sys.modules and importlib; invariant over sessions; _refuted: same directory twice, same name after chdir, names that are not identifiers; C68_current_directory."
  },
  {
   "property": "C69",
   "status": "proved",
   "theorems": [
    "C69_initialisers",
    "C69_first_types",
    "C69_second_program",
    "C69_same_form",
    "C69_order_refuted",
    "C69_constraints_refuted",
    "C69_explicit_refuted",
    "C69_gradient_header",
    "C69_cast",
    "C69_targets"
   ],
   "note": "Typedefs, guard, declarations, initialisers and struct layout (LP64); exact conditions for reading through another program's types; _refuted: variable order, constraints, explicit mode; C69_gradient_header, C69_cast, C69_targets."
  },
  {
   "property": "C70",
   "status": "proved",
   "theorems": [
    "C70_completes",
    "C70_files",
    "C70_licence",
    "C70_sources",
    "C70_includes",
    "C70_module_includes",
    "C70_two_stage_includes",
    "C70_two_stage_qdldl",
    "C70_qdldl_missing_refuted",
    "C70_qdldl_other_refuted",
    "C70_needed_headers",
    "C70_solver_headers",
    "C70_licence_refuted"
   ],
   "note": "File operations of the whole generation on a symbolic directory tree for arbitrary solver files; exact completion condition and contents; CMake/setup lists; closure of include lines. _refuted: QDLDL's header in two-stage programs (missing / another solver's), QOCO's licence."
  },
  {
   "property": "C71",
   "status": "proved",
   "theorems": [
    "C71_layers",
    "C71_two_calls",
    "C71_missing_variable",
    "C71_clamped_refuted",
    "C71_partial_context_refuted"
   ],
   "note": "Sessions of forward/backward calls over any ordered field; table contract: each region holds the rows out_inds of a law, the search ends in a region of the table. Variables not symmetric, all stored at least in part; parameters without dimension-reducing attributes. _refuted: outside the bounds; contexts with part of the variables."
  },
  {
   "property": "C72",
   "status": "proved",
   "theorems": [
    "C72_compiles",
    "C72_uses",
    "C72_two_stage_never",
    "C72_two_stage_refuted",
    "C72_empty_refuted",
    "C72_keyword_refuted",
    "C72_lambda_refuted",
    "C72_solve",
    "C72_solve_fails",
    "C72_program",
    "C72_gradient",
    "C72_gradient_explicit"
   ],
   "note": "Statements of cpg_module.cpp as syntax with a type checker (compiles) and an interpreter over an arbitrary C library; all arithmetic types are one type of numbers; pybind11 itself and include lines not modelled (include lines: C70). _refuted: two-stage gradients, empty parameters, C++ and Python keywords as names."
  },
  {
   "property": "C73",
   "status": "proved",
   "theorems": [
    "C73_replace",
    "C73_cut",
    "C73_missing",
    "C73_scs_words",
    "C73_scs_all_texts",
    "C73_scs_line_refuted",
    "C73_osqp_cmake",
    "C73_two_stage_cmake",
    "C73_osqp_name_refuted",
    "C73_clarabel_cmake",
    "C73_clarabel_wrapper",
    "C73_osqp_workspace",
    "C73_pdaqp",
    "C73_pdaqp_header",
    "C73_pdaqp_prototype_refuted",
    "C73_repeatable",
    "C73_once_only"
   ],
   "note": "str.replace, str.find as scans over arbitrary texts; the meaning of the edited CMake, make and C texts is not modelled. _refuted: line starts (SCS), names containing src (OSQP), a source that declares pdaqp_evaluate."
  },
  {
   "property": "C74",
   "status": "proved",
   "theorems": [
    "C74_storing_succeeds",
    "C74_variables",
    "C74_distinct_names",
    "C74_duals",
    "C74_repeated_constraints",
    "C74_attributes",
    "C74_same_name_refuted",
    "C74_repeated_constraint_refuted",
    "C74_calls",
    "C74_explicit",
    "C74_explicit_ignores_settings",
    "C74_explicit_call",
    "C74_parameter_columns",
    "C74_same_parameter_name",
    "C74_same_parameter_name_refuted"
   ],
   "note": "CVXPY's object methods by contract (DESIGN.md 5); the further components returned by cpg_solve_and_gradient_info are in C60/C67. _refuted: two variables of one name, a constraint listed twice, two parameters of one name."
  },
  {
   "property": "C75",
   "status": "proved",
   "theorems": [
    "C75_header_types",
    "C75_types",
    "C75_declared_is_defined",
    "C75_functions",
    "C75_settings_list",
    "C75_tables",
    "C75_table_numbers",
    "C75_table_shapes",
    "C75_table_refuted",
    "C75_tree",
    "C75_embed",
    "C75_embed_refuted",
    "C75_import",
    "C75_import_refuted",
    "C75_explicit_refuted"
   ],
   "note": "Texts of the typedefs, declarations, README sections as written; reading them by a small C lexer/parser in ReadmeSpec.v. Signatures of definitions in cpg_solve.c are not compared with the declarations (C72 covers the calls). _refuted: explicit mode, embedding with two stages, import line, tables."
  },
  {
   "property": "C76",
   "status": "proved",
   "theorems": [
    "C76_in_range",
    "C76_outside",
    "C76_where",
    "C76_exact",
    "C76_covered",
    "C76_in_range_covered",
    "C76_constant_lost",
    "C76_explicit_limits",
    "C76_explicit_constant",
    "C76_stale_refuted",
    "C76_constant_refuted"
   ],
   "note": "Index as integer (Z) without overflow of idx + base_col. Access outside the array (undefined in C) stops the model. Two-stage and gradient flags are not in this model. _refuted: stale blocks after a write into another parameter; constant overwritten."
  },
  {
   "property": "C77",
   "status": "proved",
   "theorems": [
    "C77_pointers",
    "C77_literal",
    "C77_count",
    "C77_newest",
    "C77_bounded",
    "C77_scs_every_solve",
    "C77_grows",
    "C77_refused",
    "C77_refused_again",
    "C77_same",
    "C77_literal_refuted",
    "C77_bounded_refuted",
    "C77_refused_refuted"
   ],
   "note": "Only objects the generated code itself allocates or asks a library constructor for; what a library allocates inside, or frees on its own, is outside. Contracts: constructors return a new object or NULL; clarabel_CscMatrix_init stores the pointers; load_data of QOCOGEN allocates nothing. _refuted: dangling literal, unbounded objects, failed set-up unnoticed."
  },
  {
   "property": "C78",
   "status": "proved",
   "theorems": [
    "C78_targets",
    "C78_lists",
    "C78_packages",
    "C78_enclosing",
    "C78_second",
    "C78_once",
    "C78_two_workspaces",
    "C78_link",
    "C78_fresh",
    "C78_rerun",
    "C78_semicolon_refuted",
    "C78_silent_refuted",
    "C78_inherited_refuted",
    "C78_link_refuted",
    "C78_stale_refuted"
   ],
   "note": "CMake, setuptools and cargo by contract (lists, scopes, GLOB as any function returning file names; build_ext skips a module newer than its own sources). Compiler flags and definitions are not modelled. _refuted: semicolons in the directory, empty solver lists, inherited solver_src with Clarabel, Clarabel across machines and on Windows, stale modules."
  },
  {
   "property": "C79",
   "status": "proved",
   "theorems": [
    "C79_check",
    "C79_files",
    "C79_types",
    "C79_once",
    "C79_undefined",
    "C79_declared",
    "C79_params",
    "C79_gradient_struct",
    "C79_local_refuted",
    "C79_empty_refuted",
    "C79_scs_refuted"
   ],
   "note": "File-scope names with their types; struct types and local variables of functions are not modelled (C69 covers struct types). Two-stage programs are excluded as in C52. What the solvers' headers declare is taken from osqp.py and pdaqp.py. _refuted: static cpg_dx, parameter without entries, SCS without stored constraint entries."
  },
  {
   "property": "C80",
   "status": "proved",
   "theorems": [
    "C80_renders",
    "C80_brackets",
    "C80_python",
    "C80_functions",
    "C80_merge",
    "C80_needed",
    "C80_gradient_keys_refuted",
    "C80_apostrophe_refuted",
    "C80_bracket_refuted"
   ],
   "note": "Jinja is external: the subset of its language the templates use is modelled. TemplateText.v holds the full template texts, converted from /repo by a script with the environment's options (lstrip_blocks, trim_blocks, keep_trailing_newline) applied. Nesting counts all brackets, also in comments and strings; layout is a line-level condition, not the full Python grammar. _refuted: apostrophe in the directory, open bracket in a given string, missing gradient entries."
  },
  {
   "property": "C81",
   "status": "proved",
   "theorems": [
    "C81_single",
    "C81_cover",
    "C81_two",
    "C81_no_quadratic",
    "C81_separate_blocks",
    "C81_more_variables",
    "C81_two_refuted",
    "C81_ecos_refuted",
    "C81_linear_refuted"
   ],
   "note": "Accesses are counted from 0 to the largest index a loop may touch; names are compared without prefixes. The dimensions of the second stage are inputs (CVXPY is external). _refuted: two-stage program that reads past a map, ECOS, linear program."
  }
 ]
}