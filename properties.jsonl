{"id": "C01", "title": "Every solve uses the current parameter values (OSQP, SCS, QOCO, QOCOGEN)", "statement": "After any interleaving of cpg_update_<param>(idx,val) and cpg_solve() calls, the problem data (objective, constraint matrices and vectors) held by the embedded solver when cpg_solve() runs it equals, for each data block the solver owns, the affine map of that block applied to the parameter values written last (constant blocks: the generated constant). Skipped canonicalizations and skipped solver updates never leave stale data behind.", "quantifier": "all arithmetic (including IEEE doubles), all generated problems with sound dependency lists, all four solvers, all finite histories of valid update/solve calls, all orders in which Python iterates the set of update functions", "why_tests_cant": "The number of histories is infinite and a stale block only shows after a particular sequence (e.g. update A, solve, update b, solve); tests run two or three seeds.", "anchors": ["cvxpygen/utils.py:write_solve_def", "cvxpygen/utils.py:write_canonicalize", "cvxpygen/utils.py:analyze_pus", "cvxpygen/utils.py:write_update_structure", "cvxpygen/solvers/osqp.py:parameter_update_structure", "cvxpygen/solvers/scs.py:parameter_update_structure", "cvxpygen/solvers/qoco.py:parameter_update_structure"]}
{"id": "C02", "title": "Every solve uses the current parameter values (Clarabel)", "statement": "With Clarabel, which re-reads the copied data arrays on every solve, the arrays handed to the solver in each cpg_solve() equal the affine maps applied to the parameter values written last, for LPs (full copy each time) and QPs (copy of outdated blocks only), assuming Clarabel does not modify the arrays.", "quantifier": "all arithmetic, all generated Clarabel problems (LP and QP), all finite histories of valid update/solve calls", "why_tests_cant": "Same as C01; the LP/QP branches and the partial copies multiply the histories.", "anchors": ["cvxpygen/solvers/clarabel.py:ClarabelInterface.__init__", "cvxpygen/utils.py:write_solve_def"]}
{"id": "C03", "title": "In-place preconditioning never corrupts the canonical data (ECOS)", "statement": "With ECOS, which may overwrite the arrays it is given, every cpg_solve() still runs on data equal to the affine maps of the current parameter values, whatever ECOS writes into those arrays, provided no data block has exactly one stored entry. The proviso is needed: for a block with one entry the generated copy function aliases the two buffers instead of copying, and a history exists after which ECOS is fed corrupted data.", "quantifier": "all arithmetic, all behaviours of the solver on the arrays it owns, all histories; plus a concrete failing history for a one-entry block", "why_tests_cant": "Tests never use an adversarial solver and compare with 10% tolerance; scaling by powers close to one goes unnoticed.", "anchors": ["cvxpygen/utils.py:write_solve_def (copy functions, size == 1)", "cvxpygen/solvers/ecos.py:parameter_update_structure"]}
{"id": "C04", "title": "Parameter updates are local", "statement": "cpg_update_<param>(idx,val) with idx in range changes exactly one entry of the flat parameter vector, the one belonging to that entry of that parameter; slices of distinct parameters are disjoint, consecutive, cover everything but the trailing constant 1, and the trailing 1 is never changed by any sequence of valid updates.", "quantifier": "all parameter lists with distinct names and positive sizes, all valid (param, idx, val), all update sequences", "why_tests_cant": "A layout error only shows for particular combinations of parameter sizes and orders.", "anchors": ["cvxpygen/canonicalizer.py:_get_parameter_info", "cvxpygen/utils.py:write_solve_def (update functions)"]}
{"id": "C05", "title": "Updating only what changed is equivalent to updating everything", "statement": "If the list updated_params passed to the Python solve call contains every parameter whose value differs from the value last passed, then the data the solver sees is the same as with updated_params=None (all parameters updated).", "quantifier": "all parameter values, all subsets, all previous histories of Python-level solve calls", "why_tests_cant": "Exponentially many subsets times unbounded histories; tests try one or two.", "anchors": ["cvxpygen/templates/cpg_solver.py.jinja2:cpg_solve", "cvxpygen/utils.py:write_module_def (solve_cpp)"]}
{"id": "C06", "title": "Dependency lists are sound", "statement": "If a user parameter is not registered as making a canonical block outdated, then no change of that parameter alone can change that block of canonical data; equivalently every entry of the affine map that is kept lies in a column of a parameter whose update sets that block's outdated flag.", "quantifier": "all canonicalization data (sparse tensors with explicit zeros, any parameter layout), all canonical blocks, QP and conic layouts", "why_tests_cant": "Soundness concerns all sparsity patterns; the lists are computed before sign changes, densification and pruning of the map.", "anchors": ["cvxpygen/canonicalizer.py:_update_adjacency_matrix", "cvxpygen/canonicalizer.py:_process_canonical_parameters", "cvxpygen/canonicalizer.py:_extract"]}
{"id": "C07", "title": "Blocks without update code are constant", "statement": "If the generator decides that a canonical block does not change (no canonicalization code is emitted for it), then the value of that block is the same for all parameter values and equals the value baked into the generated C code.", "quantifier": "all canonicalization data, all pairs of parameter vectors", "why_tests_cant": "Needs quantification over all parameter values for all maps.", "anchors": ["cvxpygen/canonicalizer.py:_process_canonical_parameters", "cvxpygen/utils.py:write_solve_def", "cvxpygen/utils.py:write_workspace_def"]}
{"id": "C08", "title": "Generated canonicalization loops compute the affine map", "statement": "The emitted C loops over the compressed-row arrays (p,i,x) compute, entry by entry, the product of the sparse map with the flat parameter vector, touch only the first n_rows entries of the block, and the arrays written to C (row pointers, indices, data) encode exactly the map's rows.", "quantifier": "all sparse maps (any number of rows, empty rows included), all parameter vectors, over any commutative ring", "why_tests_cant": "Array-index arithmetic has to be right for every sparsity pattern.", "anchors": ["cvxpygen/utils.py:write_canonicalize", "cvxpygen/utils.py:write_mat_def"]}
{"id": "C09", "title": "The emitted update code covers every outdated block", "statement": "For each solver and each combination of which canonical blocks depend on parameters, the emitted nested if/else update code is well bracketed and, for every combination of outdated flags and every state of the solver workspace, passes every outdated block that can change to the solver; the iteration order of Python sets is irrelevant.", "quantifier": "all solver tables, all change patterns, all flag combinations, workspace initialised or not, all iteration orders", "why_tests_cant": "2^6 change patterns x 2^6 flag patterns x orders x 7 tables; tests exercise a handful.", "anchors": ["cvxpygen/utils.py:analyze_pus", "cvxpygen/utils.py:write_update_structure", "cvxpygen/utils.py:extend_functions_if_false"]}
{"id": "C10", "title": "OSQP bound updates survive bound validation", "statement": "If the OSQP library rejects (and ignores) any vector update that would make some lower bound exceed its upper bound, the emitted sequence of update calls nevertheless ends with the solver holding the new l and u, as long as the new pair itself is valid.", "quantifier": "all change patterns, all flag patterns consistent with l being a sub-block of u, all old/new data, all validity relations", "why_tests_cant": "Only particular value changes trigger the rejection of an intermediate update.", "anchors": ["cvxpygen/solvers/osqp.py:parameter_update_structure", "cvxpygen/utils.py:write_update_structure"]}
{"id": "C11", "title": "Repeated solves without updates do not redo solver set-up", "statement": "After a solve, another cpg_solve() without parameter updates issues no solver data update and no re-initialisation for OSQP, QOCO, QOCOGEN and Clarabel QPs. For SCS and ECOS this fails when a matrix block is constant while another one in the same '||' group changes: the constant block's flag is never cleared, so the workspace is rebuilt (SCS) or all data re-sent (ECOS) on every solve.", "quantifier": "all change patterns and histories; plus concrete counterexamples for SCS and ECOS", "why_tests_cant": "Extra work is invisible in solutions.", "anchors": ["cvxpygen/utils.py:write_solve_def (flag reset)", "cvxpygen/solvers/scs.py:parameter_update_structure", "cvxpygen/solvers/ecos.py:parameter_update_structure"]}
{"id": "C12", "title": "The reported objective is the user's objective", "statement": "For single-stage non-explicit code the reported obj_val equals the user's objective at the returned point: (solver objective + offset d(parameters)) with the sign flipped exactly for maximisation problems, with d always evaluated at the current parameter values even if it was not just updated.", "quantifier": "all parameter values, all histories, all affine offset maps (constant, parametric, zero), minimise/maximise", "why_tests_cant": "Needs all combinations of sign, zero/nonzero/parametric offset and staleness.", "anchors": ["cvxpygen/utils.py:write_solve_def (cpg_retrieve_info)", "cvxpygen/canonicalizer.py:_process_canonical_parameters (nonzero_d, is_maximization)"]}
{"id": "C13", "title": "Inequality rows have no lower bound, forever", "statement": "In QP form the lower bounds of all inequality rows are -1e30 (the C representation of -infinity) in the initial data and after any history of updates and solves.", "quantifier": "all QP-form problems, all histories", "why_tests_cant": "Invariant over unbounded histories.", "anchors": ["cvxpygen/solvers/_interface.py:augment_vector_parameter", "cvxpygen/utils.py:replace_inf", "cvxpygen/utils.py:write_canonicalize"]}
{"id": "C14", "title": "QP canonical data describe the same problem", "statement": "For every parameter value, the QP data computed by the generated code (P,q,d,A,l,u) describe the same optimisation problem as CVXPY's parametrised form: same objective value at every point, and a point satisfies l<=Ax<=u exactly if it satisfies CVXPY's equality rows (=0) and inequality rows (>=0).", "quantifier": "all CVXPY reduced tensors (well-formed), all parameter vectors, all points x, over any ordered commutative ring", "why_tests_cant": "Sign and row-selection errors hide in rows a test instance does not activate.", "anchors": ["cvxpygen/solvers/_interface.py:QPCanonMixin.get_affine_map", "cvxpygen/canonicalizer.py:_process_canonical_parameters"]}
{"id": "C15", "title": "Conic canonical data describe the same cone constraints", "statement": "For every parameter value, the conic data of SCS/Clarabel (A,b) and ECOS/QOCO (A,b,G,h) satisfy b - A x = CVXPY's equality residual and h - G x = CVXPY's conic residual row by row, so cone membership of the slack is preserved exactly.", "quantifier": "all CVXPY reduced tensors, all parameter vectors, all points, over any commutative ring", "why_tests_cant": "As C14.", "anchors": ["cvxpygen/solvers/_interface.py:SolverInterface.get_affine_map", "cvxpygen/canonicalizer.py:_process_canonical_parameters"]}
{"id": "C16", "title": "Compressed matrices keep every entry", "statement": "Dropping structurally zero entries when baking a matrix block yields a well-formed compressed-column matrix (monotone column pointers ending at the number of stored entries) that has, for every parameter value, exactly the same entries as before dropping; the split of one constraint matrix into equality and inequality parts keeps every entry exactly once at the right row.", "quantifier": "all sparsity patterns, all selections of structurally zero entries, all parameter vectors", "why_tests_cant": "Column-pointer recounting must be right for every pattern (empty columns, all-zero columns, last column).", "anchors": ["cvxpygen/canonicalizer.py:_set_default_values"]}
{"id": "C17", "title": "Right-hand sides are scattered to the right rows", "statement": "The dense right-hand-side map has the CVXPY row in each row that CVXPY stores and a zero row everywhere else, with the sign convention of the solver; a row is never lost or duplicated.", "quantifier": "all index patterns with distinct row indices", "why_tests_cant": "Depends on arbitrary index patterns.", "anchors": ["cvxpygen/canonicalizer.py:_update_to_dense_mapping"]}
{"id": "C18", "title": "Data baked at generation time agree with the generated code", "statement": "The canonical data baked into the C files (and into the pre-initialised OSQP workspace) equal what the generated canonicalization code computes from the baked parameter vector, so the first solve is correct even if no parameter was ever updated.", "quantifier": "all canonicalization data and generation-time parameter values", "why_tests_cant": "As C08.", "anchors": ["cvxpygen/canonicalizer.py:_set_default_values", "cvxpygen/utils.py:write_workspace_def"]}
{"id": "C19", "title": "Dual variables are read from the right place", "statement": "The dual vector of user constraint i is read from the solver's dual vector at the position where that constraint's rows start; with split duals equality constraints index the first vector and the others the second, each starting at 0; slices are disjoint, in range and cover the vector.", "quantifier": "all lists of canonical constraints (any sizes), any one-to-one correspondence between user and canonical constraints, split and unsplit", "why_tests_cant": "Offsets only go wrong for particular size mixes.", "anchors": ["cvxpygen/canonicalizer.py:_get_dual_variable_info"]}
{"id": "C20", "title": "Generation does not crash on constraint structure (split duals)", "statement": "Dual bookkeeping succeeds for every problem whose solver does not split duals, and for split duals exactly when there is at least one non-equality canonical constraint or no constraint at all; a problem with only equality constraints makes code generation with ECOS/QOCO/QOCOGEN raise IndexError.", "quantifier": "all constraint lists; concrete crash witness", "why_tests_cant": "Tests contain no equality-only problem for these solvers.", "anchors": ["cvxpygen/canonicalizer.py:_get_dual_variable_info (d_canon_offsets[n_split])"]}
{"id": "C21", "title": "Primal variables are read from the right place", "statement": "After cpg_solve() every user variable's result array holds, in column-major order, exactly the solver's primal entries at that variable's offset, for scalar, pointer-into-solution and copied variables alike; slices of different variables do not overlap.", "quantifier": "all lists of variables (any shapes), all offsets from prefix sums, statically and dynamically allocated solutions, all solution vectors", "why_tests_cant": "Depends on shapes and on which of three code paths is chosen.", "anchors": ["cvxpygen/canonicalizer.py:_get_primal_variable_info", "cvxpygen/utils.py:write_solve_def (cpg_retrieve_prim)", "cvxpygen/utils.py:write_workspace_def (CPG_Prim)"]}
{"id": "C22", "title": "Symmetric variables are reconstructed symmetrically", "statement": "For a symmetric n x n variable the retrieved array is a symmetric matrix whose (i,j) entry with i<=j is the packed upper-triangular entry of the solver's vector, and every packed entry is used.", "quantifier": "all n, all i,j<n, all solution vectors", "why_tests_cant": "Index formula must hold for all n.", "anchors": ["cvxpygen/canonicalizer.py:_get_primal_variable_info (upper_tri_to_full)"]}
{"id": "C23", "title": "Column-major flattening round-trips", "statement": "Flattening a matrix parameter in Python for the C interface and reshaping a flat C result in Python are mutually inverse, and entry (i,j) of an h x w matrix sits at position i + j*h.", "quantifier": "all shapes, all matrices", "why_tests_cant": "All shapes.", "anchors": ["cvxpygen/templates/cpg_solver.py.jinja2:get_param_value", "cvxpygen/templates/cpg_solver.py.jinja2:cpg_solve (reshape order F)", "README.md (column-major convention)"]}
{"id": "C24", "title": "Two-stage maps compose", "statement": "In two-stage mode the merged map from user parameters to the second-stage canonical data equals the second-stage map applied to the first-stage canonical data (with trailing 1), and the merged dependency lists are sound for the merged maps whenever both stages' lists are.", "quantifier": "all pairs of first- and second-stage canonicalizations with matching layout, all parameter vectors", "why_tests_cant": "Composition of arbitrary sparse maps.", "anchors": ["cvxpygen/canonicalizer.py:_merge", "cvxpygen/canonicalizer.py:_create_constant_map"]}
{"id": "C25", "title": "Two-stage mode and objective offsets", "statement": "Two-stage generation succeeds and reports the user's objective exactly when the first-stage offset d is identically zero: if a parameter enters the offset the merge raises KeyError, and if the offset is a nonzero constant the reported objective misses it.", "quantifier": "all first/second stage canonicalizations; concrete witnesses for both failures", "why_tests_cant": "No test covers two-stage mode.", "anchors": ["cvxpygen/canonicalizer.py:_merge", "cvxpygen/utils.py:write_solve_def (cpg_retrieve_info)"]}
{"id": "C26", "title": "Explicit mode clamps parameters", "statement": "In explicit mode every value stored by cpg_update lies within the declared bounds of that parameter entry (lower<=upper), equals the given value if that is in bounds, and after every entry has been updated at least once the whole parameter vector is in bounds whatever the initial values were. The declared bounds are those of the last upper and the last lower bound constraint per parameter (infinite if there is none); a constraint p == c counts as an upper bound only, so p is not clamped to c from below.", "quantifier": "all bounds with lower<=upper, all update histories, all values", "why_tests_cant": "All real values and all histories.", "anchors": ["cvxpygen/utils.py:write_solve_def (explicit update)"]}
{"id": "C27", "title": "Explicit mode: bounds on the reduced parameter are valid", "statement": "The box (thmin, thmax) used to build the lookup table contains every canonical (q,u) reachable from in-bounds parameters whenever no row of the (q,u) map mixes positive and negative parameter coefficients. Without this proviso it is false: for q = p1 - p2 the box collapses to a point, the component is eliminated as fixed, and the table is built for wrong data.", "quantifier": "all maps and bounds; concrete counterexample", "why_tests_cant": "Tests use maps with a single parameter per row.", "anchors": ["cvxpygen/solvers/pdaqp.py:_get_parameter_delta_bounds", "cvxpygen/solvers/pdaqp.py:generate_code (th_mask)"]}
{"id": "C28", "title": "Explicit mode: eliminating fixed parameters preserves the parametric QP", "statement": "For parameters within the computed box, the reduced QP data f + F*theta, b + B*theta with the reduced theta that the generated code assembles equal the original q and the u-entries of nonzero rows; the generated theta assembly picks exactly the components the table was built for, in the same order.", "quantifier": "all maps, masks and canonical data", "why_tests_cant": "Masks compose in two steps; order errors only show for particular patterns.", "anchors": ["cvxpygen/solvers/pdaqp.py:generate_code", "cvxpygen/utils.py:write_solve_def (Update theta)"]}
{"id": "C29", "title": "Explicit mode: duals reach their constraint", "statement": "With explicit duals, each stored dual vector is read at the rows of its own constraint and saved to its own constraint when all parameter-bound constraints come after all other constraints. Otherwise it is false: with a parameter bound listed first the dual of the second constraint is saved to the bound and read from rows that do not exist.", "quantifier": "all constraint lists; concrete counterexample", "why_tests_cant": "The test lists bounds last.", "anchors": ["cvxpygen/solvers/pdaqp.py:_get_parameter_delta_bounds (pop)", "cvxpygen/templates/cpg_solver.py.jinja2 (save_dual_value)", "cvxpygen/utils.py:solver_py_context"]}
{"id": "C30", "title": "Explicit mode: stored variable entries land in place", "statement": "For non-symmetric variables: when whole variables or lists of at least two distinct nonnegative indices are stored, each requested entry of the Python-side variable gets the solution value of exactly that entry and all others are zero, and generation succeeds iff for every k the k-th dropped variable (counting from 0) stands at a position i with i + k smaller than the number of variables; otherwise it raises IndexError. It is false for a single stored entry of a larger variable (it lands in entry 0, or is read out of bounds), for negative indices (the neighbouring variable is read) and for symmetric variables.", "quantifier": "all variable lists, all selections; concrete counterexamples", "why_tests_cant": "Tests store entry 0 first.", "anchors": ["cvxpygen/solvers/pdaqp.py:generate_code (stored_vars)", "cvxpygen/utils.py:write_module_def (solve_cpp)"]}
{"id": "C31", "title": "Explicit gradient is the exact adjoint", "statement": "In explicit mode the parameter gradient returned by cpg_gradient() is the adjoint of the affine law of the active region composed with canonicalization: <dparam, delta> = <dx, feedback*theta-map*delta> for every direction delta; it depends only on the region and dx passed, not on earlier calls. This holds when every variable is stored at least in part and a solve (or an explicit region) precedes the call. When a variable is dropped from storage the loop runs past the feedback table, and before any solve the region is -1.", "quantifier": "all feedback tables, regions, masks, maps, directions, histories, over any commutative ring", "why_tests_cant": "Adjointness is a statement about all directions.", "anchors": ["cvxpygen/writer.py:_write_gradient_explicit"]}
{"id": "C32", "title": "Explicit objective", "statement": "cpg_obj() in explicit mode returns the canonical quadratic without offset and sign (evaluated on the full canonical solution): for a minimisation this is the user's objective iff the offset is zero, for a maximisation iff twice the returned value plus the offset is zero.", "quantifier": "all canonical data and solutions; concrete counterexample", "why_tests_cant": "No test calls cpg_obj on a problem with offset.", "anchors": ["cvxpygen/utils.py:write_solve_def (cpg_obj)"]}
{"id": "C33", "title": "Parameter gradients are the adjoint of canonicalization", "statement": "The parameter gradient accumulated by cpg_gradient() equals the adjoint of the canonicalization maps applied to the data gradients (dq, dl, du, dP, dA): for every parameter direction delta, <dparam,delta> = sum over blocks <dblock, map*delta>.", "quantifier": "all maps, data gradients and directions, over any field", "why_tests_cant": "Adjointness for all directions.", "anchors": ["cvxpygen/writer.py:_write_gradient_def"]}
{"id": "C34", "title": "Active-set bookkeeping", "statement": "After each gradient call the constraint marked active are exactly those with |dual| above the tolerance, whatever the previous marking; the sign recorded for an already-active constraint may be wrong, but the resulting parameter gradient is unaffected because lower and upper bound maps coincide on equality rows and inequality rows have nonnegative duals.", "quantifier": "all histories of duals, all previous markings, all maps of QP form; concrete wrong-sign witness", "why_tests_cant": "History dependent.", "anchors": ["cvxpygen/templates/cpg_osqp_grad_compute.c.jinja2:cpg_osqp_gradient"]}
{"id": "C35", "title": "The gradient's KKT matrix is fresh", "statement": "For every history of Python-level solve and gradient calls, the KKT matrix used by a gradient call is built from the matrix data of the latest solve. Through the C API this is false: update, gradient, solve, gradient uses the old matrix in the second gradient.", "quantifier": "all histories at Python level; concrete C-level counterexample", "why_tests_cant": "History dependent.", "anchors": ["cvxpygen/writer.py:_write_gradient_def", "cvxpygen/utils.py:write_solve_def (Canon_Outdated_Grad)"]}
{"id": "C36", "title": "Backward passes can be delayed", "statement": "backward() for an earlier forward() gives the same parameter gradient as if called immediately after it, for any number of other forwards/backwards in between, provided the KKT matrices do not depend on parameters (and always in explicit mode). With parametric matrices it is false: the KKT matrix of the latest forward is used.", "quantifier": "all interleavings of forwards and backwards; concrete counterexample", "why_tests_cant": "Batch interleavings are unbounded.", "anchors": ["cvxpygen/templates/cpg_solver.py.jinja2:forward, backward", "cvxpygen/utils.py:write_module_def (gradient_cpp)"]}
{"id": "C37", "title": "Rank-one factor update is exact", "statement": "The in-place rank-one modification of an LDL^T factorisation yields a unit lower triangular factor and diagonal with L'D'L'^T = LDL^T + sigma*w*w^T on the trailing block, whenever no division by zero occurs and the pattern of L already holds the fill-in (w's entries propagate only along stored entries); without that pattern condition the result is wrong.", "quantifier": "all sizes, factors, vectors, signs, start indices, over any field", "why_tests_cant": "Numerical tests check one factorisation with tolerance.", "anchors": ["cvxpygen/templates/cpg_osqp_grad_compute.c.jinja2:cpg_rank_1_update"]}
{"id": "C38", "title": "Activating and deactivating constraints keeps the factorisation correct", "statement": "Starting from a factorisation of the full KKT matrix, any sequence of constraint deactivations and activations maintains LDL^T = the KKT matrix with the rows and columns of inactive constraints replaced by -identity rows.", "quantifier": "all sizes, matrices, sequences (no zero pivot), over any field with the needed square roots", "why_tests_cant": "Unbounded sequences.", "anchors": ["cvxpygen/templates/cpg_osqp_grad_compute.c.jinja2:cpg_ldl_delete", "cvxpygen/templates/cpg_osqp_grad_compute.c.jinja2:cpg_ldl_add"]}
{"id": "C39", "title": "Sparse insertion keeps the matrix", "statement": "Inserting an entry into the compressed lower-triangular factor keeps row indices sorted in every column and column pointers consistent, sets exactly the requested entry and leaves all others unchanged; an entry already present is overwritten (value insertion) or left alone (symbolic insertion).", "quantifier": "all well-formed matrices, all positions and values", "why_tests_cant": "Binary search and shifting must be right for all patterns.", "anchors": ["cvxpygen/templates/cpg_osqp_grad_compute.c.jinja2:insert_nonzero", "cvxpygen/templates/cpg_osqp_grad_compute.c.jinja2:insert_nonzero_and_value", "cvxpygen/templates/cpg_osqp_grad_compute.c.jinja2:remove_nonzero"]}
{"id": "C40", "title": "Triangular index formula is a bijection", "statement": "The index (2N-3-col)*col/2+row-1 used for the fill-in mask maps strictly lower-triangular positions one-to-one onto 0..N(N-1)/2-1 and the division is exact; hence distinct positions never share a flag and every access is in bounds: after the first factorization exactly the stored entries are newly flagged, and the fill-in pass flags exactly the pairs of rows of the column, stores those not flagged before with value 0, and changes no matrix entry.", "quantifier": "all N, all positions", "why_tests_cant": "All sizes.", "anchors": ["cvxpygen/templates/cpg_osqp_grad_compute.c.jinja2:Lmask accesses", "cvxpygen/utils.py:write_L_def"]}
{"id": "C41", "title": "KKT matrix refresh", "statement": "After the generated P-to-K and A-to-K copies, the two KKT matrices equal [P+eps*I, A^T; A, -eps*I] (upper part) and [P, A^T; A, 0]-type true matrix for the current P and A, whatever they contained before.", "quantifier": "all P (upper triangular with stored pattern), A, previous contents with the right pattern", "why_tests_cant": "All patterns.", "anchors": ["cvxpygen/templates/cpg_osqp_grad_compute.c.jinja2:cpg_P_to_K, cpg_A_to_K", "cvxpygen/writer.py:_write_gradient_workspace_def"]}
{"id": "C42", "title": "Gradients of symmetric variables", "statement": "cpg_update_d<var>(idx,val) writes the derivative to the canonical entry the variable entry was retrieved from, for every non-symmetric variable. For symmetric variables of size >= 2 it is false: distinct entries are written to positions outside the variable's packed range.", "quantifier": "all variable lists; concrete counterexample", "why_tests_cant": "No test differentiates through a symmetric variable.", "anchors": ["cvxpygen/writer.py:_write_gradient_def (cpg_update_d)", "cvxpygen/canonicalizer.py:_get_primal_variable_info"]}
{"id": "C43", "title": "Factor storage never overflows", "statement": "The storage for the sparse factor is large enough for every sequence of insertions of strictly lower-triangular entries.", "quantifier": "all N, all insertion sequences", "why_tests_cant": "Unbounded sequences.", "anchors": ["cvxpygen/utils.py:write_L_def", "cvxpygen/templates/cpg_osqp_grad_compute.c.jinja2:insert_nonzero"]}
{"id": "C44", "title": "Solver selection", "statement": "Solver names are matched case-insensitively against the supported list and anything else is rejected with ValueError; 'explicit' in any case selects explicit mode (with duals iff solver_opts['dual']). Gradients take the two-stage path exactly when the mode is not explicit and the solver name is not literally 'OSQP'. Omitting the solver (the documented default) is false: it raises AttributeError; and lower-case 'osqp' with gradient=True selects the two-stage path instead of the direct one.", "quantifier": "all solver strings and options; concrete counterexamples", "why_tests_cant": "All strings.", "anchors": ["cvxpygen/generator.py:_resolve_solver", "cvxpygen/generator.py:generate", "cvxpygen/canonicalizer.py:_get_interface_class"]}
{"id": "C45", "title": "Failed generation leaves existing output alone", "statement": "If generation fails because of the problem or the solver choice (unsupported solver, not DPP, no parameters, unsupported cones), an existing code directory is untouched. In explicit mode this is false: non-constant matrices or non-simple parameter bounds are detected only after the directory has been deleted.", "quantifier": "all problems and previous directory contents; concrete counterexample", "why_tests_cant": "Tests do not check the directory after failures.", "anchors": ["cvxpygen/generator.py:generate", "cvxpygen/generator.py:_setup_folder", "cvxpygen/solvers/pdaqp.py:generate_code"]}
{"id": "C46", "title": "Generations in one process are independent", "statement": "The update code generated for a problem does not depend on which problems were generated before in the same process, for OSQP, ECOS, Clarabel, QOCO and QOCOGEN. For SCS it is false: generating an LP first permanently removes P from the shared update table, so a later QP's changes of P never reach the solver. Settings enabled once through enable_settings stay enabled for later generations of the same solver.", "quantifier": "all sequences of generations; concrete counterexamples", "why_tests_cant": "Tests generate one problem per solver per process or with the same settings.", "anchors": ["cvxpygen/utils.py:write_update_structure (parameters_outdated.remove)", "cvxpygen/solvers/scs.py:parameter_update_structure (class attribute)", "cvxpygen/solvers/_interface.py:configure_settings"]}
{"id": "C47", "title": "Prefixes give valid, distinct namespaces", "statement": "For every prefix made of letters, digits and underscores the generated identifier prefix is empty or a valid start of a C identifier, the mapping is injective, and identifiers of two problems whose generated prefixes are not string-prefixes of each other never coincide.", "quantifier": "all prefixes, all base identifiers", "why_tests_cant": "All strings.", "anchors": ["cvxpygen/generator.py:_build_config"]}
{"id": "C48", "title": "Number literals", "statement": "A finite value written into the C files with 20 decimals differs from the original by at most 0.5e-20, values with at most 20 binary fraction digits are exact, and values smaller than 0.5e-20 in magnitude become zero. Hence every double of magnitude at least 2^-13 is read back exactly by a correctly rounding compiler, while smaller doubles can change. Arrays, sparse and dense matrices read back with the declared length and order.", "quantifier": "all rational (hence all finite double) values", "why_tests_cant": "All values.", "anchors": ["cvxpygen/utils.py:write_vec_def", "cvxpygen/utils.py:write_mat_def"]}
{"id": "C49", "title": "Infinities", "statement": "Infinite canonical data become +-1e30 with the right sign, finite data are unchanged, the operation is idempotent, and on the way back an objective of +-1e30 is reported as +-infinity. Values that do not pass through the replacement (parameter values, parameter bounds, objective offset) and are infinite end up in the files as text that is no C number.", "quantifier": "all data vectors and objective values", "why_tests_cant": "All values.", "anchors": ["cvxpygen/utils.py:replace_inf", "cvxpygen/templates/cpg_solver.py.jinja2:cpg_solve"]}
{"id": "C50", "title": "Solver settings are per call", "statement": "At every Python solve call the settings in effect are the defaults overridden by the keyword arguments of that call, independent of earlier calls, for solvers that read the settings at every solve (OSQP, ECOS, Clarabel, QOCO, QOCOGEN). For SCS, which copies settings when its workspace is created, it is false: a changed setting is ignored unless the workspace is rebuilt.", "quantifier": "all histories of solve calls with arbitrary settings; concrete counterexample for SCS", "why_tests_cant": "Tests pass at most one setting once.", "anchors": ["cvxpygen/utils.py:write_solve_def (settings)", "cvxpygen/templates/cpg_solver.py.jinja2:cpg_solve", "cvxpygen/solvers/scs.py:parameter_update_structure"]}
{"id": "C51", "title": "Rejected solve calls change nothing", "statement": "A Python solve call that raises AttributeError (unknown name in updated_params or unknown setting) leaves parameters and problem data untouched, and every later call behaves as if the rejected call had not happened.", "quantifier": "all histories with rejected calls anywhere", "why_tests_cant": "Failure points are unbounded.", "anchors": ["cvxpygen/templates/cpg_solver.py.jinja2:cpg_solve"]}
{"id": "C52", "title": "Generated C identifiers", "statement": "The global identifiers defined by generated single-stage code are pairwise distinct, and different from everything else the headers declare and from the solver identifiers the code refers to, when vector variables avoid a stated list of leading strings and words (d0, d1, ... included; without prefix also the globals n, N, ... of the gradient code and the solver's own names) and, with gradients, no parameter is called d followed by a variable name; each of these restrictions is needed (for instance a vector variable A with Clarabel, d0 with ECOS, a symmetric variable N with OSQP gradients, a symmetric variable solver with OSQP, parameter dx next to variable x). Single-stage code refers only to identifiers it defines or the solver provides, except that the example program of prefixed gradient code and SCS code for empty blocks refer to undefined names. Two-stage gradient code always refers to workspace identifiers that no generated file defines. Programs with independent prefixes share no prefixed identifier, but two gradient programs always share the unprefixed helper functions.", "quantifier": "all variable/parameter name lists; concrete counterexamples", "why_tests_cant": "All names.", "anchors": ["cvxpygen/utils.py:write_workspace_def", "cvxpygen/solvers/clarabel.py:define_workspace", "cvxpygen/writer.py:_write_gradient_def", "cvxpygen/writer.py:_write_gradient_workspace_def"]}
{"id": "C53", "title": "Clarabel cone list", "statement": "The declared number of cones equals the length of the cone list and the cones partition the rows in CVXPY's order whenever there is no exponential cone together with second-order or semidefinite cones and at most one exponential cone. Otherwise it is false: with two exponential cones the declared array is too short, and with exponential and second-order cones the order differs from CVXPY's row order.", "quantifier": "all cone dimensions; concrete counterexamples", "why_tests_cant": "Tests use LPs and SOCPs only.", "anchors": ["cvxpygen/solvers/clarabel.py:ClarabelInterface.__init__", "cvxpygen/solvers/clarabel.py:define_workspace"]}
{"id": "C54", "title": "Two-stage generation and parameter values", "statement": "For a first stage produced by the generator and any second stage whose parameters are those of the OSQP problem built from it, merging succeeds exactly when no stored entry of A is zero at the parameter values present during generation and no user parameter enters a block other than q, A, l, u; a zero entry makes it raise ValueError (the stacked map and the second-stage map then have different sizes), so generation depends on the momentary parameter values.", "quantifier": "all first stages, all second stages with that layout", "why_tests_cant": "Depends on generation-time values of parameters.", "anchors": ["cvxpygen/canonicalizer.py:_get_osqp_problem", "cvxpygen/canonicalizer.py:_merge"]}
{"id": "C55", "title": "Explicit objective sees only the stored entries", "statement": "In explicit mode cpg_obj() reads the stored solution positionally. When nothing is selected and the variables cover the canonical vector in its order, what it reads is the canonical solution; with another storing order or with auxiliary canonical variables it evaluates the objective at a permuted or truncated vector.", "quantifier": "all variable layouts and solutions; concrete counterexamples", "why_tests_cant": "Tests never call cpg_obj with a selection of stored variables.", "anchors": ["cvxpygen/utils.py:write_solve_def (cpg_obj)", "cvxpygen/solvers/pdaqp.py:generate_code (out_inds)"]}
{"id": "C56", "title": "Cone descriptions of SCS, ECOS and QOCO", "statement": "The SCS interface accepts exactly the cone dimensions that its zero/nonnegative/second-order description covers row by row in CVXPY's order and rejects the others. For ECOS, QOCO and QOCOGEN this holds when CVXPY offers no semidefinite or power cones; their own check does not look at those, so by itself it accepts dimensions it does not describe.", "quantifier": "all cone dimensions; concrete counterexample", "why_tests_cant": "All combinations of cones.", "anchors": ["cvxpygen/solvers/scs.py:check_unsupported_cones", "cvxpygen/solvers/ecos.py:check_unsupported_cones", "cvxpygen/solvers/qoco.py:check_unsupported_cones"]}
{"id": "C57", "title": "Gradients of convex problems never break down", "statement": "For a QP whose objective is convex at the parameter values in force, every gradient call of every history of Python-level solves and gradients completes, whichever constraints become active or inactive and in whatever order: no division by zero and no root of a negative number, because with any active set every pivot of the regularised KKT matrix is positive for a variable and negative for a constraint. Without convexity a gradient call can divide by zero.", "quantifier": "all histories, all convex problem data, all active sets, exact arithmetic in any ordered field with roots of positive numbers; concrete counterexample without convexity", "why_tests_cant": "Tests exercise a few active-set changes; breakdown depends on the order of activations.", "anchors": ["cvxpygen/templates/cpg_osqp_grad_compute.c.jinja2:cpg_ldl_delete, cpg_ldl_add, cpg_rank_1_update", "cvxpygen/writer.py:_write_gradient_def"]}
{"id": "C58", "title": "Gradients are derivatives of the solution map", "statement": "For one-stage gradient code of a QP whose objective has no products of different variables: after any history of Python-level solves and gradient calls, each returned parameter gradient is the derivative of the weighted solution. Along every direction of the parameters and every differentiable family of optimal points that is strictly complementary (equality duals nonzero) and starts at the reported solution, the derivative of sum_j dx_j x_j equals the inner product of the gradient with the direction, up to a term of size eps^4 (eps the regularisation) left by the three refinement steps. It is false for an equality constraint whose dual is zero (treated as absent) and for objectives with products of different variables (error not small in eps).", "quantifier": "all histories, problem data, directions and solution families over the reals; first-order identity over any field; two concrete counterexamples", "why_tests_cant": "Tests compare with finite differences at a few points; a wrong sign or missing term cancels easily.", "anchors": ["cvxpygen/templates/cpg_osqp_grad_compute.c.jinja2:cpg_osqp_gradient", "cvxpygen/writer.py:_write_gradient_def"]}
{"id": "C59", "title": "Update calls send only what is outdated", "statement": "After any history ending with a solve and some parameter updates since, every call in the next solve's update code hands to the solver (or copies for it) only data blocks that depend on a parameter written since that solve; SCS and ECOS may instead take over everything when one of their triggering blocks (P, A; A, b, G) is outdated. This holds under the same condition on the change pattern as the silence of idle solves (C11). A block may be sent more than once: OSQP gets u twice when q, l, u all depend on parameters and only u is outdated.", "quantifier": "all histories, solvers, change patterns and set orders; concrete witness for the repetition", "why_tests_cant": "Superfluous matrix updates trigger refactorisations; tests only look at results.", "anchors": ["cvxpygen/utils.py:analyze_pus, write_update_structure", "cvxpygen/solvers/osqp.py", "cvxpygen/solvers/scs.py", "cvxpygen/solvers/ecos.py"]}
{"id": "C60", "title": "Gradient calls on the user's arrays", "statement": "A history of Python-level solves and gradient calls of a convex QP (no symmetric variables, no products of different variables in the objective) with gradients in the shapes of their variables always completes, and stores one array per parameter in the parameter's shape. Along every direction of the parameters and every differentiable, strictly complementary family of optimal points starting at the reported solution, the derivative of the sum over all variables and multi-indices of (variable gradient * value) is the sum over all parameters and multi-indices of (stored gradient * direction), up to a term of size eps^4. Entry idx of the k-th parameter is entry (total size of the parameters before it + column-major position of idx) of the computed vector. A gradient of the wrong size is refused with TypeError; a parameter with fewer entries in the parameter vector than in its shape (diag, sparse) makes every gradient call raise ValueError.", "quantifier": "all histories, shapes, variable and parameter layouts, directions and solution families over the reals; entry layout and errors over any field", "why_tests_cant": "Index mix-ups between Fortran order, offsets and names survive tests with scalar or vector parameters.", "anchors": ["cvxpygen/templates/cpg_solver.py.jinja2:cpg_gradient", "cvxpygen/utils.py:write_module_def (gradient_cpp), write_workspace_def (cpg_dp, CPG_Delta)", "cvxpygen/canonicalizer.py:_get_parameter_info"]}
{"id": "C61", "title": "Results of two-stage programs", "statement": "For every KKT point (x, lam, mu) of the problem that a two-stage program gives to the solver (diagonal P = s*s), the intermediate solution x, y with y_i = mu_i - lam_i on rows with a lower bound and y_i = mu_i elsewhere is a KKT point of the OSQP problem, every such point arises this way, and over the reals it is an optimal point in the sense of the gradient property (C58). The retrieval code computes exactly this y from the solver's vectors for every solver and layout. User variables and duals that are stored by pointer (static solvers, neither scalar nor symmetric) are right. Copied ones are not in general: cpg_retrieve_prim/cpg_retrieve_dual read the solver's own vectors at the first stage's positions, so variables are right only if osqp_x is at offset 0, duals hold other entries of the solver's y, and reading beyond that vector happens whenever it is shorter. If the second stage needs no retrieval function but the user has a scalar or symmetric variable, the code calls a function that is not defined.", "quantifier": "all ordered rings, problem sizes, solvers, variable and constraint layouts, solver answers; concrete counterexamples", "why_tests_cant": "Tests check gradients of two-stage programs, not the stored variables and duals for each solver.", "anchors": ["cvxpygen/writer.py:_write_workspace, _write_solve, _write_gradient_def", "cvxpygen/canonicalizer.py:_get_osqp_problem, _merge", "cvxpygen/utils.py:write_solve_def, write_workspace_def"]}
{"id": "C62", "title": "The generated C example program", "statement": "cpg_example.c is written unless some parameter has no entries (then IndexError). It type-checks against the generated headers exactly if there is no gradient code, or the prefix is empty and no variable is a scalar. Its update calls write into the first entry of every parameter the value it had at generation, so its solve gets the problem data of the generation-time parameter values. Without gradient code it prints the objective value and then, entry by entry in column-major order, exactly what the Python wrapper stores in the variables and dual variables. With gradient code it prints the same lines followed by all entries of the parameters' gradients. In explicit mode with only some entries of a variable stored it reads beyond the solution array or prints entries under the wrong index, while the Python wrapper is right.", "quantifier": "all prefixes, parameters, variables, duals, solvers and solver answers; number literals are required to read back exactly (C48); concrete counterexamples", "why_tests_cant": "The example is only compiled by hand; no test runs it.", "anchors": ["cvxpygen/templates/cpg_example.c.jinja2", "cvxpygen/utils.py:example_c_context, write_workspace_prot, write_solve_prot", "cvxpygen/writer.py:_write_gradient_prot"]}
{"id": "C63", "title": "Parameter arrays reach the solver", "statement": "Calls of the generated Python solve method on the arrays in the CVXPY parameters (plain, diag or sparse): no call raises and every solve gets the problem data at the entries of CVXPY's parameter vector for the arrays of that call (column-major; the diagonal; the stored entries in their order), if every parameter has at least one entry, none has exactly one entry while its array has another size, each call lists at least the parameters whose arrays changed, and names and settings are known. A parameter with one stored entry in a larger array makes every call raise TypeError although the module compiles; a parameter with no entries makes the C++ module not compile; a parameter without a value raises TypeError (size 1), ValueError (diag) or AttributeError.", "quantifier": "all parameter layouts, histories of arrays, solvers, settings; concrete witness for the single stored entry", "why_tests_cant": "A diag or sparse parameter passed in the wrong order solves another problem without any error.", "anchors": ["cvxpygen/templates/cpg_solver.py.jinja2:cpg_solve, standardize_updated_params, get_param_value", "cvxpygen/templates/cpg_module.hpp.jinja2", "cvxpygen/utils.py:write_module_def"]}
{"id": "C64", "title": "Solutions of the user's problem end to end", "statement": "Take any session of calls of the generated Python method (arrays as in C63, settings, updated_params listing at least what changed), any leftovers in the result structs, and a solver whose answer to a call is a minimiser of the data it got (OSQP: bounds beyond +-1e30 count as absent; conic solvers: any product cone) whenever there is one. Then after each call the user's variables hold an optimal point of the user's problem at the arrays of that call, whenever that problem has one, and the value is its objective (minimised or maximised); an objective of exactly -1e30 or 1e30 is reported as infinite. If the solver answers with a KKT point of its data, the user's variables and duals hold a KKT point of the user's problem, with QP equality multipliers counted positive and all others negative. Right-hand sides of OSQP problems must be below 1e30 in absolute value; the exceptions of C03, C20 and C63 are excluded.", "quantifier": "all problem data, variables, constraints, parameters, solvers, histories, solver answers over any ordered ring; cones and dual cones arbitrary", "why_tests_cant": "Each step is tested alone or on a few instances; only the composition says that the user gets a solution of their problem.", "anchors": ["cvxpygen/canonicalizer.py:_extract", "cvxpygen/utils.py:write_solve_def", "cvxpygen/templates/cpg_solver.py.jinja2:cpg_solve"]}
{"id": "C65", "title": "Explicit mode end to end", "statement": "In explicit mode (PDAQP), generation succeeds exactly if neither P nor A depends on parameters and is refused with a ValueError otherwise, so P and A of the user's problem are the same for all values. Suppose the offline table answers every theta in its box with a minimiser of the parametric QP that MPQP was given, whenever there is one. Then in any session of calls (arrays as in C63; keyword settings are ignored) each call stores in the user's variables the requested entries, and zeros elsewhere, of an optimal point of the user's problem at the values of the call limited to the declared bounds, where 0.5e-6*|y|^2 is added to the (minimised) objective; no feasible point beats it by more than 0.5e-6*(|y'|^2-|y|^2). With explicit=2, tables that give KKT points and bounds declared last, variables and duals are a KKT point of the same problem. Among the equality rows none without variables (e.g. p == 2) may come before one with: the positions passed to MPQP are counted before such rows are removed, so another row is made an equality. The exceptions of C26, C27, C29 and C30 are excluded.", "quantifier": "all problem data, variables, constraints, bounds, selections, histories and tables over any ordered ring; any regularisation weight", "why_tests_cant": "The pieces (bounds, box, reduction, table output, stored entries) are proved separately; only their composition says that the value the user reads solves their problem, and it exposes the wrong equality indices.", "anchors": ["cvxpygen/solvers/pdaqp.py:generate_code", "cvxpygen/utils.py:write_solve_def", "cvxpygen/templates/cpg_solver.py.jinja2:cpg_solve"]}
{"id": "C66", "title": "Entries requested for storage", "statement": "The explicit solver's option stored_vars lists variables and index expressions. For variables that occur once, and expressions that are a list of distinct nonnegative indices into a vector or, for matrices and higher arrays, a tuple of integers, slices (positive step) and lists of distinct nonnegative indices (one key per axis as soon as there is a list), selecting at least two entries (or the variable's only one): every entry that the expression denotes in NumPy's sense holds its solution value after a solve; unless two lists of several entries are combined, all other entries are zero. Slices and integers on vectors are refused with TypeError; a negative number in a list, or a list with fewer keys than axes, with ValueError. The following are false: X[[0,1]] on a matrix stores one entry (0,1) instead of rows 0 and 1; truth-value lists are taken as indices 0 and 1; a variable listed twice gets wrong values; X[[0,1],[0,2]] stores the full product (four entries instead of two); an empty selection stores everything.", "quantifier": "all variables, shapes of any dimension, keys, item lists and solutions", "why_tests_cant": "stored_vars is the documented way to make explicit code smaller, and wrongly computed indices silently give wrong values.", "anchors": ["cvxpygen/solvers/pdaqp.py:generate_code"]}
{"id": "C67", "title": "Forward and backward calls of layers", "statement": "OSQP with gradients. For any sequence of forward and backward calls of any number of contexts (each listing parameters and all variables of the problem in any order; backward only after forward): forward returns, in the order of the context's variables, their entries of the solution; every backward call returns, in the order of the context's parameters, the gradient at the solution of the context's own last forward call, for the derivatives it was passed, of the problem with the parameter values of the latest forward call of any context - hence of its own problem whenever P and A are the same at both. No call raises. The following are false: the same without equal P and A; a context that lists only some variables (the derivative another context set is used for the others); if no context lists some variable, no session with a backward call completes.", "quantifier": "all problems, contexts, histories, solver answers and derivatives over the reals; all fields for the missing-variable part; concrete counterexamples", "why_tests_cant": "Layers interleave forward and backward calls of batches and several layers; tests run one forward followed by one backward.", "anchors": ["cvxpygen/templates/cpg_solver.py.jinja2:forward, backward, cpg_gradient, get_param_value", "cvxpygen/utils.py:solver_py_context"]}
{"id": "C68", "title": "Registered solve methods", "statement": "With wrapper=True, generate_code makes problem.solve(method='CPG') run the code generated for that problem, if the directory name is a Python identifier unused in the interpreter (not loaded, not built in, not found on sys.path before the current directory), was not used by an earlier generation in this process, and the code compiles. In every session of generations in one directory, each problem gets exactly the code of the first loaded generation with its directory name; only a failed compilation of a name not loaded before raises ImportError, and methods registered for other problems never change. Whenever a problem gets text and extension of its own generation, the directory name is an identifier. The following are false: a second generation into the same directory (e.g. the default one) is used - the problem silently runs the code of the first, also if the new code does not compile or was written elsewhere; subdirectories, absolute paths, names with hyphens or dots, and names of loaded modules work - the call fails after the code has been written. Generating into '.' deletes everything in the current directory and then fails.", "quantifier": "all interpreter states, file systems, sequences of generations, directory names (ASCII) and compilation outcomes; concrete counterexamples", "why_tests_cant": "Tests use a new directory name for every generation.", "anchors": ["cvxpygen/compiler.py:compile, register", "cvxpygen/generator.py:_setup_folder, _run_compilation, generate", "cvxpygen/utils.py:solver_py_context", "cvxpygen/templates/cpg_solver.py.jinja2"]}
{"id": "C69", "title": "Struct types and several programs in one C file", "statement": "Every struct written into cpg_workspace.c is declared in cpg_workspace.h, gives each member at most one value, only values its type accepts, and leaves no member out (except A, and P with reduced variables, in explicit mode); every declared struct other than the settings is written. A C file that includes the headers of several programs knows the types of the first one only; it is accepted exactly if the first header defines the dual, info and settings struct types the others declare. For programs that are not explicit, such a file reads the primal values, dual values and parameter gradients of a later program correctly exactly if these are, in name, order and kind (number or array), the first ones of the first program; the objective value exactly if both or neither have constraints; all solver information exactly if in addition the solvers belong to the same group (OSQP/SCS, Clarabel, others). Programs of the same form read everything correctly in every mode. False: prefixes suffice to use several problems together - swapping two variables silently yields the other variable; the header of two-stage gradient code can be included only once; two programs never configure in one CMake project. The cast of cpg_csc to the gradient code's matrix type preserves the index arrays except with Clarabel, where it never does if the first column has an entry.", "quantifier": "all programs (solvers, modes, variables, constraints, parameters), all lists of included headers; concrete counterexamples", "why_tests_cant": "Tests build every program separately and use it through Python.", "anchors": ["cvxpygen/utils.py:write_workspace_prot, write_workspace_def, write_struct_def", "cvxpygen/writer.py:_write_gradient_def", "cvxpygen/templates/cpg_osqp_grad_workspace.h.jinja2", "cvxpygen/templates/CMakeLists.txt.jinja2"]}
{"id": "C70", "title": "Generated files, build lists and include lines", "statement": "A generation completes exactly if the solver's repository (or code generator) has the files it copies or edits, and otherwise stops with FileNotFoundError. Afterwards the directory holds exactly these files: outside solver_code and osqp_code each file is what one writer function or template produced; inside them the solver's files with the listed changes in order. CMakeLists.txt names every generated header and source exactly once and no other, the library being everything but the example, and the extension module is built from its one source. Every include line met when compiling the library, the example or the extension module finds the generated header of that name, a header in solver_code, or is a system header - except in two-stage gradient programs the line for qdldl.h: it is never answered by osqp_code, whose QDLDL is compiled, but by a file of the other solver, and not at all if that has none. Through these lines every source reads the generated headers declaring what it uses and every header of the solver (for OSQP also that of its workspace). False: two-stage programs always find the header of QDLDL (ECOS: not found; QOCO: its own copy); the licence of QOCO copied to the top of the directory stays there (cvxpygen's own replaces it).", "quantifier": "all configurations, all contents of the solver repositories and generated solver code; concrete counterexamples", "why_tests_cant": "Tests compile a few configurations on one machine; which file an include line reaches is not checked.", "anchors": ["cvxpygen/generator.py:_setup_folder, _run_solver_code_generation", "cvxpygen/writer.py:write, _update_cmake", "cvxpygen/solvers/*.py:generate_code, cmake_context_extra, setup_py_context", "cvxpygen/templates/CMakeLists.txt.jinja2", "cvxpygen/templates/setup.py.jinja2", "cvxpygen/templates/cpg_osqp_grad_compute.c.jinja2"]}
{"id": "C71", "title": "Forward and backward calls of layers in explicit mode", "statement": "In any sequence of forward and backward calls of explicit-mode layers of one problem (contexts in any interleaving; a backward call after a forward call of its context) every call succeeds; every forward call returns, in the order of the context's variables, the requested entries of the law of the region at the parameter values it was given (and for other parameters those given before), limited to the declared bounds; every backward call returns, in the order of the context's parameters, the gradient of the law of the region of its own context's latest forward call, whatever calls came in between: derivative times change of the variables equals gradient times change of the parameters for any two parameter values. So two forward calls within the bounds in the same region differ exactly as the gradient says. A stored variable that no context returns makes every backward call fail. False: outside the bounds the gradient is that of what forward returns (forward is constant there, the gradient is not 0); a context that returns only some of the variables gets the gradient for its own derivatives (it also uses those last given in another context).", "quantifier": "all problems, bounds, tables, contexts and call sequences, over any ordered field; concrete counterexamples", "why_tests_cant": "Explicit-mode layers are tested on single calls inside the bounds.", "anchors": ["cvxpygen/templates/cpg_solver.py.jinja2:forward, backward, cpg_gradient", "cvxpygen/writer.py:_write_gradient_explicit", "cvxpygen/utils.py:write_module_def", "cvxpygen/solvers/pdaqp.py"]}
{"id": "C72", "title": "The Python binding compiles, and solve and gradient hand over exactly what they are given", "statement": "For every configuration of the generated pybind11 module: cpg_module.cpp compiles against the generated headers exactly if every parameter, variable and dual variable name is an identifier C++ does not reserve, no parameter is empty, no variable (outside explicit mode) and no returned dual variable is empty, and gradient code is not two-stage; every module function, class and attribute cpg_solver.py uses is registered. solve(upd, par) calls, in order, the update function for every entry of every flagged parameter with its index and value and for no other, then cpg_solve once, and returns in each field exactly the entries the C program then holds (0 for entries explicit mode does not store), with the info fields of the mode; if a call fails it fails. With the functions of a generated program this is the update and solve sequence the wrapper model assumes. gradient writes the given canonical solution (or region) exactly if use_sol, hands over every entry (explicit mode: every stored entry, with the index it is stored under) of every derivative, calls cpg_gradient once and returns CPG_Delta. False: gradient code for solvers other than OSQP compiles with wrapper=True (it never does: sol_x, sol_y are not declared); empty parameters or parameters named like C++ keywords compile; a module that compiles can be used from cpg_solver.py (parameter named lambda).", "quantifier": "all names, sizes, index maps, modes, C programs and states; concrete counterexamples", "why_tests_cant": "The tests build the binding only for OSQP gradients and harmless names.", "anchors": ["cvxpygen/utils.py:write_module_def, module_hpp_context", "cvxpygen/templates/cpg_module.hpp.jinja2", "cvxpygen/templates/cpg_solver.py.jinja2:cpg_solve, cpg_gradient", "cvxpygen/writer.py:_write_gradient_prot"]}
{"id": "C73", "title": "Edits of the solvers' own files change exactly the expected texts", "statement": "For every content of the files taken from the solvers' repositories or generators: a replacement puts the new text at the occurrences found from the left and changes nothing else (this division of the text exists and is unique), cut_from_expr keeps the text before the first occurrence, and no edit ever fails: a file without the expected text is left as it is. SCS: exactly the space-separated words (not the first) that begin with include/, src/ or ${LINSYS}/ get the source directory. OSQP: CMakeLists.txt becomes the text before the first add_library with every src made absolute, from which the original can be recovered, and the two-stage edit then finds exactly the globs src/*.c of the original. Clarabel: the replacements in CMakeLists.txt act independently; in the Rust wrapper's file the line that sets the output directory becomes the ARM64 case distinction, whose own paths are not changed again, and elsewhere three replacements act. The number of added declarations of sol_x, sol_y, pdaqp_active_region, of its definitions and of assignments to it equals the number of places where the expected text stands. The edits for SCS, ECOS, Clarabel's header and the two-stage edit may be repeated; those of workspace.h, OSQP's CMakeLists.txt and pdaqp.h change the file again exactly if the expected text occurs. False: SCS paths at the beginning of a line are found; OSQP's edit only touches paths (a name containing src is damaged); pdaqp_active_region is defined once (a source file that also declares pdaqp_evaluate gets two definitions).", "quantifier": "all texts, all sizes; concrete counterexamples", "why_tests_cant": "The tests see one version of each file; the effect on other versions is silent.", "anchors": ["cvxpygen/utils.py:multiple_replace, cut_from_expr", "cvxpygen/solvers/osqp.py:generate_code", "cvxpygen/solvers/clarabel.py:generate_code", "cvxpygen/solvers/scs.py:generate_code", "cvxpygen/solvers/ecos.py:generate_code", "cvxpygen/solvers/pdaqp.py:_patch_pdaqp_for_gradient", "cvxpygen/writer.py:_update_cmake"]}
{"id": "C74", "title": "What a call leaves in the CVXPY problem object", "statement": "After an accepted call of the generated Python method (not explicit), whatever the status: the last variable of each name holds its own entries of the solver's solution in its shape, any earlier variable of the same name holds no value; the i-th dual vector is stored in the i-th listed constraint, so with no constraint listed twice every constraint holds its own dual vector (in the canonical shape where sizes agree); the problem's value is the reported objective with the double 1e30 replaced by infinity and is what the call returns; the status is the solver's text, or, for solvers with a numeric status, a text that is never one of CVXPY's status words; the solution object and the statistics repeat these values and what variables and constraints hold. Storing an answer never raises. Rejected calls leave the object as it was; after any sequence of calls it holds what the last accepted call leaves on any object. Explicit mode: the call returns the solve time, value, status and solution stay empty (duals too without the dual option) and keyword arguments are not looked at. Parameters: with distinct names each update function writes from the column of its parameter; if two parameters share a name, the last entry of the parameter vector is never written by any call. False: every variable gets a value (two variables of one name); every constraint gets its own dual (a constraint listed twice shifts the following ones); every parameter reaches the solver (two parameters of one name).", "quantifier": "all variables, names, constraint lists, statuses, sequences of calls; concrete counterexamples", "why_tests_cant": "Users read results from the problem object; generation accepts problems with repeated names or constraints without a warning.", "anchors": ["cvxpygen/templates/cpg_solver.py.jinja2:cpg_solve", "cvxpygen/utils.py:solver_py_context", "cvxpygen/canonicalizer.py:_get_primal_variable_info, _get_dual_variable_info, _get_parameter_info"]}
{"id": "C75", "title": "README.html describes the generated code", "statement": "Names are words of C, types of settings the three in use. Read as C, the text between the guards of cpg_workspace.h is exactly the type definitions of the generated code, and every function cpg_solve.h declares is defined. README.html: the place for types holds type definitions only; those of the primal and dual solution name each variable and each dual variable with its type and are in cpg_workspace.h in any mode; those of the solver information and the result are there exactly if the mode is not explicit. Its declarations of update functions and of cpg_solve are in cpg_solve.h in any mode, with the same types, and there are no further update functions; those of the functions for settings are there exactly if the mode is not explicit and, after a name and a type are put in place of the placeholders, that name is a setting of that type. The list of settings names all of them in order. The tables list all names in order with their shapes up to two dimensions and the number of entries (unless a vector stores fewer). All files and directories in the tree exist after any generation that succeeds, and outside solver_code and osqp_code it leaves out only __init__.py, COPYING and the four cpg_osqp_grad files. The files named for embedding include all that CMakeLists.txt lists, and all directories it adds exactly if there is one stage. The import line is valid and names the generated directory exactly if each part of code_dir between slashes is an identifier. False: the described types and functions exist in explicit mode; the files for embedding suffice with two stages; the import line fits every accepted code_dir; the tables show every dimension and stored size.", "quantifier": "all names, shapes, settings, modes, solvers, solver files, directories; concrete counterexamples", "why_tests_cant": "README.html is the only documentation of the generated code; users copy declarations, file lists and the import line from it.", "anchors": ["cvxpygen/utils.py:readme_context, _problem_summary_html, write_workspace_prot, write_solve_prot", "cvxpygen/templates/README.html.jinja2", "cvxpygen/templates/CMakeLists.txt.jinja2"]}
{"id": "C76", "title": "Update functions called with any index", "statement": "cpg_update_<p>(idx, val) tests nothing. For every program and history: with an index the parameter has (any call, if it has one value), the call is that of C01-C05. The call touches memory outside the parameter array exactly if offset + idx is negative or above the number of parameter values; otherwise the entry is one of the parameter, one of exactly that other parameter whose slice it lies in, or the constant 1 behind all of them. After any calls inside the array, each block of each solve is the affine map of that block at the array of the last solve before which a function naming the block was called; hence at the current array whenever each function called names every block that reads the entry it writes, as is so for every index in range. A value written over the constant stays there whatever calls in range follow. In explicit mode the stored value lies within the bounds of the entry written, other entries stay, and the constant cannot be overwritten. False: entries of other parameters are always taken up by the next solve (it can mix old and new values); writing all parameters again repairs an overwritten constant (the data then belong to no parameter values).", "quantifier": "all programs, parameters, signed indices, values, histories of calls; concrete counterexamples", "why_tests_cant": "The index comes from the user's C program and is unchecked; a wrong one silently gives the solver data of no problem instance.", "anchors": ["cvxpygen/utils.py:write_solve_def", "cvxpygen/solvers/pdaqp.py:_get_parameter_delta_bounds"]}
{"id": "C77", "title": "Solver objects and pointers over repeated solves", "statement": "For every generated program, every order of its update code and every history of update, settings and solve calls, memory being available: no call follows a null pointer or a pointer whose target no longer exists, except that Clarabel with a linear objective does so exactly once per solve (P's column pointers are a compound literal of the if-block, which is left before clarabel_DefaultSolver_new reads them). The number of objects allocated and never freed is exactly: none for OSQP and QOCOGEN; one for ECOS and five for QOCO from the first solve on; for SCS one per first solve or solve after an update of a parameter that enters P or A, and one per solve if exactly one of P, A depends on parameters; for Clarabel one per solve. After a solve the workspace pointer refers to the youngest object, and no pointer of the program to any other. If memory is refused and the pointer stays null, that same solve follows it. Flags and the test for the workspace agree with the data model. False: storage behind pointers always exists; memory use is bounded; a failed set-up is noticed.", "quantifier": "all generated programs, orders, histories, patterns of refused memory; concrete counterexamples", "why_tests_cant": "Embedded programs call cpg_solve for ever: a leak per solve ends them, and a dangling pointer is undefined behaviour in every Clarabel LP.", "anchors": ["cvxpygen/utils.py:write_update_structure", "cvxpygen/utils.py:write_solve_def", "cvxpygen/solvers/clarabel.py:ClarabelInterface", "cvxpygen/solvers/scs.py:SCSInterface", "cvxpygen/solvers/qoco.py:QOCOInterface", "cvxpygen/solvers/ecos.py:ECOSInterface"]}
{"id": "C78", "title": "What the build compiles and links", "statement": "Whatever the solvers' own CMake files do (they complete, and do not set variables of the generated file), for every configuration, prefix and directory without semicolons: configuring gives the targets cpg and cpg_example the generated headers and sources, in two-stage programs those found for OSQP, and those found for the solver's lists, in this order; include directories and libraries are those of the tables; an enclosing project gets exactly the three lists <prefix>cpg_include, _head, _src and no other variable, include directory or value; every generated source is compiled once. Configuring stops if a target cpg_example or cpg exists (so always for a second program in one project), and for semidefinite problems with Clarabel without BLAS or LAPACK. All objects setup.py links are made by the build, except for Clarabel on Windows or when exactly one of the generating and the building machine is an ARM Mac. In a fresh directory setup.py makes the extension module of the current sources exactly if every step succeeds, and reports failure otherwise. False: directories with semicolons work; a solver without sources is noticed when configuring; Clarabel's program is independent of variables solver_src, solver_head of the enclosing project; a two-stage program for OSQP compiles one workspace.c; running setup.py again picks up changed C sources or notices a failed build of the library.", "quantifier": "all configurations, solver files, directories, prefixes, machines and build outcomes; concrete counterexamples", "why_tests_cant": "The generated directory is meant to be dropped into users' CMake projects and moved to other machines; a wrong or stale object shows up, if at all, as a crash of the compiled program.", "anchors": ["cvxpygen/templates/CMakeLists.txt.jinja2", "cvxpygen/utils.py:write_canon_cmake", "cvxpygen/writer.py:CCodeWriter._update_cmake", "cvxpygen/templates/setup.py.jinja2", "cvxpygen/solvers/clarabel.py:ClarabelInterface", "cvxpygen/solvers/qoco.py:QOCOInterface"]}
{"id": "C79", "title": "Declarations, definitions and uses in the generated C files", "statement": "For every single-stage program whose names meet C52's conditions, whose data for SCS is not empty, and without an array cpg_dx or cpg_dtheta beside the explicit gradient: every generated C file (workspace, solve, gradient, and the two files of the OSQP gradient), read together with the generated headers it includes, satisfies what C demands of file-scope names: all declarations and the definition of a name have one type (array lengths and argument types included), nothing is defined twice, no file-local object follows a declaration of its name, and every global name used in an initialiser or function body is declared before. Across all files types agree and every name is defined once. The names declared in generated headers but defined nowhere are exactly: cpg_<variable> of arrays the program keeps itself, cpg_<dual> for solvers without static solutions, scs_A and scs_P, canon_A in explicit mode and canon_P there with reduced variables, and the update functions of parameters that share their first column with a later one; if all parameters have entries, every one gets its update function, in order. The initialiser of the OSQP gradient workspace gives the 28 fields of the struct in order with their types. False: an explicit gradient compiles with a symmetric variable dx; a parameter without entries gets its update function; SCS code compiles when the constraint matrix stores nothing.", "quantifier": "all interfaces, prefixes, blocks, variables, duals, parameters, settings and sizes; all files; concrete counterexamples", "why_tests_cant": "Prototypes and definitions are written by separate functions with separate conditions; a condition that differs in one of them gives a file that does not compile, or a declaration with another length than the array behind it.", "anchors": ["cvxpygen/utils.py:write_workspace_def", "cvxpygen/utils.py:write_workspace_prot", "cvxpygen/utils.py:write_solve_def", "cvxpygen/utils.py:write_solve_prot", "cvxpygen/writer.py:CCodeWriter._write_gradient", "cvxpygen/writer.py:CCodeWriter._write_gradient_explicit", "cvxpygen/writer.py:CCodeWriter._write_gradient_workspace_def", "cvxpygen/solvers/scs.py:SCSInterface", "cvxpygen/canonicalizer.py:Canonicalizer"]}
{"id": "C80", "title": "Templates and the contexts they are rendered with", "statement": "For every solver, prefix, mode (explicit 0, 1 or 2, gradients, two-stage) and problem, every template the writer renders (LICENSE, __init__.py, CMakeLists.txt, setup.py, the three OSQP gradient files, cpg_example.c, cpg_module.hpp, cpg_solver.py, README.html) renders under strict undefined names: no name is used, in an output, condition or loop, that its context does not hold, and loops unpack tuples of the right length. If the brackets of the strings given (names, prefix, date, texts) nest, the brackets of every rendered file nest. If names, prefix and module directory are words and the date has no double quote, the rendered Python files are laid out in blocks: after a line ending in a colon the next line is indented further, any other line has the indentation of an open block, strings are closed on their line, brackets are closed. The entries a solver adds never replace those of the configuration, and every solver gives the same names. If the given strings have no newline, the lines of cpg_solver.py that begin with def name exactly squeeze_scalar, get_param_value and cpg_solve, and with gradients also cpg_solve_and_gradient_info, cpg_gradient, forward and backward, each once. A name printed outside conditions and loops is needed. False without these conditions: layout for a directory with an apostrophe, nesting for an open bracket in a given string, rendering of cpg_solver.py without the gradient entries.", "quantifier": "all configurations; all template texts as they are in the repository; concrete counterexamples", "why_tests_cant": "Templates with conditions are only rendered in the combinations that are tested; a missing context entry aborts generation after part of the files is written, and a badly placed condition gives a file that does not parse.", "anchors": ["cvxpygen/utils.py:render_template", "cvxpygen/utils.py:cmake_context", "cvxpygen/utils.py:setup_context", "cvxpygen/utils.py:readme_context", "cvxpygen/utils.py:example_c_context", "cvxpygen/utils.py:module_hpp_context", "cvxpygen/utils.py:solver_py_context", "cvxpygen/utils.py:grad_compute_context", "cvxpygen/writer.py:CCodeWriter.write"]}
{"id": "C81", "title": "Dimensions of the gradient code", "statement": "With OSQP (single-stage) and a problem with a quadratic term, the gradient workspace, the constants n and N of cpg_osqp_grad_compute.c, the maps and the loops of cpg_gradient.c agree: every array the gradient code accesses exists and no loop runs past its end, and the loops over q, u, P and A cover maps and vectors to their ends. In two-stage mode the workspace and the bounds n, N come from the second canonicalization and the maps from the first, so the accesses stay in range exactly if both forms have a block P, the second form keeps all its constraint rows in A, the variables lie inside its x, and for every changing block the second form has no more entries of q, l, u and no fewer stored entries of P and A than the first. So it is false for every second stage with more variables when the objective has parameters (CVXPY adds one for the sum of squares), and for every solver with a separate block of inequalities (QOCO) as soon as there is one. Writing the workspace fails (KeyError) exactly if the problem's OSQP form has no block P (a linear program, also single-stage) or the solver's form has none (ECOS).", "quantifier": "all dimensions, numbers of stored entries, changing blocks and variable offsets; both modes; concrete counterexamples", "why_tests_cant": "The sizes are spread over five written files; an access past the end of a static array often goes unnoticed.", "anchors": ["cvxpygen/writer.py:CCodeWriter._write_gradient", "cvxpygen/writer.py:CCodeWriter._write_gradient_workspace_def", "cvxpygen/writer.py:CCodeWriter._write_gradient_def", "cvxpygen/utils.py:grad_compute_context", "cvxpygen/canonicalizer.py:Canonicalizer._merge", "cvxpygen/canonicalizer.py:Canonicalizer._get_osqp_problem"]}
