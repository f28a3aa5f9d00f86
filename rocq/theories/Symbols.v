(** Global C identifiers of the generated code: those every generated file defines, those the
    headers declare without any definition, and those the files refer to.
    Models the identifier structure of cvxpygen/utils.py 470-689 (write_workspace_def), 838-848
    (variable declarations), 885-1084 (write_solve_def), 1194-1328 (write_module_def),
    cvxpygen/writer.py 145-312 (_write_gradient_def), 354-416 (_write_gradient_workspace_def),
    418-520 (_write_gradient_explicit), cvxpygen/solvers/*.py (define_workspace, class tables)
    and the templates cpg_osqp_grad_compute.c.jinja2, cpg_example.c.jinja2.
    Only names with external linkage are listed; values, types and struct fields are not part
    of this model.  Names from the solvers' own code are not listed, except those the generated
    code refers to directly ([provided]). *)

From Coq Require Import String List Bool Arith.
From Verif Require Import Base Config.
Import ListNotations.
Open Scope string_scope.
Open Scope list_scope.

(** One block of canonical data: its id, p_id_to_changes, and whether it is empty
    (utils.py 231-239, param_is_empty). *)
Record block := mkBlock { b_id : string; b_changes : bool; b_empty : bool }.
(** A variable: its name, size 1 (utils.py 242-247), and name_to_sym. *)
Record uvar := mkVar { v_name : string; v_scalar : bool; v_sym : bool }.
Record udual := mkDual { d_name : string; d_scalar : bool }.

(** What the names of the generated code depend on. [y_prefix] is the generated prefix
    (generator.py 175-182); [y_soc] tells whether there are second-order cones. *)
Record syms := mkSyms {
  y_if : iface;
  y_prefix : string;
  y_gradient : bool;
  y_explicit : nat;
  y_blocks : list block;
  y_vars : list uvar;
  y_reduced : bool;
  y_duals : list udual;
  y_params : list string;
  y_settings : list string;
  y_soc : bool
}.

(** Class attributes of the interfaces: inmemory_preconditioning, sol_statically_allocated,
    ws_statically_allocated_in_solver_code, stgs_requires_extra_struct_type
    (osqp.py 74-99, scs.py 64-89, ecos.py 31-57, clarabel.py 33-59, qoco.py 32-58 and
    206-232, pdaqp.py 43-63). *)
Definition inmem (i : iface) : bool :=
  match i with IECOS | ICLARABEL | IQOCO => true | _ => false end.
Definition sol_static (i : iface) : bool :=
  match i with IECOS | ICLARABEL | IQOCO => false | _ => true end.
Definition ws_static (i : iface) : bool :=
  match i with IOSQP | IPDAQP => true | _ => false end.
Definition extra_stgs (i : iface) : bool :=
  match i with IOSQP | IECOS | ICLARABEL | IQOCO => true | _ => false end.
(** ret_prim_func_exists and ret_dual_func_exists: _interface.py 117-123, clarabel.py 208-214,
    ecos.py 127-133, qoco.py 134-140, 354-360 (QOCOGEN keeps its solution static but always
    writes the retrieval functions). *)
Definition ret_always (i : iface) : bool :=
  match i with IECOS | ICLARABEL | IQOCO | IQOCOGEN => true | _ => false end.
Definition ret_prim (i : iface) (vs : list uvar) : bool :=
  ret_always i || (existsb v_sym vs || existsb v_scalar vs).
Definition ret_dual (i : iface) (ds : list udual) : bool := ret_always i || existsb d_scalar ds.

Definition when (b : bool) (l : list string) : list string := if b then l else [].
Definition opt (b : bool) (s : string) : list string := if b then [s] else [].

(** utils.py 117-131 (write_mat_def): three arrays and the struct. *)
Definition mat_names (n : string) : list string :=
  [(n ++ "_i")%string; (n ++ "_p")%string; (n ++ "_x")%string; n].

(** Python's str.isupper on the block ids. *)
Definition is_matrix (p : string) : bool := mem_str p ["P"; "A"; "G"].

(** utils.py 296-307 (write_param_def). *)
Definition param_names (b : block) (suffix : string) : list string :=
  if b_empty b then []
  else let n := ("canon_" ++ b_id b ++ suffix)%string in if is_matrix (b_id b) then mat_names n else [n].

Definition map_names (b : block) : list string :=
  when (b_changes b) (mat_names ("canon_" ++ b_id b ++ "_map")%string).

(** utils.py 495-500: explicit mode writes no A, and no P when variables have been removed. *)
Definition kept (explicit : nat) (reduced : bool) (b : block) : bool :=
  (explicit =? 0)%nat
  || negb (String.eqb (b_id b) "A" || (reduced && String.eqb (b_id b) "P")).

(** utils.py 503-515: 'd' is written into the struct only. *)
Definition canon_names (inm : bool) (b : block) : list string :=
  if String.eqb (b_id b) "d" then []
  else param_names b "" ++ when inm (param_names b "_conditioning").

(** The workspace identifiers of the solvers: scs.py 207-268, ecos.py 190-198,
    clarabel.py 308-323, qoco.py 182-190, 412-420. *)
Definition solver_names (i : iface) (quad soc : bool) : list string :=
  match i with
  | ISCS => opt quad "Scs_P" ++ ["Scs_A"; "Scs_D"] ++ opt soc "scs_q"
            ++ ["Scs_K"; "Canon_Settings"; "scs_x"; "scs_y"; "scs_s"; "Scs_Sol"; "Scs_Info"; "Scs_Work"]
  | IECOS => opt soc "ecos_q" ++ ["ecos_workspace"; "ecos_flag"]
  | ICLARABEL => ["P"; "A"; "cones"; "settings"; "solver"; "solution"]
  | IQOCOGEN => opt soc "qoco_custom_q" ++ ["qoco_custom_workspace"; "qoco_custom_flag"]
  | IQOCO => opt soc "qoco_q" ++ ["qoco_solver"; "qoco_flag"]
  | IOSQP | IPDAQP => []
  end.

(** parameter_canon.quad_obj: P is part of the canonical data. *)
Definition has_block (p : string) (bs : list block) : bool := existsb (fun b => String.eqb (b_id b) p) bs.

(** Arrays for user variables, utils.py 573-583, and for dual variables, 601-613. *)
Definition var_arrays (y : syms) : list string :=
  map v_name (filter (fun v => negb (v_scalar v) && (v_sym v || negb (sol_static (y_if y)))) (y_vars y)).
Definition dual_arrays (y : syms) : list string :=
  when (negb (y_explicit y =? 1)%nat && negb (sol_static (y_if y)))
       (map d_name (filter (fun d => negb (d_scalar d)) (y_duals y))).

Definition explicit (y : syms) : bool := negb (y_explicit y =? 0)%nat.
Definition two_stage (y : syms) : bool :=
  y_gradient y && negb (iface_eqb (y_if y) IOSQP) && negb (explicit y).

(** cpg_workspace.c, utils.py 470-689 with full=True, without the user-named arrays; the names
    carry no prefix here. *)
Definition workspace_fixed (y : syms) : list string :=
  ["cpg_params_vec"]
  ++ when (explicit y) ["cpg_params_vec_lower"; "cpg_params_vec_upper"]
  ++ flat_map map_names (y_blocks y)
  ++ flat_map (canon_names (inmem (y_if y))) (filter (kept (y_explicit y) (y_reduced y)) (y_blocks y))
  ++ when (explicit y) ["cpg_theta"]
  ++ ["Canon_Params"] ++ opt (inmem (y_if y)) "Canon_Params_conditioning"
  ++ ["Canon_Outdated"]
  ++ opt (y_gradient y && negb (two_stage y)) "Canon_Outdated_Grad"
  ++ ["CPG_Prim"]
  ++ opt (negb (y_explicit y =? 1)%nat && negb (match y_duals y with [] => true | _ => false end)) "CPG_Dual"
  ++ opt (negb (explicit y)) "CPG_Info"
  ++ ["CPG_Result"]
  ++ opt (negb (explicit y) && extra_stgs (y_if y)) "Canon_Settings"
  ++ when (negb (ws_static (y_if y))) (solver_names (y_if y) (has_block "P" (y_blocks y)) (y_soc y))
  ++ when (y_gradient y) ["cpg_dp"; "CPG_Delta"].

(** cpg_solve.c, utils.py 885-1084, without the functions named after user parameters and
    settings. *)
Definition solve_fixed (y : syms) : list string :=
  flat_map (fun b => opt (b_changes b) ("cpg_canonicalize_" ++ b_id b)%string) (y_blocks y)
  ++ opt (ret_prim (y_if y) (y_vars y)) "cpg_retrieve_prim"
  ++ opt (negb (y_explicit y =? 1)%nat && (ret_dual (y_if y) (y_duals y) || two_stage y)) "cpg_retrieve_dual"
  ++ opt (negb (explicit y)) "cpg_retrieve_info"
  ++ when (inmem (y_if y))
       (flat_map (fun b => opt (negb (String.eqb (b_id b) "d")) ("cpg_copy_" ++ b_id b)%string) (y_blocks y)
        ++ ["cpg_copy_all"])
  ++ ["cpg_solve"]
  ++ opt (explicit y && negb (y_reduced y)) "cpg_obj"
  ++ opt (negb (explicit y)) "cpg_set_solver_default_settings".

(** writer.py 376-414: the arrays of cpg_osqp_grad_workspace.c. *)
Definition grad_arrays : list string :=
  let v n := [("cpg_osqp_grad_" ++ n)%string] in
  let m n := mat_names ("cpg_osqp_grad_" ++ n)%string in
  v "a" ++ v "etree" ++ v "Lnz" ++ v "iwork" ++ v "bwork" ++ v "fwork" ++ m "L" ++ v "Lmask"
  ++ v "D" ++ v "Dinv" ++ m "K" ++ m "K_true" ++ v "rhs" ++ v "delta" ++ v "c" ++ v "w" ++ v "wi"
  ++ v "l" ++ v "li" ++ v "lx" ++ v "dx" ++ v "r" ++ v "dq" ++ v "dl" ++ v "du" ++ m "dP" ++ m "dA"
  ++ ["CPG_OSQP_Grad"].

(** Gradient files: cpg_osqp_grad_workspace.c (not in explicit mode) and cpg_gradient.c
    (writer.py 230-232, 455-474). *)
Definition gradient_fixed (y : syms) : list string :=
  when (y_gradient y) (when (negb (explicit y)) grad_arrays ++ ["cpg_gradient"]).

(** Functions named after user parameters (utils.py 902-904, 916-917), settings (1077) and
    user variables (writer.py 219-228). *)
Definition update_fn (n : string) : string := ("cpg_update_" ++ n)%string.
Definition setting_fn (n : string) : string := ("cpg_set_solver_" ++ n)%string.
Definition update_d_fn (n : string) : string := ("cpg_update_d" ++ n)%string.

Definition user_fns (y : syms) : list string :=
  map update_fn (y_params y)
  ++ when (negb (explicit y)) (map setting_fn (y_settings y))
  ++ when (y_gradient y) (map update_d_fn (map v_name (y_vars y))).

(** Global constants, variables and functions of cpg_osqp_grad_compute.c (template lines 9-11
    and 15-432): no prefix at all. *)
Definition compute_fns : list string :=
  ["n"; "N"; "cpg_grad_a"; "cpg_grad_a_bar"; "cpg_grad_gamma"; "insert_nonzero"; "insert_nonzero_and_value"; "remove_nonzero"; "symbolic_ldl_update";
   "symbolic_ldl_downdate"; "cpg_rank_1_update"; "cpg_ldl_delete"; "cpg_ldl_add";
   "cpg_ldl_symbolic"; "cpg_ldl_numeric"; "cpg_P_to_K"; "cpg_A_to_K"; "cpg_osqp_gradient"].

(** Definitions without prefix: utils.py 517-525 (explicit sol_x, sol_y) and the names
    above; main of cpg_example.c belongs to another program than the Python module but is
    listed as well. *)
Definition unprefixed (y : syms) : list string :=
  ["main"] ++ when (explicit y) ["sol_x"] ++ when (y_explicit y =? 2)%nat ["sol_y"]
  ++ when (y_gradient y && negb (explicit y)) compute_fns.

(** All definitions of single-stage code. *)
Definition bases (y : syms) : list string :=
  workspace_fixed y ++ solve_fixed y ++ gradient_fixed y ++ user_fns y ++ var_arrays y ++ dual_arrays y.
Definition defs (y : syms) : list string :=
  map (append (y_prefix y)) (bases y) ++ unprefixed y.

(** utils.py 839-853: the header declares the arrays of user variables and dual variables as
    [cpg_name] although they are defined as [name]; scs.py 181-185 declares scs_P, scs_A.
    Nothing refers to these declarations, but a definition of that name with another type
    contradicts them. *)
Definition phantoms (y : syms) : list string :=
  map (append "cpg_")
      (var_arrays y
       ++ when (negb (sol_static (y_if y))) (map d_name (filter (fun d => negb (d_scalar d)) (y_duals y))))
  ++ when (iface_eqb (y_if y) ISCS) (opt (has_block "P" (y_blocks y)) "scs_P" ++ ["scs_A"]).

(** ** Two-stage gradient code (writer.py 558-588) *)

(** The first-stage (OSQP) blocks and variables; the second stage has the variable osqp_x
    only. *)
Definition gprefix (y : syms) : string := ("gradient_" ++ y_prefix y)%string.
Definition second_var : list uvar := [mkVar "osqp_x" false false].
Definition needs_prim (y : syms) : bool := ret_prim (y_if y) second_var.

(** cpg_gradient_workspace.c (utils.py 470-570 with full=False) and the definitions in
    cpg_gradient.c that carry the gradient prefix (writer.py 175-217). *)
Definition gradient_stage (y : syms) (first : list block) : list string :=
  flat_map map_names first ++ flat_map (canon_names false) first
  ++ ["Canon_Params"; "Canon_Outdated_Grad"; "sol_x"; "sol_y"]
  ++ opt (needs_prim y) "cpg_retrieve_intermediate_primal"
  ++ ["cpg_retrieve_intermediate_dual"]
  ++ flat_map (fun b => opt (b_changes b) ("cpg_canonicalize_" ++ b_id b)%string) first.

Definition defs2 (y : syms) (first : list block) : list string :=
  defs y ++ map (append (gprefix y)) (gradient_stage y first).

(** ** References *)

(** Names the solvers' own code provides and the generated code uses: OSQP's workspace.c
    (ws_ptrs and solve_function_call in osqp.py; when OSQP is not the solver only its qdldl
    sources are compiled, writer.py 627-634) and pdaqp.c. *)
Definition provided (y : syms) : list string :=
  match y_if y with
  | IOSQP => ["sol_x"; "sol_y"; "solver"]
  | IPDAQP => ["pdaqp_evaluate"; "pdaqp_hp_list"; "pdaqp_feedbacks"; "pdaqp_active_region"]
  | _ => []
  end.

(** Solver workspace names used by ws_ptrs, the update structures and the solve call
    (with the result prefix). *)
Definition ws_used (i : iface) (soc : bool) : list string :=
  match i with
  | ISCS => ["Scs_Info"; "scs_x"; "scs_y"; "Scs_Work"; "Scs_Sol"; "Scs_D"; "Scs_K"; "Canon_Settings"]
  | IECOS => ["ecos_workspace"; "ecos_flag"; "Canon_Settings"] ++ opt soc "ecos_q"
  | ICLARABEL => ["P"; "A"; "cones"; "settings"; "solver"; "solution"; "Canon_Settings"]
  | IQOCOGEN => ["qoco_custom_workspace"]
  | IQOCO => ["qoco_solver"; "qoco_flag"; "Canon_Settings"] ++ opt soc "qoco_q"
  | IOSQP | IPDAQP => []
  end.

(** Initialisers in cpg_workspace.c: the struct of canonical parameters refers to non-empty
    blocks only (utils.py 529-552); SCS's matrices and data refer to the blocks A, b, c (and
    P) whatever their size (scs.py 207-226). *)
Definition workspace_uses (y : syms) : list string :=
  flat_map (fun b => if String.eqb (b_id b) "d" || b_empty b then []
                     else [("canon_" ++ b_id b)%string]
                          ++ opt (inmem (y_if y)) ("canon_" ++ b_id b ++ "_conditioning")%string)
           (filter (kept (y_explicit y) (y_reduced y)) (y_blocks y))
  ++ var_arrays y ++ dual_arrays y
  ++ ["CPG_Prim"] ++ opt (negb (y_explicit y =? 1)%nat && negb (match y_duals y with [] => true | _ => false end)) "CPG_Dual"
  ++ opt (negb (explicit y)) "CPG_Info"
  ++ when (iface_eqb (y_if y) ISCS)
       (when (has_block "P" (y_blocks y)) ["canon_P_x"; "canon_P_i"; "canon_P_p"; "Scs_P"]
        ++ ["canon_A_x"; "canon_A_i"; "canon_A_p"; "Scs_A"; "canon_b"; "canon_c"; "scs_x"; "scs_y"; "scs_s"]
        ++ opt (y_soc y) "scs_q")
  ++ opt (y_gradient y) "cpg_dp".

(** cpg_solve.c (single stage). *)
Definition solve_uses (y : syms) : list string :=
  ["cpg_params_vec"; "Canon_Outdated"; "Canon_Params"; "CPG_Prim"]
  ++ when (explicit y) ["cpg_params_vec_lower"; "cpg_params_vec_upper"; "cpg_theta"]
  ++ opt (y_gradient y) "Canon_Outdated_Grad"
  ++ flat_map (fun b => when (b_changes b) [("canon_" ++ b_id b ++ "_map")%string; ("cpg_canonicalize_" ++ b_id b)%string])
              (y_blocks y)
  ++ opt (ret_prim (y_if y) (y_vars y)) "cpg_retrieve_prim"
  ++ when (negb (y_explicit y =? 1)%nat && ret_dual (y_if y) (y_duals y))
       (["cpg_retrieve_dual"] ++ opt (negb (match y_duals y with [] => true | _ => false end)) "CPG_Dual")
  ++ when (negb (explicit y)) ["CPG_Info"; "cpg_retrieve_info"]
  ++ when (inmem (y_if y))
       (["Canon_Params_conditioning"; "cpg_copy_all"]
        ++ flat_map (fun b => opt (negb (String.eqb (b_id b) "d")) ("cpg_copy_" ++ b_id b)%string) (y_blocks y))
  ++ when (negb (explicit y)) (ws_used (y_if y) (y_soc y)).

(** cpg_gradient.c (single stage; writer.py 219-312 and 455-505). *)
Definition gradient_uses (y : syms) : list string :=
  when (y_gradient y)
    (["cpg_dp"]
     ++ when (negb (explicit y)) ["CPG_OSQP_Grad"; "Canon_Outdated_Grad"; "Canon_Params"]
     ++ flat_map (fun b => when (b_changes b && mem_str (b_id b) (if explicit y then ["q"; "u"] else ["q"; "l"; "u"; "P"; "A"]))
                                [("canon_" ++ b_id b ++ "_map")%string]) (y_blocks y)).

(** cpg_osqp_grad_compute.c: utils.py 1616-1625. *)
Definition compute_uses (y : syms) : list string := when (y_gradient y && negb (explicit y)) ["CPG_OSQP_Grad"].

(** cpg_module.cpp and cpg_example.c, references with the prefix. *)
Definition module_uses (y : syms) : list string :=
  map update_fn (y_params y) ++ ["cpg_solve"; "CPG_Prim"]
  ++ opt (negb (y_explicit y =? 1)%nat && negb (match y_duals y with [] => true | _ => false end)) "CPG_Dual"
  ++ opt (negb (explicit y)) "CPG_Info"
  ++ when (y_gradient y) (map update_d_fn (map v_name (y_vars y)) ++ ["cpg_gradient"; "CPG_Delta"])
  ++ when (negb (explicit y)) (map setting_fn (y_settings y)).
Definition example_uses (y : syms) : list string :=
  map update_fn (y_params y) ++ ["cpg_solve"; "CPG_Result"]
  ++ when (y_gradient y) (map update_d_fn (map v_name (y_vars y)) ++ ["cpg_gradient"; "CPG_Delta"]).

(** References without prefix in single-stage code: the solver's names and the helper
    functions; the gradient part of cpg_example.c uses CPG_Result without prefix
    (template lines 62-68). *)
Definition raw_uses (y : syms) : list string :=
  (match y_if y with
   | IOSQP => ["sol_x"; "sol_y"; "solver"]
   | IPDAQP => ["sol_x"; "pdaqp_evaluate"] ++ when (y_explicit y =? 2)%nat ["sol_y"]
               ++ when (y_gradient y) ["pdaqp_hp_list"; "pdaqp_feedbacks"; "pdaqp_active_region"]
   | _ => []
   end)
  ++ when (y_gradient y && negb (explicit y))
       (["cpg_ldl_symbolic"; "cpg_ldl_numeric"; "cpg_osqp_gradient"]
        ++ flat_map (fun b => opt (b_changes b && mem_str (b_id b) ["P"; "A"])
                              ("cpg_" ++ b_id b ++ "_to_K")%string) (y_blocks y))
  ++ opt (y_gradient y && negb (match y_vars y with [] => true | _ => false end)) "CPG_Result".

Definition uses (y : syms) : list string :=
  map (append (y_prefix y))
      (workspace_uses y ++ solve_uses y ++ gradient_uses y ++ compute_uses y ++ module_uses y ++ example_uses y)
  ++ raw_uses y.

(** Some references of the two-stage code: cpg_gradient.c refers to the factor workspace with
    the gradient prefix (writer.py 155, 222), cpg_osqp_grad_compute.c to the intermediate
    solution with the plain prefix (utils.py 1623-1624), cpg_module.cpp to it with no prefix
    (utils.py 1280-1310), and cpg_solve.c to cpg_retrieve_intermediate_primal whenever a
    retrieval function exists for the user's variables (utils.py 951-955). *)
Definition uses2 (y : syms) : list string :=
  [(gprefix y ++ "CPG_OSQP_Grad")%string; (y_prefix y ++ "sol_x")%string; (y_prefix y ++ "sol_y")%string; "sol_x"; "sol_y"]
  ++ opt (ret_prim (y_if y) (y_vars y)) (gprefix y ++ "cpg_retrieve_intermediate_primal")%string.
