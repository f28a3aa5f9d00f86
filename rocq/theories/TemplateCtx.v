(** The contexts the templates are rendered with, and the files rendered.
    Models cvxpygen/utils.py 1434-1452 (cmake_context, setup_context), 1455-1532 (readme_context), 1535-1553
    (example_c_context), 1556-1572 (module_hpp_context), 1575-1613 (solver_py_context), 1616-1630 (grad_compute_context,
    grad_workspace_h_context), the solver interfaces' cmake_context_extra and setup_py_context (_interface.py 205-232,
    osqp.py 148-167, scs.py 166-179, ecos.py 159-179, clarabel.py 278-297, qoco.py 160-171, 382-401), stgs_translation
    (_interface.py 197-199, qoco.py 60) and writer.py 62-92, 518-539, 590-615, 641-646.
    Simplified: the texts of the README (modelled in Readme.v) and the number in a '%.20f' text are given as strings, the
    failure of the example's context for a parameter without entries is modelled in CExample.v. *)

From Coq Require Import String Ascii Arith Bool List.
From Verif Require Import Base Config Template TemplateText.
Import ListNotations.
Open Scope string_scope.
Open Scope list_scope.

(** A name with size and shape (None: the shape is not given). *)
Record tinfo := mkInfo { i_name : string; i_size : nat; i_shape : option (list nat) }.

(** What the contexts depend on.  [t_sdp]: Clarabel with semidefinite cones (clarabel.py 281); [t_mac]: generated on an ARM
    Mac (clarabel.py 291); [t_verbose]: 'verbose' among the enabled settings (osqp.py 153-156); [t_n], [t_con]: n_var and
    n_eq + n_ineq of the solver interface, [t_gn], [t_gcon] of the gradient interface. *)
Record tcfg := mkT {
  t_if : iface; t_prefix : string; t_gradient : bool; t_two : bool; t_explicit : nat;
  t_dir : string; t_dir_py : string; t_solver : string; t_date : string;
  t_params : list tinfo; t_write : list (string * bool * string); t_vars : list tinfo; t_duals : list tinfo;
  t_sdp : bool; t_mac : bool; t_verbose : bool;
  t_n : nat; t_con : nat; t_gn : nat; t_gcon : nat;
  t_text : string -> string (* the texts of readme_context by their keys *) }.

Definition strs (l : list string) : val := VL (map VS l).
Definition sizes (l : list tinfo) : val := VL (map (fun i => VT [VS (i_name i); VN (i_size i)]) l).
Definition shape_val (s : option (list nat)) : val := match s with Some l => VT (map VN l) | None => VNone end.
Definition shapes (l : list tinfo) : val := VL (map (fun i => VT [VS (i_name i); shape_val (i_shape i)]) l).
Definition names (l : list tinfo) : val := strs (map i_name l).

(** docu and status_is_int of the interfaces (e.g. osqp.py 92, 118). *)
Definition docu (i : iface) : string :=
  match i with
  | IOSQP => "https://osqp.org/docs/codegen/python.html"
  | ISCS => "https://www.cvxgrp.org/scs/api/c.html"
  | IECOS => "https://github.com/embotech/ecos/wiki/Usage-from-C"
  | ICLARABEL => "https://oxfordcontrol.github.io/ClarabelDocs/"
  | IQOCO | IQOCOGEN => "https://qoco-org.github.io/qoco/"
  | IPDAQP => "https://github.com/darnstrom/pdaqp"
  end.
Definition status_is_int (i : iface) : bool := match i with IOSQP | ISCS => false | _ => true end.

(** _interface.py 197-199: a dictionary of CVXPY names to setting names, over the tables osqp.py 102-115, scs.py 92-109,
    ecos.py 60-68, clarabel.py 63-119, qoco.py 62-74; the settings with a CVXPY name are enabled by default.  qoco.py 60 has
    the text "{}" instead. *)
Definition translation (i : iface) : list (string * string) :=
  match i with
  | IOSQP => [("warm_start", "warm_starting")]
  | IECOS => [("max_iters", "maxit")]
  | ICLARABEL => [("max_iters", "max_iter")]
  | _ => []
  end.
Definition quote (s : string) : string := ("'" ++ s ++ "'")%string.
Definition dict_text (l : list (string * string)) : string :=
  ("{" ++ joined (map (fun p => (quote (fst p) ++ ": " ++ quote (snd p))%string) l) ++ "}")%string.

(** utils.py 1434-1447. *)
Definition cmake_base (c : tcfg) : ctx :=
  [("date", VS (t_date c)); ("prefix", VS (t_prefix c)); ("gradient", VB (t_gradient c)); ("explicit", VN (t_explicit c));
   ("gradient_two_stage", VB (t_two c))].
(** _interface.py 211-217. *)
Definition cmake_default : ctx :=
  [("solver_code_cmake_include_dir", VS "${CMAKE_CURRENT_SOURCE_DIR}/solver_code/include"); ("extra_cmake_include_dirs", VL []);
   ("packages", VL []); ("cmake_target_link_libs", VL []); ("cmake_definitions", VL [])].
(** osqp.py 148-157, scs.py 166-171, ecos.py 159-168, clarabel.py 278-288, qoco.py 160-164, 382-388. *)
Definition cmake_extra (c : tcfg) : ctx :=
  let sd := "${CMAKE_CURRENT_SOURCE_DIR}/solver_code"%string in
  match t_if c with
  | IOSQP => merge cmake_default
      [("extra_cmake_include_dirs", strs [sd; sd ++ "/inc/public"; sd ++ "/inc/private"]);
       ("cmake_definitions", strs (if t_verbose c then ["add_definitions(-DOSQP_ENABLE_PRINTING)"] else []))]
  | ISCS => merge cmake_default [("extra_cmake_include_dirs", strs [sd ++ "/linsys"])]
  | IECOS => merge cmake_default
      [("extra_cmake_include_dirs", strs [sd ++ "/external/SuiteSparse_config"; sd ++ "/external/amd/include"; sd ++ "/external/ldl/include"])]
  | ICLARABEL => merge cmake_default
      [("packages", strs (if t_sdp c then ["BLAS"; "LAPACK"] else []));
       ("cmake_target_link_libs", strs ("libclarabel_c_static" :: if t_sdp c then ["${BLAS_LIBRARIES}"; "${LAPACK_LIBRARIES}"] else []))]
  | IQOCO => merge cmake_default
      [("extra_cmake_include_dirs", strs [sd ++ "/lib/amd"; sd ++ "/lib/qdldl/include"]); ("cmake_target_link_libs", strs ["qocostatic"])]
  | IQOCOGEN => merge cmake_default [("solver_code_cmake_include_dir", VS sd)]
  | IPDAQP => cmake_default
  end%string.
Definition cmake_ctx (c : tcfg) : ctx := merge (cmake_base c) (cmake_extra c).

(** utils.py 1450-1452. *)
Definition setup_base (c : tcfg) : ctx := [("date", VS (t_date c))].
(** _interface.py 224-232. *)
Definition setup_default : ctx :=
  [("solver_code_include_dir", VS "os.path.join('c', 'solver_code', 'include')"); ("extra_solver_include_dirs", VL []);
   ("extra_cpp_include_dirs", VL []); ("extra_lib_names_windows", VNone); ("extra_lib_names_unix", VNone);
   ("extra_objects", VL []); ("license", VS "Apache 2.0")].
(** osqp.py 159-167, scs.py 173-179, ecos.py 170-179, clarabel.py 290-297, qoco.py 166-171, 390-401. *)
Definition setup_extra (c : tcfg) : ctx :=
  match t_if c with
  | IOSQP => merge setup_default
      [("extra_cpp_include_dirs", strs ["os.path.join('c', 'solver_code')"; "os.path.join('c', 'solver_code', 'inc', 'public')";
                                        "os.path.join('c', 'solver_code', 'inc', 'private')"])]
  | ISCS => merge setup_default [("extra_solver_include_dirs", strs ["os.path.join('c', 'solver_code', 'linsys')"])]
  | IECOS => merge setup_default
      [("extra_solver_include_dirs", strs ["os.path.join('c', 'solver_code', 'external', 'SuiteSparse_config')";
                                           "os.path.join('c', 'solver_code', 'external', 'amd', 'include')";
                                           "os.path.join('c', 'solver_code', 'external', 'ldl', 'include')"]);
       ("license", VS "GPL 3.0")]
  | ICLARABEL => merge setup_default
      [("extra_objects", strs ["os.path.join(cpg_dir, 'solver_code', 'rust_wrapper', 'target', "
                               ++ (if t_mac c then "'aarch64-apple-darwin/release'" else "'release'") ++ ", 'libclarabel_c.a')"])]
  | IQOCO => merge setup_default
      [("extra_solver_include_dirs", strs ["os.path.join('c', 'solver_code', 'lib', 'amd')";
                                           "os.path.join('c', 'solver_code', 'lib', 'qdldl', 'include')"]);
       ("license", VS "BSD 3-Clause");
       ("extra_lib_names_windows", VS "libqoco_name = os.path.join('Release', 'qocostatic.lib')");
       ("extra_lib_names_unix", VS "libqoco_name = 'libqocostatic.a'");
       ("extra_objects", strs ["os.path.join(cpg_dir, 'build', 'out', libqoco_name)"])]
  | IQOCOGEN => merge setup_default
      [("solver_code_include_dir", VS "os.path.join('c', 'solver_code')"); ("license", VS "BSD 3-Clause")]
  | IPDAQP => setup_default
  end%string.
Definition setup_ctx (c : tcfg) : ctx := merge (setup_base c) (setup_extra c).

(** utils.py 1509-1532. *)
Definition readme_ctx (c : tcfg) : ctx :=
  [("date", VS (t_date c));
   ("params_table", VS (t_text c "params_table")); ("primals_table", VS (t_text c "primals_table")); ("duals_table", VS (t_text c "duals_table"));
   ("code_dir", VS (t_dir c)); ("code_dir_python", VS (t_dir_py c)); ("solver_name", VS (t_solver c)); ("solver_docu_url", VS (docu (t_if c)));
   ("cmake_prefix", VS (t_prefix c ++ "cpg")%string); ("gradient", VB (t_gradient c)); ("gradient_two_stage", VB (t_two c));
   ("prim_typedef", VS (t_text c "prim_typedef")); ("dual_typedef", VS (t_text c "dual_typedef"));
   ("info_typedef", VS (t_text c "info_typedef")); ("result_typedef", VS (t_text c "result_typedef"));
   ("update_declarations", VS (t_text c "update_declarations")); ("solve_declarations", VS (t_text c "solve_declarations"));
   ("settings_declarations", VS (t_text c "settings_declarations")); ("settings_list", VS (t_text c "settings_list"))].

(** utils.py 1535-1553. *)
Definition example_ctx (c : tcfg) : ctx :=
  [("date", VS (t_date c)); ("prefix", VS (t_prefix c)); ("gradient", VB (t_gradient c)); ("explicit", VN (t_explicit c));
   ("writable_params", VL (map (fun p => VT [VS (fst (fst p)); VB (snd (fst p)); VS (snd p)]) (t_write c)));
   ("prim_name_to_size", sizes (t_vars c)); ("dual_name_to_size", sizes (t_duals c)); ("param_name_to_size", sizes (t_params c))].

(** utils.py 1556-1572. *)
Definition hpp_ctx (c : tcfg) : ctx :=
  [("date", VS (t_date c)); ("prefix", VS (t_prefix c)); ("explicit", VN (t_explicit c)); ("gradient", VB (t_gradient c));
   ("params", sizes (t_params c)); ("param_names", names (t_params c)); ("prim_vars", sizes (t_vars c)); ("dual_vars", sizes (t_duals c));
   ("status_is_int", VB (status_is_int (t_if c)));
   ("n_grad_var", VN (if t_gradient c then t_gn c else 0)); ("n_grad_constr", VN (if t_gradient c then t_gcon c else 0))].

(** utils.py 1580-1584. *)
Definition reshape_text (s : option (list nat)) : string :=
  match s with
  | Some (a :: l) => (".reshape(" ++ pystr (shape_val s) ++ ", order='F')")%string
  | _ => ""
  end.
Fixpoint dual_saves (i : nat) (l : list tinfo) : list val :=
  match l with
  | [] => []
  | d :: r => VT [VN i; VS (i_name d); shape_val (i_shape d); VS (reshape_text (i_shape d))] :: dual_saves (S i) r
  end.
(** utils.py 1575-1613. *)
Definition solver_ctx (c : tcfg) : ctx :=
  merge
    [("date", VS (t_date c)); ("prefix", VS (t_prefix c)); ("explicit", VN (t_explicit c)); ("gradient", VB (t_gradient c));
     ("code_dir_module", VS (t_dir_py c)); ("stgs_translation", VS (dict_text (translation (t_if c))));
     ("param_names_quoted", VS (joined (map (fun i => (String "034"%char (i_name i) ++ String "034"%char "")%string) (t_params c))));
     ("param_names", names (t_params c)); ("var_name_to_shape", shapes (t_vars c));
     ("dual_save_list", VL (if (t_explicit c =? 1)%nat then [] else dual_saves 0 (t_duals c)));
     ("status_is_int", VB (status_is_int (t_if c)));
     ("status_int_fmt", VS (if status_is_int (t_if c) then "%d (for description visit " ++ docu (t_if c) ++ ")" else "")%string);
     ("solver_name", VS (t_solver c))]
    (if t_gradient c then
       [("n_grad_var", VN (t_gn c)); ("n_grad_constr", VN (t_gcon c)); ("prim_name_to_size", sizes (t_vars c));
        ("param_name_to_shape", shapes (t_params c))]
     else []).

(** utils.py 1616-1625; writer.py 526, 531 passes the solver interface. *)
Definition gradc_ctx (c : tcfg) : ctx :=
  let sol x := VS (if t_two c then t_prefix c ++ x else x)%string in
  [("n", VN (t_n c)); ("N", VN (t_n c + t_con c)); ("workspace", VS (t_prefix c ++ "CPG_OSQP_Grad")%string);
   ("gradient_two_stage", VB (t_two c)); ("sol_x_var", sol "sol_x"); ("sol_y_var", sol "sol_y")].
(** utils.py 1628-1630. *)
Definition gradws_ctx (c : tcfg) : ctx := [("workspace", VS (t_prefix c ++ "CPG_OSQP_Grad")%string)].

(** The files rendered, in order: writer.py 62-92, 518-539, 590-615, 641-646. *)
Definition rendered (c : tcfg) : list (string * list node * ctx) :=
  [("LICENSE", license_t, []); ("__init__.py", init_t, []); ("CMakeLists.txt", cmake_t, cmake_ctx c); ("setup.py", setup_t, setup_ctx c)]
  ++ (if t_gradient c && (t_explicit c =? 0)%nat then
        [("cpg_osqp_grad_compute.c", gradc_t, gradc_ctx c); ("cpg_osqp_grad_compute.h", gradh_t, []);
         ("cpg_osqp_grad_workspace.h", gradws_t, gradws_ctx c)]
      else [])
  ++ [("cpg_example.c", example_t, example_ctx c); ("cpg_module.hpp", hpp_t, hpp_ctx c); ("cpg_solver.py", solver_t, solver_ctx c);
      ("README.html", readme_t, readme_ctx c)].
(** The text of a file. *)
Definition file_text (c : tcfg) (f : string) : option (tres string) :=
  match find (fun x => String.eqb (fst (fst x)) f) (rendered c) with
  | Some (_, t, x) => Some (render x t)
  | None => None
  end.
