(** README.html of the generated code, and the texts of the two headers it describes.
    Models readme_context and _problem_summary_html (cvxpygen/utils.py 1418-1431, 1455-1532), the parts of
    README.html.jinja2 that name files, types, functions and build variables (lines 219-273, 278-298, 315-330, 436-532), the
    typedefs of cpg_workspace.h (write_workspace_prot, utils.py 705-799, full=True) and the declarations of cpg_solve.h
    (write_solve_prot, utils.py 1087-1142), as texts.
    Not modelled: dates, styles, scripts, explanations, the include lines of the headers (Build.v) and the declarations of
    objects in cpg_workspace.h (CTypes.v). *)

From Coq Require Import String Ascii List Arith Bool.
From Verif Require Import Base Config Import Build Symbols CTypes Literals Text.
Import ListNotations.
Open Scope string_scope.
Open Scope list_scope.

(** What the texts depend on: an entry of name_to_shape and name_to_size (mappings.py 55-80; [None] for the shape of a dual
    variable of a constraint whose shape does not fit its size, canonicalizer.py 200-205); a canonical parameter with its
    number of stored entries. *)
Record item := mkItem { i_name : string; i_shape : option (list nat); i_size : nat; i_sym : bool }.
Record rin := mkRin
  { x_if : iface; x_prefix : string; x_gradient : bool; x_explicit : nat; x_reduced : bool;
    x_blocks : list (block * nat); x_vars : list item; x_duals : list item; x_params : list item;
    x_settings : list (string * string); x_soc : bool; x_code_dir : string }.

(** The same program as the inputs of CTypes.v and Symbols.v see it. *)
Definition sized (i : item) : string * nat := (i_name i, i_size i).
Definition tin_of (x : rin) : tin :=
  mkTin (x_if x) (x_prefix x) (x_explicit x) (x_gradient x) (x_reduced x)
        (map (fun b => (b_id (fst b), snd b)) (x_blocks x)) (map sized (x_vars x)) (map sized (x_duals x))
        (map i_name (x_params x)) (x_settings x).
Definition syms_of (x : rin) : syms :=
  mkSyms (x_if x) (x_prefix x) (x_gradient x) (x_explicit x) (map fst (x_blocks x))
         (map (fun v => mkVar (i_name v) (i_size v =? 1)%nat (i_sym v)) (x_vars x)) (x_reduced x)
         (map (fun d => mkDual (i_name d) (i_size d =? 1)%nat) (x_duals x))
         (map i_name (x_params x)) (map fst (x_settings x)) (x_soc x).

(** ** Python *)

(** s.ljust(n) *)
Fixpoint spaces (n : nat) : string := match n with O => "" | S k => String " " (spaces k) end.
Definition ljust (n : nat) (s : string) : string := (s ++ spaces (n - String.length s))%string.
(** White space: str.strip() and, in C, what separates words. *)
Definition space (c : ascii) : bool := let n := nat_of_ascii c in (n =? 32)%nat || ((9 <=? n)%nat && (n <=? 13)%nat).
Fixpoint lstrip (s : string) : string :=
  match s with EmptyString => "" | String c r => if space c then lstrip r else s end.
Fixpoint rstrip (s : string) : string :=
  match s with
  | EmptyString => ""
  | String c r => match rstrip r with EmptyString => if space c then "" else String c "" | r' => String c r' end
  end.
(** Jinja's filter trim. *)
Definition trim (s : string) : string := rstrip (lstrip s).
Definition lines {A} (f : A -> string) (l : list A) : string := cat (map f l).

Open Scope string_scope.

(** ** c/include/cpg_workspace.h *)

Definition open_struct : string := "typedef struct {" ++ nl.
(** utils.py 750-753, 759-762 and 1463-1464, 1470-1471. *)
Definition member_line (comment : string) (i : item) : string :=
  "  cpg_float    " ++ ljust 9 ((if (i_size i =? 1)%nat then "" else "*") ++ i_name i ++ ";") ++ "   // " ++ comment ++ i_name i ++ nl.
(** utils.py 728-736 *)
Definition canon_line (b : block * nat) : string :=
  let p := b_id (fst b) in
  if is_matrix p then "  cpg_csc      *" ++ ljust 8 (p ++ ";") ++ "   // Canonical parameter " ++ p ++ nl
  else "  cpg_float    " ++ ljust 9 ((if String.eqb p "d" then "" else "*") ++ p ++ ";") ++ "   // Canonical parameter " ++ p ++ nl.
(** utils.py 741-742 *)
Definition flag_line (b : block * nat) : string :=
  let p := b_id (fst b) in
  "  int        " ++ ljust 10 (p ++ ";") ++ "    // Bool, if canonical parameter " ++ p ++ " outdated" ++ nl.
(** utils.py 787-788 *)
Definition delta_line (i : item) : string :=
  "  cpg_float    " ++ ljust 9 ("*" ++ i_name i ++ ";") ++ "   // Delta of your parameter " ++ i_name i ++ nl.
(** utils.py 794-796 *)
Definition setting_line (s : string * string) : string := "  " ++ ljust 11 (snd s) ++ fst s ++ ";" ++ nl.
(** utils.py 767-773 and 1477-1487 *)
Definition info_lines (i : iface) : string :=
  "  cpg_float    obj_val;    // Objective function value" ++ nl
  ++ "  cpg_int      iter;       // Number of iterations" ++ nl
  ++ "  " ++ (if status_int i then "cpg_int      status;     " else "char         *status;    ") ++ "// Solver status" ++ nl
  ++ "  cpg_float    pri_res;    // Primal residual" ++ nl
  ++ "  cpg_float    dua_res;    // Dual residual" ++ nl.

Definition has_duals (x : rin) : bool := nonempty (x_duals x).
Definition expl_x (x : rin) : bool := negb (x_explicit x =? 0)%nat.

(** utils.py 711-799: the text between the two lines that guard the types. *)
Definition types_text (x : rin) : string :=
  "typedef " ++ (if expl_x x then "float" else float_base (x_if x)) ++ " cpg_float;" ++ nl
  ++ "typedef " ++ int_base (x_if x) ++ " cpg_int;" ++ nl ++ nl
  ++ "// Compressed sparse column matrix" ++ nl ++ open_struct
  ++ "  cpg_int      *p;" ++ nl ++ "  cpg_int      *i;" ++ nl ++ "  cpg_float    *x;" ++ nl ++ "  cpg_int      nnz;" ++ nl
  ++ "} cpg_csc;" ++ nl ++ nl
  ++ "// Canonical parameters" ++ nl ++ open_struct ++ lines canon_line (x_blocks x) ++ "} Canon_Params_t;" ++ nl ++ nl
  ++ "// Flags indicating outdated canonical parameters" ++ nl ++ open_struct ++ lines flag_line (x_blocks x)
  ++ "} Canon_Outdated_t;" ++ nl ++ nl
  ++ "// Primal solution" ++ nl ++ open_struct ++ lines (member_line "Your variable ") (x_vars x) ++ "} CPG_Prim_t;" ++ nl ++ nl
  ++ (if has_duals x then
        "// Dual solution" ++ nl ++ open_struct ++ lines (member_line "Your dual variable for constraint ") (x_duals x)
        ++ "} CPG_Dual_t;" ++ nl ++ nl
      else "")
  ++ (if expl_x x then "" else "// Solver information" ++ nl ++ open_struct ++ info_lines (x_if x) ++ "} CPG_Info_t;" ++ nl ++ nl)
  ++ "// Solution and solver information" ++ nl ++ open_struct
  ++ "  CPG_Prim_t *prim;        // Primal solution" ++ nl
  ++ (if negb (x_explicit x =? 1)%nat && has_duals x then "  CPG_Dual_t *dual;        // Dual solution" ++ nl else "")
  ++ (if expl_x x then "" else "  CPG_Info_t *info;        // Solver info" ++ nl)
  ++ "} CPG_Result_t;" ++ nl ++ nl
  ++ "// Parameter deltas" ++ nl ++ open_struct ++ lines delta_line (x_params x) ++ "} CPG_Delta_t;" ++ nl ++ nl
  ++ (if extra_stgs (x_if x) then
        "// Solver settings" ++ nl ++ open_struct ++ lines setting_line (x_settings x) ++ "} Canon_Settings_t;" ++ nl ++ nl
      else "").

(** ** c/include/cpg_solve.h *)

(** utils.py 1098-1103 *)
Definition update_line (x : rin) (p : item) : string :=
  "extern void " ++ x_prefix x ++ "cpg_update_" ++ i_name p
  ++ (if (i_size p =? 1)%nat then "(cpg_float val);" else "(cpg_int idx, cpg_float val);") ++ nl.
Definition plain_line (x : rin) (f : string) : string := "extern void " ++ x_prefix x ++ f ++ "();" ++ nl.
(** utils.py 1105-1142: the declarations behind the include lines. *)
Definition decls_text (x : rin) : string :=
  nl ++ "// Update user-defined parameter values" ++ nl ++ lines (update_line x) (x_params x)
  ++ nl ++ "// Map user-defined to canonical parameters" ++ nl
  ++ lines (fun b => if b_changes (fst b) then plain_line x ("cpg_canonicalize_" ++ b_id (fst b)) else "") (x_blocks x)
  ++ (if ret_prim (x_if x) (y_vars (syms_of x)) then
        nl ++ "// Retrieve primal solution in terms of user-defined variables" ++ nl ++ plain_line x "cpg_retrieve_prim" else "")
  ++ (if negb (x_explicit x =? 1)%nat && ret_dual (x_if x) (y_duals (syms_of x)) then
        nl ++ "// Retrieve dual solution in terms of user-defined constraints" ++ nl ++ plain_line x "cpg_retrieve_dual" else "")
  ++ (if expl_x x then "" else nl ++ "// Retrieve solver information" ++ nl ++ plain_line x "cpg_retrieve_info")
  ++ (if inmem (x_if x) then
        nl ++ "// Copy canonical parameters for preconditioning" ++ nl
        ++ lines (fun b => if String.eqb (b_id (fst b)) "d" then "" else plain_line x ("cpg_copy_" ++ b_id (fst b))) (x_blocks x)
        ++ plain_line x "cpg_copy_all" else "")
  ++ nl ++ "// Solve via canonicalization, canonical solve, retrieval" ++ nl ++ plain_line x "cpg_solve"
  ++ (if expl_x x && negb (x_reduced x) then
        nl ++ "// Compute value of the objective" ++ nl ++ "extern cpg_float " ++ x_prefix x ++ "cpg_obj();" ++ nl else "")
  ++ (if expl_x x then "" else
        nl ++ "// Update solver settings" ++ nl ++ plain_line x "cpg_set_solver_default_settings"
        ++ lines (fun s => "extern void " ++ x_prefix x ++ "cpg_set_solver_" ++ fst s ++ "(" ++ snd s ++ " " ++ fst s ++ "_new);" ++ nl)
                 (x_settings x)).

(** ** README.html *)

(** utils.py 1460-1495: the four typedefs. *)
Definition prim_typedef (x : rin) : string :=
  nl ++ "// Struct type with primal solution" ++ nl ++ open_struct ++ lines (member_line "Your variable ") (x_vars x)
  ++ "} CPG_Prim_t;" ++ nl.
Definition dual_typedef (x : rin) : string :=
  if has_duals x then
    nl ++ "// Struct type with dual solution" ++ nl ++ open_struct
    ++ lines (member_line "Your dual variable for constraint ") (x_duals x) ++ "} CPG_Dual_t;" ++ nl ++ nl
  else "".
Definition info_typedef (x : rin) : string :=
  "// Struct type with canonical solver information" ++ nl ++ open_struct ++ info_lines (x_if x) ++ "} CPG_Info_t;" ++ nl.
Definition result_typedef (x : rin) : string :=
  nl ++ "// Struct type with user-defined objective value and solution as fields" ++ nl ++ open_struct
  ++ "  CPG_Prim_t *prim;        // Primal solution" ++ nl
  ++ (if has_duals x then "  CPG_Dual_t *dual;        // Dual solution" ++ nl else "")
  ++ "  CPG_Info_t *info;        // Solver information" ++ nl
  ++ "} CPG_Result_t;" ++ nl.
(** README.html.jinja2 319 *)
Definition readme_types (x : rin) : string := trim (prim_typedef x ++ dual_typedef x ++ info_typedef x ++ result_typedef x).

(** utils.py 1497-1511 *)
Definition update_decls (x : rin) : string :=
  nl ++ "// Update user-defined parameter values" ++ nl
  ++ lines (fun p => "void " ++ x_prefix x ++ "cpg_update_" ++ i_name p
                     ++ (if (i_size p =? 1)%nat then "(cpg_float value);" else "(cpg_int idx, cpg_float value);") ++ nl) (x_params x).
Definition solve_decls (x : rin) : string :=
  nl ++ "// Solve via canonicalization, canonical solve, retrieval" ++ nl ++ "void " ++ x_prefix x ++ "cpg_solve();" ++ nl.
Definition settings_decls (x : rin) : string :=
  nl ++ "// Update solver settings" ++ nl ++ "void " ++ x_prefix x ++ "cpg_set_solver_default_settings();" ++ nl
  ++ "void " ++ x_prefix x ++ "cpg_set_solver_&lt;setting_name&gt;(&lt;setting_type&gt; &lt;setting_name&gt;_new);" ++ nl
  ++ "..." ++ nl.
(** README.html.jinja2 326 *)
Definition readme_functions (x : rin) : string := trim (update_decls x ++ solve_decls x ++ settings_decls x).
(** utils.py 1513: ', '.join(...) *)
Fixpoint commas (l : list string) : string :=
  match l with [] => "" | [a] => a | a :: r => a ++ ", " ++ commas r end.
Definition settings_list (x : rin) : string := commas (map (fun s => "<code>" ++ fst s ++ "</code>") (x_settings x)).

(** utils.py 1418-1431 *)
Definition shape_text (i : item) : string :=
  match i_shape i with
  | None => num (i_size i)
  | Some [] => "1"
  | Some [a] => num a
  | Some (a :: b :: _) => num a ++ " by " ++ num b ++ " (" ++ num (i_size i) ++ ")"
  end.
Definition row (i : item) : string :=
  "      <tr>" ++ nl ++ "        <td><code>" ++ i_name i ++ "</code></td>" ++ nl ++ "        <td>" ++ shape_text i ++ "</td>" ++ nl
  ++ "      </tr>" ++ nl.
Definition table (l : list item) : string := lines row l.

Open Scope list_scope.

(** README.html.jinja2 219-273: the files of the tree, and the directories shown without their content. *)
Definition tree_files (grad two : bool) : list path :=
  [inc ++ ["cpg_workspace.h"]; inc ++ ["cpg_solve.h"]]
  ++ (if grad then [inc ++ ["cpg_gradient.h"]] else []) ++ (if two then [inc ++ ["cpg_gradient_workspace.h"]] else [])
  ++ [src ++ ["cpg_workspace.c"]; src ++ ["cpg_solve.c"]]
  ++ (if grad then [src ++ ["cpg_gradient.c"]] else []) ++ (if two then [src ++ ["cpg_gradient_workspace.c"]] else [])
  ++ [src ++ ["cpg_example.c"]; ["c"; "CMakeLists.txt"]; ["cpp"; "include"; "cpg_module.hpp"]; ["cpp"; "src"; "cpg_module.cpp"];
      ["setup.py"]; ["cpg_solver.py"]; ["LICENSE"]; ["README.html"]].
Definition tree_dirs : list path := [["c"]; sd; inc; src; ["c"; "build"]; ["cpp"]; ["cpp"; "include"]; ["cpp"; "src"]].

(** README.html.jinja2 519-522: what is to be copied for embedding ([src/*] and the like: the whole directory). *)
Definition copied_for_embedding (p : path) : bool :=
  path_eqb p ["c"; "CMakeLists.txt"] || below src p || below inc p || below sd p.
(** CMakeLists.txt.jinja2 31-35: the directories it adds. *)
Definition added_dirs (two : bool) : list path := [sd] ++ (if two then [od] else []).

(** utils.py 1518 and README.html.jinja2 443, 462, 475: the name of the module in the import line. *)
Definition import_name (code_dir : string) : string := (Import.dotted code_dir ++ ".cpg_solver")%string.
