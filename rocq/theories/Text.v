(** Text edits of files that come from the solvers' repositories and generators: Python's
    [str.replace] and [str.find], the helpers of utils.py and the edits made by every solver
    interface and by writer.py.  The texts themselves are arbitrary inputs. *)
From Coq Require Import String Ascii List Arith NArith Bool.
From Verif Require Import Base Literals.
Import ListNotations.
Open Scope string_scope.
Open Scope list_scope.

(** ** Python's string methods *)

(** The text starts with [p]. *)
Fixpoint starts (p s : string) : bool :=
  match p, s with
  | EmptyString, _ => true
  | String a p', String b s' => Ascii.eqb a b && starts p' s'
  | String _ _, EmptyString => false
  end.

(** [s.replace(old, new)] for a nonempty [old]: scan from the left, and continue behind a match
    ([k] characters are still to be skipped).  Python's rule for an empty [old] is not modelled; no
    edit uses one. *)
Fixpoint rep (old new : string) (k : nat) (s : string) : string :=
  match s with
  | EmptyString => EmptyString
  | String a r =>
      match k with
      | S k' => rep old new k' r
      | O => if starts old s then (new ++ rep old new (String.length old - 1) r)%string
             else String a (rep old new 0 r)
      end
  end.
Definition replace (old new s : string) : string := rep old new 0 s.

(** [s.find(e)]: position of the first occurrence, -1 ([None]) if there is none. *)
Fixpoint find (e s : string) : option nat :=
  if starts e s then Some 0
  else match s with EmptyString => None | String _ r => option_map S (find e r) end.

(** utils.py 57-61 [multiple_replace] (and 200-210 [replace_in_file]). *)
Definition multiple_replace (text : string) (rs : list (string * string)) : string :=
  fold_left (fun t r => replace (fst r) (snd r) t) rs text.

(** utils.py 64-72 [cut_from_expr]. *)
Definition cut_from_expr (text e : string) : string :=
  match find e text with Some i => substring 0 i text | None => text end.

(** [str(n)] for the sizes in f-strings. *)
Definition num (n : nat) : string := dec (N.of_nat n).

(** ** The edits *)

Definition csd : string := "${CMAKE_CURRENT_SOURCE_DIR}/".

(** osqp.py 138-142: workspace.h of OSQP. *)
Definition osqp_anchor : string := "extern OSQPSolver solver;".
Definition osqp_decls (n_var n_con : nat) : string :=
  (nl ++ "  extern OSQPFloat sol_x[" ++ num n_var ++ "];"
   ++ nl ++ "  extern OSQPFloat sol_y[" ++ num n_con ++ "];")%string.
Definition osqp_workspace_h (n_var n_con : nat) (t : string) : string :=
  replace osqp_anchor (osqp_anchor ++ osqp_decls n_var n_con)%string t.

(** osqp.py 144-146: CMakeLists.txt of OSQP. *)
Definition osqp_cmake (t : string) : string :=
  replace "src" (csd ++ "src")%string (cut_from_expr t "add_library").

(** writer.py 627-634: the same file of a two-stage program, after [osqp_cmake]. *)
Definition two_stage_cmake (t : string) : string :=
  replace (csd ++ "src/*.c")%string (csd ++ "src/qdldl*.c" ++ nl)%string t.

(** clarabel.py 237-248: CMakeLists.txt of Clarabel.cpp. *)
Definition examples_dir : string := "add_subdirectory(examples)".
Definition c_standard : string := "set(CMAKE_C_STANDARD_REQUIRED True)".
Definition release_type : string :=
  (nl ++ nl ++ "# set build type to Release" ++ nl ++ "set(CMAKE_BUILD_TYPE Release)")%string.
Definition sdp_none : string := "set(CLARABEL_FEATURE_SDP ""none""".
Definition sdp_openblas : string := "set(CLARABEL_FEATURE_SDP ""sdp-openblas""".
Definition clarabel_cmake (sdp : bool) (t : string) : string :=
  let t1 := multiple_replace t [(examples_dir, ("# " ++ examples_dir)%string);
                                (c_standard, (c_standard ++ release_type)%string)] in
  if sdp then replace sdp_none sdp_openblas t1 else t1.

(** clarabel.py 250-272: rust_wrapper/CMakeLists.txt. *)
Definition source_dir : string := "${CMAKE_SOURCE_DIR}/".
Definition out_dir (sub target : string) : string :=
  ("set(clarabel_c_output_directory """ ++ source_dir ++ sub ++ "rust_wrapper/target/" ++ target ++ """)")%string.
Definition arm_dirs : string :=
  ("if (ARM64)" ++ nl
   ++ "        message(STATUS ""ARM64 detected"")" ++ nl
   ++ "        " ++ out_dir "solver_code/" "aarch64-apple-darwin/release" ++ nl
   ++ "    else()" ++ nl
   ++ "        " ++ out_dir "solver_code/" "release" ++ nl
   ++ "    endif()")%string.
Definition cargo_line : string := "# Add the cargo project as a custom target".
Definition arm_flags : string :=
  (nl ++ "if(ARM64)" ++ nl
   ++ "   set(clarabel_c_build_flags ""${clarabel_c_build_flags};--target;aarch64-apple-darwin"")" ++ nl
   ++ "endif()")%string.
Definition clarabel_wrapper (t : string) : string :=
  multiple_replace t
    [(source_dir, (source_dir ++ "solver_code/")%string);
     ("/libclarabel_c.lib", "/clarabel_c.lib");
     (out_dir "solver_code/" "release", arm_dirs);
     (cargo_line, (cargo_line ++ arm_flags)%string)].

(** clarabel.py 275-276: include/Clarabel. *)
Definition clarabel_header (t : string) : string := replace "cpp/" "c/" t.

(** scs.py 154-155 and 157-164. *)
Definition scs_mk (t : string) : string := replace "USE_LAPACK = 1" "USE_LAPACK = 0" t.
Definition scs_cmake (t : string) : string :=
  multiple_replace t [(" include/", (" " ++ csd ++ "include/")%string);
                      (" src/", (" " ++ csd ++ "src/")%string);
                      (" ${LINSYS}/", (" " ++ csd ++ "${LINSYS}/")%string)].

(** ecos.py 155-157. *)
Definition ecos_glblopts (t : string) : string := replace "#define PRINTLEVEL (2)" "#define PRINTLEVEL (0)" t.

(** pdaqp.py 238-262: pdaqp.h and pdaqp.c of explicit gradient code. *)
Definition pdaqp_endif : string := "#endif // ifndef PDAQP_H".
Definition pdaqp_externs : string :=
  ("extern int pdaqp_active_region;" ++ nl ++ "extern c_float_store pdaqp_feedbacks[];" ++ nl
   ++ "extern c_int pdaqp_hp_list[];" ++ nl)%string.
Definition pdaqp_h (t : string) : string := replace pdaqp_endif (pdaqp_externs ++ pdaqp_endif)%string t.
Definition evaluate_head : string := "void pdaqp_evaluate(".
Definition region_def : string := ("int pdaqp_active_region = -1;" ++ nl)%string.
Definition leaf_line : string := ("    // Leaf node reached -> evaluate affine function" ++ nl)%string.
Definition region_set : string := ("    pdaqp_active_region = id;" ++ nl)%string.
Definition pdaqp_c (t : string) : string :=
  replace leaf_line (leaf_line ++ region_set)%string (replace evaluate_head (region_def ++ evaluate_head)%string t).
