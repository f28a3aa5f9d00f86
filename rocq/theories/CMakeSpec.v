(** What a build should compile and link, written without the commands of CMake.v. *)

From Coq Require Import String Ascii List Bool Arith.
From Verif Require Import Base Config Import Build BuildSpec CMake.
Import ListNotations.
Open Scope string_scope.
Open Scope list_scope.

(** A text that is one element of a list. *)
Definition single (s : string) : Prop := forall a b, s <> append a (String ";" b).
Definition element (s : string) : Prop := s <> "" /\ single s.

(** file (GLOB): names of files, without semicolons. *)
Definition good_glob (glob : list string -> list string) : Prop := forall l, Forall element (glob l).

(** D/a/b/c for the path c/a/b/c of Build.v: D is the directory c. *)
Definition text (D : string) (p : path) : string := fold_left (fun s x => append s (append "/" x)) (tl p) D.

(** Variables of the generated file in whose values it trusts; a solver's own file should not set them for its parent. *)
Definition passed (pre : string) : list string := [append pre "cpg_include"; append pre "cpg_head"; append pre "cpg_src"].
Definition solver_vars : list string := ["solver_head"; "solver_src"].
Definition same_on (l : list string) (e e' : env) : Prop := forall v, In v l -> e' v = e v.

(** Entering a subdirectory. *)
Definition entered (d : string) (s : cst) : cst :=
  mkC (set_var (c_env s) here (append (c_env s here) (append "/" d))) (c_env s) (c_dirs s) (c_targets s) (c_links s).
(** Leaving it. *)
Definition left_ (s t : cst) : cst := mkC (c_up t) (c_up s) (c_dirs s) (c_targets t) (c_links t).

(** Packages: Clarabel with semidefinite cones needs two. *)
Definition needs_blas (c : bcfg) : bool := match b_if c with ICLARABEL => b_sdp c | _ => false end.
Definition with_blas (c : bcfg) (s : cst) (x y : string) : cst :=
  if needs_blas c
  then mkC (set_var (set_var (c_env s) "BLAS_LIBRARIES" x) "LAPACK_LIBRARIES" y) (c_up s) (c_dirs s) (c_targets s) (c_links s)
  else s.
Definition blas_ok (found : string -> option string) (c : bcfg) (x y : string) : Prop :=
  needs_blas c = true -> found "BLAS" = Some x /\ found "LAPACK" = Some y.

(** The files a solver names: its own lists, at the end of its own file, and files in its directory. *)
Definition wanted_heads (i : iface) (e : env) : list string :=
  let dir := e here in
  match i with
  | IOSQP => [append dir "/*.h"; append dir "/inc/public/*.h"; append dir "/inc/private/*.h"]
  | ISCS => let p := e "PROJECT_NAME" in
            items (e (append p "_HDR")) ++ items (append (e "DIRSRC") "/private.h")
            ++ items (e (append p "_LDL_EXTERNAL_HDR")) ++ items (e (append p "_AMD_EXTERNAL_HDR"))
  | IECOS => items (e "ecos_headers")
  | ICLARABEL => []
  | IQOCOGEN => items (e "qoco_custom_headers")
  | IQOCO => items (e "qoco_headers")
  | IPDAQP => [append dir "/include/pdaqp.h"]
  end.
Definition wanted_srcs (i : iface) (e : env) : list string :=
  let dir := e here in
  match i with
  | IOSQP => items (e "OSQP_SOURCES") ++ [append dir "/workspace.c"]
  | ISCS => let p := e "PROJECT_NAME" in
            items (e (append p "_SRC")) ++ items (append (e "DIRSRC") "/private.c")
            ++ items (append (e "EXTERNAL") "/qdldl/qdldl.c") ++ items (e (append p "_AMD_EXTERNAL_SRC"))
  | IECOS => items (e "ecos_sources")
  | ICLARABEL => []
  | IQOCOGEN => items (e "qoco_custom_sources")
  | IQOCO => items (e "qoco_sources")
  | IPDAQP => [append dir "/src/pdaqp.c"]
  end.

(** Files of the solver in the lists of the targets, [e] being the variables at the end of the solver's own file. *)
Definition solver_heads (glob : list string -> list string) (c : bcfg) (D : string) (e : env) : list string :=
  if expl c then [append D "/solver_code/include/pdaqp.h"]
  else match b_if c with ICLARABEL => [] | i => glob (wanted_heads i e) end.
Definition solver_srcs (glob : list string -> list string) (c : bcfg) (D : string) (e : env) : list string :=
  if expl c then [append D "/solver_code/src/pdaqp.c"]
  else match b_if c with ICLARABEL => [] | i => glob (wanted_srcs i e) end.

Section Lists.
Variables (glob : list string -> list string) (c : bcfg) (D : string) (e1 e2 : env).
Definition all_heads : list string :=
  map (text D) (cmake_head c) ++ (if b_two c then glob (wanted_heads IOSQP e2) else []) ++ solver_heads glob c D e1.
Definition all_srcs : list string :=
  map (text D) (cmake_src c) ++ (if b_two c then glob (wanted_srcs IOSQP e2) else []) ++ solver_srcs glob c D e1.
Definition targets : list (string * list string) :=
  [("cpg_example", all_heads ++ all_srcs ++ [text D (src ++ ["cpg_example.c"])]); ("cpg", all_heads ++ all_srcs)].
End Lists.

(** Libraries the targets are linked with. *)
Definition libraries (c : bcfg) (x y : string) : list string :=
  match b_if c with
  | ICLARABEL => "libclarabel_c_static" :: (if b_sdp c then items x ++ items y else [])
  | IQOCO => ["qocostatic"]
  | _ => []
  end.

(** ** Linking the extension module *)

(** Where the build puts the libraries, below code_dir/c: CMake puts static libraries into LIBRARY_OUTPUT_PATH
    (CMakeLists.txt.jinja2 28), into a directory per configuration on Windows; cargo puts Clarabel's into its target
    directory, for which clarabel.py 253-268 chooses the platform. *)
Definition arm (m : machine) : bool := match m with Mac true => true | _ => false end.
Definition made_files (i : iface) (m : machine) : list path :=
  (match m with Windows => ["build"; "out"; "Release"; "cpg.lib"] | _ => ["build"; "out"; "libcpg.a"] end)
  :: match i with
     | IQOCO => [match m with Windows => ["build"; "out"; "Release"; "qocostatic.lib"] | _ => ["build"; "out"; "libqocostatic.a"] end]
     | ICLARABEL => [match m with
                     | Windows => ["solver_code"; "rust_wrapper"; "target"; "release"; "clarabel_c.lib"]
                     | Mac true => ["solver_code"; "rust_wrapper"; "target"; "aarch64-apple-darwin"; "release"; "libclarabel_c.a"]
                     | _ => ["solver_code"; "rust_wrapper"; "target"; "release"; "libclarabel_c.a"]
                     end]
     | _ => []
     end.

(** A directory in which nothing has been built. *)
Definition unbuilt : bst := mkB None None.

(** ** Configuring *)

(** Variables that must have no value in the enclosing project: those passed on, which the generated file extends, and
    lists which the solver's part reads without setting them. *)
Definition unset (pre : string) (c : bcfg) (e : env) : Prop :=
  forall v, In v (passed pre ++ match b_if c with ICLARABEL => solver_vars | IPDAQP => ["pdaqp_src"; "pdaqp_head"] | _ => [] end) -> e v = "".

(** [t] is the state after the solver's own file, run in its directory: it completes, does not set CMake's variable for the
    current directory, and does not set variables of the generated file on which that depends. *)
Definition own_ok (glob : list string -> list string) (found : string -> option string) (d : string) (own : list cmd)
  (kept : list string) (s t : cst) : Prop :=
  run_cmds glob found own (entered d s) = inr t
  /\ c_env t here = append (c_env s here) (append "/" d)
  /\ same_on kept (c_env s) (c_up t).
Definition kept1 (pre : string) (c : bcfg) : list string :=
  here :: passed pre ++ ["BLAS_LIBRARIES"; "LAPACK_LIBRARIES"] ++ match b_if c with ICLARABEL => solver_vars | _ => [] end.
Definition kept2 (pre : string) : list string :=
  here :: passed pre ++ ["BLAS_LIBRARIES"; "LAPACK_LIBRARIES"] ++ solver_vars.

(** After solver_code/CMakeLists.txt. *)
Definition free (n : string) (l : list (string * list string)) : Prop := forall x, ~ In (n, x) l.
