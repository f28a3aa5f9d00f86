(** What CMake does with the generated CMakeLists.txt and what setup.py links: variables and their scopes, the
    sources, include directories and libraries of the two targets, and the steps of building the extension module.
    Models cvxpygen/templates/CMakeLists.txt.jinja2 6-104, utils.py 1144-1160 (write_canon_cmake), 1434-1447
    (cmake_context), writer.py 83-92, 617-639 (_update_cmake), the attributes cmake_headers and cmake_sources and the
    methods cmake_context_extra and setup_py_context of all interfaces (_interface.py 205-232, osqp.py 66-71, 148-167,
    scs.py 50-61, 166-179, ecos.py 27-28, 159-179, clarabel.py 30, 278-297, qoco.py 28-29, 160-171, 202-203, 382-402,
    pdaqp.py 40-41, 224-229), templates/setup.py.jinja2 29-99, 117 and compiler.py 24-31.
    Simplified: compiler flags, definitions and messages (CMakeLists.txt.jinja2 4, 7-9, 15-27) are left out, except that
    the operating system decides about ARM64 (lines 21-26); of find_package only the variables it sets are kept. *)

From Coq Require Import String Ascii List Bool Arith.
From Verif Require Import Base Config Import Build.
Import ListNotations.
Open Scope string_scope.
Open Scope list_scope.

(** ** The language of CMake, as far as the generated files use it *)

(** Text and references ${...}, which may be nested (scs.py 51-60). *)
Inductive part := T (s : string) | V (l : list part).

(** Arguments: quoted or not. *)
Definition arg := (bool * list part)%type.

(** A variable without value and one holding the empty text are the same for all commands used here. *)
Definition env := string -> string.
Definition set_var (e : env) (v x : string) : env := fun w => if String.eqb w v then x else e w.

Fixpoint expand1 (e : env) (p : part) : string :=
  match p with
  | T s => s
  | V l => e ((fix go l := match l with [] => "" | x :: r => append (expand1 e x) (go r) end) l)
  end.
Definition expand (e : env) (l : list part) : string := fold_right (fun p s => append (expand1 e p) s) "" l.

(** The elements of a list: text between semicolons, empty ones dropped. *)
Fixpoint items_from (acc s : string) : list string :=
  let out := if String.eqb acc "" then [] else [acc] in
  match s with
  | EmptyString => out
  | String ch r => if Ascii.eqb ch ";" then out ++ items_from "" r else items_from (append acc (String ch EmptyString)) r
  end.
Definition items (s : string) : list string := items_from "" s.

(** An unquoted argument is replaced by the elements of its value, a quoted one is kept. *)
Definition args (e : env) (l : list arg) : list string :=
  flat_map (fun a : arg => let (quoted, ps) := a in if quoted then [expand e ps] else items (expand e ps)) l.
Fixpoint joined (l : list string) : string :=
  match l with [] => "" | x :: [] => x | x :: r => append x (String ";" (joined r)) end.

Inductive cmd :=
| Set_ (v : string) (vals : list arg) (up : bool)        (* set (v ... [PARENT_SCOPE]) *)
| Append_ (v : string) (vals : list arg)                 (* list (APPEND v ...) *)
| Glob (v : string) (pats : list arg)                    (* file (GLOB v ...) *)
| Sub (d : string) (body : list cmd)                     (* add_subdirectory (d), with the commands of its file *)
| Dirs (l : list arg)                                    (* include_directories (...) *)
| Target (n : string) (l : list arg)                     (* add_library (n ...), add_executable (n ...) *)
| Link (n : string) (l : list arg)                       (* target_link_libraries (n ...) *)
| Find (p : string).                                     (* find_package (p REQUIRED) *)

(** [c_env], [c_up]: variables of the current directory and of the one that added it; [c_dirs]: include directories;
    targets are global. *)
Record cst := mkC { c_env : env; c_up : env; c_dirs : list string; c_targets : list (string * list string);
                    c_links : list (string * string) }.
Inductive cerr := TargetExists (n : string) | NoTarget (n : string) | NotFoundPackage (p : string).

Definition here : string := "CMAKE_CURRENT_SOURCE_DIR".

Section CMake.
(** [glob]: the files found for a list of patterns; [found]: what find_package puts into <package>_LIBRARIES. *)
Variable glob : list string -> list string.
Variable found : string -> option string.

Fixpoint run1 (k : cmd) (s : cst) {struct k} : cerr + cst :=
  match k with
  | Set_ v vals up =>
      let x := joined (args (c_env s) vals) in
      inr (if up then mkC (c_env s) (set_var (c_up s) v x) (c_dirs s) (c_targets s) (c_links s)
           else mkC (set_var (c_env s) v x) (c_up s) (c_dirs s) (c_targets s) (c_links s))
  | Append_ v vals =>
      let old := c_env s v in let new := joined (args (c_env s) vals) in
      let x := if String.eqb new "" then old else if String.eqb old "" then new else append old (String ";" new) in
      inr (mkC (set_var (c_env s) v x) (c_up s) (c_dirs s) (c_targets s) (c_links s))
  | Glob v pats =>
      inr (mkC (set_var (c_env s) v (joined (glob (args (c_env s) pats)))) (c_up s) (c_dirs s) (c_targets s) (c_links s))
  | Sub d body =>
      let dir := append (c_env s here) (append "/" d) in
      match (fix go l s := match l with [] => inr s | k :: l => match run1 k s with inr s => go l s | inl e => inl e end end)
              body (mkC (set_var (c_env s) here dir) (c_env s) (c_dirs s) (c_targets s) (c_links s)) with
      | inr t => inr (mkC (c_up t) (c_up s) (c_dirs s) (c_targets t) (c_links t))
      | inl e => inl e
      end
  | Dirs l => inr (mkC (c_env s) (c_up s) (c_dirs s ++ args (c_env s) l) (c_targets s) (c_links s))
  | Target n l =>
      if existsb (fun t => String.eqb n (fst t)) (c_targets s) then inl (TargetExists n)
      else inr (mkC (c_env s) (c_up s) (c_dirs s) (c_targets s ++ [(n, args (c_env s) l)]) (c_links s))
  | Link n l =>
      if existsb (fun t => String.eqb n (fst t)) (c_targets s)
      then inr (mkC (c_env s) (c_up s) (c_dirs s) (c_targets s) (c_links s ++ map (pair n) (args (c_env s) l)))
      else inl (NoTarget n)
  | Find p =>
      match found p with
      | Some x => inr (mkC (set_var (c_env s) (append p "_LIBRARIES") x) (c_up s) (c_dirs s) (c_targets s) (c_links s))
      | None => inl (NotFoundPackage p)
      end
  end.
Fixpoint run_cmds (l : list cmd) (s : cst) : cerr + cst :=
  match l with [] => inr s | k :: l => match run1 k s with inr s => run_cmds l s | inl e => inl e end end.
End CMake.

(** ** The generated files *)

Definition ref (v : string) : list part := [V [T v]].
Definition plain (l : list part) : arg := (false, l).
(** ${CMAKE_CURRENT_SOURCE_DIR}/p *)
Definition at_ (p : string) : arg := plain [V [T here]; T p].

(** cmake_headers and cmake_sources: osqp.py 66-71, scs.py 50-61, ecos.py 27-28, clarabel.py 30, qoco.py 28-29 (QOCOGEN)
    and 202-203 (QOCO), pdaqp.py 40-41. *)
Definition project_name : part := V [T "PROJECT_NAME"].
Definition cmake_headers (i : iface) : list arg :=
  match i with
  | IOSQP => [at_ "/*.h"; at_ "/inc/public/*.h"; at_ "/inc/private/*.h"]
  | ISCS => [plain [V [project_name; T "_HDR"]]; plain [V [T "DIRSRC"]; T "/private.h"];
             plain [V [project_name; T "_LDL_EXTERNAL_HDR"]]; plain [V [project_name; T "_AMD_EXTERNAL_HDR"]]]
  | IECOS => [plain (ref "ecos_headers")]
  | ICLARABEL => []
  | IQOCOGEN => [plain (ref "qoco_custom_headers")]
  | IQOCO => [plain (ref "qoco_headers")]
  | IPDAQP => [at_ "/include/pdaqp.h"]
  end.
Definition cmake_sources (i : iface) : list arg :=
  match i with
  | IOSQP => [plain (ref "OSQP_SOURCES"); at_ "/workspace.c"]
  | ISCS => [plain [V [project_name; T "_SRC"]]; plain [V [T "DIRSRC"]; T "/private.c"];
             plain [V [T "EXTERNAL"]; T "/qdldl/qdldl.c"]; plain [V [project_name; T "_AMD_EXTERNAL_SRC"]]]
  | IECOS => [plain (ref "ecos_sources")]
  | ICLARABEL => []
  | IQOCOGEN => [plain (ref "qoco_custom_sources")]
  | IQOCO => [plain (ref "qoco_sources")]
  | IPDAQP => [at_ "/src/pdaqp.c"]
  end.

(** utils.py 1149-1160. *)
Definition canon_cmake (name : string) (i : iface) : list cmd :=
  (match cmake_headers i with
   | [] => []
   | l => [Glob "SOLVER_HEAD" l; Set_ (append name "_head") [plain (ref "SOLVER_HEAD")] true]
   end)
  ++ (match cmake_sources i with
      | [] => []
      | l => [Glob "SOLVER_SRC" l; Set_ (append name "_src") [plain (ref "SOLVER_SRC")] true]
      end).

(** pdaqp.py 224-229. *)
Definition pdaqp_cmake : list cmd :=
  [Append_ "pdaqp_src" [at_ "/src/pdaqp.c"]; Append_ "pdaqp_head" [at_ "/include/pdaqp.h"];
   Set_ "solver_src" [plain (ref "pdaqp_src")] true; Set_ "solver_head" [plain (ref "pdaqp_head")] true].

(** c/solver_code/CMakeLists.txt and c/osqp_code/CMakeLists.txt: [own] is the solver's own file after the edits of
    generate_code (and, for osqp_code, of writer.py 628-634), to which writer.py 620-639 appends. *)
Definition solver_cmake (c : bcfg) (own : list cmd) : list cmd :=
  (match b_if c with IPDAQP => pdaqp_cmake | _ => own end) ++ (if expl c then [] else canon_cmake "solver" (b_if c)).
Definition osqp_cmake (own : list cmd) : list cmd := own ++ canon_cmake "osqp" IOSQP.

(** solver_code_cmake_include_dir and extra_cmake_include_dirs, packages, cmake_target_link_libs: _interface.py 211-217,
    osqp.py 149-152, scs.py 167-170, ecos.py 160-167, clarabel.py 279-288, qoco.py 161-164 and 383-388. *)
Definition include_args (i : iface) : list arg :=
  match i with
  | IOSQP => [at_ "/solver_code/include"; at_ "/solver_code"; at_ "/solver_code/inc/public"; at_ "/solver_code/inc/private"]
  | ISCS => [at_ "/solver_code/include"; at_ "/solver_code/linsys"]
  | IECOS => [at_ "/solver_code/include"; at_ "/solver_code/external/SuiteSparse_config";
              at_ "/solver_code/external/amd/include"; at_ "/solver_code/external/ldl/include"]
  | ICLARABEL | IPDAQP => [at_ "/solver_code/include"]
  | IQOCO => [at_ "/solver_code/include"; at_ "/solver_code/lib/amd"; at_ "/solver_code/lib/qdldl/include"]
  | IQOCOGEN => [at_ "/solver_code"]
  end.
Definition packages (c : bcfg) : list string :=
  match b_if c with ICLARABEL => if b_sdp c then ["BLAS"; "LAPACK"] else [] | _ => [] end.
Definition link_libs (c : bcfg) : list arg :=
  match b_if c with
  | ICLARABEL => plain [T "libclarabel_c_static"]
                 :: (if b_sdp c then [plain (ref "BLAS_LIBRARIES"); plain (ref "LAPACK_LIBRARIES")] else [])
  | IQOCO => [plain [T "qocostatic"]]
  | _ => []
  end.

(** CMakeLists.txt.jinja2 48-64 and 67-87. *)
Definition head_args (c : bcfg) : list arg :=
  [at_ "/include/cpg_workspace.h"; at_ "/include/cpg_solve.h"]
  ++ (if b_grad c then
        at_ "/include/cpg_gradient.h"
        :: (if expl c then []
            else [at_ "/include/cpg_osqp_grad_compute.h"; at_ "/include/cpg_osqp_grad_workspace.h"]
                 ++ (if b_two c then [at_ "/include/cpg_gradient_workspace.h"; plain (ref "osqp_head")] else []))
      else [])
  ++ [plain (ref "solver_head")].
Definition src_args (c : bcfg) : list arg :=
  [at_ "/src/cpg_workspace.c"; at_ "/src/cpg_solve.c"]
  ++ (if b_grad c then
        at_ "/src/cpg_gradient.c"
        :: (if expl c then []
            else [at_ "/src/cpg_osqp_grad_compute.c"; at_ "/src/cpg_osqp_grad_workspace.c"]
                 ++ (if b_two c then [at_ "/src/cpg_gradient_workspace.c"; plain (ref "osqp_src")] else []))
      else [])
  ++ [plain (ref "solver_src")].

(** CMakeLists.txt.jinja2 11-13, 30-104; [pre] is the prefix, [own1], [own2] the solvers' own files. *)
Definition pass_up (v : string) (l : list arg) : list cmd := [Append_ v l; Set_ v [(true, ref v)] true].
Definition top_cmake (pre : string) (c : bcfg) (own1 own2 : list cmd) : list cmd :=
  map Find (packages c)
  ++ [Sub "solver_code" (solver_cmake c own1)]
  ++ (if b_two c then [Sub "osqp_code" (osqp_cmake own2)] else [])
  ++ pass_up (append pre "cpg_include") (at_ "/include" :: include_args (b_if c))
  ++ pass_up (append pre "cpg_head") (head_args c)
  ++ pass_up (append pre "cpg_src") (src_args c)
  ++ [Dirs [plain (ref (append pre "cpg_include"))];
      Target "cpg_example" [plain (ref (append pre "cpg_head")); plain (ref (append pre "cpg_src")); at_ "/src/cpg_example.c"]]
  ++ map (fun l => Link "cpg_example" [l]) (link_libs c)
  ++ [Target "cpg" [plain (ref (append pre "cpg_head")); plain (ref (append pre "cpg_src"))]]
  ++ map (fun l => Link "cpg" [l]) (link_libs c).

(** ** setup.py *)

(** platform.system() and platform.machine(). *)
Inductive machine := Linux | Mac (arm64 : bool) | Windows.

(** setup.py.jinja2 27-83 and 117: the objects linked into the extension module, below code_dir/c.  [gen]: where the
    code was generated (clarabel.py 291), [m]: where setup.py runs. *)
Definition lib_subdir (m : machine) : path := match m with Windows => ["Release"] | _ => [] end.
Definition lib_name (m : machine) : string := match m with Windows => "cpg.lib" | _ => "libcpg.a" end.
Definition cpg_lib (m : machine) : path := ["build"; "out"] ++ lib_subdir m ++ [lib_name m].
Definition libqoco_name (m : machine) : path := match m with Windows => ["Release"; "qocostatic.lib"] | _ => ["libqocostatic.a"] end.
Definition extra_objects (i : iface) (gen m : machine) : list path :=
  match i with
  | IQOCO => [["build"; "out"] ++ libqoco_name m]
  | ICLARABEL => [["solver_code"; "rust_wrapper"; "target"]
                  ++ (match gen with Mac true => ["aarch64-apple-darwin"; "release"] | _ => ["release"] end)
                  ++ ["libclarabel_c.a"]]
  | _ => []
  end.
Definition link_objects (i : iface) (gen m : machine) : list path := cpg_lib m :: extra_objects i gen m.

(** ** Building the extension module *)

(** Version of the C sources in the library, versions of the C sources and of cpg_module.cpp in the extension module. *)
Record bst := mkB { lib : option nat; ext : option (nat * nat) }.

(** One run of setup.py build_ext with C sources [vc] and C++ source [vp].  [made]: cmake --build succeeded; [linked]: the
    compiler and linker succeed if the objects are there; [others]: the extra objects are there.  The exit codes of cmake
    are not looked at (setup.py.jinja2 90-91).  build_ext skips an extension module that is newer than its sources, among
    which the linked objects are not (setup.py.jinja2 102-117 gives no depends). *)
Definition setup_run (vc vp : nat) (made linked others : bool) (s : bst) : bst * bool :=
  let l := if made then Some vc else lib s in
  match ext s with
  | Some (_, p) => if Nat.eqb p vp then (mkB l (ext s), true)
                   else match l with
                        | Some w => if linked && others then (mkB l (Some (w, vp)), true) else (mkB l (ext s), false)
                        | None => (mkB l (ext s), false)
                        end
  | None => match l with
            | Some w => if linked && others then (mkB l (Some (w, vp)), true) else (mkB l None, false)
            | None => (mkB l None, false)
            end
  end.
