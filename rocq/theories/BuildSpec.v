(** What the files of a generation, its build files and its include lines should be.  Written without the functions
    of Build.v that list the operations, the build lists or the search. *)

From Coq Require Import String List Bool Arith.
From Verif Require Import Base Config Import Build.
Import ListNotations.
Open Scope string_scope.
Open Scope list_scope.

(** Configurations the generator builds (generator.py 72-76, 161-182): explicit programs use PDAQP and have one stage,
    two stages are for gradients only, and gradients of iterative solvers other than OSQP have two stages. *)
Definition cfg_ok (c : bcfg) : Prop :=
  (b_expl c <> 0 -> b_if c = IPDAQP /\ b_two c = false)
  /\ (b_two c = true -> b_grad c = true)
  /\ (b_grad c = true -> b_expl c = 0 -> b_if c <> IOSQP -> b_two c = true).

(** ** Files of the solvers the generation relies on *)

Definition in_repo (v : vendor) (r : string) (p : path) : Prop := In p (v_repo v r).
Definition some_below (v : vendor) (r d : string) : Prop := exists x p, in_repo v r (d :: x :: p).
Definition complete_osqp (v : vendor) (l : list path) : Prop :=
  in_repo v "osqp-python" ["LICENSE"] /\ In ["workspace.h"] l /\ In ["CMakeLists.txt"] l.
Definition complete_solver (v : vendor) (c : bcfg) : Prop :=
  match b_if c with
  | IOSQP => complete_osqp v (v_gen v)
  | ISCS => Forall (some_below v "scs") ["src"; "include"; "linsys"; "cmake"]
            /\ Forall (fun f => in_repo v "scs" [f]) ["scs.mk"; "CMakeLists.txt"; "LICENSE.txt"]
  | IECOS => Forall (some_below v "ecos") ["src"; "external"; "ecos_bb"]
             /\ Forall (fun f => in_repo v "ecos" f) [["CMakeLists.txt"]; ["COPYING"]; ["include"; "glblopts.h"]]
  | ICLARABEL => some_below v "Clarabel.cpp" "Clarabel.rs"
                 /\ Forall (in_repo v "Clarabel.cpp") [["CMakeLists.txt"]; ["LICENSE.md"]; ["rust_wrapper"; "CMakeLists.txt"]; ["include"; "Clarabel"]]
  | IQOCO => Forall (some_below v "qoco") ["src"; "include"; "lib"; "configure"; "algebra"]
             /\ Forall (fun f => in_repo v "qoco" [f]) ["CMakeLists.txt"; "LICENSE"]
  | IQOCOGEN => In ["LICENSE"] (v_gen v)
  | IPDAQP => In ["pdaqp.h"] (v_gen v) /\ In ["pdaqp.c"] (v_gen v)
  end.
Definition complete (v : vendor) (c : bcfg) : Prop :=
  complete_solver v c /\ (b_two c = true -> complete_osqp v (v_osqp v)).

(** Where the header of the solver is. *)
Definition has_header (v : vendor) (i : iface) : Prop :=
  match i with
  | IOSQP => In ["inc"; "public"; "osqp.h"] (v_gen v)
  | ISCS => in_repo v "scs" ["include"; "scs.h"]
  | IECOS => in_repo v "ecos" ["include"; "ecos.h"]
  | IQOCO => in_repo v "qoco" ["include"; "qoco.h"]
  | IQOCOGEN => In ["qoco_custom.h"] (v_gen v)
  | ICLARABEL | IPDAQP => True          (* part of [complete] *)
  end.

(** OSQP's headers include that of QDLDL, in one of its two header directories. *)
Definition has_qdldl (v : vendor) (q : path) : Prop := In q [["inc"; "public"]; ["inc"; "private"]] /\ In (q ++ ["qdldl.h"]) (v_gen v).

(** ** The generated files *)

(** Content of each file outside solver_code and osqp_code: each is written by one function or template. *)
Definition expected (c : bcfg) : list (path * string) :=
  [(["LICENSE"], "LICENSE.jinja2"); (["__init__.py"], "__init__.py.jinja2"); (["setup.py"], "setup.py.jinja2");
   (["README.html"], "README.html.jinja2"); (["cpg_solver.py"], "cpg_solver.py.jinja2");
   (["c"; "CMakeLists.txt"], "CMakeLists.txt.jinja2");
   (["c"; "include"; "cpg_workspace.h"], "write_workspace_prot"); (["c"; "src"; "cpg_workspace.c"], "write_workspace_def");
   (["c"; "include"; "cpg_solve.h"], "write_solve_prot"); (["c"; "src"; "cpg_solve.c"], "write_solve_def");
   (["c"; "src"; "cpg_example.c"], "cpg_example.c.jinja2");
   (["cpp"; "include"; "cpg_module.hpp"], "cpg_module.hpp.jinja2"); (["cpp"; "src"; "cpg_module.cpp"], "write_module_def")]
  ++ (if b_grad c then
        if (b_expl c =? 0)%nat then
          [(["c"; "include"; "cpg_gradient.h"], "_write_gradient_prot"); (["c"; "src"; "cpg_gradient.c"], "_write_gradient_def");
           (["c"; "include"; "cpg_osqp_grad_compute.h"], "cpg_osqp_grad_compute.h.jinja2");
           (["c"; "src"; "cpg_osqp_grad_compute.c"], "cpg_osqp_grad_compute.c.jinja2");
           (["c"; "include"; "cpg_osqp_grad_workspace.h"], "cpg_osqp_grad_workspace.h.jinja2");
           (["c"; "src"; "cpg_osqp_grad_workspace.c"], "_write_gradient_workspace_def")]
        else [(["c"; "include"; "cpg_gradient.h"], "explicit write_prot"); (["c"; "src"; "cpg_gradient.c"], "explicit write_def")]
      else [])
  ++ (if b_two c then
        [(["c"; "include"; "cpg_gradient_workspace.h"], "write_workspace_prot gradient");
         (["c"; "src"; "cpg_gradient_workspace.c"], "write_workspace_def gradient")]
      else []).
(** The licence of ECOS is the only other file at the top. *)
Definition expected_at (c : bcfg) (p : path) : option content :=
  match List.find (fun e => path_eqb p (fst e)) (expected c) with
  | Some (_, w) => Some (From w)
  | None => match b_if c with IECOS => if path_eqb p ["COPYING"] then Some (Vendor ["COPYING"]) else None | _ => None end
  end.

(** Content of the files in solver_code.  Copied solvers: these directories and files of the solver's repository. *)
Definition copied (i : iface) : string * list string * list string :=
  match i with
  | ISCS => ("scs", ["src"; "include"; "linsys"; "cmake"], ["scs.mk"; "CMakeLists.txt"; "LICENSE.txt"])
  | IECOS => ("ecos", ["src"; "include"; "external"; "ecos_bb"], ["CMakeLists.txt"; "COPYING"])
  | ICLARABEL => ("Clarabel.cpp", ["rust_wrapper"; "include"; "Clarabel.rs"], ["CMakeLists.txt"; "LICENSE.md"])
  | _ => ("qoco", ["src"; "include"; "lib"; "configure"; "algebra"], ["CMakeLists.txt"; "LICENSE"])
  end.
Definition from_repo (v : vendor) (i : iface) (r : path) : option content :=
  let '(n, ds, fs) := copied i in
  if match r with [] => false | [f] => mem_str f fs | d :: _ => mem_str d ds end && mem_path r (v_repo v n)
  then Some (Vendor r) else None.
Definition from_gen (l : list path) (r : path) : option content := if mem_path r l then Some (Vendor r) else None.
Definition from_osqp (l : list path) (r : path) : option content :=
  if path_eqb r ["LICENSE"] then Some (Vendor r) else from_gen l r.
Fixpoint at_path {A : Type} (l : list (path * A)) (d : A) (r : path) : A :=
  match l with [] => d | (p, a) :: l => if path_eqb r p then a else at_path l d r end.
Definition source (v : vendor) (c : bcfg) (r : path) : option content :=
  match b_if c with
  | IOSQP => from_osqp (v_gen v) r
  | IQOCOGEN => from_gen (v_gen v) r
  | IPDAQP => at_path [(["pdaqp.h"], None); (["pdaqp.c"], None);                  (* moved *)
                       (["include"; "pdaqp.h"], Some (Vendor ["pdaqp.h"]));
                       (["src"; "pdaqp.c"], Some (Vendor ["pdaqp.c"]));
                       (["CMakeLists.txt"], Some (From "pdaqp sources"))] (from_gen (v_gen v) r) r
  | i => from_repo v i r
  end.
(** The changes the generator makes to each of them, in order. *)
Definition edits (c : bcfg) (r : path) : list string :=
  at_path
    match b_if c with
    | IOSQP => [(["workspace.h"], ["extern sol_x sol_y"]); (["CMakeLists.txt"], ["cut add_library"])]
    | ISCS => [(["scs.mk"], ["USE_LAPACK = 0"]); (["CMakeLists.txt"], ["current source dir"])]
    | IECOS => [(["include"; "glblopts.h"], ["PRINTLEVEL (0)"])]
    | ICLARABEL => [(["CMakeLists.txt"], "no examples" :: (if b_sdp c then ["sdp-openblas"] else []));
                    (["rust_wrapper"; "CMakeLists.txt"], ["solver_code"]); (["include"; "Clarabel"], ["c/"])]
    | IPDAQP => if b_grad c then [(["include"; "pdaqp.h"], ["active region"]); (["src"; "pdaqp.c"], ["active region"])] else []
    | IQOCO | IQOCOGEN => []
    end [] r.
Definition edited (o : option content) (l : list string) : option content :=
  match o with Some x => Some (fold_left Then l x) | None => None end.
Definition solver_file (v : vendor) (c : bcfg) (r : path) : option content :=
  if path_eqb r ["CMakeLists.txt"] && (b_expl c =? 0)%nat then
    match source v c r with
    | Some x => Some (Then (fold_left Then (edits c r) x) "write_canon_cmake solver")
    | None => Some (From "write_canon_cmake solver")
    end
  else edited (source v c r) (edits c r).
(** The same for the copy of OSQP of two-stage programs. *)
Definition osqp_file (v : vendor) (r : path) : option content :=
  edited (from_osqp (v_osqp v) r)
    (at_path [(["workspace.h"], ["extern sol_x sol_y"]);
              (["CMakeLists.txt"], ["cut add_library"; "qdldl only"; "write_canon_cmake osqp"])] [] r).

(** ** Sources and headers *)

(** The file name ends in the given letter after a dot: .c or .h. *)
Definition ends (p : path) (suffix : string) : Prop := exists n, last p "" = (n ++ suffix)%string.

(** ** Includes *)

Definition compute_c : path := ["c"; "src"; "cpg_osqp_grad_compute.c"].

(** Headers of the compiler and of pybind11. *)
Definition system : list (list string) :=
  [["math.h"]; ["stdio.h"]; ["array"]; ["ctime"]; ["chrono"]; ["pybind11"; "pybind11.h"]; ["pybind11"; "stl.h"]].

(** The files a compiler reads: those it compiles and those their include lines lead to. *)
Inductive reads (c : bcfg) (s : tree) (dirs srcs : list path) : path -> Prop :=
| reads_src : forall f, In f srcs -> reads c s dirs srcs f
| reads_inc : forall f i g, reads c s dirs srcs f -> In i (includes c f) -> search s dirs f i = Some g -> reads c s dirs srcs g.

(** An include line is right: a system header; or a generated header, found where it was written; or another header,
    found among the files of the solver. *)
Definition right (c : bcfg) (s : tree) (dirs : list path) (f : path) (i : incl) : Prop :=
  match i with
  | Angle n => In n system \/ exists r, search s dirs f i = Some (sd ++ r)
  | Quote n =>
      (exists w, In (["c"; "include"; last n ""], w) (expected c) /\ search s dirs f i = Some ["c"; "include"; last n ""])
      \/ (exists w, In (["cpp"; "include"; last n ""], w) (expected c) /\ search s dirs f i = Some ["cpp"; "include"; last n ""])
      \/ (exists r, search s dirs f i = Some (sd ++ r) /\ last (sd ++ r) "" = last n "")
  end.

(** ** The headers a source needs *)

Definition inc_h (n : string) : path := ["c"; "include"; n].
(** Generated headers which declare what a generated source uses. *)
Definition needs (c : bcfg) : list (path * list path) :=
  let grad := if b_grad c then [inc_h "cpg_gradient.h"] else [] in
  let kkt := if b_grad c && Nat.eqb (b_expl c) 0 then [inc_h "cpg_osqp_grad_workspace.h"; inc_h "cpg_osqp_grad_compute.h"] else [] in
  let two := if b_two c then [inc_h "cpg_gradient_workspace.h"] else [] in
  [(["c"; "src"; "cpg_workspace.c"], [inc_h "cpg_workspace.h"]);
   (["c"; "src"; "cpg_solve.c"], [inc_h "cpg_workspace.h"; inc_h "cpg_solve.h"] ++ two);
   (["c"; "src"; "cpg_example.c"], [inc_h "cpg_workspace.h"; inc_h "cpg_solve.h"] ++ grad)]
  ++ (if b_grad c then [(["c"; "src"; "cpg_gradient.c"], [inc_h "cpg_workspace.h"; inc_h "cpg_gradient.h"] ++ kkt ++ two)] else [])
  ++ (if b_grad c && Nat.eqb (b_expl c) 0 then
        [(compute_c, [inc_h "cpg_workspace.h"; inc_h "cpg_osqp_grad_workspace.h"]);
         (["c"; "src"; "cpg_osqp_grad_workspace.c"], [inc_h "cpg_workspace.h"; inc_h "cpg_osqp_grad_workspace.h"])] else [])
  ++ (if b_two c then [(["c"; "src"; "cpg_gradient_workspace.c"], inc_h "cpg_workspace.h" :: two)] else []).
Definition module_needs (c : bcfg) : list path :=
  [["cpp"; "include"; "cpg_module.hpp"]; inc_h "cpg_workspace.h"; inc_h "cpg_solve.h"]
  ++ (if b_grad c then [inc_h "cpg_gradient.h"] else [])
  ++ (if b_grad c && Nat.eqb (b_expl c) 0 then [inc_h "cpg_osqp_grad_workspace.h"; inc_h "cpg_osqp_grad_compute.h"] else [])
  ++ (if b_two c then [inc_h "cpg_gradient_workspace.h"] else []).
(** Headers of the solver which declare its types, functions and, for OSQP, its workspace. *)
Definition solver_names (i : iface) : list string :=
  match i with
  | IOSQP => ["osqp.h"; "workspace.h"]
  | ISCS => ["scs.h"]
  | IECOS => ["ecos.h"]
  | ICLARABEL => ["Clarabel"]
  | IQOCO => ["qoco.h"]
  | IQOCOGEN => ["qoco_custom.h"]
  | IPDAQP => ["pdaqp.h"]
  end.
