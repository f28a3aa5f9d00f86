(** The files a generation puts into its directory, in the order in which they are written, the lists of sources,
    headers and include directories in the generated build files, and the include lines of the generated files.
    Models cvxpygen/generator.py 92-101 (_setup_folder), 119-140 (_run_solver_code_generation), writer.py 62-92
    (write, _write_top_level_files), 105-117, 134-143, 518-646, utils.py 35-55 (render_template_to_file, write_file,
    read_write_file), 470-482, 692-704, 885-896, 1087-1097, 1144-1160 (write_canon_cmake), 1168-1184, the file
    operations of solvers/osqp.py 120-146, scs.py 137-164, ecos.py 135-157, clarabel.py 216-276, qoco.py 142-158,
    362-381, pdaqp.py 207-230, the methods cmake_context_extra and setup_py_context of all interfaces
    (_interface.py 205-232), and templates CMakeLists.txt.jinja2 30-100, setup.py.jinja2 102-117.
    Simplified: file contents are represented by where they come from; paths are relative to code_dir; the files of
    the solvers (git submodules of the repository, or written by the solvers' own code generators) are a parameter. *)

From Coq Require Import String List Bool Arith.
From Verif Require Import Base Config Import.
Import ListNotations.
Open Scope string_scope.
Open Scope list_scope.

(** ** File operations *)

(** Where the content of a file comes from: written by a function or template of the repository, a file of the
    solver, or the result of rewriting or extending another content. *)
Inductive content := From (what : string) | Vendor (src : path) | Then (c : content) (what : string).

(** Files and directories below code_dir; the latest entry of a file counts. *)
Record tree := mkTree { t_dirs : list path; t_files : list (path * content) }.

Definition mem_path (p : path) (l : list path) : bool := existsb (path_eqb p) l.
Fixpoint lookup (p : path) (l : list (path * content)) : option content :=
  match l with [] => None | (q, c) :: r => if path_eqb p q then Some c else lookup p r end.
Definition has_file (s : tree) (p : path) : bool := match lookup p (t_files s) with Some _ => true | None => false end.
Definition has_dir (s : tree) (p : path) : bool := mem_path p (t_dirs s).
Definition parent (p : path) : path := removelast p.
(** All directories on the way to p. *)
Fixpoint ups (p : path) : list path := match p with [] => [[]] | x :: q => [] :: map (cons x) (ups q) end.

(** What the solvers provide: the files of each directory in cvxpygen/solvers, those written by the solver's code
    generator for the solver chosen and those written by OSQP's for the gradient of two-stage programs. *)
Record vendor := mkVendor { v_repo : string -> list path; v_gen : list path; v_osqp : list path }.

Fixpoint strip (d p : path) : option path :=
  match d, p with
  | [], _ => Some p
  | x :: d, y :: p => if String.eqb y x then strip d p else None
  | _ :: _, [] => None
  end.
(** The files of [l] below the directory [d]. *)
Fixpoint sub (d : path) (l : list path) : list path :=
  match l with [] => [] | p :: l => match strip d p with Some (x :: r) => (x :: r) :: sub d l | _ => sub d l end end.

Inductive op :=
| Mkdir (p : path)                              (* os.mkdir *)
| Makedirs (p : path) (exist_ok : bool)         (* os.makedirs *)
| RmDir (p : path)                              (* if os.path.isdir(p): shutil.rmtree(p) *)
| Write (p : path) (what : string)              (* open(p, 'w') *)
| Append (p : path) (what : string)             (* open(p, 'a') *)
| Edit (p : path) (what : string)               (* utils.read_write_file *)
| Codegen (d : path) (l : list path)            (* a code generator of the solver writes l below d *)
| CopyTree (repo : string) (sub d : path)       (* shutil.copytree from cvxpygen/solvers/repo/sub *)
| CopyFile (repo : string) (src d : path)       (* shutil.copyfile from cvxpygen/solvers/repo/src *)
| CopyOwn (p q : path)                          (* shutil.copyfile within the directory *)
| Move (p q : path).                            (* shutil.move *)

Inductive ferr := NotFound | Exists.

Definition put (p : path) (c : content) (s : tree) : tree := mkTree (t_dirs s) ((p, c) :: t_files s).
Definition putdirs (l : list path) (s : tree) : tree := mkTree (l ++ t_dirs s) (t_files s).
Definition remove (f : path -> bool) (s : tree) : tree :=
  mkTree (filter (fun d => negb (f d)) (t_dirs s)) (filter (fun e => negb (f (fst e))) (t_files s)).
Definition add_all (d : path) (l : list path) (origin : path -> path) (s : tree) : tree :=
  mkTree (ups d ++ flat_map (fun f => map (app d) (ups (parent f))) l ++ t_dirs s)
         (map (fun f => (d ++ f, Vendor (origin f))) l ++ t_files s).

Definition exec (v : vendor) (o : op) (s : tree) : ferr + tree :=
  match o with
  | Mkdir p => if has_dir s p || has_file s p then inl Exists else if has_dir s (parent p) then inr (putdirs [p] s) else inl NotFound
  | Makedirs p ok => if has_dir s p then (if ok then inr s else inl Exists) else inr (putdirs (ups p) s)
  | RmDir p => inr (if has_dir s p then remove (below p) s else s)
  | Write p w => if has_dir s (parent p) then inr (put p (From w) s) else inl NotFound
  | Append p w => if has_dir s (parent p) then
                    inr (put p (match lookup p (t_files s) with Some c => Then c w | None => From w end) s)
                  else inl NotFound
  | Edit p w => match lookup p (t_files s) with Some c => inr (put p (Then c w) s) | None => inl NotFound end
  | Codegen d l => inr (add_all d l (fun f => f) s)
  | CopyTree r sd d => match sub sd (v_repo v r) with
                       | [] => inl NotFound
                       | l => if has_dir s d then inl Exists else inr (add_all d l (app sd) s)
                       end
  | CopyFile r src d => if mem_path src (v_repo v r) then
                          if has_dir s (parent d) then inr (put d (Vendor src) s) else inl NotFound
                        else inl NotFound
  | CopyOwn p q => match lookup p (t_files s) with
                   | Some c => if has_dir s (parent q) then inr (put q c s) else inl NotFound
                   | None => inl NotFound
                   end
  | Move p q => match lookup p (t_files s) with
                | Some c => if has_dir s (parent q) then inr (put q c (remove (fun x => path_eqb x p) s)) else inl NotFound
                | None => inl NotFound
                end
  end.

Fixpoint run (v : vendor) (l : list op) (s : tree) : ferr + tree :=
  match l with
  | [] => inr s
  | o :: l => match exec v o s with inr s => run v l s | inl e => inl e end
  end.

(** ** What a generation does *)

(** [b_two] is gradient_two_stage, [b_sdp] tells whether there are semidefinite cones. *)
Record bcfg := mkCfg { b_if : iface; b_grad : bool; b_expl : nat; b_two : bool; b_sdp : bool }.
Definition expl (c : bcfg) : bool := negb (b_expl c =? 0)%nat.

Definition cd : path := ["c"].
Definition inc : path := ["c"; "include"].
Definition src : path := ["c"; "src"].
Definition sd : path := ["c"; "solver_code"].
Definition od : path := ["c"; "osqp_code"].

(** generator.py 96-101; the directory itself has just been made (line 95). *)
Definition fresh : tree := mkTree [[]] [].
Definition folders : list op :=
  [Makedirs src false; Makedirs inc false; Makedirs (cd ++ ["build"]) false;
   Makedirs ["cpp"; "src"] false; Makedirs ["cpp"; "include"] false].

Definition trees (repo : string) (l : list string) : list op := map (fun d => CopyTree repo [d] (sd ++ [d])) l.
Definition copies (repo : string) (l : list string) : list op := map (fun f => CopyFile repo [f] (sd ++ [f])) l.

(** generate_code of the interfaces, for the directory d (the cited edits and removals of clarabel, scs and ecos
    name c/solver_code, the only directory they are called with). *)
Definition osqp_ops (d : path) (l : list path) : list op :=                             (* osqp.py 131-146 *)
  [Codegen d l; CopyFile "osqp-python" ["LICENSE"] (d ++ ["LICENSE"]);
   Edit (d ++ ["workspace.h"]) "extern sol_x sol_y"; Edit (d ++ ["CMakeLists.txt"]) "cut add_library"].
Definition solver_ops (v : vendor) (c : bcfg) : list op :=
  match b_if c with
  | IOSQP => osqp_ops sd (v_gen v)
  | ISCS => [RmDir sd; Mkdir sd] ++ trees "scs" ["src"; "include"; "linsys"; "cmake"]   (* scs.py 140-164 *)
            ++ copies "scs" ["scs.mk"; "CMakeLists.txt"; "LICENSE.txt"]
            ++ [Edit (sd ++ ["scs.mk"]) "USE_LAPACK = 0"; Edit (sd ++ ["CMakeLists.txt"]) "current source dir"]
  | IECOS => [RmDir sd; Mkdir sd] ++ trees "ecos" ["src"; "include"; "external"; "ecos_bb"] (* ecos.py 138-157 *)
             ++ copies "ecos" ["CMakeLists.txt"; "COPYING"]
             ++ [CopyFile "ecos" ["COPYING"] ["COPYING"]; Edit (sd ++ ["include"; "glblopts.h"]) "PRINTLEVEL (0)"]
  | ICLARABEL => [RmDir sd; Mkdir sd] ++ trees "Clarabel.cpp" ["rust_wrapper"; "include"; "Clarabel.rs"] (* clarabel.py 224-276 *)
                 ++ copies "Clarabel.cpp" ["CMakeLists.txt"; "LICENSE.md"]
                 ++ [Edit (sd ++ ["CMakeLists.txt"]) "no examples"]
                 ++ (if b_sdp c then [Edit (sd ++ ["CMakeLists.txt"]) "sdp-openblas"] else [])
                 ++ [Edit (sd ++ ["rust_wrapper"; "CMakeLists.txt"]) "solver_code"; Edit (sd ++ ["include"; "Clarabel"]) "c/"]
  | IQOCO => [RmDir sd; Mkdir sd] ++ trees "qoco" ["src"; "include"; "lib"; "configure"; "algebra"] (* qoco.py 365-381 *)
             ++ copies "qoco" ["CMakeLists.txt"; "LICENSE"] ++ [CopyFile "qoco" ["LICENSE"] ["LICENSE"]]
  | IQOCOGEN => [Codegen sd (v_gen v); CopyOwn (sd ++ ["LICENSE"]) ["LICENSE"]]          (* qoco.py 151-158 *)
  | IPDAQP => [Codegen sd (v_gen v); Makedirs (sd ++ ["include"]) true; Makedirs (sd ++ ["src"]) true; (* pdaqp.py 207-230 *)
               Move (sd ++ ["pdaqp.h"]) (sd ++ ["include"; "pdaqp.h"]); Move (sd ++ ["pdaqp.c"]) (sd ++ ["src"; "pdaqp.c"])]
              ++ (if b_grad c then [Edit (sd ++ ["include"; "pdaqp.h"]) "active region"; Edit (sd ++ ["src"; "pdaqp.c"]) "active region"] else [])
              ++ [Write (sd ++ ["CMakeLists.txt"]) "pdaqp sources"]
  end.

(** generator.py 126-140. *)
Definition vendor_ops (v : vendor) (c : bcfg) : list op :=
  solver_ops v c ++ (if b_two c then osqp_ops od (v_osqp v) else []).

Definition top_ops : list op :=                                                          (* writer.py 77-92 *)
  [Write ["LICENSE"] "LICENSE.jinja2"; Write ["__init__.py"] "__init__.py.jinja2";
   Write (cd ++ ["CMakeLists.txt"]) "CMakeLists.txt.jinja2"; Write ["setup.py"] "setup.py.jinja2"].
Definition workspace_ops : list op :=                                                    (* writer.py 107-116 *)
  [Write (inc ++ ["cpg_workspace.h"]) "write_workspace_prot"; Write (src ++ ["cpg_workspace.c"]) "write_workspace_def"].
Definition solve_ops : list op :=                                                        (* writer.py 134-143 *)
  [Write (inc ++ ["cpg_solve.h"]) "write_solve_prot"; Write (src ++ ["cpg_solve.c"]) "write_solve_def"].
Definition gradient_ops (c : bcfg) : list op :=                                          (* writer.py 445-447, 513-588 *)
  if expl c then [Write (inc ++ ["cpg_gradient.h"]) "explicit write_prot"; Write (src ++ ["cpg_gradient.c"]) "explicit write_def"]
  else [Write (src ++ ["cpg_osqp_grad_compute.c"]) "cpg_osqp_grad_compute.c.jinja2";
        Write (inc ++ ["cpg_osqp_grad_compute.h"]) "cpg_osqp_grad_compute.h.jinja2";
        Write (inc ++ ["cpg_osqp_grad_workspace.h"]) "cpg_osqp_grad_workspace.h.jinja2";
        Write (src ++ ["cpg_osqp_grad_workspace.c"]) "_write_gradient_workspace_def"]
       ++ (if b_two c then [Write (inc ++ ["cpg_gradient_workspace.h"]) "write_workspace_prot gradient";
                            Write (src ++ ["cpg_gradient_workspace.c"]) "write_workspace_def gradient"] else [])
       ++ [Write (inc ++ ["cpg_gradient.h"]) "_write_gradient_prot"; Write (src ++ ["cpg_gradient.c"]) "_write_gradient_def"].
Definition rest_ops : list op :=                                                         (* writer.py 590-615 *)
  [Write (src ++ ["cpg_example.c"]) "cpg_example.c.jinja2"; Write ["cpp"; "include"; "cpg_module.hpp"] "cpg_module.hpp.jinja2";
   Write ["cpp"; "src"; "cpg_module.cpp"] "write_module_def"; Write ["cpg_solver.py"] "cpg_solver.py.jinja2"].
Definition cmake_ops (c : bcfg) : list op :=                                             (* writer.py 617-639 *)
  (if expl c then [] else [Append (sd ++ ["CMakeLists.txt"]) "write_canon_cmake solver"])
  ++ (if b_two c then [Edit (od ++ ["CMakeLists.txt"]) "qdldl only"; Append (od ++ ["CMakeLists.txt"]) "write_canon_cmake osqp"] else []).
(** writer.py 62-73. *)
Definition write_ops (c : bcfg) : list op :=
  top_ops ++ workspace_ops ++ solve_ops ++ (if b_grad c then gradient_ops c else []) ++ rest_ops ++ cmake_ops c
  ++ [Write ["README.html"] "README.html.jinja2"].

(** generator.py 81-83. *)
Definition generate_files (v : vendor) (c : bcfg) : ferr + tree :=
  run v (folders ++ vendor_ops v c ++ write_ops c) fresh.

(** ** The build files *)

(** Generated headers and sources in CMakeLists.txt.jinja2 48-88; ${solver_head}, ${osqp_head}, ${solver_src},
    ${osqp_src} are those of the solvers. *)
Definition cmake_head (c : bcfg) : list path :=
  map (fun f => inc ++ [f])
    (["cpg_workspace.h"; "cpg_solve.h"]
     ++ (if b_grad c then
           "cpg_gradient.h" :: (if expl c then [] else ["cpg_osqp_grad_compute.h"; "cpg_osqp_grad_workspace.h"]
                                                      ++ (if b_two c then ["cpg_gradient_workspace.h"] else []))
         else [])).
Definition cmake_src (c : bcfg) : list path :=
  map (fun f => src ++ [f])
    (["cpg_workspace.c"; "cpg_solve.c"]
     ++ (if b_grad c then
           "cpg_gradient.c" :: (if expl c then [] else ["cpg_osqp_grad_compute.c"; "cpg_osqp_grad_workspace.c"]
                                                      ++ (if b_two c then ["cpg_gradient_workspace.c"] else []))
         else [])).
(** The targets: add_library (cpg ...), add_executable (cpg_example ... src/cpg_example.c), lines 93 and 99. *)
Definition library_src (c : bcfg) : list path := cmake_src c.
Definition example_src (c : bcfg) : list path := cmake_src c ++ [src ++ ["cpg_example.c"]].

(** CMakeLists.txt.jinja2 37-44 with cmake_context_extra of the solver interface: _interface.py 211-217,
    osqp.py 148-157, scs.py 166-171, ecos.py 159-168, clarabel.py 278-288, qoco.py 160-164 and 382-388. *)
Definition cmake_dirs (c : bcfg) : list path :=
  inc :: match b_if c with
         | IOSQP => [sd ++ ["include"]; sd; sd ++ ["inc"; "public"]; sd ++ ["inc"; "private"]]
         | ISCS => [sd ++ ["include"]; sd ++ ["linsys"]]
         | IECOS => [sd ++ ["include"]; sd ++ ["external"; "SuiteSparse_config"]; sd ++ ["external"; "amd"; "include"];
                     sd ++ ["external"; "ldl"; "include"]]
         | ICLARABEL | IPDAQP => [sd ++ ["include"]]
         | IQOCO => [sd ++ ["include"]; sd ++ ["lib"; "amd"]; sd ++ ["lib"; "qdldl"; "include"]]
         | IQOCOGEN => [sd]
         end.
(** setup.py.jinja2 104-112 with setup_py_context: _interface.py 224-232, osqp.py 159-167, scs.py 173-179,
    ecos.py 170-179, clarabel.py 290-297, qoco.py 166-171 and 390-402. *)
Definition setup_dirs (c : bcfg) : list path :=
  cd :: ["cpp"; "include"]
  :: match b_if c with
     | IOSQP => [sd; sd ++ ["inc"; "public"]; sd ++ ["inc"; "private"]; sd ++ ["include"]]
     | ISCS => [sd ++ ["include"]; sd ++ ["linsys"]]
     | IECOS => [sd ++ ["include"]; sd ++ ["external"; "SuiteSparse_config"]; sd ++ ["external"; "amd"; "include"];
                 sd ++ ["external"; "ldl"; "include"]]
     | ICLARABEL | IPDAQP => [sd ++ ["include"]]
     | IQOCO => [sd ++ ["include"]; sd ++ ["lib"; "amd"]; sd ++ ["lib"; "qdldl"; "include"]]
     | IQOCOGEN => [sd]
     end.
(** sources=glob(cpp/src/*.cpp) in setup.py.jinja2 103: the files directly in cpp/src (no generated file in that
    directory has another extension). *)
Definition setup_src (s : tree) : list path :=
  filter (fun p => path_eqb (parent p) ["cpp"; "src"]) (map fst (t_files s)).

(** ** Include lines *)

(** In double quotes or angle brackets. *)
Inductive incl := Quote (n : list string) | Angle (n : list string).

(** header_files: osqp.py 65, scs.py 49, ecos.py 26, clarabel.py 29, qoco.py 27 and 201, pdaqp.py 39. *)
Definition header_files (i : iface) : list incl :=
  match i with
  | IOSQP => [Quote ["osqp.h"]; Quote ["workspace.h"]]
  | ISCS => [Quote ["scs.h"]]
  | IECOS => [Quote ["ecos.h"]]
  | ICLARABEL => [Angle ["Clarabel"]]
  | IQOCO => [Quote ["qoco.h"]]
  | IQOCOGEN => [Quote ["qoco_custom.h"]]
  | IPDAQP => [Quote ["pdaqp.h"]]
  end.

Definition q (f : string) : incl := Quote [f].
Definition two_heads (c : bcfg) : list incl := if b_two c then [q "cpg_gradient.h"; q "cpg_gradient_workspace.h"] else [].

(** The include lines of each generated file, in order. *)
Definition include_table (c : bcfg) : list (path * list incl) :=
  [(inc ++ ["cpg_workspace.h"], header_files (b_if c));                                   (* utils.py 700-704 *)
   (src ++ ["cpg_workspace.c"], q "cpg_workspace.h" :: two_heads c);                      (* utils.py 478-481 *)
   (inc ++ ["cpg_solve.h"], q "cpg_workspace.h" :: (if expl c then header_files (b_if c) else [])); (* utils.py 1093-1096 *)
   (src ++ ["cpg_solve.c"], [q "cpg_solve.h"; q "cpg_workspace.h"] ++ two_heads c);       (* utils.py 891-895 *)
   (inc ++ ["cpg_gradient.h"], [q "cpg_workspace.h"]);                                    (* writer.py 329, 434 *)
   (src ++ ["cpg_gradient.c"],                                                            (* writer.py 451-453, 165-170 *)
      if expl c then [q "cpg_gradient.h"; q "cpg_workspace.h"; Quote [".."; "solver_code"; "include"; "pdaqp.h"]]
      else [q "cpg_gradient.h"] ++ (if b_two c then [q "cpg_gradient_workspace.h"; q "cpg_workspace.h"] else [])
           ++ [q "cpg_osqp_grad_workspace.h"; q "cpg_osqp_grad_compute.h"]);
   (src ++ ["cpg_osqp_grad_compute.c"],                                                   (* cpg_osqp_grad_compute.c.jinja2 1-7 *)
      [Angle ["math.h"]] ++ (if b_two c then [q "cpg_gradient.h"] else []) ++ [q "qdldl.h"; q "cpg_osqp_grad_workspace.h"]);
   (inc ++ ["cpg_osqp_grad_compute.h"], [q "cpg_osqp_grad_workspace.h"]);                 (* cpg_osqp_grad_compute.h.jinja2 2 *)
   (inc ++ ["cpg_osqp_grad_workspace.h"], [q "cpg_workspace.h"]);                         (* cpg_osqp_grad_workspace.h.jinja2 2 *)
   (src ++ ["cpg_osqp_grad_workspace.c"], [q "cpg_osqp_grad_workspace.h"]);               (* writer.py 373 *)
   (inc ++ ["cpg_gradient_workspace.h"], [q "cpg_workspace.h"]);                          (* utils.py 704 *)
   (src ++ ["cpg_gradient_workspace.c"], q "cpg_workspace.h" :: two_heads c);             (* utils.py 478-481 *)
   (src ++ ["cpg_example.c"], [Angle ["stdio.h"]; q "cpg_workspace.h"; q "cpg_solve.h"]   (* cpg_example.c.jinja2 7-12 *)
                              ++ (if b_grad c then [q "cpg_gradient.h"] else []));
   (["cpp"; "include"; "cpg_module.hpp"], [Angle ["array"]]);                             (* cpg_module.hpp.jinja2 7 *)
   (["cpp"; "src"; "cpg_module.cpp"],                                                     (* utils.py 1169-1183 *)
      [Angle ["pybind11"; "pybind11.h"]; Angle ["pybind11"; "stl.h"]; Angle ["ctime"]; Angle ["chrono"]; q "cpg_module.hpp";
       Quote ["include"; "cpg_workspace.h"]; Quote ["include"; "cpg_solve.h"]]
      ++ (if b_grad c then
            Quote ["include"; "cpg_gradient.h"]
            :: (if expl c then [] else [Quote ["include"; "cpg_osqp_grad_workspace.h"]; Quote ["include"; "cpg_osqp_grad_compute.h"]])
          else [])
      ++ (if b_two c then [Quote ["include"; "cpg_gradient_workspace.h"]] else []))].
Fixpoint includes_in (t : list (path * list incl)) (p : path) : list incl :=
  match t with [] => [] | (f, l) :: t => if path_eqb p f then l else includes_in t p end.
Definition includes (c : bcfg) (p : path) : list incl := includes_in (include_table c) p.

(** How the compiler looks for a file: names in quotes first in the directory of the including file, then both in
    the include directories in their order. *)
Fixpoint first_file (s : tree) (l : list path) (n : list string) : option path :=
  match l with
  | [] => None
  | d :: l => if has_file s (walk d n) then Some (walk d n) else first_file s l n
  end.
Definition search (s : tree) (dirs : list path) (from : path) (i : incl) : option path :=
  match i with
  | Quote n => first_file s (parent from :: dirs) n
  | Angle n => first_file s dirs n
  end.
