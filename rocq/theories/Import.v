(** What generate_code does to the file system, to the running interpreter's modules and to the problem:
    creating the directory, writing the Python module, compiling, importing and registering it.
    Models cvxpygen/generator.py 65-100 and 153-156 (_setup_folder, _run_compilation), compiler.py, writer.py 79-85,
    utils.py 1591 and 38, cpg_solver.py.jinja2 line 12, on POSIX file systems without symbolic links.
    External: os.mkdir, shutil.rmtree, importlib (sys.modules, sys.path, packages, FileFinder seeing
    the current content of directories) and the parts of Python's grammar for from-imports are
    modelled from their documentation.  Simplified: a namespace package has one directory; relative
    from-imports fail; names are ASCII; compilation is one bit, whether it produced the extension. *)

From Coq Require Import String Ascii Arith Bool List.
From Verif Require Import Base Config.
Import ListNotations.
Open Scope string_scope.
Open Scope list_scope.

(** ** Strings *)

(** s.split(c) *)
Fixpoint split (c : ascii) (s : string) : list string :=
  match s with
  | EmptyString => [""]
  | String a t =>
      if Ascii.eqb a c then "" :: split c t
      else match split c t with h :: r => String a h :: r | [] => [String a ""] end
  end.
(** s.replace(a, b) for single characters. *)
Fixpoint repl (a b : ascii) (s : string) : string :=
  match s with EmptyString => "" | String x t => String (if Ascii.eqb x a then b else x) (repl a b t) end.
Fixpoint has (c : ascii) (s : string) : bool := match s with EmptyString => false | String a t => Ascii.eqb a c || has c t end.

(** utils.py 1591: code_dir.replace('/', '.').replace('\\', '.') *)
Definition slash : ascii := "/"%char.
Definition dot : ascii := "."%char.
Definition bslash : ascii := "\"%char.
Definition dotted (code_dir : string) : string := repl bslash dot (repl slash dot code_dir).

(** Python identifiers. *)
Definition id_start (c : ascii) : bool := is_alpha c || Ascii.eqb c "_"%char.
Definition id_char (c : ascii) : bool := id_start c || is_digit c.
Fixpoint all_chars (f : ascii -> bool) (s : string) : bool := match s with EmptyString => true | String a t => f a && all_chars f t end.
Definition keywords : list string :=
  ["False"; "None"; "True"; "and"; "as"; "assert"; "async"; "await"; "break"; "class"; "continue"; "def"; "del"; "elif"; "else"; "except";
   "finally"; "for"; "from"; "global"; "if"; "import"; "in"; "is"; "lambda"; "nonlocal"; "not"; "or"; "pass"; "raise"; "return"; "try"; "while"; "with"; "yield"].
Definition identifier (s : string) : bool :=
  match s with EmptyString => false | String a t => id_start a && all_chars id_char t && negb (mem_str s keywords) end.

(** ** File system *)

Definition path := list string.
Fixpoint path_eqb (a b : path) : bool :=
  match a, b with [], [] => true | x :: a, y :: b => String.eqb x y && path_eqb a b | _, _ => false end.
Fixpoint below (p q : path) : bool :=
  match p, q with [], _ => true | x :: p, y :: q => String.eqb x y && below p q | _ :: _, [] => false end.
(** What matters of a directory: whether it has an __init__.py; cpg_solver.py with the number of the
    generation that wrote it and the name in its from-import; the compiled extension.  A node can also be a module
    (the file name.py next to the directories). *)
Inductive node := NDir (init : bool) (py : option (nat * string)) (ext : option nat) | NMod.
Definition files := path -> option node.

(** The path a directory name denotes. *)
Definition walk (cwd : path) (cs : list string) : path :=
  fold_left (fun p c => if String.eqb c "" || String.eqb c "." then p else if String.eqb c ".." then removelast p else p ++ [c]) cs cwd.
Definition absolute (s : string) : bool := match s with String a _ => Ascii.eqb a slash | EmptyString => false end.
Definition resolve (cwd : path) (code_dir : string) : path := walk (if absolute code_dir then [] else cwd) (split slash code_dir).

Inductive ierr := FileNotFound | FileExists | ModuleNotFound | ImportFailed | SyntaxFailed | TypeFailed.

(** shutil.rmtree(code_dir, ignore_errors=True): what is below, and the directory itself unless its name ends in a
    dot component (rmdir refuses those); nothing for the empty name.  A file name.py is not touched. *)
Definition last_dot (code_dir : string) : bool :=
  let c := last (split slash code_dir) "" in String.eqb c "." || String.eqb c "..".
Definition rmtree (cwd : path) (code_dir : string) (fs : files) : files :=
  if String.eqb code_dir "" then fs else
  let p := resolve cwd code_dir in
  fun q =>
    if path_eqb p q then match fs q with
                         | Some NMod => Some NMod
                         | Some (NDir _ _ _) => if last_dot code_dir then Some (NDir false None None) else None
                         | None => None
                         end
    else if below p q then None else fs q.
(** os.mkdir: the parent has to exist. *)
Definition mkdir (cwd : path) (code_dir : string) (fs : files) : ierr + files :=
  if String.eqb code_dir "" then inl FileNotFound else
  let p := resolve cwd code_dir in
  match fs p with
  | Some (NDir _ _ _) => inl FileExists
  | _ => match p with
            | [] => inl FileExists
            | _ => match removelast p, fs (removelast p) with
                   | [], _ | _, Some (NDir _ _ _) => inr (fun q => if path_eqb q p then Some (NDir false None None) else fs q)
                   | _, _ => inl FileNotFound
                   end
            end
  end.

(** ** Modules *)

(** A loaded module: a package with its directory, a module cpg_solver (generation of its text, and of the
    extension it has bound), an extension, anything else. *)
Inductive modl := MPkg (p : path) | MSolve (py c : nat) | MExt (g : nat) | MPlain.
Record st := mkSt
  { s_fs : files; s_cwd : path; s_path : list path; s_mods : list string -> option modl;
    s_reg : nat -> option (nat * nat);     (* what the CPG method of each problem runs: text and extension *)
    s_next : nat }.

Section Import.
  (** Modules that precede sys.path: built-in and frozen ones. *)
  Variable builtin : string -> bool.

  (** A name that can be an entry of a directory. *)
  Definition clean (d : string) : bool := negb (has slash d) && negb (String.eqb d "").
  Definition node_mod (p : path) (n : node) : modl := match n with NDir _ _ _ => MPkg p | NMod => MPlain end.
  Definition regular (n : node) : bool := match n with NDir init _ _ => init | NMod => true end.
  (** FileFinder on a list of directories: regular packages and modules first, then a plain directory. *)
  Definition find_in (fs : files) (dirs : list path) (d : string) : option modl :=
    let at_ (ok : node -> bool) := find (fun e => match fs (e ++ [d]) with Some n => ok n | None => false end) dirs in
    if clean d then
      match at_ regular with
      | Some e => match fs (e ++ [d]) with Some n => Some (node_mod (e ++ [d]) n) | None => None end
      | None => match at_ (fun _ => true) with Some e => Some (MPkg (e ++ [d])) | None => None end
      end
    else None.

  Definition setmod (n : list string) (m : modl) (f : list string -> option modl) : list string -> option modl :=
    fun k => if path_eqb k n then Some m else f k.
  Definition with_mods (s : st) (f : list string -> option modl) : st := mkSt (s_fs s) (s_cwd s) (s_path s) f (s_reg s) (s_next s).

  (** Packages, outermost first: every prefix of the name that is not in sys.modules is imported. *)
  Fixpoint import_pkg (s : st) (pre rest : list string) (parent : option modl) : st * (ierr + modl) :=
    match rest with
    | [] => (s, match parent with Some m => inr m | None => inl ModuleNotFound end)
    | d :: t =>
        let n := pre ++ [d] in
        match s_mods s n with
        | Some m => import_pkg s n t (Some m)
        | None =>
            let found := match parent with
                         | None => if builtin d then Some MPlain else find_in (s_fs s) (s_path s) d
                         | Some (MPkg p) => find_in (s_fs s) [p] d
                         | Some _ => None
                         end in
            match found with
            | Some m => import_pkg (with_mods s (setmod n m (s_mods s))) n t (Some m)
            | None => (s, inl ModuleNotFound)
            end
        end
    end.

  (** from <name> import cpg_module, executed inside cpg_solver.py. *)
  Definition from_import (s : st) (name : string) : st * (ierr + nat) :=
    let cs := split dot name in
    if String.eqb (hd "" cs) "" then (s, inl ImportFailed)
    else if forallb identifier cs then
      match import_pkg s [] cs None with
      | (s1, inr (MPkg p)) =>
          match s_mods s1 (cs ++ ["cpg_module"]) with
          | Some (MExt g) => (s1, inr g)
          | _ => match s_fs s1 p with
                 | Some (NDir _ _ (Some g)) => (with_mods s1 (setmod (cs ++ ["cpg_module"]) (MExt g) (s_mods s1)), inr g)
                 | _ => (s1, inl ImportFailed)
                 end
          end
      | (s1, inr _) => (s1, inl ImportFailed)
      | (s1, inl e) => (s1, inl e)
      end
    else (s, inl SyntaxFailed).

  (** importlib.import_module(pkg + '.cpg_solver') *)
  Definition import_solver (s : st) (pkg : string) : st * (ierr + (nat * nat)) :=
    let cs := split dot pkg in
    let n := cs ++ ["cpg_solver"] in
    if String.eqb (hd "" cs) "" then (s, inl TypeFailed) else
    match s_mods s n with
    | Some (MSolve a b) => (s, inr (a, b))
    | Some _ => (s, inl ImportFailed)
    | None =>
        match import_pkg s [] cs None with
        | (s1, inr (MPkg p)) =>
            match s_fs s1 p with
            | Some (NDir _ (Some (g, name)) _) =>
                match from_import s1 name with
                | (s2, inr c) => (with_mods s2 (setmod n (MSolve g c) (s_mods s2)), inr (g, c))
                | (s2, inl e) => (s2, inl e)
                end
            | _ => (s1, inl ModuleNotFound)
            end
        | (s1, inr _) => (s1, inl ModuleNotFound)
        | (s1, inl e) => (s1, inl e)
        end
    end.

  (** compiler.py 32-36 and generator.py 153-156. *)
  Definition register (s : st) (code_dir : string) (prob : nat) : st * option ierr :=
    let s0 := mkSt (s_fs s) (s_cwd s) (if existsb (path_eqb (s_cwd s)) (s_path s) then s_path s else s_cwd s :: s_path s) (s_mods s) (s_reg s) (s_next s) in
    match import_solver s0 code_dir with
    | (s1, inr r) => (mkSt (s_fs s1) (s_cwd s1) (s_path s1) (s_mods s1) (fun q => if Nat.eqb q prob then Some r else s_reg s1 q) (s_next s1), None)
    | (s1, inl e) => (s1, Some e)
    end.

  Definition put (p : path) (n : node) (fs : files) : files := fun q => if path_eqb q p then Some n else fs q.
  (** generate (generator.py 65-88) after canonicalization; [builds]: setup.py produced the extension; its exit
      status is not looked at (compiler.py 28). *)
  Definition generate (s : st) (prob : nat) (code_dir : string) (wrapper builds : bool) : st * option ierr :=
    let g := s_next s in
    let fs1 := rmtree (s_cwd s) code_dir (s_fs s) in
    let st_with fs := mkSt fs (s_cwd s) (s_path s) (s_mods s) (s_reg s) (S g) in
    match mkdir (s_cwd s) code_dir fs1 with
    | inl e => (st_with fs1, Some e)
    | inr fs2 =>
        let p := resolve (s_cwd s) code_dir in
        let fs3 := put p (NDir true (Some (g, dotted code_dir)) None) fs2 in
        if wrapper then register (st_with (put p (NDir true (Some (g, dotted code_dir)) (if builds then Some g else None)) fs3)) code_dir prob
        else (st_with fs3, None)
    end.

  (** Sessions; errors are caught by the user and do not end them. *)
  Inductive op := Gen (prob : nat) (code_dir : string) (wrapper builds : bool) | Chdir (p : path).
  Definition step (s : st) (o : op) : st * option ierr :=
    match o with
    | Gen prob d w b => generate s prob d w b
    | Chdir p => (mkSt (s_fs s) p (s_path s) (s_mods s) (s_reg s) (s_next s), None)
    end.
  Fixpoint run (s : st) (os : list op) : st * list (option ierr) :=
    match os with
    | [] => (s, [])
    | o :: t => let (s1, e) := step s o in let (s2, es) := run s1 t in (s2, e :: es)
    end.
End Import.
