(** Solver objects and pointers of the generated code over repeated calls of cpg_solve: what is
    allocated, which pointer variable refers to what, and how long the storage behind a pointer
    lives.
    Models the [function_call] and [solve_function_call] strings of cvxpygen/solvers/*.py as far as
    they create objects or follow pointers, the braces write_update_structure puts around them
    (cvxpygen/utils.py 422-467), cpg_solve (utils.py 1008-1052) and the settings functions
    (utils.py 1069-1084). *)

From Coq Require Import String Arith Bool List.
From Verif Require Import Base Pus.
Import ListNotations.

(** Pointer variables and structs holding a pointer.
    [VWork]: Scs_Work (scs.py 269), ecos_workspace (ecos.py 195), Clarabel's solver (clarabel.py 322),
    qoco_solver (qoco.py 417), OSQP's solver and qoco_custom_workspace (statically allocated);
    [VSolution]: Clarabel's solution, whose x and z point into the solver object;
    [VP], [VA]: the data pointers of Clarabel's structs P and A (clarabel.py 310-311), and the local
    pointers P, A of QOCO's set-up (qoco.py 267-272); [VG], [VStgs]: QOCO's local G and
    qoco_settings; [VLoaded]: QOCOGEN's workspace.n, positive once load_data has run (qoco.py 96). *)
Inductive var := VWork | VSolution | VP | VA | VG | VStgs | VLoaded.

Definition var_eqb (a b : var) : bool :=
  match a, b with
  | VWork, VWork | VSolution, VSolution | VP, VP | VA, VA | VG, VG | VStgs, VStgs
  | VLoaded, VLoaded => true
  | _, _ => false
  end.

(** Null, an array or struct with static storage, or the k-th object created at run time. *)
Inductive place := Null | Static | At (k : nat).

(** An object created at run time: allocated by malloc or a library constructor ([ob_heap]), or a
    compound literal of a block. *)
Record obj := mkObj { ob_heap : bool; ob_live : bool }.

(** Following a null pointer, or a pointer to an object whose lifetime has ended. *)
Inductive fault := NullRead (v : var) | DeadRead (v : var).

Record ost := mkO
  { o_env : var -> place; o_objs : list obj; o_tries : nat; o_faults : list fault }.

(** The statements.  [SDecl v]: declaration of the local pointer [v], initialised by malloc;
    [SNew v]: v = constructor(...); [SStatic v]: v receives the address of a static array;
    [SLiteral v]: v receives the address of a compound literal; [SNull v]: v = NULL;
    [SAlias v w]: v receives a pointer into the object of [w]; [SRead v]: the code or the library
    follows [v]; [SArg v]: [v] is passed to a library function that accepts NULL for it. *)
Inductive ostmt :=
| SDecl (v : var) | SNew (v : var) | SStatic (v : var) | SLiteral (v : var) | SNull (v : var)
| SAlias (v w : var) | SRead (v : var) | SArg (v : var).

Definition vset (e : var -> place) (v : var) (x : place) : var -> place :=
  fun w => if var_eqb w v then x else e w.

Section Objects.
  (** Whether the n-th request for memory is granted; otherwise the constructor returns NULL. *)
  Variable give : nat -> bool.

  Definition o_set (s : ost) (v : var) (x : place) : ost :=
    mkO (vset (o_env s) v x) (o_objs s) (o_tries s) (o_faults s).

  Definition o_new (s : ost) (v : var) : ost :=
    if give (o_tries s)
    then mkO (vset (o_env s) v (At (length (o_objs s)))) (o_objs s ++ [mkObj true true])
             (S (o_tries s)) (o_faults s)
    else mkO (vset (o_env s) v Null) (o_objs s) (S (o_tries s)) (o_faults s).

  Definition o_fault (s : ost) (f : fault) : ost :=
    mkO (o_env s) (o_objs s) (o_tries s) (o_faults s ++ [f]).

  Definition is_live (s : ost) (k : nat) : bool :=
    match nth_error (o_objs s) k with Some o => ob_live o | None => false end.

  Definition o_read (null_ok : bool) (s : ost) (v : var) : ost :=
    match o_env s v with
    | Static => s
    | Null => if null_ok then s else o_fault s (NullRead v)
    | At k => if is_live s k then s else o_fault s (DeadRead v)
    end.

  Definition exec_stmt (s : ost) (c : ostmt) : ost :=
    match c with
    | SDecl v | SNew v => o_new s v
    | SStatic v => o_set s v Static
    | SLiteral v =>
      mkO (vset (o_env s) v (At (length (o_objs s)))) (o_objs s ++ [mkObj false true])
          (o_tries s) (o_faults s)
    | SNull v => o_set s v Null
    | SAlias v w => o_set s v (o_env s w)
    | SRead v => o_read false s v
    | SArg v => o_read true s v
    end.

  Definition exec_stmts (s : ost) (l : list ostmt) : ost := fold_left exec_stmt l s.

  Definition declared (l : list ostmt) : list var :=
    flat_map (fun c => match c with SDecl v => [v] | _ => [] end) l.

  Definition leave (o : obj) : obj := if ob_heap o then o else mkObj false false.

  (** The closing brace: compound literals of the block end (C11 6.5.2.5p5), its local variables
      are gone. *)
  Definition end_block (start : nat) (vs : list var) (s : ost) : ost :=
    mkO (fun v => if existsb (var_eqb v) vs then Null else o_env s v)
        (firstn start (o_objs s) ++ map leave (skipn start (o_objs s)))
        (o_tries s) (o_faults s).

  Definition in_block (s : ost) (l : list ostmt) : ost :=
    end_block (length (o_objs s)) (declared l) (exec_stmts s l).
End Objects.

(** What a program looks like as far as objects are concerned.  [p_code]: the update code of
    cpg_solve; [p_outd]: the flags an update function sets; [p_eq], [p_ineq]: whether there are
    equality and inequality rows (canon_constants p and m). *)
Record prog := mkProg
  { p_solver : solver; p_chg : changes; p_outd : string -> list pid; p_code : ublock;
    p_eq : bool; p_ineq : bool }.

(** qoco.py 267-312: the set-up of QOCO.  P, A and G are allocated before the code decides that
    there is no such block. *)
Definition qoco_setup_stmts (lp eq ineq : bool) : list ostmt :=
  [SDecl VP; SDecl VA; SDecl VG]
  ++ [if lp then SNull VP else SRead VP]
  ++ [if eq then SRead VA else SNull VA]
  ++ [if ineq then SRead VG else SNull VG]
  ++ [SDecl VStgs; SRead VStgs; SNew VWork; SRead VWork; SArg VP; SArg VA; SArg VG; SRead VStgs].

(** The statements of one call: osqp.py 20-61, scs.py 25-45, ecos.py 88-117, clarabel.py 158-204
    (P of a linear program is the compound literal of line 161), qoco.py 94-129 and 267-344. *)
Definition stmts_of (p : prog) (a : action) : list ostmt :=
  match p_solver p, a with
  | OSQP, APush _ _ => [SRead VWork]
  | SCS _, AInit _ _ | ECOS, AInit _ _ => [SNew VWork]
  | SCS _, APush _ _ | ECOS, APush _ _ | QOCO _, APush _ _ | QOCOGEN _, APush _ _ => [SRead VWork]
  | CLARABEL lp, ACopyAll => [if lp then SLiteral VP else SStatic VP; SStatic VA]
  | CLARABEL _, ACopy pA => [SStatic VA]
  | CLARABEL _, ACopy pP => [SStatic VP]
  | CLARABEL _, AInit _ _ =>
    [SRead VP; SRead VA; SNew VWork; SRead VWork; SRead VWork; SAlias VSolution VWork]
  | QOCO lp, AInit _ _ => qoco_setup_stmts lp (p_eq p) (p_ineq p)
  | QOCOGEN _, AInit _ _ => [SRead VWork; SStatic VLoaded]
  | _, _ => []
  end.

(** The extra condition of 'init' (XNotInit): scs.py 26, ecos.py 90, clarabel.py 166, qoco.py 317
    test the pointer, qoco.py 96 the size stored in the workspace. *)
Definition is_null (x : place) : bool := match x with Null => true | _ => false end.
Definition inited (s : solver) (o : ost) : bool :=
  negb (is_null (o_env o (match s with QOCOGEN _ => VLoaded | _ => VWork end))).

(** The emitted if-statements; the calls of one branch stand in one pair of braces (utils.py
    454-456). *)
Fixpoint exec_code (give : nat -> bool) (p : prog) (b : ublock) (fl : pid -> bool) (o : ost) : ost :=
  match b with
  | UNil => o
  | UIf c acts els rest =>
    let o1 := if eval_cond fl (inited (p_solver p) o) c
              then in_block give o (flat_map (stmts_of p) acts)
              else exec_code give p els fl o in
    exec_code give p rest fl o1
  end.

(** utils.py 1033-1045: settings written through the workspace pointer (ecos.py 43, qoco.py 218;
    Clarabel's settings are a static struct), the solve call, results and info read through ws_ptrs
    (osqp.py 78-85, scs.py 68-75, ecos.py 35-43, clarabel.py 37-44, qoco.py 36-43, 210-217). *)
Definition settings_stmts (s : solver) : list ostmt :=
  match s with ECOS | QOCO _ => [SRead VWork] | _ => [] end.
Definition call_stmts (p : prog) : list ostmt :=
  match p_solver p with
  | CLARABEL _ => flat_map (stmts_of p) (solver_solve_acts (p_solver p))
  | _ => [SRead VWork]
  end.
Definition result_stmts (s : solver) : list ostmt :=
  match s with
  | SCS _ => []
  | CLARABEL _ => [SRead VSolution]
  | _ => [SRead VWork]
  end.

Definition solve_objs (give : nat -> bool) (p : prog) (fl : pid -> bool) (o : ost) : ost :=
  exec_stmts give (exec_code give p (p_code p) fl o)
             (settings_stmts (p_solver p) ++ call_stmts p ++ result_stmts (p_solver p)).

(** Calls of the program: an update function, cpg_solve, a settings function. *)
Inductive hop := HUpd (name : string) | HSolve | HSet.

Record hst := mkH { h_flag : pid -> bool; h_obj : ost }.

(** Static initialisers (utils.py 556-562, scs.py 269, ecos.py 195, clarabel.py 322,
    qoco.py 187, 417). *)
Definition h_init (p : prog) : hst :=
  mkH (fun _ => true)
      (mkO (fun v => match p_solver p, v with
                     | OSQP, VWork | QOCOGEN _, VWork => Static
                     | _, _ => Null
                     end) [] 0 []).

(** utils.py 904-930 (flags), 1008-1052 (cpg_solve), 1069-1084 (settings functions: OSQP's and
    QOCOGEN's write into the statically allocated workspace, the others into Canon_Settings). *)
Definition h_step (give : nat -> bool) (p : prog) (h : hst) (c : hop) : hst :=
  match c with
  | HUpd n => mkH (fun q => mem_pid q (p_outd p n) || h_flag h q) (h_obj h)
  | HSolve =>
    mkH (fun q => if mem_pid q (solver_pids (p_solver p)) && chg_get (p_chg p) q then false
                  else h_flag h q)
        (solve_objs give p (h_flag h) (h_obj h))
  | HSet =>
    mkH (h_flag h)
        (exec_stmts give (h_obj h)
                    (match p_solver p with OSQP | QOCOGEN _ => [SRead VWork] | _ => [] end))
  end.

Definition h_run (give : nat -> bool) (p : prog) (h : hst) (os : list hop) : hst :=
  fold_left (h_step give p) os h.
