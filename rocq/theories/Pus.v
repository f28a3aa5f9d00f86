(** The parameter update structure ("pus"): solver tables, their analysis and the
    C code emitted from them.
    Models cvxpygen/utils.py 348-467, cvxpygen/mappings.py 100-113 and the
    [parameter_update_structure] tables of cvxpygen/solvers/*.py. *)

From Coq Require Import String Arith Bool Lia List.
From Verif Require Import Base.
Import ListNotations.
Open Scope string_scope.
Open Scope list_scope.

(** utils.py 388/396/427: the spellings '&&','&','and','AND' and '||','|','or','OR'
    are collapsed to one constructor each. *)
Inductive lop := And | Or.

(** The only extra conditions in the tables: "workspace pointer is null"
    (scs.py 26, ecos.py 90, clarabel.py 166, qoco.py 101/318) and the literal '1'
    (clarabel.py 160). *)
Inductive econd := XNotInit | XTrue.

(** Where a C call takes problem data from: [Canon_Params], [Canon_Params_conditioning]
    or the data baked into generated solver code ([load_data], qoco.py 97). *)
Inductive src := Canon | Cond | Baked.

(** Effects of the emitted [function_call] strings.
    [ACopyAll] / [ACopy p]: cpg_copy_all() / cpg_copy_p() (utils.py 987-1006);
    [AInit s ps]: build the workspace from data [ps] of source [s];
    [APush s ps]: hand data [ps] of source [s] to the existing workspace. *)
Inductive action :=
| ACopyAll
| ACopy (p : pid)
| AInit (s : src) (ps : list pid)
| APush (s : src) (ps : list pid).

(** mappings.py 100-106, class UpdatePendingLogic. *)
Record upending := mkUp
  { up_out : list pid;                 (* parameters_outdated *)
    up_op : option lop;                (* operator *)
    up_iff : option (list string);     (* functions_if_false *)
    up_x : option econd;               (* extra_condition *)
    up_xop : option lop }.             (* extra_condition_operator *)

(** mappings.py 109-112, class ParameterUpdateLogic. *)
Record ulogic := mkUl { ul_up : upending; ul_acts : list action }.

(** A table: Python dict, insertion ordered. *)
Definition pus := list (string * ulogic).

Definition single (p : pid) (acts : list action) : string * ulogic :=
  (pid_name p, mkUl (mkUp [p] None None None None) acts).

(** solvers/osqp.py 20-61. *)
Definition osqp_pus : pus :=
  [ ("PA", mkUl (mkUp [pP; pA] (Some And) (Some ["P"; "A"]) None None) [APush Canon [pP; pA]]);
    single pP [APush Canon [pP]];
    single pA [APush Canon [pA]];
    ("qlu", mkUl (mkUp [pq; pl; pu] (Some And) (Some ["ql"; "qu"; "lu"]) None None)
                 [APush Canon [pq; pl; pu]]);
    ("ql", mkUl (mkUp [pq; pl] (Some And) (Some ["q"; "l"]) None None) [APush Canon [pq; pl]]);
    ("qu", mkUl (mkUp [pq; pu] (Some And) (Some ["q"; "u"]) None None) [APush Canon [pq; pu]]);
    ("lu", mkUl (mkUp [pl; pu] (Some And) (Some ["l"; "u"]) None None) [APush Canon [pl; pu]]);
    single pq [APush Canon [pq]];
    single pl [APush Canon [pl]];
    single pu [APush Canon [pu]] ].

(** solvers/scs.py 24-45.  Both 'init' and 'PA' call scs_init on Scs_D, which points
    into Canon_Params (P, A, b, c). *)
Definition scs_pus : pus :=
  [ ("init", mkUl (mkUp [] None (Some ["PA"]) (Some XNotInit) None) [AInit Canon [pP; pA; pb; pc]]);
    ("PA", mkUl (mkUp [pP; pA] (Some Or) (Some ["bc"]) None None) [AInit Canon [pP; pA; pb; pc]]);
    ("bc", mkUl (mkUp [pb; pc] (Some And) (Some ["b"; "c"]) None None) [APush Canon [pb; pc]]);
    single pb [APush Canon [pb]];
    single pc [APush Canon [pc]] ].

(** solvers/ecos.py 88-117.  The equality data (A, b) are replaced by null pointers when
    there are no equality rows; then they are empty and the model passes empty blocks. *)
Definition ecos_pus : pus :=
  [ ("init", mkUl (mkUp [] None (Some ["AbcGh"]) (Some XNotInit) None)
                  [ACopyAll; AInit Cond [pc; pA; pb; pG; ph]]);
    ("AbcGh", mkUl (mkUp [pA; pb; pG] (Some Or) (Some ["c"; "h"]) None None)
                   [ACopyAll; APush Cond [pc; pA; pb; pG; ph]]);
    single pc [ACopy pc; APush Cond [pc]];
    single ph [ACopy ph; APush Cond [ph]] ].

(** solvers/clarabel.py 158-193; [lp] is [indices_obj is None].  The workspace is
    created by the solve call (see [clarabel_solve_acts]). *)
Definition clarabel_pus (lp : bool) : pus :=
  [ ("init", mkUl (mkUp [] None
                        (Some (if lp then ["A"; "q"; "b"] else ["P"; "A"; "q"; "b"]))
                        (Some (if lp then XTrue else XNotInit)) None)
                  [ACopyAll]);
    single pA [ACopy pA];
    single pq [ACopy pq];
    single pb [ACopy pb] ]
  ++ (if lp then [] else [single pP [ACopy pP]]).

(** solvers/clarabel.py 201-204: clarabel_DefaultSolver_new reads P, q, A, b from the
    conditioning arrays at every solve. *)
Definition clarabel_solve_acts (lp : bool) : list action :=
  [AInit Cond (if lp then [pq; pA; pb] else [pP; pq; pA; pb])].

(** solvers/qoco.py 314-344 (QOCO); [lp] is [indices_obj is None]. *)
Definition qoco_pus (lp : bool) : pus :=
  [ ("init", mkUl (mkUp [] None None (Some XNotInit) None)
                  [ACopyAll; AInit Canon ((if lp then [] else [pP]) ++ [pc; pA; pb; pG; ph])]);
    single pA [APush Canon [pA]];
    single pG [APush Canon [pG]];
    single pc [APush Canon [pc]];
    single pb [APush Canon [pb]];
    single ph [APush Canon [ph]] ]
  ++ (if lp then [] else [single pP [APush Canon [pP]]]).

(** solvers/qoco.py 98-129 (QOCOGEN): init loads the data baked into the solver code. *)
Definition qocogen_pus (lp : bool) : pus :=
  [ ("init", mkUl (mkUp [] None None (Some XNotInit) None)
                  [AInit Baked ((if lp then [] else [pP]) ++ [pc; pA; pb; pG; ph])]);
    single pA [APush Canon [pA]];
    single pG [APush Canon [pG]];
    single pc [APush Canon [pc]];
    single pb [APush Canon [pb]];
    single ph [APush Canon [ph]] ]
  ++ (if lp then [] else [single pP [APush Canon [pP]]]).

(** The solvers of canonicalizer.py 72-80 that use an update structure, with
    [lp = true] when CVXPY reports no quadratic objective data. *)
Inductive solver :=
| OSQP | SCS (lp : bool) | ECOS | CLARABEL (lp : bool) | QOCO (lp : bool) | QOCOGEN (lp : bool).

Definition solver_pus (s : solver) : pus :=
  match s with
  | OSQP => osqp_pus
  | SCS _ => scs_pus
  | ECOS => ecos_pus
  | CLARABEL lp => clarabel_pus lp
  | QOCO lp => qoco_pus lp
  | QOCOGEN lp => qocogen_pus lp
  end.

(** canonicalizer.py 418-426 (_get_quad_obj). *)
Definition solver_quad (s : solver) : bool :=
  match s with
  | OSQP => true
  | ECOS => false
  | SCS lp | CLARABEL lp | QOCO lp | QOCOGEN lp => negb lp
  end.

(** [canon_p_ids] of each interface (_interface.py 27, scs.py 22, ecos.py 21,
    clarabel.py 24, qoco.py 22/196), P dropped when not quad_obj
    (canonicalizer.py 292-295). *)
Definition solver_pids (s : solver) : list pid :=
  match s with
  | OSQP => [pP; pq; pd; pA; pl; pu]
  | SCS lp => (if lp then [] else [pP]) ++ [pc; pd; pA; pb]
  | ECOS => [pc; pd; pA; pb; pG; ph]
  | CLARABEL lp => (if lp then [] else [pP]) ++ [pq; pd; pA; pb]
  | QOCO lp | QOCOGEN lp => (if lp then [] else [pP]) ++ [pc; pd; pA; pb; pG; ph]
  end.

(** The blocks handed to the solver library: all but the objective offset 'd'. *)
Definition owned (s : solver) : list pid := filter (fun p => negb (pid_eqb p pd)) (solver_pids s).

(** [inmemory_preconditioning] (osqp.py 74, scs.py 64, ecos.py 31, clarabel.py 33,
    qoco.py 32/206). *)
Definition solver_precond (s : solver) : bool :=
  match s with
  | OSQP | SCS _ | QOCOGEN _ => false
  | ECOS | CLARABEL _ | QOCO _ => true
  end.

(** Data actions inside the emitted solve call itself ([solve_function_call]). *)
Definition solver_solve_acts (s : solver) : list action :=
  match s with CLARABEL lp => clarabel_solve_acts lp | _ => [] end.

(** Whether the generated C files contain an already initialised workspace
    (osqp.py 126-131: osqp codegen on the baked data). *)
Definition solver_init0 (s : solver) : bool :=
  match s with OSQP => true | _ => false end.

(** utils.py 348-362.  Recursion over the table; running out of fuel models Python's
    recursion limit, which an acyclic table with [length t] entries never reaches. *)
Fixpoint extend_iff (fuel : nat) (t : pus) (fs : option (list string)) : res (list string) :=
  match fs with
  | None => Ok []
  | Some l =>
    match fuel with
    | O => Err RecursionError
    | S fuel' =>
      (fix loop (l : list string) : res (list string) :=
         match l with
         | [] => Ok []
         | f :: l' =>
           match assoc f t with
           | None => Err KeyError
           | Some lg =>
             sub <- extend_iff fuel' t (up_iff (ul_up lg)) ;;
             rest <- loop l' ;;
             Ok (f :: sub ++ rest)
           end
         end) l
    end
  end.

(** [p_id_to_changes]: [None] when the key is absent. *)
Definition changes := pid -> option bool.

(** [p_id_to_changes.get(p, False)] *)
Definition chg_get (chg : changes) (p : pid) : bool :=
  match chg p with Some b => b | None => false end.

Definition pid_of_name (s : string) : option pid :=
  find (fun p => String.eqb (pid_name p) s) [pP; pq; pd; pA; pl; pu; pc; pb; pG; ph].

(** [p_id_to_changes[function]] *)
Definition chg_item (chg : changes) (f : string) : res bool :=
  match pid_of_name f with
  | None => Err KeyError
  | Some p => match chg p with Some b => Ok b | None => Err KeyError end
  end.

Definition fuel_of (t : pus) : nat := S (List.length t).

(** utils.py 382-417: one pass of the loop body; returns (is the function removed from
    functions_called?, functions added to functions_secondary). *)
Definition analyze_one (t : pus) (chg : changes) (f : string) (lg : ulogic)
  : res (bool * list string) :=
  let up := ul_up lg in
  ext <- extend_iff (fuel_of t) t (up_iff up) ;;
  let finish (_ : unit) :=
      if forallb (fun g => mem_str g (map fst t)) ext then Ok (false, ext) else Err ValueError in
  match up_op up with
  | Some And =>
    if forallb (chg_get chg) (up_out up) then finish tt else Ok (true, [])
  | Some Or =>
    if existsb (chg_get chg) (up_out up) then finish tt else Ok (true, [])
  | None =>
    match up_xop up, up_out up with
    | None, [_] =>
      b <- chg_item chg f ;;
      if b then finish tt else Ok (true, [])
    | _, _ => finish tt
    end
  end.

Fixpoint analyze_loop (t : pus) (chg : changes) (items : pus)
  : res (list string * list string) :=
  match items with
  | [] => Ok ([], [])
  | (f, lg) :: rest =>
    ' (rem, sec) <- analyze_one t chg f lg ;;
    ' (removed, secondary) <- analyze_loop t chg rest ;;
    Ok ((if rem : bool then f :: removed else removed), sec ++ secondary)
  end.

(** utils.py 371-419: (functions to write at top level, functions never called).
    Python sets are lists without duplicates in table order; the theorems quantify over
    all permutations of the first component. *)
Definition analyze_pus (t : pus) (chg : changes) : res (list string * list string) :=
  ' (removed, secondary) <- analyze_loop t chg t ;;
  Ok (filter (fun f => negb (mem_str f removed) && negb (mem_str f secondary)) (map fst t),
      filter (fun f => mem_str f removed) (map fst t)).

(** Conditions of the emitted [if]: a chain of atoms joined by C operators. *)
Inductive atom := AtExtra (x : econd) | AtFlag (p : pid).
Definition cexpr := list (lop * atom).   (* operator of the first element is unused *)

(** Emitted text, reduced to the tokens that matter to the C parser:
    "if (c) {", the call statements, "}", " else {". *)
Inductive tok := TIf (c : cexpr) | TCall (acts : list action) | TClose | TElse.

(** utils.py 450-454. *)
Definition mk_cond (up : upending) : cexpr :=
  let flags := map (fun p => (match up_op up with Some Or => Or | _ => And end, AtFlag p))
                   (up_out up) in
  match up_x up with
  | None => flags
  | Some x =>
    match flags with
    | [] => [(And, AtExtra x)]
    | (_, a) :: rest =>
      (And, AtExtra x) :: (match up_xop up with Some And => And | _ => Or end, a) :: rest
    end
  end.

Fixpoint remove_first {A} (eqb : A -> A -> bool) (x : A) (l : list A) : list A :=
  match l with
  | [] => []
  | y :: t => if eqb x y then t else y :: remove_first eqb x t
  end.

(** utils.py 446-447: in-place removal of 'P' when the objective is not quadratic.  The
    table is threaded because the Python lists are shared between generations. *)
Definition drop_P (quad : bool) (lg : ulogic) : ulogic :=
  let up := ul_up lg in
  if mem_pid pP (up_out up) && negb quad then
    mkUl (mkUp (remove_first pid_eqb pP (up_out up)) (up_op up) (up_iff up) (up_x up) (up_xop up))
         (ul_acts lg)
  else lg.

(** utils.py 422-467.  [functions.remove('init')] followed by consing 'init' in front. *)
Definition init_first (fs : list string) : list string :=
  if mem_str "init" fs then "init" :: remove_first String.eqb "init" fs else fs.

Fixpoint write_update (fuel : nat) (quad : bool) (never : list string) (t : pus)
         (fs : option (list string)) (depth : nat) {struct fuel} : res (pus * list tok) :=
  match fs with
  | None => Ok (t, [])
  | Some fs =>
    match fuel with
    | O => Err RecursionError
    | S fuel' =>
      let write_else := Nat.ltb 0 depth && existsb (fun f => negb (mem_str f never)) fs in
      ' (t', body) <-
        (fix loop (t : pus) (l : list string) : res (pus * list tok) :=
           match l with
           | [] => Ok (t, [])
           | f :: l' =>
             match assoc f t with
             | None => Err KeyError
             | Some lg0 =>
               let lg := drop_P quad lg0 in
               let t1 := dict_set f lg t in
               let called := negb (mem_str f never) in
               ' (t2, sub) <- write_update fuel' quad never t1 (up_iff (ul_up lg))
                                (if called then S depth else depth) ;;
               ' (t3, rest) <- loop t2 l' ;;
               Ok (t3, (if called then [TIf (mk_cond (ul_up lg)); TCall (ul_acts lg); TClose] else [])
                         ++ sub ++ rest)
             end
           end) t (init_first fs) ;;
      Ok (t', (if write_else then [TElse] else []) ++ body ++ (if write_else then [TClose] else []))
    end
  end.

(** utils.py 1033-1034: the call in write_solve_def, with the iteration order of the
    top-level set made explicit by [order] (a permutation of the set). *)
Definition gen_update (t : pus) (quad : bool) (chg : changes) (order : list string)
  : res (pus * list tok) :=
  ' (_, never) <- analyze_pus t chg ;;
  write_update (fuel_of t) quad never t (Some order) 0.

(** Abstract syntax of the emitted statement list:
    if (c) { acts } [else { els }] rest *)
Inductive ublock := UNil | UIf (c : cexpr) (acts : list action) (els rest : ublock).

(** The fragment of the C grammar: which token lists denote which statement list.  An
    empty condition is not a C expression. *)
Inductive Parses : list tok -> ublock -> Prop :=
| PNil : Parses [] UNil
| PIf : forall c acts toks rest,
    c <> [] -> Parses toks rest ->
    Parses (TIf c :: TCall acts :: TClose :: toks) (UIf c acts UNil rest)
| PIfElse : forall c acts etoks els toks rest,
    c <> [] -> Parses etoks els -> Parses toks rest ->
    Parses (TIf c :: TCall acts :: TClose :: TElse :: etoks ++ TClose :: toks)
           (UIf c acts els rest).

(** C evaluation of a condition ([&&] binds tighter than [||]). *)
Definition eval_atom (fl : pid -> bool) (inited : bool) (a : atom) : bool :=
  match a with
  | AtExtra XNotInit => negb inited
  | AtExtra XTrue => true
  | AtFlag p => fl p
  end.

Fixpoint eval_chain (fl : pid -> bool) (inited : bool) (acc : bool) (c : cexpr) : bool :=
  match c with
  | [] => acc
  | (And, a) :: rest => eval_chain fl inited (acc && eval_atom fl inited a) rest
  | (Or, a) :: rest => acc || eval_chain fl inited (eval_atom fl inited a) rest
  end.

Definition eval_cond (fl : pid -> bool) (inited : bool) (c : cexpr) : bool :=
  match c with
  | [] => false
  | (_, a) :: rest => eval_chain fl inited (eval_atom fl inited a) rest
  end.

Definition sets_init (a : action) : bool :=
  match a with AInit _ _ => true | _ => false end.

(** Actions executed by the statement list, and whether the workspace exists after it. *)
Fixpoint run (b : ublock) (fl : pid -> bool) (inited : bool) : list action * bool :=
  match b with
  | UNil => ([], inited)
  | UIf c acts els rest =>
    let '(a1, i1) :=
        if eval_cond fl inited c then (acts, inited || existsb sets_init acts)
        else run els fl inited in
    let '(a2, i2) := run rest fl i1 in
    (a1 ++ a2, i2)
  end.
