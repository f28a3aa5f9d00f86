(** What a call of the generated Python solve method leaves in the CVXPY problem object and
    returns, and how names of variables and parameters enter.
    Models cvxpygen/templates/cpg_solver.py.jinja2 36-131, cvxpygen/utils.py 1575-1613
    (solver_py_context) and the dictionaries of cvxpygen/canonicalizer.py 125-160, 199-214
    and 226-248.
    Assumed of CVXPY: [_clear_solution] sets the values of all variables, the dual values of
    all constraints and _value, _status, _solution to None; [var_dict] and [param_dict] are
    built by one assignment per object in the order of variables() and parameters();
    [save_value] and [save_dual_value] store the array they are given; status and value return
    _status and _value.  Arrays are pairs of a shape and the entries in column-major order. *)

From Coq Require Import String Arith Bool ZArith QArith List.
From Verif Require Import Base Pus Machine Runtime Retrieve Wrapper Literals.
Import ListNotations.
Open Scope string_scope.
Open Scope list_scope.
Open Scope nat_scope.

(** {k: v for k, v in l}: one assignment per pair; an assignment to a present key keeps its
    position. *)
Definition dict_of {A} (l : list (string * A)) : list (string * A) :=
  fold_left (fun d kv => dict_set (fst kv) (snd kv) d) l [].

(** canonicalizer.py 125-160: several dictionaries with the variable's name as key, built in
    the same order; here one dictionary of records. *)
Definition named (ps : list pinfo) : list pinfo := map snd (dict_of (map (fun p => (pi_name p, p)) ps)).

(** canonicalizer.py 239-242: name_to_size_usp over the parameters in order. *)
Definition usp (params : list (string * nat)) : list (string * nat) := dict_of params.

(** Documentation address when status_is_int (clarabel.py 52 and 126, ecos.py 50 and 75,
    qoco.py 51, 80, 225 and 254; False in osqp.py 92 and scs.py 82). *)
Definition int_docu (s : solver) : option string :=
  match s with
  | OSQP | SCS _ => None
  | ECOS => Some "https://github.com/embotech/ecos/wiki/Usage-from-C"
  | CLARABEL _ => Some "https://oxfordcontrol.github.io/ClarabelDocs/"
  | QOCO _ | QOCOGEN _ => Some "https://qoco-org.github.io/qoco/"
  end.

(** canonicalizer.py 199-204: the canonical constraint's shape if its entries match its size;
    [csh]: shapes by constraint id; [cs]: ids of the canonical constraints of the duals. *)
Definition dual_shapes (csh : nat -> list nat) (cs : list nat) (ds : list dinfo) : list (string * option (list nat)) :=
  map (fun '(c, d) => (dname (di_name d), if Nat.eqb (fsize (csh c)) (di_size d) then Some (csh c) else None))
      (combine cs ds).

(** solver_py_context, utils.py 1575-1613, as far as it concerns results.
    [t_expl]: configuration.explicit (0, 1, 2); [t_docu]: [Some] iff status_is_int. *)
Record tmpl := mkT
  { t_vars : list (string * list nat);
    t_duals : list (string * option (list nat));
    t_expl : nat;
    t_docu : option string;
    t_solver : string }.

(** A status is text (osqp, scs) or a number. *)
Inductive sval := SText (s : string) | SNum (z : Z).

(** cpg_info, cpg_prim and cpg_dual of the object returned by cpg_module.solve: a field is a
    number when the list has one entry. *)
Record cinfo := mkCI { ci_obj : fnum; ci_iter : Z; ci_status : sval; ci_pri : fnum; ci_dua : fnum; ci_time : fnum }.
Record cres (K : Type) := mkRes { rs_prim : list (string * list K); rs_dual : list (string * list K); rs_info : cinfo }.
Arguments mkRes {K}. Arguments rs_prim {K}. Arguments rs_dual {K}. Arguments rs_info {K}.

(** The problem: variables() as (name, id), constraints by id (a constraint may be listed more
    than once). *)
Record uprob := mkU { u_vars : list (string * nat); u_cons : list nat }.

Section Report.
  Variable K : Type.
  Definition arr : Type := (list nat * list K)%type.

  (** np.array of a number or of a list. *)
  Definition np_array (l : list K) : arr := if Nat.eqb (length l) 1 then ([], l) else ([length l], l).
  (** .reshape(shape, order='F'). *)
  Definition np_reshape (sh : list nat) (a : arr) : res arr :=
    if Nat.eqb (length (snd a)) (fsize sh) then Ok (sh, snd a) else Err ValueError.

  (** solver_specific_stats, cpg_solver.py.jinja2 104-109. *)
  Record spec_stats := mkSS { ss_obj : fnum; ss_status : option sval; ss_iter : Z; ss_pri : fnum; ss_dua : fnum; ss_time : fnum }.
  (** Solution(status, value, primal_vars, dual_vars, attr) and SolverStats. *)
  Record solution := mkSol
    { so_status : option sval; so_value : option fnum;
      so_prim : list (nat * option arr); so_dual : list (nat * option arr);
      so_time : fnum; so_stats : spec_stats; so_iters : Z }.
  Record sstats := mkStats { st_name : string; st_time : fnum; st_iters : Z; st_spec : spec_stats }.

  Record pobj := mkO
    { o_val : nat -> option arr; o_dual : nat -> option arr;
      o_value : option fnum; o_status : option sval; o_sol : option solution; o_stats : option sstats }.

  Definition mem_nat (i : nat) (l : list nat) : bool := existsb (Nat.eqb i) l.

  (** Problem._clear_solution. *)
  Definition clear (u : uprob) (o : pobj) : pobj :=
    mkO (fun i => if mem_nat i (map snd (u_vars u)) then None else o_val o i)
        (fun i => if mem_nat i (u_cons u) then None else o_dual o i)
        None None None (o_stats o).

  Definition set_val (o : pobj) (i : nat) (a : arr) : pobj :=
    mkO (fun j => if Nat.eqb j i then Some a else o_val o j) (o_dual o) (o_value o) (o_status o) (o_sol o) (o_stats o).
  Definition set_dual (o : pobj) (i : nat) (a : arr) : pobj :=
    mkO (o_val o) (fun j => if Nat.eqb j i then Some a else o_dual o j) (o_value o) (o_status o) (o_sol o) (o_stats o).

  (** cpg_solver.py.jinja2 76-78: one line per variable name. *)
  Fixpoint save_vars (u : uprob) (prim : list (string * list K)) (l : list (string * list nat)) (o : pobj)
    : pobj * option exn :=
    match l with
    | [] => (o, None)
    | (n, sh) :: t =>
      match assoc n (dict_of (u_vars u)) with
      | None => (o, Some KeyError)
      | Some i =>
        match assoc n prim with
        | None => (o, Some AttributeError)
        | Some v => match np_reshape sh (np_array v) with
                    | Err e => (o, Some e)
                    | Ok a => save_vars u prim t (set_val o i a)
                    end
        end
      end
    end.

  (** cpg_solver.py.jinja2 81-83, utils.py 1580-1584: no reshape for the shapes None and (). *)
  Definition shaped_dual (sh : option (list nat)) (a : arr) : res arr :=
    match sh with None | Some [] => Ok a | Some s => np_reshape s a end.
  Fixpoint save_duals (u : uprob) (dual : list (string * list K)) (i : nat) (l : list (string * option (list nat))) (o : pobj)
    : pobj * option exn :=
    match l with
    | [] => (o, None)
    | (n, sh) :: t =>
      match nth_error (u_cons u) i with
      | None => (o, Some IndexError)
      | Some c =>
        match assoc n dual with
        | None => (o, Some AttributeError)
        | Some v => match shaped_dual sh (np_array v) with
                    | Err e => (o, Some e)
                    | Ok a => save_duals u dual (S i) t (set_dual o c a)
                    end
        end
      end
    end.

  (** cpg_solver.py.jinja2 92-96: "%d (for description visit {docu})" % status; %d of text
      raises TypeError. *)
  Definition status_of (docu : option string) (s : sval) : res sval :=
    match docu, s with
    | None, _ => Ok s
    | Some d, SNum z => Ok (SText (fmt_int z ++ " (for description visit " ++ d ++ ")"))
    | Some _, SText _ => Err TypeError
    end%string.

  (** {c.id: ... for c in ...}: numbers as keys. *)
  Fixpoint idict_set {A} (k : nat) (v : A) (d : list (nat * A)) : list (nat * A) :=
    match d with
    | [] => [(k, v)]
    | (k', w) :: t => if Nat.eqb k k' then (k, v) :: t else (k', w) :: idict_set k v t
    end.
  Definition idict_of {A} (l : list (nat * A)) : list (nat * A) :=
    fold_left (fun d kv => idict_set (fst kv) (snd kv) d) l [].

  (** What cpg_solve returns: prob.value or cpg_info.time.  (With gradients,
      cpg_solve_and_gradient_info returns further components, which cpg_solve drops.) *)
  Inductive ret := RValue (v : option fnum) | RTime (v : fnum).

  (** cpg_solver.py.jinja2 91-117; [dt]: t1 - t0. *)
  Definition report (t : tmpl) (u : uprob) (i : cinfo) (dt : fnum) (o : pobj) : pobj * res ret :=
    match status_of (t_docu t) (ci_status i) with
    | Err e => (o, Err e)
    | Ok s =>
      let v := report_obj (ci_obj i) in
      let ss := mkSS (ci_obj i) (Some s) (ci_iter i) (ci_pri i) (ci_dua i) (ci_time i) in
      let sol := mkSol (Some s) (Some v)
                       (idict_of (map (fun x => (snd x, o_val o (snd x))) (u_vars u)))
                       (idict_of (map (fun c => (c, o_dual o c)) (u_cons u)))
                       dt ss (ci_iter i) in
      (mkO (o_val o) (o_dual o) (Some v) (Some s) (Some sol) (Some (mkStats (t_solver t) dt (ci_iter i) ss)),
       Ok (RValue (Some v)))
    end.

  (** cpg_solver.py.jinja2 74-117: everything after the module has solved. *)
  Definition store (t : tmpl) (u : uprob) (r : cres K) (dt : fnum) (o : pobj) : pobj * res ret :=
    let '(o1, e1) := save_vars u (rs_prim r) (t_vars t) (clear u o) in
    match e1 with
    | Some e => (o1, Err e)
    | None =>
      let '(o2, e2) := if Nat.eqb (t_expl t) 1 then (o1, None) else save_duals u (rs_dual r) 0 (t_duals t) o1 in
      match e2 with
      | Some e => (o2, Err e)
      | None =>
        match t_expl t with
        | O => report t u (rs_info r) dt o2
        | S _ => (o2, Ok (RTime (ci_time (rs_info r))))
        end
      end
    end.

  (** What the module returns in non-explicit mode, from the solver's vectors (Retrieve.v);
      the fields of cpg_prim and cpg_dual are copied by solve_cpp, utils.py 1217-1243. *)
  Definition c_prim (s : solver) (vs : list pinfo) (st : rstate K) : res (list (string * list K)) :=
    let fs := prim_fields s vs in let ar := prim_arrays s vs in
    st' <- (if ret_prim s vs then exec fs ar st (retrieve_prim s vs) else Ok st);;
    mapM (fun v => l <- read_field fs ar st' (pi_name v) (pi_size v);; Ok (pi_name v, l)) vs.
  Definition c_dual (s : solver) (ds : list dinfo) (st : rstate K) : res (list (string * list K)) :=
    ls <- dual_results s ds st;; Ok (combine (map (fun d => dname (di_name d)) ds) ls).
  Definition results (s : solver) (ps : list pinfo) (ds : list dinfo) (st : rstate K) (i : cinfo) : res (cres K) :=
    p <- c_prim s (named ps) st;; d <- c_dual s ds st;; Ok (mkRes p d i).

  (** The template's view of a generation (non-explicit). *)
  Definition tmpl_of (s : solver) (name : string) (ps : list pinfo) (csh : nat -> list nat) (cs : list nat) (ds : list dinfo) : tmpl :=
    mkT (map (fun p => (pi_name p, pi_shape p)) (named ps)) (dual_shapes csh cs ds) 0 (int_docu s) name.
End Report.
Arguments o_val {K}. Arguments o_dual {K}. Arguments o_value {K}. Arguments o_status {K}. Arguments o_sol {K}. Arguments o_stats {K}.
Arguments mkO {K}. Arguments clear {K}. Arguments set_val {K}. Arguments set_dual {K}. Arguments save_vars {K}. Arguments save_duals {K}.
Arguments so_status {K}. Arguments so_value {K}. Arguments so_prim {K}. Arguments so_dual {K}. Arguments so_time {K}. Arguments so_stats {K}. Arguments so_iters {K}.
Arguments np_array {K}. Arguments np_reshape {K}. Arguments shaped_dual {K}. Arguments report {K}. Arguments store {K}.
Arguments c_prim {K}. Arguments c_dual {K}. Arguments results {K}. Arguments mkSol {K}.

(** A call on the problem object: cpg_solver.py.jinja2 36-117.  [out] gives what the module
    returns, and the time a call took, from the state it is left in. *)
Section Calls.
  Variable N : Num.
  Variable g : genc N.
  Variable scr : nat -> pid -> list (car N) -> list (car N).
  Variable sv : Type.
  Variable enabled : list string.
  Variable translation : list (string * string).
  Variable dflt : string -> sv.
  Variable converts : string -> sv -> bool.
  Variable K : Type.
  Variable t : tmpl.
  Variable u : uprob.
  Variable out : wst N sv -> cres K * fnum.

  Definition call (w : wst N sv) (o : pobj K) (c : pcall N sv) : wst N sv * pobj K * res ret :=
    match py_solve N g scr sv enabled translation dflt converts w c with
    | (w', Some e) => (w', o, Err e)
    | (w', None) => let '(o', r) := store t u (fst (out w')) (snd (out w')) o in (w', o', r)
    end.

  Fixpoint calls (w : wst N sv) (o : pobj K) (cs : list (pcall N sv)) : wst N sv * pobj K * list (res ret) :=
    match cs with
    | [] => (w, o, [])
    | c :: rest => let '(w1, o1, r) := call w o c in
                   let '(w2, o2, rs) := calls w1 o1 rest in (w2, o2, r :: rs)
    end.
End Calls.

(** The same in explicit mode: no settings block, keyword arguments are not looked at.  [run]:
    the module's solve on the parameter values and flags. *)
Section ExplicitCalls.
  Variable N : Num.
  Variable sv K E : Type.
  Variable ps : list (string * nat).
  Variable t : tmpl.
  Variable u : uprob.
  Variable run : E -> list string -> list (string * list (car N)) -> E * cres K * fnum.

  Definition expl_call (e : E) (o : pobj K) (c : pcall N sv) : E * pobj K * res ret :=
    let names := map fst ps in
    let updated := match c_upd c with None => names | Some l => l end in
    if forallb (fun p => mem_str p names) updated then
      match set_par N sv c ps with
      | Err x => (e, o, Err x)
      | Ok pars => let '(e', r, dt) := run e updated pars in
                   let '(o', v) := store t u r dt o in (e', o', v)
      end
    else (e, o, Err AttributeError).
End ExplicitCalls.
