(** The functions forward and backward of the generated module, which CVXPY layers call: a context
    object names parameters and variables by id; forward sets parameter values, solves and remembers
    the solution; backward sets the variables' gradients and differentiates at the remembered solution.
    Models cvxpygen/templates/cpg_solver.py.jinja2 176-212 (explicit = False) with the parts of 37-131 and
    134-173 they call; OSQP, one stage.
    Simplified: next() on an unknown id raises StopIteration, here KeyError; solver settings in
    solver_args are not modelled (C50); parameters without dimension-reducing attributes (others
    make every gradient call fail, C60). *)

From Coq Require Import String Arith Bool List.
From Verif Require Import Base Pus Machine Runtime Canon Retrieve Params Explicit Sparse GradSession GradVars GradUser.
Import ListNotations.
Open Scope string_scope.
Open Scope list_scope.

(** context.param_ids, the ids of context.variables, context.solver_args["updated_params"]. *)
Record ctx := mkCtx { cx_pids : list nat; cx_vars : list nat; cx_upd : option (list string) }.

Fixpoint shape_eqb (a b : list nat) : bool :=
  match a, b with
  | [], [] => true
  | x :: a, y :: b => Nat.eqb x y && shape_eqb a b
  | _, _ => false
  end.

Section Layer.
  Variable F : Fld.
  Variables (big : F) (x : cvx F) (g : genc F) (sqr : F -> res F) (eps half : F) (below above : F -> bool).
  Variable qfactor : csc F -> csc F -> res (list nat * list nat * list F * list F * list F).
  Variable qsolve : csc F -> list F -> list F -> res (list F).
  Variable scr : nat -> pid -> list F -> list F.
  (** prob.parameters() as pairs of id and name, with the shapes by name; prob.variables(). *)
  Variables (pids : list (nat * string)) (shapes : list (string * list nat)) (us : list uvar).
  Variable ps : list pinfo.
  Variable ctxs : nat -> ctx.
  (** Leftovers in the result structs. *)
  Variable cells : string -> nat -> F.

  (** The Python objects: param_dict[name].value, var_dict[name].gradient, context.info of each
      context (gradient_primal, gradient_dual). *)
  Record pst := mkP
    { o_val : string -> option (list nat -> F); o_grad : string -> option (varr F); o_info : nat -> option (list F * list F) }.

  Definition sset {A} (k : string) (v : A) (f : string -> option A) : string -> option A := fun k' => if String.eqb k' k then Some v else f k'.
  Definition nset {A} (k : nat) (v : A) (f : nat -> option A) : nat -> option A := fun k' => if Nat.eqb k' k then Some v else f k'.
  (** next(v for v in vars if v.id == i) *)
  Definition var_by_id (i : nat) : res uvar := key (find (fun u => Nat.eqb (uv_id u) i) us).

  (** 182-183.  CVXPY's setter rejects a value of another shape. *)
  Fixpoint set_params (l : list (nat * varr F)) (v : string -> option (list nat -> F)) : res (string -> option (list nat -> F)) :=
    match l with
    | [] => Ok v
    | (i, a) :: t =>
        nm <- key (lookup i pids);; sh <- key (assoc nm shapes);;
        if shape_eqb (fst a) sh then set_params t (sset nm (snd a) v) else Err ValueError
    end.
  (** 200-201. *)
  Fixpoint set_grads (l : list (nat * varr F)) (v : string -> option (varr F)) : res (string -> option (varr F)) :=
    match l with
    | [] => Ok v
    | (i, a) :: t => u <- var_by_id i;; set_grads t (sset (uv_name u) a v)
    end.

  (** 43-50, 63-67 and solve_cpp (utils.py 1196-1204): the entries that are written to C. *)
  Definition updates (c : ctx) (v : string -> option (list nat -> F)) : res (list (string * nat * F)) :=
    let upd := match cx_upd c with None => map fst shapes | Some l => l end in
    if forallb (fun nm => mem_str nm (map fst shapes)) upd then
      fs <- mapM (fun s => l <- field (mkUP (fst s) (snd s) PPlain) (v (fst s));; Ok (fst s, l)) shapes;;
      Ok (flat_map (fun f => if mem_str (fst f) upd then map (fun e => (fst f, fst e, snd e)) (combine (seq 0 (length (snd f))) (snd f)) else []) fs)
    else Err AttributeError.

  (** 152-159: reading the gradients of all variables of the problem.  None is neither a number nor does it have
      a method flatten. *)
  Definition read_grads (v : string -> option (varr F)) : res (list (string * varr F)) :=
    mapM (fun u => match v (uv_name u) with
                   | Some a => Ok (uv_name u, a)
                   | None => Err (if Nat.eqb (fsize (uv_shape u)) 1 then TypeError else AttributeError)
                   end) us.

  Definition py_run (s : sst F) (os : list (pyop F)) : res (sst F * list (list F)) :=
    let prP := proc big x OSQP pP in
    let prA := proc big x OSQP pA in
    pysteps F (x_n x) (x_n x + (x_neq x + x_nineq x)) sqr eps half below above qfactor qsolve g scr (x_neq x) (pr_ip prP) (pr_idx prP) (pr_ip prA) (pr_idx prA) s os.

  Inductive lop :=
  | LForward (k : nat) (vals : list (varr F)) (sx sy : list F)
  | LBackward (k : nat) (dvars : list (varr F)).
  Inductive lout :=
  | OVars (vs : list (list nat -> F))
  | OGrads (gs : list (list nat -> F)).

  (** 176-194.  [sx], [sy]: what the solver answers. *)
  Definition forward (s : sst F) (p : pst) (k : nat) (vals : list (varr F)) (sx sy : list F) : res (sst F * pst * lout) :=
    let c := ctxs k in
    v <- set_params (combine (cx_pids c) vals) (o_val p);;
    ups <- updates c v;;
    '(s1, _) <- py_run s [PSolve ups sx sy];;
    rs <- primal_results n0 OSQP ps (mkRS cells (fun nm => if String.eqb nm "x" then sx else []));;
    outs <- mapM (fun i => u <- var_by_id i;; key (assoc (uv_name u) rs)) (cx_vars c);;
    Ok (s1, mkP v (o_grad p) (nset k (sx, sy) (o_info p)), OVars outs).

  (** 197-212. *)
  Definition backward (s : sst F) (p : pst) (k : nat) (dvars : list (varr F)) : res (sst F * pst * lout) :=
    let c := ctxs k in
    match o_info p k with
    | None => Err AttributeError
    | Some info =>
        v <- set_grads (combine (cx_vars c) dvars) (o_grad p);;
        l <- read_grads v;;
        pop <- to_py ps (UGrad (fun nm => match assoc nm l with Some a => a | None => ([], fun _ => n0) end) (Some info));;
        '(s1, dps) <- py_run s [pop];;
        dp <- match dps with [dp] => Ok dp | _ => Err IndexError end;;
        pg <- grad_out (x_params x) shapes dp;;
        outs <- mapM (fun i => nm <- key (lookup i pids);; key (assoc nm pg)) (cx_pids c);;
        Ok (s1, mkP (o_val p) v (o_info p), OGrads outs)
    end.

  Definition lstep (s : sst F) (p : pst) (o : lop) : res (sst F * pst * lout) :=
    match o with
    | LForward k vals sx sy => forward s p k vals sx sy
    | LBackward k dvars => backward s p k dvars
    end.
  Fixpoint lsteps (s : sst F) (p : pst) (os : list lop) : res (sst F * pst * list lout) :=
    match os with
    | [] => Ok (s, p, [])
    | o :: t => '(s1, p1, r) <- lstep s p o;; '(s2, p2, rs) <- lsteps s1 p1 t;; Ok (s2, p2, r :: rs)
    end.
  (** From the state right after loading the module; [v0]: the parameters' values then. *)
  Definition layer_session (v0 : string -> option (list nat -> F)) (os : list lop) : res (sst F * pst * list lout) :=
    let prP := proc big x OSQP pP in
    let prA := proc big x OSQP pA in
    lsteps (init_sst F (x_n x) (x_n x + (x_neq x + x_nineq x)) eps g (pr_ip prP) (pr_idx prP) (pr_ip prA) (pr_idx prA))
           (mkP v0 (fun _ => None) (fun _ => None)) os.
End Layer.
Arguments mkP {F}. Arguments o_val {F}. Arguments o_grad {F}. Arguments o_info {F}. Arguments LForward {F}. Arguments LBackward {F}.
Arguments OVars {F}. Arguments OGrads {F}. Arguments set_params {F}. Arguments set_grads {F}. Arguments updates {F}. Arguments read_grads {F}.
