(** A generated package from generation to the values in the user's CVXPY objects: the parts of the
    other model files put together, with the solver library as an oracle.
    Models the order of the steps in cvxpygen/canonicalizer.py 87-122 (primal and dual
    information, problem data), templates/cpg_solver.py.jinja2 42-101 (set flags, settings and parameters, solve,
    store variables, duals and value) and utils.py 1010-1051 (cpg_solve: update, solve, retrieve). *)

From Coq Require Import String Arith Bool List.
From Verif Require Import Base Pus Machine Runtime RuntimeSpec Canon Retrieve Info Wrapper Params.
Import ListNotations.

Section EndToEnd.
  Variable K : ORing.
  Local Open Scope num_scope.

  (** What a solver library leaves behind: the primal vector, dual vectors by name, the objective value. *)
  Record answer := mkAns { an_x : list K; an_dual : string -> list K; an_obj : K }.

  (** prob._value: a number or an infinity. *)
  Inductive pvalue := Fin (v : K) | PosInf | NegInf.

  (** cpg_solver.py.jinja2 98-101 with [lim] = 1e30; np.sign(v) * inf. *)
  Definition num_eqb (a b : K) : bool := oleb a b && oleb b a.
  Definition py_value (lim v : K) : pvalue :=
    if num_eqb v lim || num_eqb v (- lim) then (if oleb n0 v then PosInf else NegInf) else Fin v.

  (** What one call stores: variables, duals (flat), value. *)
  Record outcome := mkOutc
    { oc_vars : list (string * (list nat -> K)); oc_duals : list (list K); oc_val : pvalue }.

  (** Everything that generation determines. *)
  Record package := mkPkg { pk_gen : genc K; pk_prim : list pinfo; pk_dual : list dinfo }.
  Definition generate_all (big : K) (x : cvx K) (s : solver) (order : list string -> list string)
             (red : list (nat * nat)) (us : list uvar) (eqs neqs : list (nat * nat)) (maps : list (list (nat * nat)))
    : res package :=
    ps <- prim_info red us;;
    ds <- dual_info (dual_split s) (dual_vec0 s) (dual_vec1 s) eqs neqs maps;;
    g <- generate big x s order;;
    Ok (mkPkg g ps ds).

  Variable lim : K.
  Variable k : package.

  (** After the solver has answered [an] on the data [e]: retrieve, read, store.  [cells] are the
      leftovers in the result structs.  Both retrieval functions write only result cells. *)
  Definition outcome_of (cells : string -> nat -> K) (e : entry K) (an : answer) : res outcome :=
    let st := mkRS cells (fun v => if String.eqb v "x" then an_x an else an_dual an v) in
    vs <- primal_results n0 (g_solver (pk_gen k)) (pk_prim k) st;;
    du <- dual_results (g_solver (pk_gen k)) (pk_dual k) st;;
    Ok (mkOutc vs du (py_value lim (retrieve_obj (pk_gen k) e (an_obj an)))).

  Variable scr : nat -> pid -> list K -> list K.
  Variable sv : Type.
  Variable enabled : list string.
  Variable translation : list (string * string).
  Variable dflt : string -> sv.
  Variable converts : string -> sv -> bool.
  Variable ups : list uparam.
  (** The solver's answer to its i-th call on data [e] (warm starts: any dependence on i). *)
  Variable ans : nat -> entry K -> answer.
  Variable cells : nat -> string -> nat -> K.

  (** The i-th call of the generated solve method. *)
  Definition full_call (w : wst K sv) (i : nat) (c : ucall K sv) : wst K sv * res outcome :=
    let '(w1, ex) := py_solve K (pk_gen k) scr sv enabled translation dflt converts w (to_call ups c) in
    (w1, match ex with
         | Some e => Err e
         | None => match rev (r_log (w_rst w1)) with
                   | e :: _ => outcome_of (cells i) e (ans i e)
                   | [] => Err IndexError
                   end
         end).

  Fixpoint full_session (w : wst K sv) (i : nat) (cs : list (ucall K sv)) : wst K sv * list (res outcome) :=
    match cs with
    | [] => (w, [])
    | c :: t => let '(w1, r) := full_call w i c in
                let '(w2, rs) := full_session w1 (S i) t in (w2, r :: rs)
    end.
End EndToEnd.
Arguments mkAns {K}. Arguments an_x {K}. Arguments an_dual {K}. Arguments an_obj {K}.
Arguments Fin {K}. Arguments PosInf {K}. Arguments NegInf {K}. Arguments py_value {K}. Arguments num_eqb {K}.
Arguments mkOutc {K}. Arguments oc_vars {K}. Arguments oc_duals {K}. Arguments oc_val {K}.
Arguments mkPkg {K}. Arguments pk_gen {K}. Arguments pk_prim {K}. Arguments pk_dual {K}.
Arguments generate_all {K}. Arguments outcome_of {K}. 
