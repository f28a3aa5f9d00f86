(** Specification for forward and backward: which parameter values, solution and derivatives each call
    refers to. *)

From Coq Require Import String Arith Bool List.
From Verif Require Import Base Pus Machine Runtime RuntimeSpec Canon Retrieve RetrieveProofs Explicit Sparse GradSession GradUser PropGrad PropUser EndSpec Layer.
Import ListNotations.
Open Scope string_scope.
Open Scope list_scope.

Section Spec.
  Variable F : Fld.
  Variables (pids : list (nat * string)) (shapes : list (string * list nat)) (us : list uvar).
  Variable ctxs : nat -> ctx.

  Definition pname (i : nat) : string := match lookup i pids with Some nm => nm | None => "" end.

  (** Contexts whose calls are supported: known parameters; all variables of the problem; a list of
      updated parameters, if given, contains the context's parameters. *)
  Record ctx_ok (c : ctx) : Prop := mkCO
    { co_pids : NoDup (cx_pids c); co_known : incl (cx_pids c) (map fst pids);
      co_vars : NoDup (cx_vars c); co_known_vars : incl (cx_vars c) (map uv_id us); co_all : incl (map uv_id us) (cx_vars c);
      co_upd : forall l, cx_upd c = Some l -> incl l (map fst shapes) /\ incl (map pname (cx_pids c)) l }.
  (** prob.parameters() against the shapes by name. *)
  Definition params_ok : Prop :=
    NoDup (map fst pids) /\ NoDup (map snd pids) /\ incl (map snd pids) (map fst shapes) /\ NoDup (map fst shapes) /\ forall s, In s shapes -> fsize (snd s) <> 0.

  (** Values of all parameters after [vals] were passed for the context's parameters. *)
  Definition after (th : pvals F) (c : ctx) (vals : list (varr F)) : pvals F := fun nm i =>
    match assoc nm (combine (map pname (cx_pids c)) vals) with
    | Some (sh, a) => match nth_error (fidx sh) i with Some idx => a idx | None => th nm i end
    | None => th nm i
    end.
  (** The derivative passed for the variable with a name. *)
  Definition vg_of (c : ctx) (dvars : list (varr F)) (nm : string) : varr F :=
    match find (fun u => String.eqb (uv_name u) nm) us with
    | Some u => match lookup (uv_id u) (combine (cx_vars c) dvars) with Some a => a | None => ([], fun _ => n0) end
    | None => ([], fun _ => n0)
    end.

  (** What each call refers to.  A forward call: its solution.  A backward call: parameter values
      and solution of the latest forward call with the same context, the parameter values of the
      latest forward call with any context, the derivatives. *)
  Inductive lexp :=
  | XVars (k : nat) (sx : list F)
  | XGrads (k : nat) (own : pvals F) (sx sy : list F) (latest : pvals F) (dvars : list (varr F)).
  Fixpoint lexpect (th : pvals F) (own : nat -> option (pvals F * list F * list F)) (os : list (lop F)) : list lexp :=
    match os with
    | [] => []
    | LForward k vals sx sy :: t =>
        let th' := after th (ctxs k) vals in XVars k sx :: lexpect th' (nset k (th', sx, sy) own) t
    | LBackward k dvars :: t =>
        match own k with
        | Some (tho, sx, sy) => XGrads k tho sx sy th dvars :: lexpect th own t
        | None => lexpect th own t
        end
    end.
  (** The parameter values of all solves. *)
  Fixpoint lvals (th : pvals F) (os : list (lop F)) : list (pvals F) :=
    match os with
    | [] => []
    | LForward k vals _ _ :: t => let th' := after th (ctxs k) vals in th' :: lvals th' t
    | LBackward _ _ :: t => lvals th t
    end.

  (** What is returned: the entries of the variables' parts of the solution, in the order of the
      context's variables; the stored gradients [pg], in the order of the context's parameters. *)
  Definition vars_right (red : list (nat * nat)) (k : nat) (sx : list F) (vs : list (list nat -> F)) : Prop :=
    Forall2 (fun i a => exists u, In u us /\ uv_id u = i /\ forall idx, in_shape (uv_shape u) idx -> a idx = nth (fpos (uv_shape u) idx) (cut red i sx) n0) (cx_vars (ctxs k)) vs.
  Definition grads_right (k : nat) (pg : list (string * (list nat -> F))) (l : list (list nat -> F)) : Prop :=
    Forall2 (fun i a => exists nm sh, In (i, nm) pids /\ In (nm, sh) shapes /\ forall idx, in_shape sh idx -> a idx = stored pg nm idx) (cx_pids (ctxs k)) l.

  Variables (x : cvx F) (g : genc F) (below : F -> bool).
  (** Supported calls: arrays of the right shapes, a solution of the right size whose inequality
      duals are not below the tolerance; backward only after forward. *)
  Definition lop_ok (o : lop F) : Prop :=
    match o with
    | LForward k vals sx sy => Forall2 (fun i a => assoc (pname i) shapes = Some (fst a)) (cx_pids (ctxs k)) vals /\ py_ok F x g below (PSolve [] sx sy)
    | LBackward k dvars => Forall2 (fun i a => forall u, In u us -> uv_id u = i -> fst a = uv_shape u) (cx_vars (ctxs k)) dvars
    end.
  Fixpoint ordered (done : list nat) (os : list (lop F)) : Prop :=
    match os with
    | [] => True
    | LForward k _ _ _ :: t => ordered (k :: done) t
    | LBackward k _ :: t => In k done /\ ordered done t
    end.
End Spec.
Arguments XVars {F}. Arguments XGrads {F}. Arguments after {F}. Arguments vg_of {F}. Arguments lexpect {F}. Arguments lvals {F}. Arguments ordered {F}. Arguments vars_right {F}. Arguments grads_right {F}.
