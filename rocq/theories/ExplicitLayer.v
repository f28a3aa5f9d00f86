(** The functions forward and backward of the generated module in explicit mode: forward looks the
    solution up in the table and remembers the region; backward differentiates the law of the
    remembered region.
    Models cvxpygen/templates/cpg_solver.py.jinja2 176-212 (explicit set) with the parts of 37-86 and 134-173
    they call, on top of Explicit.v.
    Simplified as in Layer.v: next() on an unknown id raises StopIteration, here KeyError; parameters
    without dimension-reducing attributes.  The table look-up is external: [leaf] gives the region that the
    search tree of pdaqp_evaluate ends in, the feedback law of the region is then applied. *)

From Coq Require Import String Arith Bool ZArith List Field QArith Qcanon.
From Verif Require Import Base Pus Machine Runtime Canon Retrieve Params Explicit ExplicitGrad GradUser Layer.
Import ListNotations.
Open Scope string_scope.
Open Scope list_scope.

(** Ordered fields: numbers for which both the wrapper (any field) and the clamping (any ordered ring)
    are defined. *)
Record OFld := mkOFld
  { of_fld :> Fld;
    of_le : of_fld -> of_fld -> Prop;
    of_leb : of_fld -> of_fld -> bool;
    of_leb_spec : forall a b, of_leb a b = true <-> of_le a b;
    of_refl : forall a, of_le a a;
    of_trans : forall a b c, of_le a b -> of_le b c -> of_le a c;
    of_antisym : forall a b, of_le a b -> of_le b a -> a = b;
    of_total : forall a b, of_le a b \/ of_le b a;
    of_add : forall a b c, of_le a b -> of_le (nadd c a) (nadd c b);
    of_mul : forall a b, of_le n0 a -> of_le n0 b -> of_le n0 (nmul a b) }.
Definition of_ord (O : OFld) : ORing :=
  mkORing (fring (of_fld O)) (of_le O) (of_leb O) (of_leb_spec O) (of_refl O) (of_trans O) (of_antisym O) (of_total O) (of_add O) (of_mul O).

Section Layer.
  Variable O : OFld.
  Notation F := (of_fld O).
  Notation K := (of_ord O).
  (** The program: canonicalization, parameter bounds, number of canonical variables, th_mask, stored variables. *)
  Variables (g : genc F) (lo hi : list F) (n : nat) (mask : list bool) (xv : xvars).
  Variables (t : table F) (leaf : list F -> nat).
  (** prob.parameters() as pairs of id and name, with the shapes by name; prob.variables(). *)
  Variables (pids : list (nat * string)) (shapes : list (string * list nat)) (us : list uvar).
  Variable ctxs : nat -> ctx.
  (** Leftovers in the result structs. *)
  Variable cells : string -> nat -> F.

  (** Values of parameters, gradients of variables, context.info["region"] of each context. *)
  Record xpst := mkXP
    { q_val : string -> option (list nat -> F); q_grad : string -> option (varr F); q_info : nat -> option nat }.

  Inductive xlop :=
  | XLF (k : nat) (vals : list (varr F))
  | XLB (k : nat) (dvars : list (varr F)).

  (** C state: the canonicalization of Explicit.v; (pdaqp_active_region, cpg_dx). *)
  Definition xgst : Type := option nat * list F.

  (** cpg_solver.py.jinja2 70-78 in explicit mode: stored variables by name. *)
  Definition stored_arrays (th : list F) : res (list (string * (list nat -> F))) :=
    o <- t_eval t (leaf th) th;;
    rs <- x_primal n0 n xv cells o;;
    mapM (fun r => sh <- key (assoc (fst r) (map (fun u => (uv_name u, uv_shape u)) us));; a <- reshapeF n0 sh (snd r);; Ok (fst r, a)) rs.

  (** 176-194. *)
  Definition xforward (s : xst K) (c : xgst) (p : xpst) (k : nat) (vals : list (varr F)) : res (xst K * xgst * xpst * lout F) :=
    let cx := ctxs k in
    v <- set_params pids shapes (combine (cx_pids cx) vals) (q_val p);;
    ups <- updates shapes cx v;;
    s1 <- x_steps (K := K) g lo hi n mask s (map (fun e => OUpd (fst (fst e)) (snd (fst e)) (snd e)) ups);;
    s2 <- x_solve (K := K) g n mask s1;;
    th <- match rev (xs_log s2) with th :: _ => Ok th | [] => Err IndexError end;;
    vs <- stored_arrays th;;
    outs <- mapM (fun i => u <- var_by_id us i;; key (assoc (uv_name u) vs)) (cx_vars cx);;
    Ok (s2, (Some (leaf th), snd c), mkXP v (q_grad p) (nset k (leaf th) (q_info p)), OVars outs).

  (** 152-159: only the stored variables are read. *)
  Definition xstored : list uvar := filter (fun u => mem_str (uv_name u) (map xi_name (xv_vars xv))) us.

  (** 197-212 and 134-167 with the region given. *)
  Definition xbackward (s : xst K) (c : xgst) (p : xpst) (k : nat) (dvars : list (varr F)) : res (xst K * xgst * xpst * lout F) :=
    let cx := ctxs k in
    match q_info p k with
    | None => Err AttributeError
    | Some r =>
        v <- set_grads us (combine (cx_vars cx) dvars) (q_grad p);;
        l <- read_grads xstored v;;
        let vg := fun nm => match assoc nm l with Some a => a | None => ([], fun _ => n0) end in
        _ <- mapM (fun w => if Nat.eqb (fsize (fst (vg (xi_name w)))) (xi_size w) then Ok tt else Err TypeError) (xv_vars xv);;
        '(c', dp) <- grad_call (xg_of F g mask (list_sum (map snd (xv_rsize xv)))) t (xv_vars xv) c (Some r, vd_flat vg);;
        pg <- grad_out (g_params g) shapes dp;;
        outs <- mapM (fun i => nm <- key (lookup i pids);; key (assoc nm pg)) (cx_pids cx);;
        Ok (s, c', mkXP (q_val p) v (q_info p), OGrads outs)
    end.

  Definition xlstep (s : xst K) (c : xgst) (p : xpst) (o : xlop) : res (xst K * xgst * xpst * lout F) :=
    match o with
    | XLF k vals => xforward s c p k vals
    | XLB k dvars => xbackward s c p k dvars
    end.
  Fixpoint xlsteps (s : xst K) (c : xgst) (p : xpst) (os : list xlop) : res (list (lout F)) :=
    match os with
    | [] => Ok []
    | o :: rest =>
        '(s1, c1, p1, r) <- xlstep s c p o;;
        rs <- xlsteps s1 c1 p1 rest;;
        Ok (r :: rs)
    end.

  (** From the start of the program; [v0]: parameter values before the first call. *)
  Definition xlayer_session (v0 : string -> option (list nat -> F)) (os : list xlop) : res (list (lout F)) :=
    xlsteps (x_init (K := K) g) (None, repeat n0 (list_sum (map snd (xv_rsize xv)))) (mkXP v0 (fun _ => None) (fun _ => None)) os.
End Layer.
Arguments XLF {O}. Arguments XLB {O}. Arguments mkXP {O}. Arguments q_val {O}. Arguments q_grad {O}. Arguments q_info {O}.
