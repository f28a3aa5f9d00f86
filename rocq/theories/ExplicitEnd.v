(** Explicit mode from generation to the values in the user's variables and duals: the parts of Explicit.v put
    together with canonicalization, parameter passing and the Python wrapper; the table is an oracle.
    Models cvxpygen/solvers/pdaqp.py 92-145 and 214-216 (what MPQP is given), templates/cpg_solver.py.jinja2 36-87
    with explicit set (no settings, no objective value, duals only if explicit == 2), utils.py 1010-1051 and
    1194-1239 with explicit set.
    Not modelled: limits on regions and floats, single-precision storage of the table. *)

From Coq Require Import String Arith Bool ZArith List.
From Verif Require Import Base Pus Machine Runtime RuntimeSpec Canon CanonSpec Retrieve Info Wrapper Params Explicit.
Import ListNotations.

(** pdaqp.py 131-133: np.arange(eq_m)[A_mask[:eq_m]] (positions before the removal of zero rows). *)
Definition eq_inds (eqm : nat) (amask : list bool) : list nat := mask_sel (firstn eqm amask) (seq 0 eqm).

Section ExplicitEnd.
  Variable K : ORing.
  Local Open Scope num_scope.

  (** csc_matrix(...).toarray(). *)
  Definition toarray (nr nc : nat) (d : list K) (idx ip : list nat) : list (list K) :=
    map (fun i => map (csc_entry (fun k => nth k d n0) idx ip i) (seq 0 nc)) (seq 0 nr).
  (** M + eps * np.eye(n), pdaqp.py 101. *)
  Definition add_eye (eps : K) (n : nat) (M : list (list K)) : list (list K) :=
    map2 (fun i r => map2 (fun j a => if Nat.eqb i j then a + eps else a + n0) (seq 0 n) r) (seq 0 n) M.

  (** pdaqp.py 277: constraints without variables. *)
  Definition is_bound (cons : list (ucon K)) (i : nat) : bool :=
    match nth i cons UVars with UVars => false | _ => true end.

  (** What generation determines.  [xp_H], [xp_qp], [xp_eq]: the arguments of MPQP. *)
  Record xpkg := mkXPkg
    { xp_gen : genc K; xp_lo : list K; xp_hi : list K; xp_n : nat;
      xp_H : list (list K); xp_qp : xqp K; xp_eq : list nat; xp_vars : xvars; xp_duals : list dinfo;
      xp_shapes : list (string * list nat) }.

  (** canonicalizer.py 87-122, then pdaqp.py generate_code.  [cons]: the user's constraints as seen by
      _get_parameter_delta_bounds; [sels]: solver_opts['stored_vars']. *)
  Definition generate_explicit (big eps : K) (x : cvx K) (order : list string -> list string)
             (red : list (nat * nat)) (us : list uvar) (eqs neqs : list (nat * nat)) (maps : list (list (nat * nat)))
             (cons : list (ucon K)) (sels : option (list (string * option (list Z)))) : res xpkg :=
    ps <- prim_info red us;;
    ds <- dual_info (dual_split OSQP) (dual_vec0 OSQP) (dual_vec1 OSQP) eqs neqs maps;;
    g <- generate big x OSQP order;;
    if chg_get (g_chg g) pP || chg_get (g_chg g) pA then Err ValueError else
    let n := x_n x in
    let m := (x_neq x + x_nineq x)%nat in
    let mat p r := toarray r n (g_baked g p) (pr_idx (proc big x OSQP p)) (pr_ip (proc big x OSQP p)) in
    b <- bounds big (g_params g) cons;;
    let bx := box (g_rows g pq ++ g_rows g pu) (fst b) (snd b) in
    let R := reduce n (mat pA m) (fst bx) (snd bx) in
    xv <- store_vars ps sels;;
    Ok (mkXPkg g (fst b) (snd b) n (add_eye eps n (mat pP n)) R (eq_inds (length (g_rows g pl)) (xq_amask R)) xv
               (drop_bounds (is_bound cons) ds) (map (fun u => (uv_name u, uv_shape u)) us)).

  Variable k : xpkg.
  (** explicit == 2. *)
  Variable dual : bool.
  (** The table: the solution and multipliers of the parametric problem at theta. *)
  Variable tab : list K -> list K * list K.

  (** What one call stores: variables, and duals with the position of their constraint. *)
  Record xoutcome := mkXO { xo_vars : list (string * (list nat -> K)); xo_duals : list (nat * list K) }.

  Definition x_outcome (cells : string -> nat -> K) (th : list K) : res xoutcome :=
    o <- table_out (fst (tab th)) (xv_out (xp_vars k));;
    rs <- x_primal n0 (xp_n k) (xp_vars k) cells o;;
    vs <- mapM (fun r => sh <- key (assoc (fst r) (xp_shapes k));; a <- reshapeF n0 sh (snd r);; Ok (fst r, a)) rs;;
    du <- (if dual then ds <- dual_results OSQP (xp_duals k) (mkRS cells (fun _ => snd (tab th)));; Ok (save_list ds)
           else Ok []);;
    Ok (mkXO vs du).

  Variable sv : Type.
  Variable ups : list uparam.
  Variable cells : nat -> string -> nat -> K.

  (** One call of the generated solve method; keyword arguments are accepted and ignored. *)
  Definition x_call (st : xst K) (i : nat) (uc : ucall K sv) : xst K * res xoutcome :=
    let g := xp_gen k in
    let c := to_call ups uc in
    let names := map fst (g_params g) in
    let updated := match c_upd c with None => names | Some l => l end in
    if forallb (fun p => mem_str p names) updated then
      match set_par K sv c (g_params g) with
      | Err e => (st, Err e)
      | Ok pars =>
        match x_steps g (xp_lo k) (xp_hi k) (xp_n k) (xq_mask (xp_qp k)) st (upd_ops K (fun n => mem_str n updated) pars) with
        | Err e => (st, Err e)
        | Ok s1 =>
          match x_solve g (xp_n k) (xq_mask (xp_qp k)) s1 with
          | Err e => (s1, Err e)
          | Ok s2 => (s2, match rev (xs_log s2) with th :: _ => x_outcome (cells i) th | [] => Err IndexError end)
          end
        end
      end
    else (st, Err AttributeError).

  Fixpoint x_session (st : xst K) (i : nat) (cs : list (ucall K sv)) : xst K * list (res xoutcome) :=
    match cs with
    | [] => (st, [])
    | c :: t => let '(s1, r) := x_call st i c in
                let '(s2, rs) := x_session s1 (S i) t in (s2, r :: rs)
    end.
End ExplicitEnd.
Arguments toarray {K}. Arguments add_eye {K}. Arguments is_bound {K}.
Arguments mkXPkg {K}. Arguments xp_gen {K}. Arguments xp_lo {K}. Arguments xp_hi {K}. Arguments xp_n {K}. Arguments xp_H {K}.
Arguments xp_qp {K}. Arguments xp_eq {K}. Arguments xp_vars {K}. Arguments xp_duals {K}. Arguments xp_shapes {K}.
Arguments generate_explicit {K}. Arguments mkXO {K}. Arguments xo_vars {K}. Arguments xo_duals {K}.
Arguments x_outcome {K}. Arguments x_call {K}. Arguments x_session {K}.
