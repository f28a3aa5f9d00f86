(** Lengths of the arrays of the gradient code and how far they are accessed, in single-stage and two-stage mode.
    Models cvxpygen/writer.py 354-416 (workspace), 145-312 (cpg_gradient.c), 518-588 (which canonicalization is passed where),
    canonicalizer.py 369-376 (the merged canonicalization has the blocks of the second stage), utils.py 1616-1625
    and the loops of templates/cpg_osqp_grad_compute.c.jinja2 over [n], [N] (lines 9-10, 187-498).
    Simplified: prefixes of names are left out (they do not fit in two-stage mode anyway, C69 and C79); an access is the number of
    entries from 0 a loop may touch. *)

From Coq Require Import String Arith Bool List.
Import ListNotations.
Open Scope string_scope.
Open Scope list_scope.

(** What the code reads off a canonicalization and its interface: n_var, n_eq, n_ineq of the interface (e.g. _interface.py
    33-35, scs.py 119-121, ecos.py 78-80, qoco.py 83-85), rows of the block A, stored entries of A, and of the block P if the
    solver has one (ecos.py 21 has none) and the problem has a quadratic term (_interface.py 43-44 and canonicalizer.py 292-293, 321-324
    leave the block out otherwise). *)
Record canonical := mkCanonical { c_n : nat; c_eq : nat; c_in : nat; c_rows : nat; c_nnzA : nat; c_P : option nat }.

(** Which of the blocks of the OSQP form change (parameter_canon.p_id_to_changes), the number of entries of the user's
    parameters (len(parameter_info.flat_usp) of the first stage). *)
Record gprog := mkG { g_two : bool; g_first : canonical; g_second : canonical;
                      g_q : bool; g_l : bool; g_u : bool; g_cP : bool; g_cA : bool; g_np : nat; g_sizes : list (nat * nat) }.

(** self.solver_interface and self._pc: in two-stage mode of the second stage (canonicalizer.py 64-66, 369-376). *)
Definition solver_side (g : gprog) : canonical := if g_two g then g_second g else g_first g.
(** The canonicalization whose maps cpg_gradient.c walks: cg in two-stage mode (writer.py 562-569), self._pc otherwise. *)
Definition map_side (g : gprog) : canonical := g_first g.

Definition dim_N (c : canonical) : nat := c_n c + (c_eq c + c_in c).
Definition pairs (N : nat) : nat := (N - 1) * N / 2.

(** writer.py 354-402: None is the KeyError for a missing 'P'. *)
Definition workspace_arrays (c : canonical) : option (list (string * nat)) :=
  match c_P c with
  | None => None
  | Some nnzP =>
    let n := c_n c in
    let N := n + c_rows c in
    Some [("a", N - n); ("etree", N); ("Lnz", N); ("iwork", 3 * N); ("bwork", N); ("fwork", N); ("Lp", N + 1); ("Lmask", pairs N);
          ("D", N); ("Dinv", N); ("rhs", N); ("delta", N); ("c", N); ("w", N); ("wi", N); ("l", N); ("li", N); ("lx", N);
          ("dx", n); ("r", N); ("dq", n); ("dl", N - n); ("du", N - n); ("dPx", nnzP); ("dAx", c_nnzA c)]
  end.
(** The pointers of the compressed maps have one entry more than the map has rows (utils.py 110-131); rows of the maps of
    q, l, u are those of the vectors, of P and A the stored entries.  cpg_dp: utils.py write_workspace_def. *)
Definition map_arrays (g : gprog) : list (string * nat) :=
  let c := map_side g in
  [("q_map", c_n c + 1); ("l_map", c_eq c + 1); ("u_map", c_eq c + c_in c + 1);
   ("P_map", match c_P c with Some k => k | None => 0 end + 1); ("A_map", c_nnzA c + 1); ("dp", g_np g)].
(** Solution vectors: of the solver (osqp.py 141-142) or of cpg_gradient.c (writer.py 185-188). *)
Definition solution_arrays (g : gprog) : list (string * nat) :=
  let c := solver_side g in [("sol_x", c_n c); ("sol_y", c_eq c + c_in c)].
(** canonicalizer.py 335-344: the second stage is built from the block P of the first; None again is the KeyError. *)
Definition arrays (g : gprog) : option (list (string * nat)) :=
  match c_P (g_first g), workspace_arrays (solver_side g) with
  | Some _, Some w => Some (w ++ map_arrays g ++ solution_arrays g)
  | _, _ => None
  end.

(** cpg_osqp_grad_compute.c: loops over [n] and [N]. *)
Definition compute_accesses (g : gprog) : list (string * nat) :=
  let c := solver_side g in
  let n := c_n c in let N := dim_N c in
  [("a", N - n); ("etree", N); ("Lnz", N); ("bwork", N); ("fwork", N); ("iwork", 3 * N); ("Lp", N + 1); ("Lmask", pairs N);
   ("D", N); ("Dinv", N); ("rhs", N); ("delta", N); ("c", N); ("w", N); ("wi", N); ("l", N); ("li", N); ("lx", N); ("dx", n); ("r", N);
   ("dq", n); ("dl", N - n); ("du", N - n); ("sol_x", n); ("sol_y", N - n)].
(** cpg_gradient.c: writer.py 160-164 for the bounds, 223-310 for the loops; the loops of P and A are bounded by the stored entries of the
    first stage. *)
Definition gradient_accesses (g : gprog) : list (string * nat) :=
  let c := solver_side g in
  let m := map_side g in
  let P := match c_P m with Some k => k | None => 0 end in
  [("Lp", dim_N c); ("Lmask", pairs (dim_N c)); ("dp", g_np g); ("dx", c_n c)]
  ++ map (fun p => ("dx", fst p + snd p)) (g_sizes g)
  ++ (if g_cP g || g_cA g then [("a", dim_N c - c_n c)] else [])
  ++ (if g_q g then [("q_map", c_n c + 1); ("dq", c_n c)] else [])
  ++ (if g_l g then [("l_map", c_eq c + 1); ("dl", c_eq c)] else [])
  ++ (if g_u g then [("u_map", c_eq c + c_in c + 1); ("du", c_eq c + c_in c)] else [])
  ++ (if g_cP g then [("P_map", P + 1); ("dPx", P)] else [])
  ++ (if g_cA g then [("A_map", c_nnzA m + 1); ("dAx", c_nnzA m)] else []).
Definition accesses (g : gprog) : list (string * nat) := compute_accesses g ++ gradient_accesses g.
