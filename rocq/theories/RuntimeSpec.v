(** Specification of the generated code, independent of its implementation: parameter
    values as a last-writer map, canonical data as matrix-vector products. *)

From Coq Require Import String Arith Bool List Permutation.
From Verif Require Import Base Pus Machine PusCheck PusLift Runtime.
Import ListNotations.

Section Spec.
  Variable N : Num.
  Notation V := (car N).

  (** Values of the user's parameters. *)
  Definition pvals := string -> nat -> V.

  Definition set_val (th : pvals) (name : string) (idx : nat) (v : V) : pvals :=
    fun n i => if String.eqb n name && Nat.eqb i idx then v else th n i.

  (** The flat vector CVXPY uses: parameters one after the other, then the constant 1. *)
  Definition flat (ps : list (string * nat)) (th : pvals) : list V :=
    flat_map (fun ns => map (th (fst ns)) (seq 0 (snd ns))) ps ++ [n1].

  (** One row of a sparse matrix times a vector (sum in storage order). *)
  Definition dot (vec : list V) (r : row V) : V :=
    fold_left (fun acc cv => nadd acc (nmul (snd cv) (nth (fst cv) vec n0))) r n0.

  (** The canonical block [p] for parameter values [th]. *)
  Definition canon_spec (g : genc N) (th : pvals) (p : pid) : list V :=
    if chg_get (g_chg g) p
    then map (dot (flat (g_params g) th)) (g_rows g p) ++ skipn (length (g_rows g p)) (g_baked g p)
    else g_baked g p.

  (** Parameter values after a history, and at each solve of it. *)
  Fixpoint final_vals (th : pvals) (os : list (op N)) : pvals :=
    match os with
    | [] => th
    | OUpd n i v :: t => final_vals (set_val th n i v) t
    | OSolve :: t => final_vals th t
    end.

  Fixpoint solve_vals (th : pvals) (os : list (op N)) : list pvals :=
    match os with
    | [] => []
    | OUpd n i v :: t => solve_vals (set_val th n i v) t
    | OSolve :: t => th :: solve_vals th t
    end.

  (** A call the C interface supports: an existing parameter, an index below its size. *)
  Definition valid_op (ps : list (string * nat)) (o : op N) : Prop :=
    match o with
    | OUpd n i _ => exists s, In (n, s) ps /\ i < s
    | OSolve => True
    end.

  (** Properties of generated code, established for the generator in Canon*.v:
      parameter layout, maps within the vector, dependency lists sound, update code
      produced by the generator for some iteration order. *)
  Record wf_gen (g : genc N) (th0 : pvals) : Prop :=
    { w_names : NoDup (map fst (g_params g));
      w_vec0 : g_vec0 g = flat (g_params g) th0;
      w_chg : chg_wf (g_solver g) (g_chg g);
      w_cols : forall p r c v, In r (g_rows g p) -> In (c, v) r ->
                               c < length (flat (g_params g) th0);
      w_len : forall p, length (g_rows g p) <= length (g_baked g p);
      w_deps : forall p n s c0, chg_get (g_chg g) p = true -> In (n, s) (g_params g) ->
                 base_col g n = Some c0 -> ~ In p (g_outd g n) ->
                 forall r c v, In r (g_rows g p) -> In (c, v) r -> ~ (c0 <= c < c0 + s);
      w_block : exists top never order t' toks,
                  analyze_pus (solver_pus (g_solver g)) (g_chg g) = Ok (top, never)
                  /\ Permutation top order
                  /\ gen_update (solver_pus (g_solver g)) (solver_quad (g_solver g)) (g_chg g) order
                     = Ok (t', toks)
                  /\ Parses toks (g_block g) }.
End Spec.
Arguments flat {N}. Arguments set_val {N}. Arguments dot {N}. Arguments canon_spec {N}.
Arguments final_vals {N}. Arguments solve_vals {N}. Arguments valid_op {N}. Arguments wf_gen {N}.
