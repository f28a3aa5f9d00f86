(** Two-stage canonicalization (gradient with a solver other than OSQP): the OSQP form of
    the user's problem is itself turned into a parametrised problem, which is canonicalized
    again for the actual solver; the two results are merged.
    Models cvxpygen/canonicalizer.py 54-66, 334-415. *)

From Coq Require Import String Arith Bool List.
From Verif Require Import Base Pus Machine PusParse Runtime Canon.
Import ListNotations.
Open Scope string_scope.
Open Scope list_scope.

(** Python's name[5:] and f'osqp_{p_id}' (canonicalizer.py 386, 397). *)
Definition drop5 (s : string) : string := substring 5 (String.length s - 5) s.
Definition osqp_name (p : pid) : string := "osqp_" ++ pid_name p.

Section Merge.
  Variable K : Ring.

  (** canonicalizer.py 334-361 (_get_osqp_problem), the parts that decide success and the
      layout of the second stage: the check on P, the diagonal assertion, and the sizes of
      the four parameters.  [offdiag]: whether p['P'].nonzero() has an entry off the diagonal
      (346-347), see [stored_offdiag].  The sparsity of osqp_A comes from p['A'].nonzero(), which skips entries
      whose present value is zero.  The CVXPY objects themselves are not modelled. *)
  Definition osqp_params (g1 : genc K) : list (string * nat) :=
    [ (osqp_name pq, length (g_baked g1 pq));
      (osqp_name pA, length (filter (fun v => negb (rz v)) (g_baked g1 pA)));
      (osqp_name pl, length (g_rows g1 pl));
      (osqp_name pu, length (g_baked g1 pu)) ].

  Definition osqp_problem (offdiag : bool) (g1 : genc K) : res (list (string * nat)) :=
    if chg_get (g_chg g1) pP then Err ValueError
    else if offdiag then Err AssertionError
    else Ok (osqp_params g1).

  (** row, col = p['P'].nonzero(); not all(row == col), for the compressed matrix with column
      pointers [ip], row indices [idx] and values [d]. *)
  Definition stored_offdiag (nc : nat) (ip idx : list nat) (d : list K) : bool :=
    existsb (fun j => existsb (fun k => negb (rz (nth k d n0)) && negb (Nat.eqb (nth k idx 0) j))
                              (seq (nth j ip 0) (nth (S j) ip 0 - nth j ip 0))) (seq 0 nc).

  (** canonicalizer.py 411-415 (_create_constant_map) for one row. *)
  Definition const_row (m : nat) (v : K) : row K := [(m - 1, v)].

  (** pc_first.p_id_to_mapping[name] (canonicalizer.py 387): a dict with the ids of the
      first stage's solver as keys. *)
  Definition mapping_of (g1 : genc K) (name : string) : res (list (row K)) :=
    match find (fun p => String.eqb (pid_name p) name) (solver_pids (g_solver g1)) with
    | Some p => Ok (g_rows g1 p)
    | None => Err KeyError
    end.

  (** canonicalizer.py 383-389: the stacked map from user parameters to the flat parameter
      vector of the second stage.  The keys of col_to_name_usp are increasing already, so
      [sorted] changes nothing. *)
  Fixpoint stack_maps (g1 : genc K) (cols : list (nat * string)) : res (list (row K)) :=
    match cols with
    | [] => Ok []
    | (_, nm) :: t =>
      m <- mapping_of g1 (drop5 nm) ;;
      ms <- stack_maps g1 t ;;
      Ok (m ++ ms)
    end.

  Definition map_first (g1 g2 : genc K) : res (list (row K)) :=
    ms <- stack_maps g1 (col_to_name 0 (g_params g2)) ;;
    Ok (ms ++ [const_row (length (g_vec0 g1)) n1]).

  (** One row of the sparse product map_second @ map_first: linear combination of rows,
      summed per column, zeros not stored. *)
  Definition scale_row (a : K) (r : row K) : row K := map (fun cv => (fst cv, nmul a (snd cv))) r.
  Definition row_times (ncols : nat) (r : row K) (M : list (row K)) : row K :=
    sparse_row (dense_row ncols (flat_map (fun kv => scale_row (snd kv) (nth (fst kv) M [])) r)).

  (** canonicalizer.py 393-400: the dependency list of one user parameter. *)
  Fixpoint merge_outd (g2 : genc K) (ps : list pid) : res (list pid) :=
    match ps with
    | [] => Ok []
    | p :: t =>
      l <- (if mem_str (osqp_name p) (map fst (g_params g2)) then Ok (g_outd g2 (osqp_name p))
            else Err KeyError) ;;
      l' <- merge_outd g2 t ;;
      Ok (l ++ l')
    end.

  Fixpoint merge_deps (g1 g2 : genc K) (ns : list string) : res (list (string * list pid)) :=
    match ns with
    | [] => Ok []
    | n :: t =>
      l <- merge_outd g2 (g_outd g1 n) ;;
      ls <- merge_deps g1 g2 t ;;
      Ok ((n, l) :: ls)
    end.

  (** canonicalizer.py 363-406 (_merge).  [none2]: ids of the second stage whose mapping is
      None (line 326: block P of an LP); None @ map_first raises TypeError.  The product
      raises ValueError unless the shapes fit.  [list(set(...))] only reorders.  The shift
      of the primal offsets (402-406) is in Retrieve.v. *)
  Definition merge (none2 : list pid) (g1 g2 : genc K) : res (genc K) :=
    M <- map_first g1 g2 ;;
    _ <- (match none2 with
          | [] => if Nat.eqb (length (g_vec0 g2)) (length M) then Ok tt else Err ValueError
          | _ => Err TypeError
          end) ;;
    deps <- merge_deps g1 g2 (map fst (g_params g1)) ;;
    Ok (mkG K (g_solver g2) (g_params g1) (g_vec0 g1)
            (fun p => map (fun r => row_times (length (g_vec0 g1)) r M) (g_rows g2 p))
            (g_chg g2) (g_baked g2)
            (fun n => match assoc n deps with Some l => l | None => [] end)
            (g_nonzero_d g1) (g_max g1) (g_block g2)).

  (** canonicalizer.py 54-66 (canonicalize_two_stage), with CVXPY's second run given as a
      function of the parameters of the OSQP problem. *)
  Definition two_stage (offdiag : bool) (none2 : list pid) (g1 : genc K)
             (second : list (string * nat) -> res (genc K)) : res (genc K) :=
    ps <- osqp_problem offdiag g1 ;;
    g2 <- second ps ;;
    merge none2 g1 g2.
End Merge.
Arguments stored_offdiag {K}. Arguments osqp_params {K}. Arguments osqp_problem {K}. Arguments const_row {K}.
Arguments mapping_of {K}. Arguments stack_maps {K}. Arguments map_first {K}.
Arguments scale_row {K}. Arguments row_times {K}. Arguments merge_outd {K}.
Arguments merge_deps {K}. Arguments merge {K}. Arguments two_stage {K}.
