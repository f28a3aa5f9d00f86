(** From CVXPY's parametrised problem data to the canonical parameters of a solver.
    Models cvxpygen/canonicalizer.py 109-122 and 226-332, 429-486,
    cvxpygen/solvers/_interface.py 39-79 and 132-176. *)

From Coq Require Import String Arith Bool List.
From Verif Require Import Base Pus Machine PusParse Runtime.
Import ListNotations.

(** What CVXPY's [param_prob] provides (trusted input).  [x_A] are the rows of
    reduced_A.reduced_mat (one per stored entry of the matrix [A|b]), [x_Ai], [x_Ap] its
    problem_data_index (row indices and column pointers, the last column being b);
    [x_P] the same for the quadratic objective ([None] for an LP); [x_q] the rows of
    param_prob.q, the last one being the offset.  Columns of all rows index the flat
    parameter vector [x_flat] (flat_usp, last entry 1).  [x_neq], [x_nineq]: n_eq, n_ineq
    as set by the solver interface. *)
Record cvx (K : Ring) := mkCvx
  { x_params : list (string * nat);
    x_flat : list K;
    x_n : nat; x_neq : nat; x_nineq : nat;
    x_P : option (list (row K) * list nat * list nat);
    x_q : list (row K);
    x_A : list (row K); x_Ai : list nat; x_Ap : list nat;
    x_max : bool }.
Arguments x_params {K}. Arguments x_flat {K}. Arguments x_n {K}. Arguments x_neq {K}.
Arguments x_nineq {K}. Arguments x_P {K}. Arguments x_q {K}. Arguments x_A {K}.
Arguments x_Ai {K}. Arguments x_Ap {K}. Arguments x_max {K}.

(** numpy helpers: np.nonzero on a predicate over range(n); fancy indexing. *)
Definition np_where (f : nat -> bool) (n : nat) : list nat := filter f (seq 0 n).
Definition take {A} (d : A) (l : list A) (idx : list nat) : list A := map (fun k => nth k l d) idx.

(** The loop of canonicalizer.py 463-467 and 475-479: for every position r in [rs], find
    the column c whose slice of [ip] contains it and increment all later pointers. *)
Fixpoint find_slice (ip : list nat) (r c n : nat) : option nat :=
  match n with
  | O => None
  | S n' => if Nat.leb (nth c ip 0) r && Nat.ltb r (nth (S c) ip 0) then Some c
            else find_slice ip r (S c) n'
  end.

Fixpoint incr_from (l : list nat) (k : nat) : list nat :=
  match l, k with
  | [], _ => []
  | x :: t, O => S x :: incr_from t O
  | x :: t, S k' => x :: incr_from t k'
  end.

Definition recount (ncols : nat) (ip : list nat) (rs : list nat) : list nat :=
  fold_left (fun acc r => match find_slice ip r 0 ncols with
                          | Some c => incr_from acc (S c)
                          | None => acc
                          end) rs (map (fun _ => 0) ip).

Section Canon.
  Variable K : Ring.
  (** the C representation of infinity, 1e30 (utils.py 213-228) *)
  Variable big : K.

  Record amap := mkAm
    { am_mrows : list nat;            (* mapping_rows *)
      am_map : list (row K);          (* mapping *)
      am_neg : nat -> bool;           (* sign of each row: true for -1 *)
      am_idx : list nat;              (* indices *)
      am_nr : nat; am_nc : nat }.     (* shape *)

  Variable x : cvx K.
  Notation n_eq := (x_neq x).
  Notation n_ineq := (x_nineq x).

  (** canonicalizer.py 273-281 (_get_constraint_info). *)
  Definition n_data : nat := length (x_Ai x).
  Definition n_data_vec : nat := last (x_Ap x) 0 - last (removelast (x_Ap x)) 0.
  Definition n_mat : nat := n_data - n_data_vec.
  Definition rows_eq : list nat := np_where (fun k => Nat.ltb (nth k (x_Ai x) 0) n_eq) n_data.
  Definition rows_ineq : list nat := np_where (fun k => Nat.leb n_eq (nth k (x_Ai x) 0)) n_data.

  Definition neg_row (r : row K) : row K := map (fun cv => (fst cv, ropp (snd cv))) r.
  Definition no_sign : nat -> bool := fun _ => false.

  (** _interface.py 42-47 and 135-140: P, shared by both forms. *)
  Definition map_P : option amap :=
    match x_P x with
    | None => None
    | Some (rows, idx, _) => Some (mkAm [] rows no_sign idx (x_n x) (x_n x))
    end.
  Definition map_q : amap := mkAm [] (removelast (x_q x)) no_sign [] 0 0.
  Definition map_d : amap := mkAm [] [last (x_q x) []] no_sign [] 0 0.

  (** _interface.py 39-74: QP form. *)
  Definition qp_map (p : pid) : res (option amap) :=
    match p with
    | pP => Ok map_P
    | pq => Ok (Some map_q)
    | pd => Ok (Some map_d)
    | pA =>
      let idx := firstn n_mat (x_Ai x) in
      Ok (Some (mkAm []
        (map (fun k => let r := nth k (x_A x) [] in
                       if Nat.leb n_eq (nth k idx 0) then neg_row r else r)
             (seq 0 (length (firstn n_mat (x_A x)))))
        no_sign idx (n_eq + n_ineq) (x_n x)))
    | pl =>
      let mr := filter (fun k => Nat.leb n_mat k) rows_eq in
      Ok (Some (mkAm mr [] (fun _ => true) (take 0 (x_Ai x) mr) n_eq 1))
    | pu =>
      let mr := seq n_mat (n_data - n_mat) in
      Ok (Some (mkAm mr [] (fun i => Nat.ltb i n_eq) (take 0 (x_Ai x) mr) (n_eq + n_ineq) 1))
    | _ => Err ValueError
    end.

  (** _interface.py 132-173: conic form. *)
  Definition conic_map (p : pid) : res (option amap) :=
    match p with
    | pP => Ok map_P
    | pq | pc => Ok (Some map_q)
    | pd => Ok (Some map_d)
    | pA =>
      let mr := filter (fun k => Nat.ltb k n_mat) rows_eq in
      Ok (Some (mkAm mr (take [] (x_A x) mr) (fun _ => true) (take 0 (x_Ai x) mr) n_eq (x_n x)))
    | pG =>
      let mr := filter (fun k => Nat.ltb k n_mat) rows_ineq in
      Ok (Some (mkAm mr (take [] (x_A x) mr) (fun _ => true)
                     (map (fun i => i - n_eq) (take 0 (x_Ai x) mr)) n_ineq (x_n x)))
    | pb =>
      let mr := filter (fun k => Nat.leb n_mat k) rows_eq in
      Ok (Some (mkAm mr [] no_sign (take 0 (x_Ai x) mr) n_eq 1))
    | ph =>
      let mr := filter (fun k => Nat.leb n_mat k) rows_ineq in
      Ok (Some (mkAm mr [] no_sign (map (fun i => i - n_eq) (take 0 (x_Ai x) mr)) n_ineq 1))
    | _ => Err ValueError
    end.

  (** canon_p_ids_constr_vec (_interface.py 28, ecos.py 22, scs.py 23, ...). *)
  Definition constr_vec (p : pid) : bool :=
    match p with pl | pu | pb | ph => true | _ => false end.

  (** canonicalizer.py 429-436 (_update_to_dense_mapping): row i of the selected sparse map
      overwrites dense row indices[i]. *)
  Definition to_dense (a : amap) : list (row K) :=
    fold_left (fun acc ir => upd acc (fst ir) (snd ir))
              (combine (am_idx a) (take [] (x_A x) (am_mrows a)))
              (repeat [] (am_nr a)).

  (** toarray() of one row (duplicates accumulate), times the sign, and back to sparse
      form without zeros (canonicalizer.py 314-316). *)
  Definition dense_row (ncols : nat) (r : row K) : list K :=
    map (fun c => nsum (map snd (filter (fun cv => Nat.eqb (fst cv) c) r))) (seq 0 ncols).
  Definition sparse_row (d : list K) : row K :=
    filter (fun cv => negb (rz (snd cv))) (combine (seq 0 (length d)) d).
  Definition sign_of (neg : bool) : K := if neg then ropp n1 else n1.
  Definition resparse (ncols : nat) (a : amap) (rows : list (row K)) : list (row K) :=
    map (fun ir => sparse_row (map (fun v => nmul v (sign_of (am_neg a (fst ir)))) (dense_row ncols (snd ir))))
        (combine (seq 0 (length rows)) rows).

  (** canonicalizer.py 439-446: does the map touch the columns of parameter j? *)
  Definition touches (rows : list (row K)) (lo hi : nat) : bool :=
    existsb (fun r => existsb (fun cv => Nat.leb lo (fst cv) && Nat.ltb (fst cv) hi) r) rows.

  (** Result for one canonical parameter. *)
  Record pres := mkPr
    { pr_map1 : list (row K);        (* map whose columns give the dependency lists *)
      pr_rows : list (row K);        (* p_id_to_mapping *)
      pr_base : list K;              (* p_id's baked data, before replace_inf *)
      pr_idx : list nat; pr_ip : list nat; (* CSC structure of matrix blocks *)
      pr_chg : bool }.

  Definition mapv (rows : list (row K)) (v : list K) : list K :=
    map (fun r => fold_left (fun acc cv => nadd acc (nmul (snd cv) (nth (fst cv) v n0))) r n0) rows.

  (** canonicalizer.py 448-486 (_set_default_values). *)
  Definition indptr_for (split : bool) (p : pid) (a : amap) : list nat :=
    match p with
    | pP => match x_P x with Some (_, _, ip) => ip | None => [] end
    | _ => if split then recount (am_nc a) (removelast (x_Ap x)) (am_mrows a)
           else removelast (x_Ap x)
    end.

  Definition process (qp split : bool) (p : pid) : res pres :=
    oa <- (if qp then qp_map p else conic_map p) ;;
    match oa with
    | None => Ok (mkPr [] [] [] [] [] false)
    | Some a =>
      let ncols := length (x_flat x) in
      let map1 := if constr_vec p then to_dense a else am_map a in
      let map2 := resparse ncols a map1 in
      let last_col := ncols - 1 in
      let changes rows := touches rows 0 last_col in
      if pid_upper p then
        let nz := np_where (fun k => negb (Nat.eqb (length (nth k map2 [])) 0)) (length map2) in
        let rows := take [] map2 nz in
        Ok (mkPr map1 rows (mapv rows (x_flat x)) (take 0 (am_idx a) nz)
                 (recount (am_nc a) (indptr_for split p a) nz) (changes rows))
      else
        let data := mapv map2 (x_flat x) in
        let aug := match p, qp with
                   | pl, true => data ++ repeat (ropp big) n_ineq   (* _interface.py 76-79 *)
                   | _, _ => data
                   end in
        Ok (mkPr map1 map2 aug [] [] (changes map2))
    end.

  (** solver_type = 'quadratic' / dual_var_split of the interfaces. *)
  Definition is_qp (s : solver) : bool := match s with OSQP => true | _ => false end.
  Definition is_split (s : solver) : bool :=
    match s with ECOS | QOCO _ | QOCOGEN _ => true | _ => false end.

  Definition proc (s : solver) (p : pid) : pres :=
    match process (is_qp s) (is_split s) p with
    | Ok r => r
    | Err _ => mkPr [] [] [] [] [] false
    end.

  (** canonicalizer.py 117-120: the dependency lists; columns of parameter j are the slice
      between consecutive entries of id_to_col. *)
  Definition outdated (s : solver) (name : string) : list pid :=
    match find_col name (col_to_name 0 (x_params x)), assoc name (x_params x) with
    | Some c, Some sz =>
      filter (fun p => touches (pr_map1 (proc s p)) c (c + sz)) (solver_pids s)
    | _, _ => []
    end.

  Definition chg (s : solver) : changes :=
    fun p => if mem_pid p (solver_pids s) then Some (pr_chg (proc s p)) else None.

  Definition nnz (rows : list (row K)) : nat := length (concat rows).

  (** The update code for the order in which Python happens to iterate the set. *)
  Definition block_for (s : solver) (order : list string -> list string) : res ublock :=
    ' (top, _) <- analyze_pus (solver_pus s) (chg s) ;;
    ' (_, toks) <- gen_update (solver_pus s) (solver_quad s) (chg s) (order top) ;;
    match parse_all toks with Some b => Ok b | None => Err ValueError end.

  (** The generated code for solver [s].  'd' (nonzero_d) is canonicalizer.py 310-311. *)
  Definition generate (s : solver) (order : list string -> list string) : res (genc K) :=
    b <- block_for s order ;;
    Ok (mkG K s (x_params x) (x_flat x)
            (fun p => if mem_pid p (solver_pids s) then pr_rows (proc s p) else [])
            (chg s)
            (fun p => if mem_pid p (solver_pids s) then pr_base (proc s p) else [])
            (outdated s)
            (Nat.ltb 0 (nnz (pr_map1 (proc s pd))))
            (x_max x) b).
End Canon.

Arguments n_data {K}. Arguments n_mat {K}. Arguments rows_eq {K}. Arguments rows_ineq {K}.
Arguments process {K}. Arguments proc {K}. Arguments generate {K}. Arguments chg {K}.
Arguments outdated {K}. Arguments to_dense {K}. Arguments resparse {K}. Arguments touches {K}.
Arguments mapv {K}. Arguments dense_row {K}. Arguments sparse_row {K}. Arguments sign_of {K}.
Arguments neg_row {K}. Arguments pr_rows {K}. Arguments pr_base {K}. Arguments pr_idx {K}.
Arguments pr_ip {K}. Arguments pr_chg {K}. Arguments pr_map1 {K}. Arguments qp_map {K}.
Arguments conic_map {K}. Arguments am_mrows {K}. Arguments am_map {K}. Arguments am_neg {K}.
Arguments am_idx {K}. Arguments am_nr {K}. Arguments am_nc {K}. Arguments mkAm {K}. Arguments mkPr {K}.
Arguments map_P {K}. Arguments map_q {K}. Arguments map_d {K}. Arguments n_data_vec {K}.
Arguments block_for {K}. Arguments nnz {K}. Arguments indptr_for {K}.
