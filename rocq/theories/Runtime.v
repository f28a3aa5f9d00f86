(** The generated C code at run time: cpg_update_<param>, cpg_canonicalize_<p>, cpg_solve.
    Models cvxpygen/utils.py 279-294, 904-944, 1008-1052 and 496-565. *)

From Coq Require Import String Arith Bool List.
From Verif Require Import Base Pus Machine.
Import ListNotations.

(** Sparse rows: (column, value) in storage order. *)
Definition row (V : Type) := list (nat * V).

(** Compressed-row arrays as written to C: mapping.tocsr() (canonicalizer.py 321) through
    write_mat_def (utils.py 117-131). *)
Record csr (V : Type) := mkCsr { c_n : nat; c_p : list nat; c_i : list nat; c_x : list V }.
Arguments mkCsr {V}. Arguments c_n {V}. Arguments c_p {V}. Arguments c_i {V}. Arguments c_x {V}.

Fixpoint indptr_from {V} (start : nat) (rows : list (row V)) : list nat :=
  match rows with
  | [] => [start]
  | r :: t => start :: indptr_from (start + length r) t
  end.

Definition csr_of {V} (rows : list (row V)) : csr V :=
  mkCsr (length rows) (indptr_from 0 rows)
        (map fst (concat rows)) (map snd (concat rows)).

(** C array access. *)
Definition get {A} (l : list A) (k : nat) : res A :=
  match nth_error l k with Some v => Ok v | None => Err OutOfBounds end.

Definition put {A} (l : list A) (k : nat) (v : A) : res (list A) :=
  if Nat.ltb k (length l) then Ok (upd l k v) else Err OutOfBounds.

Section Runtime.
  Variable N : Num.
  Notation V := (car N).

  (** utils.py 288-294: the two nested loops of cpg_canonicalize_<p>, with every array
      access checked. *)
  Fixpoint canon_inner (m : csr V) (vec : list V) (i : nat) (blk : list V) (j n : nat)
    : res (list V) :=
    match n with
    | O => Ok blk
    | S n' =>
      old <- get blk i ;;
      x <- get (c_x m) j ;;
      c <- get (c_i m) j ;;
      v <- get vec c ;;
      blk' <- put blk i (nadd old (nmul x v)) ;;
      canon_inner m vec i blk' (S j) n'
    end.

  Fixpoint canon_outer (m : csr V) (vec : list V) (blk : list V) (i n : nat) : res (list V) :=
    match n with
    | O => Ok blk
    | S n' =>
      blk1 <- put blk i n0 ;;
      lo <- get (c_p m) i ;;
      hi <- get (c_p m) (S i) ;;
      blk2 <- canon_inner m vec i blk1 lo (hi - lo) ;;
      canon_outer m vec blk2 (S i) n'
    end.

  Definition canonicalize (m : csr V) (vec blk : list V) : res (list V) :=
    canon_outer m vec blk 0 (c_n m).

  (** What code generation fixes.
      [g_params]: name_to_size_usp (canonicalizer.py 240-243) in dict order;
      [g_vec0]: cpg_params_vec as baked (flat_usp, last entry 1);
      [g_rows]: p_id_to_mapping; [g_chg]: p_id_to_changes; [g_baked]: Canon_Params as
      baked; [g_outd]: user_p_name_to_canon_outdated; [g_block]: the update code of
      cpg_solve. *)
  Record genc := mkG
    { g_solver : solver;
      g_params : list (string * nat);
      g_vec0 : list V;
      g_rows : pid -> list (row V);
      g_chg : changes;
      g_baked : pid -> list V;
      g_outd : string -> list pid;
      g_nonzero_d : bool;
      g_max : bool;
      g_block : ublock }.

  (** canonicalizer.py 244-248: col_to_name_usp by cumulative sums. *)
  Fixpoint col_to_name (cum : nat) (ps : list (string * nat)) : list (nat * string) :=
    match ps with
    | [] => []
    | (n, s) :: t => (cum, n) :: col_to_name (cum + s) t
    end.

  Fixpoint find_col (name : string) (l : list (nat * string)) : option nat :=
    match l with
    | [] => None
    | (c, n) :: t => if String.eqb name n then Some c else find_col name t
    end.

  Variable g : genc.

  (** [base_col] of utils.py 905. *)
  Definition base_col (name : string) : option nat := find_col name (col_to_name 0 (g_params g)).

  (** p_id_to_size: rows of the (reduced) map, canonicalizer.py 323. *)
  Definition g_size (p : pid) : nat := length (g_rows g p).

  (** One record per solve: the data the library ran on and Canon_Params.d as read by
      cpg_retrieve_info (utils.py 980). *)
  Record entry := mkE { e_data : pid -> list V; e_d : list V }.

  Record rst := mkR
    { r_vec : list V; r_flag : pid -> bool; r_m : mst (list V); r_ini : bool; r_log : list entry }.

  Variable scr : nat -> pid -> list V -> list V.

  (** Static initialisers of cpg_workspace.c: data baked, every flag 1 (utils.py 556-562). *)
  Definition init_state : rst :=
    mkR (g_vec0 g) (fun _ => true)
        (mkM (g_baked g) (g_baked g) (fun _ => false) (g_baked g) 0)
        (solver_init0 (g_solver g)) [].

  Inductive op := OUpd (name : string) (idx : nat) (val : V) | OSolve.

  (** utils.py 904-930 (non-explicit): cpg_params_vec[idx+base] = val and the flags. *)
  Definition do_update (s : rst) (name : string) (idx : nat) (val : V) : res rst :=
    match base_col name with
    | None => Err KeyError
    | Some c =>
      vec <- put (r_vec s) (idx + c) val ;;
      Ok (mkR vec (fun p => mem_pid p (g_outd g name) || r_flag s p) (r_m s) (r_ini s) (r_log s))
    end.

  (** utils.py 1012-1016: canonicalize the outdated blocks that change. *)
  Fixpoint canon_blocks (vec : list V) (fl : pid -> bool) (can : pid -> list V) (ps : list pid)
    : res (pid -> list V) :=
    match ps with
    | [] => Ok can
    | p :: t =>
      if chg_get (g_chg g) p && fl p then
        blk <- canonicalize (csr_of (g_rows g p)) vec (can p) ;;
        canon_blocks vec fl (pset can p blk) t
      else canon_blocks vec fl can t
    end.

  (** utils.py 1008-1052: cpg_solve.  The library call may overwrite the conditioning
      arrays it was given (solvers that receive them). *)
  Definition do_solve (s : rst) : res rst :=
    can <- canon_blocks (r_vec s) (r_flag s) (m_can (r_m s)) (solver_pids (g_solver g)) ;;
    let m1 := mkM can (m_cnd (r_m s)) (m_alias (r_m s)) (m_sol (r_m s)) (m_tick (r_m s)) in
    let '(acts, ini) := run (g_block g) (r_flag s) (r_ini s) in
    let m2 := exec_all g_size (owned (g_solver g)) (g_baked g) scr m1
                       (acts ++ solver_solve_acts (g_solver g)) in
    let m3 := match g_solver g with
              | ECOS | CLARABEL _ => scribble g_size scr m2
              | _ => m2
              end in
    Ok (mkR (r_vec s)
            (fun p => if mem_pid p (solver_pids (g_solver g)) && chg_get (g_chg g) p then false
                      else r_flag s p)
            m3
            (ini || existsb sets_init (solver_solve_acts (g_solver g)))
            (r_log s ++ [mkE (m_sol m2) (m_can m2 pd)])).

  Definition step (s : rst) (o : op) : res rst :=
    match o with
    | OUpd name idx val => do_update s name idx val
    | OSolve => do_solve s
    end.

  Fixpoint steps (s : rst) (os : list op) : res rst :=
    match os with
    | [] => Ok s
    | o :: t => s' <- step s o ;; steps s' t
    end.
End Runtime.

Arguments OUpd {N}. Arguments OSolve {N}.
Arguments mkR {N}. Arguments r_vec {N}. Arguments r_flag {N}. Arguments r_m {N}.
Arguments r_ini {N}. Arguments r_log {N}. Arguments mkE {N}. Arguments e_data {N}. Arguments e_d {N}.
Arguments g_solver {N}. Arguments g_params {N}. Arguments g_vec0 {N}. Arguments g_rows {N}.
Arguments g_chg {N}. Arguments g_baked {N}. Arguments g_outd {N}. Arguments g_nonzero_d {N}.
Arguments g_max {N}. Arguments g_block {N}. Arguments base_col {N}. Arguments g_size {N}.
Arguments init_state {N}. Arguments canonicalize {N}. Arguments canon_inner {N}. Arguments canon_outer {N}.
Arguments do_update {N}. Arguments do_solve {N}. Arguments step {N}. Arguments steps {N}.
Arguments canon_blocks {N}.
