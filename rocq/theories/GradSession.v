(** Sessions with gradients (one-stage, OSQP): the C functions cpg_update_*, cpg_solve,
    cpg_update_d*, cpg_gradient on the common workspace, and the Python-level calls built from
    them (utils.py 904-936, 1194-1328, cpg_solver.py.jinja2 37-212, writer.py 216-312, 354-416).

    The solver's answer sol_x, sol_y is part of the history (any values); P and A keep their
    patterns, so a matrix is its data array. *)

From Coq Require Import String Arith Bool ZArith Lia List.
From Verif Require Import Base Pus Machine Runtime RuntimeSpec Retrieve Sparse Ldl Gradient.
Import ListNotations.

Section Session.
  Variable F : Fld.
  Variables n N : nat.
  Variable sqr : F -> res F.
  Variables eps half : F.
  Variables below above : F -> bool.
  Variable qfactor : csc F -> csc F -> res (list nat * list nat * list F * list F * list F).
  Variable qsolve : csc F -> list F -> list F -> res (list F).
  (** The generated code, and the arrays p, i of the matrices P and A. *)
  Variable g : genc F.
  Variable scr : nat -> pid -> list F -> list F.
  Variable nl : nat.
  Variables Pp Pi Ap Ai : list nat.
  Local Open Scope num_scope.

  Definition matP (d : list F) : csc F := mkCsc Pp Pi d (length d).
  Definition matA (d : list F) : csc F := mkCsc Ap Ai d (length d).

  (** writer.py 159-163, 276-305: sizes, and maps of the blocks that change. *)
  Definition map_of (p : pid) : option (list (row F)) := if chg_get (g_chg g) p then Some (g_rows g p) else None.
  Definition gcfg_of : gcfg F := mkGcfg (length (g_vec0 g)) nl (map_of pq) (map_of pl) (map_of pu) (map_of pP) (map_of pA).

  (** Static initialisers, writer.py 374-402 and utils.py 563-568 (flags 0). *)
  Definition zero_x (M : csc F) : csc F := mkCsc (Sparse.c_p M) (Sparse.c_i M) (map (fun _ => n0) (Sparse.c_x M)) (Sparse.c_n M).
  Definition init_gst : gst F :=
    let P := matP (g_baked g pP) in
    let A := matA (g_baked g pA) in
    mkGst (mkGws (full_L N) (repeat false (N * (N - 1) / 2)) (repeat n1 N) (repeat n1 N) (kkt_K F n N eps P A)
                 (repeat n0 N) (repeat n0 N) (seq 0 N) (repeat n0 N) (seq 0 N) (repeat n0 N))
          (repeat 1%Z (N - n)) (kkt_Kt F n N P A) true false false (repeat n0 n) (zero_x P) (zero_x A).

  Record sst := mkS { x_r : rst F; x_g : gst F; x_sx : list F; x_sy : list F }.
  Definition init_sst : sst := mkS (init_state g) init_gst (repeat n0 n) (repeat n0 (N - n)).

  (** C-level calls; [CSol] is the direct write of sol_x, sol_y by the Python module. *)
  Inductive cop :=
  | CUpd (name : string) (idx : nat) (v : F)
  | CSolve (sx sy : list F)
  | CSol (sx sy : list F)
  | CUpdD (pos : nat) (v : F)
  | CGrad.

  (** utils.py 933-934: an update also sets the gradient's flags of P and A. *)
  Definition flag_g (name : string) (s : gst F) : gst F :=
    mkGst (s_ws s) (s_a s) (s_Kt s) (s_init s) (mem_pid pP (g_outd g name) || s_fP s) (mem_pid pA (g_outd g name) || s_fA s)
          (s_dx s) (s_dP s) (s_dA s).

  Definition cstep (s : sst) (o : cop) : res (sst * list (list F)) :=
    match o with
    | CUpd name idx v => r <- do_update g (x_r s) name idx v;; Ok (mkS r (flag_g name (x_g s)) (x_sx s) (x_sy s), [])
    | CSolve sx sy => r <- do_solve g scr (x_r s);; Ok (mkS r (x_g s) sx sy, [])
    | CSol sx sy => Ok (mkS (x_r s) (x_g s) sx sy, [])
    | CUpdD pos v => g' <- update_d F 0 pos v (x_g s);; Ok (mkS (x_r s) g' (x_sx s) (x_sy s), [])
    | CGrad =>
        '(dp, g') <- gradient F n N sqr eps half below above qfactor qsolve gcfg_of
                        (matP (m_can (r_m (x_r s)) pP)) (matA (m_can (r_m (x_r s)) pA)) (x_sx s) (x_sy s) (x_g s);;
        Ok (mkS (x_r s) g' (x_sx s) (x_sy s), [dp])
    end.

  (** A history of C calls; the results of cpg_gradient in order. *)
  Fixpoint csteps (s : sst) (os : list cop) : res (sst * list (list F)) :=
    match os with
    | [] => Ok (s, [])
    | o :: t => '(s1, o1) <- cstep s o;; '(s2, o2) <- csteps s1 t;; Ok (s2, o1 ++ o2)
    end.

  (** Python level: cpg_solve writes the updated parameters and solves; cpg_gradient optionally
      restores a stored solution, writes the variable derivatives and computes the gradient. *)
  Inductive pyop :=
  | PSolve (ups : list (string * nat * F)) (sx sy : list F)
  | PGrad (ds : list (nat * F)) (use : option (list F * list F)).
  Definition py_ops (o : pyop) : list cop :=
    match o with
    | PSolve ups sx sy => map (fun '(nm, i, v) => CUpd nm i v) ups ++ [CSolve sx sy]
    | PGrad ds use =>
        match use with Some (sx, sy) => [CSol sx sy] | None => [] end
        ++ map (fun '(k, v) => CUpdD k v) ds ++ [CGrad]
    end.
  Definition pysteps (s : sst) (os : list pyop) : res (sst * list (list F)) := csteps s (flat_map py_ops os).
End Session.
Arguments mkS {F}. Arguments x_r {F}. Arguments x_g {F}. Arguments x_sx {F}. Arguments x_sy {F}.
Arguments CUpd {F}. Arguments CSolve {F}. Arguments CSol {F}. Arguments CUpdD {F}. Arguments CGrad {F}.
Arguments PSolve {F}. Arguments PGrad {F}. Arguments py_ops {F}.
