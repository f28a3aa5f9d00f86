(** Results of two-stage programs (gradients with a solver other than OSQP): the intermediate
    OSQP solution (writer.py 176-212) and the retrieval of the user's variables and duals
    (writer.py 95-143, utils.py 574-628, 945-975). *)

From Coq Require Import String Arith Bool List.
From Verif Require Import Base Pus Retrieve.
Import ListNotations.
Open Scope string_scope.

(** Vectors of the state: "x", "y", "z" are the solver's own (second stage), "gx" and "gy" stand
    for gradient_<prefix>sol_x and gradient_<prefix>sol_y.  A vector the solver does not have is
    empty (the real code does not compile then; here an access is OutOfBounds). *)
Section TwoStage.
  Variable K : Ring.

  Definition with_vec (st : rstate K) (w : string) (l : list K) : rstate K :=
    mkRS (r_cells st) (fun v => if String.eqb v w then l else r_vecs st v).
  Definition put (l : list K) (i : nat) (v : K) : res (list K) :=
    if Nat.ltb i (length l) then Ok (upd l i v) else Err OutOfBounds.
  Fixpoint for_i (is : list nat) (body : nat -> list K -> res (list K)) (l : list K) : res (list K) :=
    match is with [] => Ok l | i :: t => l' <- body i l;; for_i t body l' end.

  (** gradient_cpg_retrieve_intermediate_primal, writer.py 190-198; [off]: offset of osqp_x. *)
  Definition inter_primal (st : rstate K) (off n : nat) (gx : list K) : res (list K) :=
    for_i (seq 0 n) (fun i l => v <- vread st "x" (off + i);; put l i v) gx.

  (** gradient_cpg_retrieve_intermediate_dual, writer.py 200-215; [dl], [du]: entries d0 and d1 of
      the second stage's dual information (constraints osqp_l <= A[:n_eq] x and A x <= osqp_u). *)
  Definition inter_dual (st : rstate K) (dl du : dinfo) (gy : list K) : res (list K) :=
    g1 <- for_i (seq 0 (di_size dl)) (fun i l =>
            a <- vread st (di_vec du) (di_off du + i);;
            b <- vread st (di_vec dl) (di_off dl + i);;
            put l i (rsub a b)) gy;;
    for_i (seq (di_size dl) (di_size du - di_size dl)) (fun i l =>
            a <- vread st (di_vec du) (di_off du + i);; put l i a) g1.

  (** canonicalizer.py 400-404: offsets and indices of the user's variables are shifted by the
      offset of osqp_x unless the second stage has a retrieval function ([ret2]). *)
  Definition shift_info (o : nat) (p : pinfo) : pinfo :=
    mkPI (pi_name p) (o + pi_off p) (map (fun i => o + i) (pi_idx p)) (pi_size p) (pi_shape p) (pi_sym p).
  Definition merged_infos (ret2 : bool) (off : nat) (ps : list pinfo) : list pinfo :=
    if ret2 then ps else map (shift_info off) ps.

  (** _write_workspace (writer.py 95-121) redirects the pointers of the result structs to the
      intermediate solution; _write_solve (123-143) does not, despite its comment: the assignments
      of cpg_retrieve_prim and cpg_retrieve_dual read the solver's own vectors. *)
  Definition redirect (w w' : string) (f : string * fld) : string * fld :=
    match snd f with FSol v o => (fst f, FSol (if String.eqb v w then w' else v) o) | _ => f end.
  Definition ts_prim_fields (s : solver) (ret2 : bool) (ps : list pinfo) : list (string * fld) :=
    if ret2 then map (redirect "x" "gx") (prim_fields s ps) else prim_fields s ps.
  (** ws_ptrs.dual_solution becomes gradient_..sol_y whatever dual_var_name is. *)
  Definition ts_dual_fields (s : solver) (ds : list dinfo) : list (string * fld) :=
    map (fun f => match snd f with FSol _ o => (fst f, FSol "gy" o) | _ => f end) (dual_fields s ds).

  Variable k0 : K.
  (** utils.py 949-961, 1036-1038.  [ret2]: ret_prim_func_exists for the second stage's variable
      osqp_x, which is what defines the intermediate function; TypeError: it is called but not
      defined.  [ps]: the merged variable information. *)
  Definition ts_primal (s : solver) (ret2 : bool) (off n : nat) (ps : list pinfo) (st : rstate K)
    : res (list (string * (list nat -> K))) :=
    let fs := ts_prim_fields s ret2 ps in let ar := prim_arrays s ps in
    st' <- (if ret_prim s ps
            then if ret2 then gx <- inter_primal st off n (r_vecs st "gx");; exec fs ar (with_vec st "gx" gx) (retrieve_prim s ps)
                 else Err TypeError
            else Ok st);;
    mapM (fun v => l <- read_field fs ar st' (pi_name v) (pi_size v);;
                   a <- reshapeF k0 (pi_shape v) l;; Ok (pi_name v, a)) ps.

  (** utils.py 963-975 with gradient_two_stage.  [ds]: dual information of the first stage. *)
  Definition ts_dual (s : solver) (dl du : dinfo) (ds : list dinfo) (st : rstate K) : res (list (list K)) :=
    let fs := ts_dual_fields s ds in let ar := dual_arrays s ds in
    gy <- inter_dual st dl du (r_vecs st "gy");;
    st' <- exec fs ar (with_vec st "gy" gy) (retrieve_dual s ds);;
    mapM (fun d => read_field fs ar st' (dname (di_name d)) (di_size d)) ds.
End TwoStage.
Arguments inter_primal {K}. Arguments inter_dual {K}. Arguments ts_primal {K}. Arguments ts_dual {K}. Arguments with_vec {K}. Arguments for_i {K}. Arguments put {K}.
