(** Gradient calls as the user sees them: arrays of derivatives in the shapes of the variables go in,
    arrays in the shapes of the parameters come out (cpg_solver.py.jinja2 132-173, gradient_cpp of
    utils.py 1273-1328, cpg_dp and CPG_Delta of utils.py 675-689). *)

From Coq Require Import String Arith Bool Lia List.
From Verif Require Import Base Pus Machine Runtime Canon Retrieve Explicit GradSession GradVars PropGrad.
Import ListNotations.

Section User.
  Variable F : Fld.
  (** prob.var_dict[name].gradient: a shape and an array of that shape.  A missing attribute (no
      gradient set by the user) is not modelled. *)
  Definition varr : Type := list nat * (list nat -> F).

  (** cpg_solver.py.jinja2 152-159.  Size 1: squeeze_scalar (17-22) gives the only entry of an array
      with one entry and leaves other arrays as they are; otherwise a list in column-major order.
      pybind11 rejects a list of another length than the C array, or an array where a number is
      expected, with TypeError. *)
  Definition vd_in (vg : string -> varr) (p : pinfo) : res unit :=
    if Nat.eqb (fsize (fst (vg (pi_name p)))) (pi_size p) then Ok tt else Err TypeError.
  Definition vd_flat (vg : string -> varr) (nm : string) : list F := flattenF (fst (vg nm)) (snd (vg nm)).

  (** utils.py 686-689, 1316-1322: field name of CPG_Delta is cpg_dp + col, with col the name's key
      in col_to_name_usp; gradient_cpp copies name_to_size_usp[name] entries (the first one for
      size 1).  [dp]: the array cpg_dp. *)
  Definition delta_field (ps : list (string * nat)) (dp : list F) (p : string * nat) : res (string * list F) :=
    match find_col (fst p) (col_to_name 0 ps) with
    | Some c =>
        l <- mapM (fun i => match nth_error dp (c + i) with Some v => Ok v | None => Err OutOfBounds end) (seq 0 (snd p));;
        Ok (fst p, l)
    | None => Err KeyError
    end.
  Definition pdelta (ps : list (string * nat)) (dp : list F) : res (list (string * list F)) := mapM (delta_field ps dp) ps.
  (** cpg_solver.py.jinja2 165-167.  [shapes]: param_name_to_shape (utils.py 1610). *)
  Definition grad_out (ps : list (string * nat)) (shapes : list (string * list nat)) (dp : list F) : res (list (string * (list nat -> F))) :=
    pd <- pdelta ps dp;;
    mapM (fun s => match assoc (fst s) pd with
                   | Some l => a <- reshapeF n0 (snd s) l;; Ok (fst s, a)
                   | None => Err AttributeError
                   end) shapes.

  (** A solve (parameter values set entry by entry, returning sx and sy) or a gradient call with
      the derivatives [vg] and optionally an earlier solution. *)
  Inductive uop :=
  | USolve (ups : list (string * nat * F)) (sx sy : list F)
  | UGrad (vg : string -> varr) (use : option (list F * list F)).
  Definition to_py (ps : list pinfo) (o : uop) : res (pyop F) :=
    match o with
    | USolve ups sx sy => Ok (PSolve ups sx sy)
    | UGrad vg use => _ <- mapM (vd_in vg) ps;; Ok (PGrad (vd_writes ps (vd_flat vg)) use)
    end.
End User.
Arguments USolve {F}. Arguments UGrad {F}. Arguments to_py {F}. Arguments grad_out {F}. Arguments pdelta {F}. Arguments vd_flat {F}. Arguments vd_in {F}. Arguments delta_field {F}.

(** The calls of a session in order; [red]: variables of the canonical problem, [us]: the user's
    variables.  Conversions are done before and after the whole run of the C code (a failing
    conversion makes the session fail either way). *)
Definition user_session (F : Fld) (big : F) (x : cvx F) (g : genc F) (sqr : F -> res F) (eps half : F) (below above : F -> bool)
    (qfactor : Sparse.csc F -> Sparse.csc F -> res (list nat * list nat * list F * list F * list F))
    (qsolve : Sparse.csc F -> list F -> list F -> res (list F)) (scr : nat -> pid -> list F -> list F)
    (red : list (nat * nat)) (us : list uvar) (shapes : list (string * list nat)) (os : list (uop F)) : res (sst F * list (list (string * (list nat -> F)))) :=
  ps <- prim_info red us;;
  pos <- mapM (to_py ps) os;;
  '(s, dps) <- py_session F big x g sqr eps half below above qfactor qsolve scr pos;;
  gs <- mapM (grad_out (x_params x) shapes) dps;;
  Ok (s, gs).
