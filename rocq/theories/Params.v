(** Parameter values on their way from CVXPY objects to C: get_param_value and the fields of
    the C++ parameter struct.
    Models cvxpygen/templates/cpg_solver.py.jinja2 17-34 and 63-67,
    cvxpygen/templates/cpg_module.hpp.jinja2 10-14 and cvxpygen/utils.py 1196-1204.
    Assumed of CVXPY: [param.size] is the product of the shape; the attributes diag and
    sparsity are the dimension-reducing ones of a parameter; [param.value_sparse.data] are the
    values at the positions of the sparsity pattern in its order (None without a value).  Other
    dimension-reducing attributes (symmetric, PSD, ...) are not modelled. *)

From Coq Require Import String Arith Bool List.
From Verif Require Import Base Pus Machine Runtime RuntimeSpec Retrieve Wrapper.
Import ListNotations.

(** A parameter of the user's problem; the pattern of a sparse one is a list of multi-indices. *)
Inductive pattr := PPlain | PDiag | PSparse (idx : list (list nat)).
Record uparam := mkUP { up_name : string; up_shape : list nat; up_attr : pattr }.

(** param_id_to_size of CVXPY's reduced parameter = name_to_size_usp (canonicalizer.py 239-242). *)
Definition up_red (u : uparam) : nat :=
  match up_attr u with
  | PPlain => fsize (up_shape u)
  | PDiag => hd 0 (up_shape u)
  | PSparse idx => length idx
  end.

Section Params.
  Variable V : Type.

  (** Python objects that are assigned to a field: a float, a list of floats, None. *)
  Inductive pyval := PNum (v : V) | PList (l : list V) | PNone.

  (** cpg_solver.py.jinja2 17-34.  An array is a function on its multi-indices; [None]: the
      parameter has no value.  squeeze_scalar(None) is None, np.diag(None) raises ValueError,
      None has neither data nor flatten. *)
  Definition get_param_value (u : uparam) (a : option (list nat -> V)) : res pyval :=
    if Nat.eqb (fsize (up_shape u)) 1 then
      match a with Some f => Ok (PNum (f (map (fun _ => 0) (up_shape u)))) | None => Ok PNone end
    else
      match up_attr u, a with
      | PDiag, Some f => Ok (PList (map (fun i => f [i; i]) (seq 0 (hd 0 (up_shape u)))))
      | PDiag, None => Err ValueError
      | PSparse idx, Some f => Ok (PList (map f idx))
      | PPlain, Some f => Ok (PList (flattenF (up_shape u) f))
      | _, None => Err AttributeError
      end.

  (** cpg_module.hpp.jinja2 12: std::array<double, size> if size > 1 else double. *)
  Definition is_array (size : nat) : bool := Nat.ltb 1 size.

  (** pybind11: assignment to such a field. *)
  Definition assign (size : nat) (p : pyval) : res (list V) :=
    match p with
    | PNum v => if is_array size then Err TypeError else Ok [v]
    | PList l => if is_array size && Nat.eqb (length l) size then Ok l else Err TypeError
    | PNone => Err TypeError
    end.

  (** The C++ code indexes the field unless size == 1 (utils.py 1198-1203); indexing a double
      (or passing an array as a double) does not compile. *)
  Definition cpp_ok (size : nat) : bool := if Nat.eqb size 1 then negb (is_array size) else is_array size.

  (** par.<name> = get_param_value(param). *)
  Definition field (u : uparam) (a : option (list nat -> V)) : res (list V) :=
    p <- get_param_value u a ;; assign (up_red u) p.
End Params.
Arguments PNum {V}. Arguments PList {V}. Arguments PNone {V}. Arguments get_param_value {V}. Arguments assign {V}. Arguments field {V}.

(** A call as the user writes it: values are those of the parameters of [ups] in the problem. *)
Section UserCall.
  Variable N : Num.
  Variable sv : Type.
  Variable ups : list uparam.
  Record ucall := mkUC { uc_upd : option (list string); uc_kw : list (string * sv); uc_val : string -> option (list nat -> car N) }.

  Definition find_up (n : string) : option uparam := find (fun u => String.eqb (up_name u) n) ups.
  Definition to_call (c : ucall) : pcall N sv :=
    mkCall (uc_upd c) (uc_kw c)
           (fun n => match find_up n with Some u => field u (uc_val c n) | None => Err KeyError end).
  Definition up_params : list (string * nat) := map (fun u => (up_name u, up_red u)) ups.
End UserCall.
Arguments mkUC {N sv}. Arguments uc_upd {N sv}. Arguments uc_kw {N sv}. Arguments uc_val {N sv}. Arguments to_call {N sv}.
