(** The Python wrapper and its C++ glue: solver settings, parameter passing, rejected
    calls.  Models cvxpygen/templates/cpg_solver.py.jinja2 26-117 (non-explicit) and
    cvxpygen/utils.py 1194-1209 (solve_cpp), 1037-1039, 1069-1084 (settings).
    The pybind11 conversion of a Python list to a fixed-size C++ array raises TypeError
    when the length differs; values of settings that do not convert raise TypeError too.
    What is stored in the problem object is in Report.v. *)

From Coq Require Import String Arith Bool List.
From Verif Require Import Base Pus Machine Runtime.
Import ListNotations.

(** How a solver gets its settings.
    [SDirect]: the setter functions write the solver's own settings and the reset
    function resets them (osqp.py 98-101, qoco.py 57-61);
    [SCopied]: Canon_Settings is copied to the workspace at each solve (ecos.py 56-59,
    clarabel.py 58-61, qoco.py 231-234);
    [SAtInit]: Canon_Settings is an argument of the initialisation (scs.py 88-91, 26). *)
Inductive stg_mode := SDirect | SCopied | SAtInit.

Definition solver_stgs (s : solver) : stg_mode :=
  match s with
  | OSQP | QOCOGEN _ => SDirect
  | ECOS | CLARABEL _ | QOCO _ => SCopied
  | SCS _ => SAtInit
  end.

Section Wrapper.
  Variable N : Num.
  Notation V := (car N).
  Variable g : genc N.
  Variable scr : nat -> pid -> list V -> list V.

  (** Settings: [sv] is the type of setting values. *)
  Variable sv : Type.
  Variable enabled : list string.             (* stgs_names_enabled, _interface.py 185-187 *)
  Variable translation : list (string * string). (* stgs_translation, _interface.py 197-199 *)
  Variable dflt : string -> sv.                (* defaults *)
  Variable converts : string -> sv -> bool.    (* does the value convert to the C type? *)

  (** State of the loaded module: the settings struct, the settings the solver used at
      its last solve, and the C globals. *)
  Record wst := mkW { w_set : string -> sv; w_eff : string -> sv; w_rst : rst N }.

  (** Arguments of one call: updated_params, keyword settings in order, and, for each
      parameter, the value get_param_value returns as far as it fits its field (Params.v), or
      the exception. *)
  Record pcall := mkCall
    { c_upd : option (list string);
      c_kw : list (string * sv);
      c_vals : string -> res (list V) }.

  (** cpg_set_solver_default_settings (utils.py 1071-1077): either one library call or
      one assignment per enabled setting; Canon_Settings has no other fields. *)
  Definition reset (st : string -> sv) : string -> sv :=
    match solver_stgs (g_solver g) with
    | SDirect => dflt
    | _ => fun n => if mem_str n enabled then dflt n else st n
    end.

  (** cpg_solver.py.jinja2 55-59: names are translated, unknown ones raise
      AttributeError; set_solver_default_settings itself matches the pattern but takes no
      argument (TypeError). *)
  Definition setting_name (key : string) : string :=
    match assoc key translation with Some n => n | None => key end.

  Fixpoint set_kw (st : string -> sv) (kw : list (string * sv)) : (string -> sv) * option exn :=
    match kw with
    | [] => (st, None)
    | (k, v) :: t =>
      let n := setting_name k in
      if mem_str n enabled then
        if converts n v then set_kw (fun m => if String.eqb m n then v else st m) t
        else (st, Some TypeError)
      else if String.eqb n "default_settings" then (st, Some TypeError)
      else (st, Some AttributeError)
    end.

  (** cpg_solver.py.jinja2 63-67: par.<name> = get_param_value(...). *)
  Fixpoint set_par (c : pcall) (ps : list (string * nat)) : res (list (string * list V)) :=
    match ps with
    | [] => Ok []
    | (n, s) :: t =>
      l <- c_vals c n ;;
      if Nat.eqb (length l) s then
        rest <- set_par c t ;; Ok ((n, l) :: rest)
      else Err TypeError
    end.

  (** utils.py 1196-1204: the update calls of solve_cpp. *)
  Definition upd_ops (flag : string -> bool) (pars : list (string * list V)) : list (op N) :=
    flat_map (fun nl => if flag (fst nl)
                        then map (fun iv => OUpd (fst nl) (fst iv) (snd iv))
                                 (combine (seq 0 (length (snd nl))) (snd nl))
                        else []) pars.

  (** Settings the solver runs with in this solve. *)
  Definition effective (w : wst) (st : string -> sv) : string -> sv :=
    match solver_stgs (g_solver g) with
    | SDirect => st
    | SCopied => fun n => if mem_str n enabled then st n else dflt n
    | SAtInit =>
      if existsb sets_init (fst (run (g_block g) (r_flag (w_rst w)) (r_ini (w_rst w))))
      then (fun n => if mem_str n enabled then st n else dflt n)
      else w_eff w
    end.

  (** cpg_solver.py.jinja2 37-72.  Exceptions leave earlier assignments in place. *)
  Definition py_solve (w : wst) (c : pcall) : wst * option exn :=
    let names := map fst (g_params g) in
    let updated := match c_upd c with None => names | Some l => l end in
    if forallb (fun p => mem_str p names) updated then
      let '(st, e) := set_kw (reset (w_set w)) (c_kw c) in
      match e with
      | Some e => (mkW st (w_eff w) (w_rst w), Some e)
      | None =>
        match set_par c (g_params g) with
        | Err e => (mkW st (w_eff w) (w_rst w), Some e)
        | Ok pars =>
          match steps g scr (w_rst w) (upd_ops (fun n => mem_str n updated) pars) with
          | Err e => (mkW st (w_eff w) (w_rst w), Some e)
          | Ok r1 =>
            match do_solve g scr r1 with
            | Err e => (mkW st (w_eff w) r1, Some e)
            | Ok r2 => (mkW st (effective (mkW st (w_eff w) r1) st) r2, None)
            end
          end
        end
      end
    else (w, Some AttributeError).

  (** A session: outcomes of the calls in order. *)
  Fixpoint session (w : wst) (cs : list pcall) : wst * list (option exn) :=
    match cs with
    | [] => (w, [])
    | c :: t =>
      let '(w1, e) := py_solve w c in
      let '(w2, es) := session w1 t in (w2, e :: es)
    end.

  Definition w_init : wst := mkW dflt dflt (init_state g).
End Wrapper.
Arguments mkW {N sv}. Arguments w_set {N sv}. Arguments w_eff {N sv}. Arguments w_rst {N sv}.
Arguments mkCall {N sv}. Arguments c_upd {N sv}. Arguments c_kw {N sv}. Arguments c_vals {N sv}.
