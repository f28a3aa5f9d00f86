(** The generated C example program: which program is written, whether it type-checks against
    the generated headers, and what it does.
    Models cvxpygen/templates/cpg_example.c.jinja2, example_c_context (utils.py 1535-1556) and
    the declarations the program uses: write_workspace_prot (utils.py 733-788, 855-883),
    write_solve_prot (utils.py 1098-1103, 1129-1130), _write_gradient_prot (writer.py 343-351)
    and the explicit prototypes (writer.py 432-442).
    Only these declarations are listed; printf, the include directives and comments are not
    modelled. *)

From Coq Require Import String Arith Bool List.
From Verif Require Import Base Pus Machine Runtime Retrieve Explicit.
Import ListNotations.
Open Scope string_scope.
Open Scope list_scope.

(** C types: cpg_float, cpg_int, cpg_float pointers, structs and pointers to structs. *)
Inductive cty := TFloat | TInt | TFptr | TStruct (fs : list (string * cty)) | TSptr (fs : list (string * cty)).
(** Expressions; [EI] is the static int i, [EDiv] a division by 10.0. *)
Inductive cexp :=
| ELit (s : string) | ENum (n : nat) | EI | EGlob (s : string)
| EDot (e : cexp) (f : string) | EArrow (e : cexp) (f : string) | EIdx (e i : cexp) | EDiv (e : cexp).
(** Statements: a call, a printf of one value, and a loop over i printing entries. *)
Inductive cst := SCall (f : string) (args : list cexp) | SPrint (label : string) (e : cexp) | SFor (label : string) (n : nat) (e : cexp).

Section Example.
  Variable V : Type.
  Variable fmt : V -> string.               (* '%.20f' % v, see Literals.v *)
  Variable rd : string -> option V.         (* the value of a C literal *)

  (** What the example depends on.  [e_params]: parameter_info.writable; as CVXPY's reduced
      parameters carry as many values as param_id_to_size says, name_to_size_usp is the length
      of the value.  [e_vars], [e_duals]: name_to_size of variables and duals. *)
  Record exin := mkEx
    { e_prefix : string; e_grad : bool; e_expl : nat;
      e_params : list (string * list V); e_vars : list (string * nat); e_duals : list (string * nat) }.
  Variable x : exin.
  Notation pre s := (e_prefix x ++ s)%string.

  (** utils.py 1537-1542 and template lines 18-25; value[0] of an empty value is an error. *)
  Definition upd_call (p : string * list V) : res cst :=
    match snd p with
    | [] => Err IndexError
    | [v] => Ok (SCall (pre ("cpg_update_" ++ fst p)) [ELit (fmt v)])
    | v :: _ => Ok (SCall (pre ("cpg_update_" ++ fst p)) [ENum 0; ELit (fmt v)])
    end.

  (** Template lines 35-59. *)
  Definition res_field (g s n : string) : cexp := EArrow (EDot (EGlob g) s) n.
  Definition show (s : string) (v : string * nat) : cst :=
    if Nat.eqb (snd v) 1 then SPrint (fst v) (res_field (pre "CPG_Result") s (fst v))
    else SFor (fst v) (snd v) (EIdx (res_field (pre "CPG_Result") s (fst v)) EI).
  (** Template lines 63-69: CPG_Result without prefix, and [i] as index of scalars. *)
  Definition upd_d (v : string * nat) : cst :=
    if Nat.eqb (snd v) 1 then SCall (pre ("cpg_update_d" ++ fst v)) [EDiv (EIdx (res_field "CPG_Result" "prim" (fst v)) EI)]
    else SCall (pre ("cpg_update_d" ++ fst v)) [ENum 0; EDiv (EIdx (res_field "CPG_Result" "prim" (fst v)) (ENum 0))].
  (** Template lines 75-83. *)
  Definition show_d (p : string * list V) : cst :=
    let e := EDot (EGlob (pre "CPG_Delta")) (fst p) in
    if Nat.eqb (length (snd p)) 1 then SPrint ("d" ++ fst p)%string (EIdx e (ENum 0))
    else SFor ("d" ++ fst p)%string (length (snd p)) (EIdx e EI).

  Definition example : res (list cst) :=
    ups <- mapM upd_call (e_params x);;
    Ok (ups ++ [SCall (pre "cpg_solve") []]
        ++ (if Nat.eqb (e_expl x) 0 then [SPrint "obj" (res_field (pre "CPG_Result") "info" "obj_val")] else [])
        ++ map (show "prim") (e_vars x)
        ++ (if Nat.eqb (e_expl x) 1 then [] else map (show "dual") (e_duals x))
        ++ (if e_grad x then map upd_d (e_vars x) ++ [SCall (pre "cpg_gradient") []] ++ map show_d (e_params x) else [])).

  (** ** Declarations *)

  (** utils.py 741-764. *)
  Definition fty (v : string * nat) : string * cty := (fst v, if Nat.eqb (snd v) 1 then TFloat else TFptr).
  Definition prim_t := map fty (e_vars x).
  Definition dual_t := map fty (e_duals x).
  Definition info_t : list (string * cty) := [("obj_val", TFloat); ("iter", TInt); ("pri_res", TFloat); ("dua_res", TFloat)].
  (** utils.py 776-783. *)
  Definition result_t : list (string * cty) :=
    [("prim", TSptr prim_t)]
    ++ (if Nat.eqb (e_expl x) 1 then [] else match e_duals x with [] => [] | _ => [("dual", TSptr dual_t)] end)
    ++ (if Nat.eqb (e_expl x) 0 then [("info", TSptr info_t)] else []).
  (** utils.py 785-788: pointers, whatever the size. *)
  Definition delta_t : list (string * cty) := map (fun p => (fst p, TFptr)) (e_params x).
  (** utils.py 852-883. *)
  Definition globals : list (string * cty) :=
    [(pre "CPG_Prim", TStruct prim_t)]
    ++ (if Nat.eqb (e_expl x) 1 then [] else match e_duals x with [] => [] | _ => [(pre "CPG_Dual", TStruct dual_t)] end)
    ++ (if Nat.eqb (e_expl x) 0 then [(pre "CPG_Info", TStruct info_t)] else [])
    ++ [(pre "CPG_Result", TStruct result_t)]
    ++ (if e_grad x then [(pre "CPG_Delta", TStruct delta_t)] else []).
  (** utils.py 1098-1103, 1129-1130; writer.py 343-351, 435-442. *)
  Definition sized (n : nat) : list cty := if Nat.eqb n 1 then [TFloat] else [TInt; TFloat].
  Definition protos : list (string * list cty) :=
    map (fun p => (pre ("cpg_update_" ++ fst p), sized (length (snd p)))) (e_params x)
    ++ [(pre "cpg_solve", [])]
    ++ (if e_grad x then map (fun v => (pre ("cpg_update_d" ++ fst v), sized (snd v))) (e_vars x) ++ [(pre "cpg_gradient", [])] else []).

  (** ** Type checking *)

  Fixpoint typeof (e : cexp) : option cty :=
    match e with
    | ELit s => match rd s with Some _ => Some TFloat | None => None end
    | ENum _ | EI => Some TInt
    | EGlob s => assoc s globals
    | EDot e f => match typeof e with Some (TStruct fs) => assoc f fs | _ => None end
    | EArrow e f => match typeof e with Some (TSptr fs) => assoc f fs | _ => None end
    | EIdx e i => match typeof e, typeof i with Some TFptr, Some TInt => Some TFloat | _, _ => None end
    | EDiv e => match typeof e with Some TFloat => Some TFloat | _ => None end
    end.
  (** Arithmetic types convert to cpg_float; the integers passed are integers. *)
  Definition fits (t : cty) (e : cexp) : bool :=
    match t, typeof e with
    | TFloat, Some TFloat | TFloat, Some TInt | TInt, Some TInt => true
    | _, _ => false
    end.
  Fixpoint fit_all (ts : list cty) (es : list cexp) : bool :=
    match ts, es with
    | [], [] => true
    | t :: ts', e :: es' => fits t e && fit_all ts' es'
    | _, _ => false
    end.
  Definition check (c : cst) : bool :=
    match c with
    | SCall f args => match assoc f protos with Some ts => fit_all ts args | None => false end
    | SPrint _ e | SFor _ _ e => match typeof e with Some TFloat => true | _ => false end
    end.

  (** ** Behaviour *)

  (** The first part: updates and the solve. *)
  Fixpoint find_param (f : string) (ps : list (string * list V)) : option string :=
    match ps with
    | [] => None
    | p :: t => if String.eqb f (pre ("cpg_update_" ++ fst p)) then Some (fst p) else find_param f t
    end.
  Definition call_arg (args : list cexp) : option (nat * V) :=
    match args with
    | [ELit s] => match rd s with Some v => Some (0, v) | None => None end
    | [ENum k; ELit s] => match rd s with Some v => Some (k, v) | None => None end
    | _ => None
    end.
  (** Calls of update functions, in order. *)
  Fixpoint calls (cs : list cst) : list (string * nat * V) :=
    match cs with
    | SCall f args :: t =>
      match find_param f (e_params x), call_arg args with
      | Some n, Some (k, v) => (n, k, v) :: calls t
      | _, _ => calls t
      end
    | _ :: t => calls t
    | [] => []
    end.

  (** Results as the C structs hold them: fields, arrays and cells for the primal and the dual
      struct, the objective value, and the entries of CPG_Delta. *)
  Record world := mkWd
    { w_fs : list (string * fld); w_ar : list (string * nat); w_st : rstate V;
      w_dfs : list (string * fld); w_dar : list (string * nat); w_dst : rstate V;
      w_obj : V; w_delta : string -> nat -> res V }.

  Definition member (w : world) (s n : string) (k : option nat) : res V :=
    if String.eqb s "info" then Ok (w_obj w) else
    let fs := if String.eqb s "prim" then w_fs w else w_dfs w in
    let ar := if String.eqb s "prim" then w_ar w else w_dar w in
    let st := if String.eqb s "prim" then w_st w else w_dst w in
    match k with
    | None => match assoc n fs with Some FScalar => Ok (r_cells st n 0) | _ => Err TypeError end
    | Some k => field_at fs ar st n k
    end.
  Definition index (i : nat) (e : cexp) : res nat := match e with ENum n => Ok n | EI => Ok i | _ => Err TypeError end.
  Definition eval (w : world) (i : nat) (e : cexp) : res V :=
    match e with
    | EArrow (EDot (EGlob _) s) n => member w s n None
    | EIdx (EArrow (EDot (EGlob _) s) n) k => k <- index i k;; member w s n (Some k)
    | EIdx (EDot (EGlob _) n) k => k <- index i k;; w_delta w n k
    | _ => Err TypeError
    end.
  (** Printed lines: label, index, value. *)
  Definition line := (string * option nat * V)%type.
  Definition output (w : world) (c : cst) : res (list line) :=
    match c with
    | SCall _ _ => Ok []
    | SPrint l e => v <- eval w 0 e;; Ok [(l, None, v)]
    | SFor l n e => mapM (fun i => v <- eval w i e;; Ok (l, Some i, v)) (seq 0 n)
    end.
  Definition outputs (w : world) (cs : list cst) : res (list line) := ls <- mapM (output w) cs;; Ok (concat ls).
End Example.
Arguments mkEx {V}. Arguments e_prefix {V}. Arguments e_grad {V}. Arguments e_expl {V}.
Arguments e_params {V}. Arguments e_vars {V}. Arguments e_duals {V}.
Arguments mkWd {V}. Arguments w_fs {V}. Arguments w_ar {V}. Arguments w_st {V}. Arguments w_dfs {V}.
Arguments w_dar {V}. Arguments w_dst {V}. Arguments w_obj {V}. Arguments w_delta {V}.
Arguments example {V}. Arguments check {V}. Arguments calls {V}. Arguments outputs {V}.
Arguments output {V}. Arguments typeof {V}. Arguments upd_call {V}. Arguments show {V}. Arguments upd_d {V}. Arguments show_d {V}.
Arguments globals {V}. Arguments protos {V}. Arguments member {V}. Arguments eval {V}. Arguments find_param {V}.
