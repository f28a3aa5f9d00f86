(** The Python binding: cpg_module.hpp, cpg_module.cpp and what cpg_solver.py uses of the module.
    Models cvxpygen/templates/cpg_module.hpp.jinja2, module_hpp_context (utils.py 1556-1572),
    write_module_def (utils.py 1163-1412), the declarations of the C headers the C++ file uses
    (write_workspace_prot, utils.py 745-789, 823-827, 852-883; write_solve_prot, utils.py 1098-1103,
    1129-1141; writer.py 333-351, 432-442; osqp.py 137-142; pdaqp.py 238-250) and the names
    cpg_solver.py.jinja2 uses.
    Simplified: all arithmetic C++ types are one type of numbers (conversions between double, float
    and int are the identity); pybind11 itself, the include directives, the clock (one value), and
    the rest of the solvers' headers are not modelled. *)

From Coq Require Import String Ascii Arith Bool List.
From Verif Require Import Base Pus Machine Runtime Retrieve Config Symbols CTypes.
Import ListNotations.
Open Scope string_scope.
Open Scope list_scope.

(** ** Names *)

(** A C++ identifier that is not a keyword (C++17, including the alternative operator names). *)
Definition letter (c : ascii) : bool :=
  let n := nat_of_ascii c in
  (Nat.leb 65 n && Nat.leb n 90) || (Nat.leb 97 n && Nat.leb n 122) || Nat.eqb n 95.
Definition digit (c : ascii) : bool := let n := nat_of_ascii c in Nat.leb 48 n && Nat.leb n 57.
Fixpoint all_chars (f : ascii -> bool) (s : string) : bool :=
  match s with EmptyString => true | String c t => f c && all_chars f t end.
Definition cpp_keywords : list string :=
  ["alignas"; "alignof"; "and"; "and_eq"; "asm"; "auto"; "bitand"; "bitor"; "bool"; "break"; "case"; "catch";
   "char"; "char16_t"; "char32_t"; "class"; "compl"; "const"; "const_cast"; "constexpr"; "continue"; "decltype";
   "default"; "delete"; "do"; "double"; "dynamic_cast"; "else"; "enum"; "explicit"; "export"; "extern"; "false";
   "float"; "for"; "friend"; "goto"; "if"; "inline"; "int"; "long"; "mutable"; "namespace"; "new"; "noexcept";
   "not"; "not_eq"; "nullptr"; "operator"; "or"; "or_eq"; "private"; "protected"; "public"; "register";
   "reinterpret_cast"; "return"; "short"; "signed"; "sizeof"; "static"; "static_assert"; "static_cast"; "struct";
   "switch"; "template"; "this"; "thread_local"; "throw"; "true"; "try"; "typedef"; "typeid"; "typename"; "union";
   "unsigned"; "using"; "virtual"; "void"; "volatile"; "wchar_t"; "while"; "xor"; "xor_eq"].
Definition cpp_name (s : string) : bool :=
  match s with
  | EmptyString => false
  | String c t => letter c && all_chars (fun c => letter c || digit c) t && negb (mem_str s cpp_keywords)
  end.

(** The same for Python (identifiers in ASCII). *)
Definition py_keywords : list string :=
  ["False"; "None"; "True"; "and"; "as"; "assert"; "async"; "await"; "break"; "class"; "continue"; "def"; "del";
   "elif"; "else"; "except"; "finally"; "for"; "from"; "global"; "if"; "import"; "in"; "is"; "lambda"; "nonlocal";
   "not"; "or"; "pass"; "raise"; "return"; "try"; "while"; "with"; "yield"].
Definition py_name (s : string) : bool :=
  match s with
  | EmptyString => false
  | String c t => letter c && all_chars (fun c => letter c || digit c) t && negb (mem_str s py_keywords)
  end.

(** ** Types and declarations *)

(** double/float/int; bool; char*; std::array<double, n>; cpg_float array or pointer; struct. *)
Inductive xty := XNum | XBool | XStr | XArr (n : nat) | XPtr | XRec (s : string).
Definition xfields := list (string * xty).

(** What the binding depends on.  [b_params]: name_to_size_usp; [b_vars], [b_duals]: name_to_size;
    [b_idx]: name_to_indices of a variable in explicit mode ([None]: a negative index, an entry
    that is not stored); [b_nvar], [b_ncon]: gradient_interface.n_var and n_eq + n_ineq. *)
Record bin := mkBin
  { n_if : iface; n_prefix : string; n_explicit : nat; n_gradient : bool;
    n_params : list (string * nat); n_vars : list (string * nat); n_idx : string -> list (option nat);
    n_duals : list (string * nat); n_nvar : nat; n_ncon : nat; n_settings : list string }.

Section Binding.
  Variable x : bin.
  Notation pre s := (n_prefix x ++ s)%string.
  Definition expl : bool := negb (Nat.eqb (n_explicit x) 0).
  (** configuration.explicit != 1 and len(dual_variable_info.name_to_size) > 0. *)
  Definition has_dual : bool := negb (Nat.eqb (n_explicit x) 1) && nonempty (n_duals x).
  (** generator.py 77. *)
  Definition two_stage_b : bool :=
    n_gradient x && negb expl && negb (match n_if x with IOSQP => true | _ => false end).

  (** cpg_module.hpp.jinja2 12, 26, 35. *)
  Definition hpp_field (v : string * nat) : string * xty := (fst v, if Nat.ltb 1 (snd v) then XArr (snd v) else XNum).
  Definition hpp_structs : list (string * xfields) :=
    [(pre "CPG_Params_cpp_t", map hpp_field (n_params x));
     (pre "CPG_Updated_cpp_t", map (fun p => (fst p, XBool)) (n_params x));
     (pre "CPG_Prim_cpp_t", map hpp_field (n_vars x))]
    ++ when_f has_dual [(pre "CPG_Dual_cpp_t", map hpp_field (n_duals x))]
    ++ when_f (n_gradient x && negb expl)
         [(pre "CPG_GSol_cpp_t", [("primal", XArr (n_nvar x)); ("dual", XArr (n_ncon x))])]
    ++ [(pre "CPG_Info_cpp_t",
         when_f (negb expl) [("obj_val", XNum); ("iter", XNum); ("status", if status_int (n_if x) then XNum else XStr);
                             ("pri_res", XNum); ("dua_res", XNum)]
         ++ [("time", XNum)]
         ++ when_f (n_gradient x) (if expl then [("region", XNum)]
                                   else [("gradient_primal", XArr (n_nvar x)); ("gradient_dual", XArr (n_ncon x))]));
        (pre "CPG_Result_cpp_t",
         [("prim", XRec (pre "CPG_Prim_cpp_t"))] ++ when_f has_dual [("dual", XRec (pre "CPG_Dual_cpp_t"))]
         ++ [("info", XRec (pre "CPG_Info_cpp_t"))])]
    ++ when_f (n_gradient x)
         [(pre "CPG_VDelta_cpp_t", map hpp_field (n_vars x)); (pre "CPG_PDelta_cpp_t", map hpp_field (n_params x))].

  (** The C structs (utils.py 745-789). *)
  Definition c_field (v : string * nat) : string * xty := (fst v, if Nat.eqb (snd v) 1 then XNum else XPtr).
  Definition c_structs : list (string * xfields) :=
    [("CPG_Prim_t", map c_field (n_vars x))]
    ++ when_f (nonempty (n_duals x)) [("CPG_Dual_t", map c_field (n_duals x))]
    ++ when_f (negb expl)
         [("CPG_Info_t", [("obj_val", XNum); ("iter", XNum); ("status", if status_int (n_if x) then XNum else XStr);
                          ("pri_res", XNum); ("dua_res", XNum)])]
    ++ [("CPG_Delta_t", map (fun p => (fst p, XPtr)) (n_params x))].
  Definition structs := hpp_structs ++ c_structs.

  (** The C objects (utils.py 821-827, 852-883; OSQP's workspace.h as patched in osqp.py 138-142;
      writer.py 336-341; pdaqp.h as patched in pdaqp.py 241-248). *)
  Definition objects : list (string * xty) :=
    [(pre "CPG_Prim", XRec "CPG_Prim_t")]
    ++ when_f has_dual [(pre "CPG_Dual", XRec "CPG_Dual_t")]
    ++ when_f (negb expl) [(pre "CPG_Info", XRec "CPG_Info_t")]
    ++ when_f (n_gradient x) [(pre "CPG_Delta", XRec "CPG_Delta_t")]
    ++ (if expl then [("sol_x", XPtr)] ++ when_f (Nat.eqb (n_explicit x) 2) [("sol_y", XPtr)]
                     ++ when_f (n_gradient x) [("pdaqp_active_region", XNum)]
        else match n_if x with IOSQP => [("sol_x", XPtr); ("sol_y", XPtr)] | _ => [] end
             ++ when_f two_stage_b [(("gradient_" ++ pre "sol_x")%string, XPtr); (("gradient_" ++ pre "sol_y")%string, XPtr)]).

  (** The C functions: which arguments they take (utils.py 1098-1103, 1129-1141; writer.py 343-351,
      435-442). *)
  Inductive aty := AInt | ANum.
  Definition proto (n : nat) : list aty := if Nat.eqb n 1 then [ANum] else [AInt; ANum].
  Definition functions : list (string * list aty) :=
    map (fun p => (pre ("cpg_update_" ++ fst p), proto (snd p))) (n_params x)
    ++ [(pre "cpg_solve", [])]
    ++ when_f (n_gradient x)
         (map (fun v => (pre ("cpg_update_d" ++ fst v), proto (snd v))) (n_vars x) ++ [(pre "cpg_gradient", [])])
    ++ when_f (negb expl)
         ((pre "cpg_set_solver_default_settings", []) :: map (fun s => (pre ("cpg_set_solver_" ++ s), [ANum])) (n_settings x)).

  (** ** Statements *)

  (** An index: the static int i, or a literal. *)
  Inductive ix := II | IN (k : nat).
  (** object[.field][[index]]: every expression of the file has this form. *)
  Record ex := Ex { e_root : string; e_fld : option string; e_at : option ix }.
  Inductive arg := AIx (i : ix) | AEx (e : ex).
  (** [SDecl]: a local struct with initialiser {}; [STime]: the assignment from elapsed.count(). *)
  Inductive cst :=
  | SCall (f : string) (args : list arg)
  | SSet (l r : ex)
  | STime (l : ex)
  | SDecl (t n : string)
  | SFor (n : nat) (b : cst)
  | SIf (c : ex) (b : cst)
  | SSeq (a b : cst).

  Definition dot (o f : string) : ex := Ex o (Some f) None.
  Definition dot_at (o f : string) (i : ix) : ex := Ex o (Some f) (Some i).
  Definition obj (o : string) : ex := Ex o None None.
  Definition obj_at (o : string) (i : ix) : ex := Ex o None (Some i).

  (** utils.py 1185-1190. *)
  Definition has_i : bool :=
    existsb (fun v => Nat.ltb 1 (snd v)) (n_params x) || existsb (fun v => Nat.ltb 1 (snd v)) (n_vars x)
    || existsb (fun v => Nat.ltb 1 (snd v)) (n_duals x) || n_gradient x.

  (** utils.py 1197-1205. *)
  Definition upd_param (p : string * nat) : cst :=
    let f := pre ("cpg_update_" ++ fst p) in
    SIf (dot "CPG_Updated_cpp" (fst p))
        (if Nat.eqb (snd p) 1 then SCall f [AEx (dot "CPG_Params_cpp" (fst p))]
         else SFor (snd p) (SCall f [AIx II; AEx (dot_at "CPG_Params_cpp" (fst p) II)])).
  Definition copy (l r : string) (v : string * nat) : cst :=
    if Nat.eqb (snd v) 1 then SSet (dot l (fst v)) (dot r (fst v))
    else SFor (snd v) (SSet (dot_at l (fst v) II) (dot_at r (fst v) II)).
  (** [enumerate(name_to_indices[name])] without the negative indices. *)
  Fixpoint stored (i : nat) (l : list (option nat)) : list (nat * nat) :=
    match l with [] => [] | Some k :: t => (i, k) :: stored (S i) t | None :: t => stored (S i) t end.
  (** utils.py 1217-1229. *)
  Definition get_prim (v : string * nat) : list cst :=
    if expl && negb (Nat.eqb (snd v) 1)
    then map (fun ik => SSet (dot_at "CPG_Prim_cpp" (fst v) (IN (fst ik))) (dot_at (pre "CPG_Prim") (fst v) (IN (snd ik))))
             (stored 0 (n_idx x (fst v)))
    else [copy "CPG_Prim_cpp" (pre "CPG_Prim") v].

  (** utils.py 1193-1270. *)
  Definition solve_cpp : list cst :=
    map upd_param (n_params x)
    ++ [SCall (pre "cpg_solve") []]
    ++ [SDecl (pre "CPG_Prim_cpp_t") "CPG_Prim_cpp"] ++ flat_map get_prim (n_vars x)
    ++ when_f has_dual (SDecl (pre "CPG_Dual_cpp_t") "CPG_Dual_cpp" :: map (copy "CPG_Dual_cpp" (pre "CPG_Dual")) (n_duals x))
    ++ [SDecl (pre "CPG_Info_cpp_t") "CPG_Info_cpp"]
    ++ when_f (negb expl) (map (fun f => SSet (dot "CPG_Info_cpp" f) (dot (pre "CPG_Info") f))
                               ["obj_val"; "iter"; "status"; "pri_res"; "dua_res"])
    ++ [STime (dot "CPG_Info_cpp" "time")]
    ++ when_f (n_gradient x)
         (if expl then [SSet (dot "CPG_Info_cpp" "region") (obj "pdaqp_active_region")]
          else [SFor (n_nvar x) (SSet (dot_at "CPG_Info_cpp" "gradient_primal" II) (obj_at "sol_x" II));
                SFor (n_ncon x) (SSet (dot_at "CPG_Info_cpp" "gradient_dual" II) (obj_at "sol_y" II))])
    ++ [SDecl (pre "CPG_Result_cpp_t") "CPG_Result_cpp"; SSet (dot "CPG_Result_cpp" "prim") (obj "CPG_Prim_cpp")]
    ++ when_f has_dual [SSet (dot "CPG_Result_cpp" "dual") (obj "CPG_Dual_cpp")]
    ++ [SSet (dot "CPG_Result_cpp" "info") (obj "CPG_Info_cpp")].

  (** utils.py 1297-1308. *)
  Definition put_delta (v : string * nat) : list cst :=
    let f := pre ("cpg_update_d" ++ fst v) in
    if Nat.eqb (snd v) 1 then [SCall f [AEx (dot "CPG_VDelta_cpp" (fst v))]]
    else if expl
    then map (fun ik => SCall f [AIx (IN (snd ik)); AEx (dot_at "CPG_VDelta_cpp" (fst v) (IN (fst ik)))])
             (stored 0 (n_idx x (fst v)))
    else [SFor (snd v) (SCall f [AIx II; AEx (dot_at "CPG_VDelta_cpp" (fst v) II)])].
  (** utils.py 1318-1324. *)
  Definition get_delta (p : string * nat) : cst :=
    if Nat.eqb (snd p) 1 then SSet (dot "CPG_PDelta_cpp" (fst p)) (dot_at (pre "CPG_Delta") (fst p) (IN 0))
    else SFor (snd p) (SSet (dot_at "CPG_PDelta_cpp" (fst p) II) (dot_at (pre "CPG_Delta") (fst p) II)).
  (** utils.py 1273-1328. *)
  Definition gradient_cpp : list cst :=
    [SIf (obj "use_sol")
       (if expl then SSet (obj "pdaqp_active_region") (obj "region")
        else SSeq (SFor (n_nvar x) (SSet (obj_at "sol_x" II) (dot_at "CPG_GSol_cpp" "primal" II)))
                  (SFor (n_ncon x) (SSet (obj_at "sol_y" II) (dot_at "CPG_GSol_cpp" "dual" II))))]
    ++ flat_map put_delta (n_vars x)
    ++ [SCall (pre "cpg_gradient") []; SDecl (pre "CPG_PDelta_cpp_t") "CPG_PDelta_cpp"]
    ++ map get_delta (n_params x).

  (** Parameters of the two functions (references to structs, int region, bool use_sol). *)
  Definition solve_args : list (string * xty) :=
    [("CPG_Updated_cpp", XRec (pre "CPG_Updated_cpp_t")); ("CPG_Params_cpp", XRec (pre "CPG_Params_cpp_t"))].
  Definition gradient_args : list (string * xty) :=
    [("CPG_VDelta_cpp", XRec (pre "CPG_VDelta_cpp_t"));
     if expl then ("region", XNum) else ("CPG_GSol_cpp", XRec (pre "CPG_GSol_cpp_t"));
     ("use_sol", XBool)].

  (** ** The module: utils.py 1330-1412.  Classes: Python name, struct, Python attributes with
      their members; functions: Python name and C++ function. *)
  Record pyclass := mkCls { k_name : string; k_struct : string; k_attrs : list (string * string) }.
  Definition same (l : list string) : list (string * string) := map (fun n => (n, n)) l.
  Definition names (l : list (string * nat)) : list string := map fst l.
  Definition classes : list pyclass :=
    [mkCls (pre "cpg_params") (pre "CPG_Params_cpp_t") (same (names (n_params x)));
     mkCls (pre "cpg_updated") (pre "CPG_Updated_cpp_t") (same (names (n_params x)));
     mkCls (pre "cpg_prim") (pre "CPG_Prim_cpp_t") (same (names (n_vars x)))]
    ++ when_f has_dual [mkCls (pre "cpg_dual") (pre "CPG_Dual_cpp_t") (same (names (n_duals x)))]
    ++ when_f (n_gradient x && negb expl) [mkCls (pre "cpg_gsol") (pre "CPG_GSol_cpp_t") (same ["primal"; "dual"])]
    ++ [mkCls (pre "cpg_info") (pre "CPG_Info_cpp_t")
          (same (when_f (negb expl) ["obj_val"; "iter"; "status"; "pri_res"; "dua_res"] ++ ["time"]
                 ++ when_f (n_gradient x) (if expl then ["region"] else ["gradient_primal"; "gradient_dual"])));
        mkCls (pre "cpg_result") (pre "CPG_Result_cpp_t")
          ([("cpg_prim", "prim")] ++ when_f has_dual [("cpg_dual", "dual")] ++ [("cpg_info", "info")])]
    ++ when_f (n_gradient x)
         [mkCls (pre "cpg_vdelta") (pre "CPG_VDelta_cpp_t") (same (names (n_vars x)));
          mkCls (pre "cpg_pdelta") (pre "CPG_PDelta_cpp_t") (same (names (n_params x)))].
  Definition functions_py : list (string * string) :=
    [("solve", pre "solve_cpp")]
    ++ when_f (n_gradient x) [("gradient", pre "gradient_cpp")]
    ++ when_f (negb expl)
         (("set_solver_default_settings", pre "cpg_set_solver_default_settings")
          :: map (fun s => ("set_solver_" ++ s, pre ("cpg_set_solver_" ++ s))%string) (n_settings x)).

  (** ** Compilation *)

  Definition ix_ok (i : ix) : bool := match i with II => has_i | IN _ => true end.
  (** Locals hide C objects of the same name. *)
  Definition typeof (env : list (string * xty)) (e : ex) : option xty :=
    match (match assoc (e_root e) env with Some t => Some t | None => assoc (e_root e) objects end) with
    | None => None
    | Some t =>
      match (match e_fld e with
             | None => Some t
             | Some f => match t with XRec s => match assoc s structs with Some fs => assoc f fs | None => None end | _ => None end
             end) with
      | None => None
      | Some t' =>
        match e_at e with
        | None => Some t'
        | Some i => if ix_ok i then match t' with XArr _ | XPtr => Some XNum | _ => None end else None
        end
      end
    end.
  Definition xty_eqb (a b : xty) : bool :=
    match a, b with
    | XNum, XNum | XBool, XBool | XStr, XStr => true
    | XRec s, XRec t => String.eqb s t
    | _, _ => false
    end.
  Definition arg_ok (env : list (string * xty)) (t : aty) (a : arg) : bool :=
    match t, a with
    | AInt, AIx i => ix_ok i
    | ANum, AEx e => match typeof env e with Some XNum => true | _ => false end
    | _, _ => false
    end.
  Fixpoint args_ok (env : list (string * xty)) (ts : list aty) (l : list arg) : bool :=
    match ts, l with
    | [], [] => true
    | t :: ts', a :: l' => arg_ok env t a && args_ok env ts' l'
    | _, _ => false
    end.
  Definition known_struct (t : string) : bool := match assoc t structs with Some _ => true | None => false end.
  (** Arrays are never assigned as a whole in the file. *)
  Fixpoint check (env : list (string * xty)) (c : cst) : bool :=
    match c with
    | SCall f l => match assoc f functions with Some ts => args_ok env ts l | None => false end
    | SSet l r => match typeof env l, typeof env r with Some a, Some b => xty_eqb a b | _, _ => false end
    | STime l => match typeof env l with Some XNum => true | _ => false end
    | SDecl t _ => known_struct t
    | SFor _ b => has_i && check env b
    | SIf e b => match typeof env e with Some XBool => check env b | _ => false end
    | SSeq a b => check env a && check env b
    end.
  (** A function body; declarations are visible in the statements after them (they only occur at
      the top level). *)
  Fixpoint check_body (env : list (string * xty)) (l : list cst) : bool :=
    match l with
    | [] => true
    | c :: t => check env c && check_body (match c with SDecl ty n => (n, XRec ty) :: env | _ => env end) t
    end.
  (** The returned local has the return type. *)
  Definition returns (l : list cst) (n t : string) : bool :=
    existsb (fun c => match c with SDecl ty m => String.eqb m n && String.eqb ty t | _ => false end) l.
  (** Struct definitions: members are distinct identifiers, the structs they contain are defined
      before them. *)
  Fixpoint structs_ok (seen : list string) (l : list (string * xfields)) : bool :=
    match l with
    | [] => true
    | (n, fs) :: t =>
      forallb (fun f => cpp_name (fst f) && match snd f with XRec s => mem_str s seen | _ => true end) fs
      && distinct (map fst fs) && structs_ok (n :: seen) t
    end.
  (** &T::member, and pointers to functions that are defined or declared. *)
  Definition class_ok (c : pyclass) : bool :=
    match assoc (k_struct c) structs with
    | Some fs => forallb (fun a => match assoc (snd a) fs with Some _ => true | None => false end) (k_attrs c)
    | None => false
    end.
  Definition defined_cpp : list string := [pre "solve_cpp"] ++ when_f (n_gradient x) [pre "gradient_cpp"].
  Definition fun_ok (f : string * string) : bool := mem_str (snd f) (defined_cpp ++ map fst functions).

  Definition compiles : bool :=
    structs_ok [] hpp_structs && structs_ok [] c_structs
    && check_body solve_args solve_cpp && returns solve_cpp "CPG_Result_cpp" (pre "CPG_Result_cpp_t")
    && (if n_gradient x then check_body gradient_args gradient_cpp && returns gradient_cpp "CPG_PDelta_cpp" (pre "CPG_PDelta_cpp_t")
        else true)
    && forallb class_ok classes && forallb fun_ok functions_py.

  (** ** What cpg_solver.py uses *)

  (** Attributes of the module: cpg_solver.py.jinja2 42, 55, 63, 71, 143, 152, 161-163. *)
  Definition uses_module : list string :=
    [pre "cpg_updated"] ++ when_f (negb expl) ["set_solver_default_settings"] ++ [pre "cpg_params"; "solve"]
    ++ when_f (n_gradient x) (when_f (negb expl) [pre "cpg_gsol"] ++ [pre "cpg_vdelta"; "gradient"]).
  (** Attributes of objects, by the class of the object: 43-49 (the default of updated_params), 66,
      76, 81, 86-121, 144-150, 153-159, 166. *)
  Definition uses_attrs : list (string * list string) :=
    [(pre "cpg_updated", names (n_params x)); (pre "cpg_params", names (n_params x));
     (pre "cpg_result", ["cpg_prim"] ++ when_f has_dual ["cpg_dual"] ++ ["cpg_info"]);
     (pre "cpg_prim", names (n_vars x))]
    ++ when_f has_dual [(pre "cpg_dual", names (n_duals x))]
    ++ [(pre "cpg_info",
         if expl then ["time"] ++ when_f (n_gradient x) ["region"]
         else ["status"; "obj_val"; "iter"; "pri_res"; "dua_res"; "time"]
              ++ when_f (n_gradient x) ["gradient_primal"; "gradient_dual"])]
    ++ when_f (n_gradient x)
         (when_f (negb expl) [(pre "cpg_gsol", ["primal"; "dual"])]
          ++ [(pre "cpg_vdelta", names (n_vars x)); (pre "cpg_pdelta", names (n_params x))]).
  (** Names that cpg_solver.py writes after a dot (lines 66, 76, 81, 153-158, 166): the file can only
      be parsed if they are identifiers and no keywords of Python. *)
  Definition written_attrs : list string :=
    names (n_params x) ++ names (n_vars x) ++ when_f has_dual (names (n_duals x)).
  Definition parses : bool := forallb py_name written_attrs.
  (** What the module offers. *)
  Definition offers : list string := map k_name classes ++ map fst functions_py.
  Definition attrs_of (c : string) : list string := flat_map (fun k => if String.eqb (k_name k) c then map fst (k_attrs k) else []) classes.

  (** ** Behaviour *)

  Section Run.
    Variable V : Type.
    Variable v0 : V.
    (** The C program: its state, calls, reads and writes of its objects. *)
    Variable S : Type.
    Inductive xval := VNum (v : V) | VBool (b : bool) | VStr (s : string) | VArr (l : list V) | VRec (fs : list (string * xval)).
    Inductive cval := CIx (k : nat) | CVal (v : xval).
    Record clib := mkLib
      { c_call : string -> list cval -> S -> res S;
        c_get : string -> option string -> option nat -> S -> res xval;
        c_set : string -> option nat -> xval -> S -> res S }.
    Variable L : clib.
    Variable clock : V.

    (** Value-initialisation {}; a null char* is not read before it is assigned. *)
    Definition init_ty (t : xty) : xval :=
      match t with XNum | XPtr => VNum v0 | XBool => VBool false | XStr => VStr "" | XArr n => VArr (repeat v0 n) | XRec _ => VRec [] end.
    (** Members that are structs are initialised too; they are assigned before they are read. *)
    Definition init_struct (t : string) : xval :=
      match assoc t structs with Some fs => VRec (map (fun f => (fst f, init_ty (snd f))) fs) | None => VRec [] end.

    Definition frame := list (string * xval).
    Definition at_ix (i : nat) (k : ix) : nat := match k with II => i | IN n => n end.
    Definition eval (loc : frame) (s : S) (i : nat) (e : ex) : res xval :=
      match assoc (e_root e) loc with
      | None => c_get L (e_root e) (e_fld e) (option_map (at_ix i) (e_at e)) s
      | Some v =>
        w <- match e_fld e with
             | None => Ok v
             | Some f => match v with VRec fs => match assoc f fs with Some w => Ok w | None => Err TypeError end | _ => Err TypeError end
             end;;
        match e_at e with
        | None => Ok w
        | Some k => match w with
                    | VArr l => match nth_error l (at_ix i k) with Some a => Ok (VNum a) | None => Err OutOfBounds end
                    | _ => Err TypeError
                    end
        end
      end.
    Definition eval_arg (loc : frame) (s : S) (i : nat) (a : arg) : res cval :=
      match a with AIx k => Ok (CIx (at_ix i k)) | AEx e => v <- eval loc s i e;; Ok (CVal v) end.
    Fixpoint set_assoc {A} (n : string) (v : A) (l : list (string * A)) : list (string * A) :=
      match l with [] => [] | (m, w) :: t => if String.eqb n m then (m, v) :: t else (m, w) :: set_assoc n v t end.
    (** Assignment to a member (or an entry of it) of a local struct, or to a C object. *)
    Definition store (loc : frame) (s : S) (i : nat) (e : ex) (v : xval) : res (frame * S) :=
      match assoc (e_root e) loc with
      | None => match e_fld e with
                | None => s' <- c_set L (e_root e) (option_map (at_ix i) (e_at e)) v s;; Ok (loc, s')
                | Some _ => Err TypeError
                end
      | Some (VRec fs) =>
        match e_fld e with
        | None => Err TypeError
        | Some f =>
          match e_at e, assoc f fs, v with
          | None, Some _, _ => Ok (set_assoc (e_root e) (VRec (set_assoc f v fs)) loc, s)
          | Some k, Some (VArr l), VNum a =>
            l' <- put l (at_ix i k) a;; Ok (set_assoc (e_root e) (VRec (set_assoc f (VArr l') fs)) loc, s)
          | _, _, _ => Err TypeError
          end
        end
      | Some _ => Err TypeError
      end.

    Fixpoint loop (f : nat -> frame * S -> res (frame * S)) (ks : list nat) (st : frame * S) : res (frame * S) :=
      match ks with [] => Ok st | k :: t => st' <- f k st;; loop f t st' end.
    Fixpoint exec (c : cst) (i : nat) (st : frame * S) : res (frame * S) :=
      let '(loc, s) := st in
      match c with
      | SCall f l => vs <- mapM (eval_arg loc s i) l;; s' <- c_call L f vs s;; Ok (loc, s')
      | SSet l r => v <- eval loc s i r;; store loc s i l v
      | STime l => store loc s i l (VNum clock)
      | SDecl t n => Ok ((n, init_struct t) :: loc, s)
      | SFor n b => loop (exec b) (seq 0 n) st
      | SIf e b => v <- eval loc s i e;; match v with VBool true => exec b i st | VBool false => Ok st | _ => Err TypeError end
      | SSeq a b => st' <- exec a i st;; exec b i st'
      end.
    Fixpoint exec_body (l : list cst) (st : frame * S) : res (frame * S) :=
      match l with [] => Ok st | c :: t => st' <- exec c 0 st;; exec_body t st' end.
    Definition call_cpp (body : list cst) (args : frame) (result : string) (s : S) : res (S * xval) :=
      '(loc, s') <- exec_body body (args, s);;
      match assoc result loc with Some v => Ok (s', v) | None => Err TypeError end.

    (** solve(upd, par) and gradient(vdelta, gsol or region, use_sol) of the module. *)
    Definition run_solve (upd par : xval) : S -> res (S * xval) :=
      call_cpp solve_cpp [("CPG_Updated_cpp", upd); ("CPG_Params_cpp", par)] "CPG_Result_cpp".
    Definition run_gradient (vdelta sol : xval) (use : bool) : S -> res (S * xval) :=
      call_cpp gradient_cpp [("CPG_VDelta_cpp", vdelta); (if expl then "region" else "CPG_GSol_cpp", sol); ("use_sol", VBool use)]
               "CPG_PDelta_cpp".
  End Run.
End Binding.
Arguments VNum {V}. Arguments VBool {V}. Arguments VStr {V}. Arguments VArr {V}. Arguments VRec {V}.
Arguments CIx {V}. Arguments CVal {V}. Arguments mkLib {V S}. Arguments c_call {V S}. Arguments c_get {V S}. Arguments c_set {V S}.
Arguments run_solve x {V} v0 {S}. Arguments run_gradient x {V} v0 {S}. Arguments exec x {V} v0 {S}. Arguments exec_body x {V} v0 {S}.
Arguments eval {V S}. Arguments eval_arg {V S}. Arguments store {V S}. Arguments loop {V S}. Arguments set_assoc {A}.
Arguments call_cpp x {V} v0 {S}. Arguments init_struct x {V}. Arguments init_ty {V}.
