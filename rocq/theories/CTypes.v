(** The C types of the generated headers, and what a C file sees that includes the headers of
    one or several generated programs.
    Models write_workspace_prot (cvxpygen/utils.py 692-883), the struct definitions of
    write_workspace_def (utils.py 540-689) with write_struct_def (utils.py 324-338), the class
    attributes numeric_types, status_is_int and stgs_requires_extra_struct_type of the solver
    interfaces, the cast in writer.py 245, cpg_osqp_grad_workspace.h.jinja2, and the CMake
    targets in CMakeLists.txt.jinja2 91-101.
    Not modelled: the solver's own headers, comments, and the declarations of arrays and of
    cpg_csc objects (their types are defined by every generated header); the initial values of
    Canon_Settings (Settings.v). *)

From Coq Require Import String List Bool Arith ZArith.
From Verif Require Import Base Config Symbols.
Import ListNotations.
Open Scope string_scope.
Open Scope list_scope.

(** A C type as it is written, and the body of a typedef. *)
Inductive ty := TName (n : string) | TPtr (t : ty).
Definition fields := list (string * ty).
Inductive body := Alias (base : string) | Struct (fs : fields).
Definition tenv := list (string * body).

(** What the types depend on. [t_blocks]: parameter_canon.p with the number of stored entries;
    [t_vars], [t_duals]: name_to_size; [t_params]: the user's parameters; [t_settings]:
    stgs_names_to_type. *)
Record tin := mkTin
  { t_if : iface; t_prefix : string; t_explicit : nat; t_gradient : bool; t_reduced : bool;
    t_blocks : list (string * nat); t_vars : list (string * nat); t_duals : list (string * nat);
    t_params : list string; t_settings : list (string * string) }.

(** numeric_types: osqp.py 95, scs.py 85, ecos.py 53, clarabel.py 55, qoco.py 54 and 228,
    pdaqp.py 61; utils.py 711-715. *)
Definition float_base (i : iface) : string :=
  match i with ISCS => "scs_float" | ICLARABEL => "ClarabelFloat" | IQOCO => "QOCOFloat" | IPDAQP => "float" | _ => "double" end.
Definition int_base (i : iface) : string :=
  match i with ISCS => "scs_int" | ICLARABEL => "uintptr_t" | IQOCO => "QOCOInt" | _ => "int" end.
(** status_is_int: osqp.py 92, scs.py 82, ecos.py 50, clarabel.py 52, qoco.py 51, 225, pdaqp.py 60. *)
Definition status_int (i : iface) : bool := match i with IOSQP | ISCS => false | _ => true end.

Definition fl := TName "cpg_float".
Definition it := TName "cpg_int".
Definition when_f {A} (b : bool) (l : list A) : list A := if b then l else [].
Definition nonempty {A} (l : list A) : bool := match l with [] => false | _ => true end.
Definition is_expl (y : tin) : bool := negb (Nat.eqb (t_explicit y) 0).

(** utils.py 718-724. *)
Definition csc_t : body := Struct [("p", TPtr it); ("i", TPtr it); ("x", TPtr fl); ("nnz", it)].
(** utils.py 726-737: matrices are written in capitals. *)
Definition params_t (y : tin) : body :=
  Struct (map (fun b => (fst b, if is_matrix (fst b) then TPtr (TName "cpg_csc")
                                else if String.eqb (fst b) "d" then fl else TPtr fl)) (t_blocks y)).
(** utils.py 739-743. *)
Definition outdated_t (y : tin) : body := Struct (map (fun b => (fst b, TName "int")) (t_blocks y)).
(** utils.py 745-764. *)
Definition sized_t (v : string * nat) : string * ty := (fst v, if Nat.eqb (snd v) 1 then fl else TPtr fl).
Definition prim_f (y : tin) : fields := map sized_t (t_vars y).
Definition dual_f (y : tin) : fields := map sized_t (t_duals y).
(** utils.py 766-774. *)
Definition info_f (y : tin) : fields :=
  [("obj_val", fl); ("iter", it); ("status", if status_int (t_if y) then it else TPtr (TName "char"));
   ("pri_res", fl); ("dua_res", fl)].
(** utils.py 776-783. *)
Definition result_f (y : tin) : fields :=
  [("prim", TPtr (TName "CPG_Prim_t"))]
  ++ when_f (negb (Nat.eqb (t_explicit y) 1) && nonempty (t_duals y)) [("dual", TPtr (TName "CPG_Dual_t"))]
  ++ when_f (negb (is_expl y)) [("info", TPtr (TName "CPG_Info_t"))].
(** utils.py 785-789. *)
Definition delta_f (y : tin) : fields := map (fun p => (p, TPtr fl)) (t_params y).

(** utils.py 705-799: everything between #ifndef CPG_TYPES_H and #endif. *)
Definition typedefs (y : tin) : tenv :=
  [("cpg_float", Alias (if is_expl y then "float" else float_base (t_if y)));
   ("cpg_int", Alias (int_base (t_if y)));
   ("cpg_csc", csc_t); ("Canon_Params_t", params_t y); ("Canon_Outdated_t", outdated_t y);
   ("CPG_Prim_t", Struct (prim_f y))]
  ++ when_f (nonempty (t_duals y)) [("CPG_Dual_t", Struct (dual_f y))]
  ++ when_f (negb (is_expl y)) [("CPG_Info_t", Struct (info_f y))]
  ++ [("CPG_Result_t", Struct (result_f y)); ("CPG_Delta_t", Struct (delta_f y))]
  ++ when_f (extra_stgs (t_if y)) [("Canon_Settings_t", Struct (map (fun s => (fst s, TName (snd s))) (t_settings y)))].

(** generator.py 77. *)
Definition two_stage_t (y : tin) : bool :=
  t_gradient y && negb (is_expl y) && negb (match t_if y with IOSQP => true | _ => false end).

(** utils.py 828-883: the declared structs. *)
Definition externs (y : tin) : list (string * string) :=
  let pre s := (t_prefix y ++ s)%string in
  [(pre "Canon_Params", "Canon_Params_t")]
  ++ when_f (inmem (t_if y)) [(pre "Canon_Params_conditioning", "Canon_Params_t")]
  ++ [(pre "Canon_Outdated", "Canon_Outdated_t")]
  ++ when_f (t_gradient y && negb (two_stage_t y)) [(pre "Canon_Outdated_Grad", "Canon_Outdated_t")]
  ++ [(pre "CPG_Prim", "CPG_Prim_t")]
  ++ when_f (negb (Nat.eqb (t_explicit y) 1) && nonempty (t_duals y)) [(pre "CPG_Dual", "CPG_Dual_t")]
  ++ when_f (negb (is_expl y)) [(pre "CPG_Info", "CPG_Info_t")]
  ++ [(pre "CPG_Result", "CPG_Result_t")]
  ++ when_f (extra_stgs (t_if y)) [(pre "Canon_Settings", "Canon_Settings_t")]
  ++ when_f (t_gradient y) [(pre "CPG_Delta", "CPG_Delta_t")].

(** ** The preprocessor and the compiler's view *)

(** A header as the compiler reads it: definitions inside the CPG_TYPES_H guard, definitions
    outside of any guard, declarations. *)
Record header := mkHdr { h_guarded : tenv; h_plain : tenv; h_externs : list (string * string) }.
(** c/include/cpg_workspace.h *)
Definition workspace_h (y : tin) : header := mkHdr (typedefs y) [] (externs y).
(** c/include/cpg_gradient_workspace.h (two-stage): utils.py 692-743 and 828-836 with
    full=False, after #include "cpg_workspace.h"; [second] are the blocks of the second
    canonicalization. It writes its types without a guard. *)
Definition gradient_h (y : tin) (second : list (string * nat)) : header :=
  let y2 := mkTin (t_if y) (t_prefix y) (t_explicit y) (t_gradient y) (t_reduced y) second [] [] [] [] in
  mkHdr (typedefs y) [("Canon_Params_Gradient_t", params_t y2); ("Canon_Outdated_Gradient_t", outdated_t y2)]
        (externs y ++ [(("gradient_" ++ t_prefix y ++ "Canon_Params")%string, "Canon_Params_Gradient_t");
                       (("gradient_" ++ t_prefix y ++ "Canon_Outdated_Grad")%string, "Canon_Outdated_Gradient_t")]).

(** Including headers in order: the guarded part counts only while CPG_TYPES_H is undefined. *)
Fixpoint include (defined : bool) (hs : list header) : list (string * body) * list (string * string) :=
  match hs with
  | [] => ([], [])
  | h :: t =>
    let '(ts, es) := include true t in
    ((if defined then [] else h_guarded h) ++ h_plain h ++ ts, h_externs h ++ es)
  end.
(** The type names a file defines and the objects it declares. *)
Definition types_of (hs : list header) : tenv := fst (include false hs).
Definition decls_of (hs : list header) : list (string * string) := snd (include false hs).

(** The compiler accepts the headers: no type is defined twice, every declared object has a
    known type. *)
Fixpoint distinct (l : list string) : bool :=
  match l with [] => true | a :: t => negb (mem_str a t) && distinct t end.
Definition known (e : tenv) (n : string) : bool := match assoc n e with Some _ => true | None => false end.
Definition accepted (hs : list header) : bool :=
  distinct (map fst (types_of hs)) && forallb (fun d => known (types_of hs) (snd d)) (decls_of hs).

(** ** Memory layout *)

(** Types up to typedef names of numbers; pointers to structs keep the struct's name. *)
Inductive rty := RB (base : string) | RP (r : rty) | RS (name : string).
Fixpoint rty_eqb (a b : rty) : bool :=
  match a, b with
  | RB x, RB y | RS x, RS y => String.eqb x y
  | RP x, RP y => rty_eqb x y
  | _, _ => false
  end.
(** Two number types hold the same values in the same bits. The table is the usual 64-bit one
    with the solvers' default builds: ClarabelFloat, QOCOFloat and scs_float are double,
    QOCOInt and scs_int are int, uintptr_t has eight bytes. *)
Definition norm_base (s : string) : string :=
  if mem_str s ["ClarabelFloat"; "QOCOFloat"; "scs_float"] then "double"
  else if mem_str s ["QOCOInt"; "scs_int"] then "int" else s.
Definition base_size (s : string) : nat :=
  if mem_str s ["double"; "uintptr_t"] then 8 else if String.eqb s "char" then 1 else 4.
Fixpoint resolve (e : tenv) (t : ty) : rty :=
  match t with
  | TName n => match assoc n e with
               | Some (Alias b) => RB (norm_base b)
               | Some (Struct _) => RS n
               | None => RB (norm_base n)
               end
  | TPtr t => RP (resolve e t)
  end.
Definition rsize (r : rty) : nat := match r with RB b => base_size b | RP _ => 8 | RS _ => 8 end.
Definition round_up (o s : nat) : nat := ((o + s - 1) / s) * s.
(** The members of a struct: offset, type, name. *)
Fixpoint layout (e : tenv) (o : nat) (fs : fields) : list (nat * rty * string) :=
  match fs with
  | [] => []
  | (n, t) :: tl =>
    let r := resolve e t in let a := round_up o (rsize r) in (a, r, n) :: layout e (a + rsize r) tl
  end.

Definition struct_fields (e : tenv) (T : string) : option fields :=
  match assoc T e with Some (Struct fs) => Some fs | _ => None end.

(** Reading member [f] of an object.  [e], [fs]: the types the reading file knows; [e'], [fs']:
    those with which the object has been defined.  The result is the member of the defined
    object whose value is read; an error for a missing member (the file is not accepted) and
    for bytes that are no member of that type (an arbitrary value). *)
Definition member (e : tenv) (fs : fields) (e' : tenv) (fs' : fields) (f : string) : res string :=
  match find (fun c => String.eqb (snd c) f) (layout e 0 fs) with
  | None => Err AttributeError
  | Some (o, r, _) =>
    match find (fun c => Nat.eqb (fst (fst c)) o && rty_eqb (snd (fst c)) r) (layout e' 0 fs') with
    | Some (_, _, g) => Ok g
    | None => Err OutOfBounds
    end
  end.

(** The struct a member of CPG_Result points to (utils.py 642-667). *)
Definition target (s : string) : option string :=
  if String.eqb s "prim" then Some "CPG_Prim_t" else if String.eqb s "dual" then Some "CPG_Dual_t"
  else if String.eqb s "info" then Some "CPG_Info_t" else None.

(** CPG_Result.s->f written in a file with types [e], for a program whose own types are [e']:
    which quantity of the program is read. *)
Definition read_result (e e' : tenv) (s f : string) : res (string * string) :=
  match struct_fields e "CPG_Result_t", struct_fields e' "CPG_Result_t" with
  | Some fs, Some fs' =>
    g <- member e fs e' fs' s;;
    match target s, target g with
    | Some T, Some T' =>
      match struct_fields e T, struct_fields e' T' with
      | Some gs, Some gs' => h <- member e gs e' gs' f;; Ok (g, h)
      | _, _ => Err AttributeError
      end
    | _, _ => Err AttributeError
    end
  | _, _ => Err AttributeError
  end.
(** CPG_Delta.p in the same situation. *)
Definition read_delta (e e' : tenv) (p : string) : res string :=
  match struct_fields e "CPG_Delta_t", struct_fields e' "CPG_Delta_t" with
  | Some fs, Some fs' => member e fs e' fs' p
  | _, _ => Err AttributeError
  end.

(** ** Initial values *)

(** Values written into structs: a zero (also the null pointer), a number, the address of a
    float array (cast to cpg_float pointer), of a cpg_csc, of a struct, and a string. *)
Inductive cval := VZero | VNum | VArr | VCsc | VAddr (T : string) | VStr.

(** utils.py 493-527, 542-556: Canon_Params (and _conditioning). *)
Definition kept_blocks (y : tin) : list (string * nat) :=
  filter (fun b => negb (is_expl y && (String.eqb (fst b) "A" || (t_reduced y && String.eqb (fst b) "P")))) (t_blocks y).
Definition block_val (b : string * nat) : cval :=
  match snd b with
  | 0 => VZero
  | _ => if String.eqb (fst b) "d" then VNum else if is_matrix (fst b) then VCsc else VArr
  end.
(** utils.py 587-599, 615-629, 632-637, 640-667, 679-688. *)
Definition sized_val (v : string * nat) : cval := if Nat.eqb (snd v) 1 then VZero else VArr.
Definition inits (y : tin) : list (string * string * list (string * cval)) :=
  let pre s := (t_prefix y ++ s)%string in
  let cp := map (fun b => (fst b, block_val b)) (kept_blocks y) in
  let flags v := map (fun b => (fst b, v)) (t_blocks y) in
  [(pre "Canon_Params", "Canon_Params_t", cp)]
  ++ when_f (inmem (t_if y)) [(pre "Canon_Params_conditioning", "Canon_Params_t", cp)]
  ++ [(pre "Canon_Outdated", "Canon_Outdated_t", flags VNum)]
  ++ when_f (t_gradient y && negb (two_stage_t y)) [(pre "Canon_Outdated_Grad", "Canon_Outdated_t", flags VZero)]
  ++ [(pre "CPG_Prim", "CPG_Prim_t", map (fun v => (fst v, sized_val v)) (t_vars y))]
  ++ when_f (negb (Nat.eqb (t_explicit y) 1) && nonempty (t_duals y))
       [(pre "CPG_Dual", "CPG_Dual_t", map (fun v => (fst v, sized_val v)) (t_duals y))]
  ++ when_f (negb (is_expl y))
       [(pre "CPG_Info", "CPG_Info_t",
         [("obj_val", VZero); ("iter", VZero); ("status", if status_int (t_if y) then VZero else VStr);
          ("pri_res", VZero); ("dua_res", VZero)])]
  ++ [(pre "CPG_Result", "CPG_Result_t",
       match t_explicit y with
       | 1 => [("prim", VAddr "CPG_Prim_t")]
       | 2 => if nonempty (t_duals y) then [("prim", VAddr "CPG_Prim_t"); ("dual", VAddr "CPG_Dual_t")]
              else [("prim", VAddr "CPG_Prim_t")]
       | _ => if nonempty (t_duals y)
              then [("prim", VAddr "CPG_Prim_t"); ("dual", VAddr "CPG_Dual_t"); ("info", VAddr "CPG_Info_t")]
              else [("prim", VAddr "CPG_Prim_t"); ("info", VAddr "CPG_Info_t")]
       end)]
  ++ when_f (t_gradient y) [(pre "CPG_Delta", "CPG_Delta_t", map (fun p => (p, VArr)) (t_params y))].

(** ** Casts between the two compressed matrix types *)

(** writer.py 245: (cpg_grad_csc* ) Canon_Params.P.  cpg_grad_csc has int indices
    (cpg_osqp_grad_workspace.h.jinja2 6-14), cpg_csc has cpg_int indices.  Entry [k] of an
    index array [a] read as an array of int, on a little-endian machine. *)
Definition as_int (size : nat) (a : list Z) (k : nat) : option Z :=
  if Nat.eqb size 8
  then match nth_error a (k / 2) with
       | Some v => Some (if Nat.even k then (v mod 2 ^ 32)%Z else ((v / 2 ^ 32) mod 2 ^ 32)%Z)
       | None => None
       end
  else nth_error a k.
Definition index_size (y : tin) : nat :=
  rsize (resolve (typedefs y) it).

(** ** CMake *)

(** CMakeLists.txt.jinja2 91-101: the targets carry no prefix. *)
Definition targets (y : tin) : list string := ["cpg_example"; "cpg"].
(** add_subdirectory of several generated programs in one project (README.html.jinja2
    516-530): target names must be unique. *)
Definition configures (ys : list tin) : bool := distinct (flat_map targets ys).
