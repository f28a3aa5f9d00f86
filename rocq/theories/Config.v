(** Solver choice, configuration, order of the generation phases, identifier prefixes and
    the shared solver settings.
    Models cvxpygen/generator.py 64-88, 92-101, 161-182, cvxpygen/canonicalizer.py 48-122
    (control flow only) and cvxpygen/solvers/_interface.py 125-130.  Strings are ASCII:
    Python's [lower], [upper] and [isalpha] are modelled on ASCII characters only. *)

From Coq Require Import String Ascii Arith Bool List.
From Verif Require Import Base.
Import ListNotations.
Open Scope string_scope.
Open Scope list_scope.

(** ** Characters *)

Definition code (c : ascii) : nat := nat_of_ascii c.
Definition in_range (lo hi : nat) (c : ascii) : bool := Nat.leb lo (code c) && Nat.leb (code c) hi.
Definition is_lower (c : ascii) : bool := in_range 97 122 c.
Definition is_upper (c : ascii) : bool := in_range 65 90 c.
Definition is_alpha (c : ascii) : bool := is_lower c || is_upper c.
Definition is_digit (c : ascii) : bool := in_range 48 57 c.
Definition upper_c (c : ascii) : ascii := if is_lower c then ascii_of_nat (code c - 32) else c.
Definition lower_c (c : ascii) : ascii := if is_upper c then ascii_of_nat (code c + 32) else c.
Fixpoint smap (f : ascii -> ascii) (s : string) : string :=
  match s with EmptyString => EmptyString | String c t => String (f c) (smap f t) end.
Definition upper : string -> string := smap upper_c.
Definition lower : string -> string := smap lower_c.

(** ** Solver choice *)

Inductive iface := IOSQP | ISCS | IECOS | ICLARABEL | IQOCO | IQOCOGEN | IPDAQP.

(** canonicalizer.py 72-80. *)
Definition mapping : list (string * iface) :=
  [("OSQP", IOSQP); ("SCS", ISCS); ("ECOS", IECOS); ("CLARABEL", ICLARABEL);
   ("QOCO", IQOCO); ("QOCOGEN", IQOCOGEN); ("PDAQP", IPDAQP)].

(** solvers/_interface.py 15. *)
Definition unsupported_on_windows : list string := ["CLARABEL"].

(** canonicalizer.py 69-84 (_get_interface_class); [None] is Python's None, whose [upper]
    attribute does not exist. *)
Definition get_interface (windows : bool) (name : option string) : res iface :=
  match name with
  | None => Err AttributeError
  | Some n =>
    if windows && mem_str (upper n) unsupported_on_windows then Err ValueError
    else match assoc (upper n) mapping with Some i => Ok i | None => Err ValueError end
  end.

(** generator.py 161-173 (_resolve_solver); [dual] is solver_opts.get('dual', False). *)
Definition resolve (solver : option string) (dual : bool) : option string * nat :=
  match solver with
  | None => (None, 0)
  | Some s => if String.eqb (lower s) "explicit" then (Some "PDAQP", if dual then 2 else 1)
              else (Some s, 0)
  end.

(** generator.py 74-75; cp.OSQP is the string 'OSQP'. *)
Definition is_two_stage (gradient : bool) (solver : option string) (explicit : nat) : bool :=
  gradient
  && negb (match solver with Some s => String.eqb s "OSQP" | None => false end)
  && Nat.eqb explicit 0.

(** ** Generation *)

(** What CVXPY and the rest of the canonicalizer answer for one problem and interface: the
    number of parameters, the cones (None: no [cone_dims], i.e. QP form), the outcome of
    constructing the interface and of variable, dual and parameter bookkeeping
    (canonicalizer.py 105-120), which of P, A change. *)
Record pdata := mkPD
  { d_params : nat; d_cones : option (nat * nat * nat); (* exp, psd, p3d *)
    d_rest : res unit; d_chgP : bool; d_chgA : bool }.

(** check_unsupported_cones of each interface: _interface.py 201-203 (accepts), ecos.py
    122-125, qoco.py 129-132, 349-352, scs.py 131-135. *)
Definition check_cones (i : iface) (c : nat * nat * nat) : res unit :=
  let '(exp, psd, p3d) := c in
  match i with
  | IECOS | IQOCO | IQOCOGEN => if Nat.ltb 0 exp then Err ValueError else Ok tt
  | ISCS => if Nat.ltb 0 exp || Nat.ltb 0 psd || Nat.ltb 0 p3d then Err ValueError else Ok tt
  | _ => Ok tt
  end.

Definition unit_of {A} (r : res A) : res unit := _ <- r ;; Ok tt.

Section Generate.
  Variable windows : bool.
  (** problem.get_problem_data for the user's problem (canonicalizer.py 89-95), and for the
      intermediate problem of two-stage mode. *)
  Variable get_data get_data2 : iface -> res pdata.
  Variable merge_res : res unit.        (* canonicalizer.py 363-406 *)
  Variable bounds_simple : bool.        (* every pure parameter constraint is a simple bound *)
  Variable lookup : res unit.           (* MPQP solve and codegen, pdaqp.py 176-184 *)

  (** canonicalizer.py 86-122. *)
  Definition extract (data : iface -> res pdata) (name : option string) : res pdata :=
    i <- get_interface windows name ;;
    d <- data i ;;
    if Nat.eqb (d_params d) 0 then Err ValueError
    else
      _ <- match d_cones d with Some c => check_cones i c | None => Ok tt end ;;
      _ <- d_rest d ;;
      Ok d.

  (** generator.py 103-118, canonicalizer.py 48-65. *)
  Definition canonicalization (solver : option string) (two_stage : bool) : res pdata :=
    if two_stage then
      _ <- extract get_data (Some "OSQP") ;;
      d <- extract get_data2 solver ;;
      _ <- merge_res ;;
      Ok d
    else extract get_data solver.

  (** pdaqp.py 91-94, 299-300: the checks of explicit mode; library calls of the other
      interfaces are not modelled ([solver_code] succeeds). *)
  Definition solver_code (explicit : nat) (d : pdata) : res unit :=
    match explicit with
    | 0 => Ok tt
    | _ =>
      if d_chgP d || d_chgA d then Err ValueError
      else if bounds_simple then lookup else Err ValueError
    end.

  (** Contents of the code directory: what was there ([None]: no such directory), or the
      new one after generator.py 94-101, without and with the written files. *)
  Inductive dir := Old | Emptied | Written.

  (** generator.py 64-83. *)
  Definition generate_code (solver : option string) (gradient dual : bool) : dir * res unit :=
    let '(name, explicit) := resolve solver dual in
    match canonicalization name (is_two_stage gradient name explicit) with
    | Err e => (Old, Err e)
    | Ok d =>
      match solver_code explicit d with
      | Err e => (Emptied, Err e)
      | Ok _ => (Written, Ok tt)
      end
    end.
End Generate.

(** ** Prefixes (generator.py 175-182) *)

Definition gen_prefix (p : string) : string :=
  match p with
  | EmptyString => EmptyString
  | String c _ => (if is_alpha c then p else String "_"%char p) ++ "_"
  end%string.

(** generator.py 131-134: the prefix of the gradient code of two-stage mode. *)
Definition gradient_prefix (p : string) : string := ("gradient_" ++ gen_prefix p)%string.

(** ** Settings shared by all generations of a process (_interface.py 125-130, 185-187) *)

(** The class attribute [stgs] of each interface: names with their [enabled] field.
    Only the fields that the property needs are kept. *)
Definition stgs := list (string * bool).
Definition configure (st : stgs) (enable : list string) : stgs :=
  map (fun ne => (fst ne, snd ne || mem_str (fst ne) enable)) st.
Definition names_enabled (st : stgs) : list string := map fst (filter snd st).

(** One generation of the given interface; the attribute is shared by later ones. *)
Fixpoint configure_all (i : iface) (eqi : iface -> iface -> bool) (st : stgs)
                       (js : list (iface * list string)) : stgs :=
  match js with
  | [] => st
  | (j, en) :: t => configure_all i eqi (if eqi i j then configure st en else st) t
  end.

Definition iface_eqb (a b : iface) : bool :=
  match a, b with
  | IOSQP, IOSQP | ISCS, ISCS | IECOS, IECOS | ICLARABEL, ICLARABEL | IQOCO, IQOCO
  | IQOCOGEN, IQOCOGEN | IPDAQP, IPDAQP => true
  | _, _ => false
  end.

(** osqp.py 102-115. *)
Definition osqp_stgs : stgs :=
  [("max_iter", true); ("eps_abs", true); ("eps_rel", true); ("eps_prim_inf", true);
   ("eps_dual_inf", true); ("scaled_termination", true); ("check_termination", true);
   ("warm_starting", true); ("verbose", false); ("polishing", false);
   ("polish_refine_iter", false); ("delta", false)].
