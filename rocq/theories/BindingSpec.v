(** What is claimed about the Python binding: when it compiles, which calls of the C code it makes,
    and what its results hold. *)

From Coq Require Import String Ascii Arith Bool List.
From Verif Require Import Base Pus Machine Runtime Config Symbols Binding.
Import ListNotations.
Open Scope string_scope.
Open Scope list_scope.

(** Names come from dictionaries (no duplicates), no parameter has the name d<variable> in gradient
    code (C52), and name_to_indices has one entry for each entry of a variable. *)
Record binding_ok (x : bin) : Prop := mkBok
  { bo_params : NoDup (map fst (n_params x));
    bo_vars : NoDup (map fst (n_vars x));
    bo_duals : NoDup (map fst (n_duals x));
    bo_delta : n_gradient x = true -> forall v p, In v (n_vars x) -> In p (n_params x) -> fst p <> ("d" ++ fst v)%string;
    bo_idx : forall v, In v (n_vars x) -> length (n_idx x (fst v)) = snd v }.

(** The C++ file compiles: every name is an identifier that C++ does not reserve, nothing the file
    copies in a loop is empty, and the gradient code, if there is any, is not two-stage. *)
Definition binding_cond (x : bin) : Prop :=
  (forall n k, In (n, k) (n_params x ++ n_vars x ++ n_duals x) -> cpp_name n = true)
  /\ (forall n k, In (n, k) (n_params x) -> k <> 0)
  /\ (n_explicit x = 0 -> forall n k, In (n, k) (n_vars x) -> k <> 0)
  /\ (n_explicit x <> 1 -> forall n k, In (n, k) (n_duals x) -> k <> 0)
  /\ (n_gradient x = true -> n_explicit x = 0 -> n_if x = IOSQP).

Section Spec.
  Variable x : bin.
  Variable V : Type.
  Variable v0 : V.
  Variable S : Type.
  Variable L : clib V S.
  Notation pre s := (n_prefix x ++ s)%string.

  (** A sequence of C calls. *)
  Fixpoint do_calls (cs : list (string * list (cval V))) (s : S) : res S :=
    match cs with
    | [] => Ok s
    | (f, l) :: t => s' <- c_call L f l s;; do_calls t s'
    end.

  (** The calls that hand the entries [l] to a function f(val) (one entry) or f(idx, val). *)
  Definition hand_over (f : string) (l : list V) : list (string * list (cval V)) :=
    match l with
    | [v] => [(f, [CVal (VNum v)])]
    | _ => map (fun k => (f, [CIx (fst k); CVal (VNum (snd k))])) (combine (seq 0 (length l)) l)
    end.

  (** A C++ struct with one member per name: a number for size 1, otherwise an array with the
      entries [vals n]. *)
  Definition entries (l : list V) : xval V := match l with [v] => VNum v | _ => VArr l end.
  Definition holds_fields (ns : list (string * nat)) (vals : string -> list V) (r : xval V) : Prop :=
    r = VRec (map (fun n => (fst n, entries (vals (fst n)))) ns)
    /\ forall n, In n ns -> length (vals (fst n)) = snd n.
  Definition holds_flags (ns : list (string * nat)) (flag : string -> bool) (r : xval V) : Prop :=
    r = VRec (map (fun n => (fst n, VBool (flag (fst n)))) ns).

  (** [w] holds what C object [o] (member [m]) holds in state [s]: for size 1 the number found with
      index [one], otherwise an array of which entry k is the entry [idx k] of the C array, or 0 if
      there is no index. *)
  Definition c_holds (o : string) (m : option string) (n : nat) (one : option nat) (idx : list (option nat)) (s : S) (w : xval V) : Prop :=
    (n = 1 -> c_get L o m one s = Ok w)
    /\ (n <> 1 -> exists l, w = VArr l /\ length l = n
         /\ forall k v, nth_error l k = Some v ->
              match nth_error idx k with Some (Some j) => c_get L o m (Some j) s = Ok (VNum v) | _ => v = v0 end).
  (** Every entry. *)
  Definition all_of (n : nat) : list (option nat) := map Some (seq 0 n).
  (** A struct whose members hold the members of C object [o] of the same names. *)
  Definition c_record (o : string) (ns : list (string * nat)) (one : option nat) (idx : string * nat -> list (option nat)) (s : S) (w : xval V) : Prop :=
    exists ws, w = VRec (combine (map fst ns) ws)
      /\ Forall2 (fun n v => c_holds o (Some (fst n)) (snd n) one (idx n) s v) ns ws.

  (** The calls of solve(upd, par): all entries of the flagged parameters, in order, and one solve. *)
  Definition solve_calls (flag : string -> bool) (vals : string -> list V) : list (string * list (cval V)) :=
    flat_map (fun p => if flag (fst p) then hand_over (pre ("cpg_update_" ++ fst p)) (vals (fst p)) else []) (n_params x)
    ++ [(pre "cpg_solve", [])].

  (** Information of a solve: in the other modes what the solver reports, the time, and with
      gradients the canonical solution, or the region in explicit mode. *)
  Definition info_holds (clock : V) (s : S) (w : xval V) : Prop :=
    exists fs gs,
      w = VRec (fs ++ [("time", VNum clock)] ++ gs)
      /\ (n_explicit x <> 0 -> fs = [])
      /\ (n_explicit x = 0 ->
          exists ws, fs = combine ["obj_val"; "iter"; "status"; "pri_res"; "dua_res"] ws
            /\ Forall2 (fun f v => c_get L (pre "CPG_Info") (Some f) None s = Ok v) ["obj_val"; "iter"; "status"; "pri_res"; "dua_res"] ws)
      /\ (n_gradient x = false -> gs = [])
      /\ (n_gradient x = true -> n_explicit x <> 0 ->
          exists w, gs = [("region", w)] /\ c_get L "pdaqp_active_region" None None s = Ok w)
      /\ (n_gradient x = true -> n_explicit x = 0 ->
          exists a b, gs = [("gradient_primal", VArr a); ("gradient_dual", VArr b)]
            /\ length a = n_nvar x /\ length b = n_ncon x
            /\ (forall k v, nth_error a k = Some v -> c_get L "sol_x" None (Some k) s = Ok (VNum v))
            /\ (forall k v, nth_error b k = Some v -> c_get L "sol_y" None (Some k) s = Ok (VNum v))).

  (** The result of solve in state [s] of the C program. *)
  Definition solve_holds (clock : V) (s : S) (r : xval V) : Prop :=
    exists p ds i,
      r = VRec ([("prim", p)] ++ ds ++ [("info", i)])
      /\ c_record (pre "CPG_Prim") (n_vars x) None (fun n => if Nat.eqb (n_explicit x) 0 then all_of (snd n) else n_idx x (fst n)) s p
      /\ ((n_explicit x = 1 \/ n_duals x = []) -> ds = [])
      /\ (n_explicit x <> 1 -> n_duals x <> [] ->
          exists d, ds = [("dual", d)] /\ c_record (pre "CPG_Dual") (n_duals x) None (fun n => all_of (snd n)) s d)
      /\ info_holds clock s i.

  (** ** gradient *)

  Fixpoint do_sets (cs : list (string * option nat * xval V)) (s : S) : res S :=
    match cs with
    | [] => Ok s
    | (o, k, v) :: t => s' <- c_set L o k v s;; do_sets t s'
    end.
  Definition set_all (o : string) (l : list V) : list (string * option nat * xval V) :=
    map (fun k => (o, Some (fst k), VNum (snd k))) (combine (seq 0 (length l)) l).
  (** The calls for the derivative of a variable: all entries, or in explicit mode the stored ones. *)
  Definition delta_calls (v : string * nat) (l : list V) : list (string * list (cval V)) :=
    let f := pre ("cpg_update_d" ++ fst v) in
    if Nat.eqb (n_explicit x) 0 || Nat.eqb (snd v) 1 then hand_over f l
    else flat_map (fun kl => match fst kl with Some j => [(f, [CIx j; CVal (VNum (snd kl))])] | None => [] end)
                  (combine (n_idx x (fst v)) l).
  Definition gradient_calls (vals : string -> list V) : list (string * list (cval V)) :=
    flat_map (fun v => delta_calls v (vals (fst v))) (n_vars x) ++ [(pre "cpg_gradient", [])].
End Spec.

(** The C functions of a generated program (Runtime.v), as the binding calls them. *)
Definition program_lib (x : bin) (N : Num) (g : genc N) scr (L : clib (car N) (rst N)) : Prop :=
  (forall p v s, In p (n_params x) -> snd p = 1 ->
     c_call L (n_prefix x ++ "cpg_update_" ++ fst p)%string [CVal (VNum v)] s = do_update g s (fst p) 0 v)
  /\ (forall p k v s, In p (n_params x) -> snd p <> 1 ->
     c_call L (n_prefix x ++ "cpg_update_" ++ fst p)%string [CIx k; CVal (VNum v)] s = do_update g s (fst p) k v)
  /\ (forall s, c_call L (n_prefix x ++ "cpg_solve")%string [] s = do_solve g scr s).
