(** Specification for the solver objects: how many objects a history of calls creates, counted from
    the calls alone. *)

From Coq Require Import String Arith Bool List.
From Verif Require Import Base Pus PusLift PusMore Objects.
Import ListNotations.

(** A program of the generator: the solver's canonical blocks, update code for some order. *)
Definition generated (p : prog) : Prop :=
  chg_wf (p_solver p) (p_chg p) /\ is_code (p_solver p) (p_chg p) (p_code p).

(** Memory is never refused. *)
Definition plenty (give : nat -> bool) : Prop := forall n, give n = true.

Fixpoint solves (os : list hop) : nat :=
  match os with
  | [] => 0
  | HSolve :: t => S (solves t)
  | _ :: t => solves t
  end.

(** Block [q] depends on one of the parameters [w]. *)
Definition written (p : prog) (w : list string) (q : pid) : bool :=
  existsb (fun n => mem_pid q (p_outd p n)) w.

(** The blocks whose change makes SCS factorise again: P (if the objective is quadratic) and A. *)
Definition matrices (p : prog) : list pid :=
  (if solver_quad (p_solver p) then [pP] else []) ++ [pA].

(** After updates of the parameters [w] since the last solve, SCS is set up again: one of the
    matrices depends on parameters at all, and one of them has been written or is constant (the flag
    of a constant block is never cleared). *)
Definition rebuild (p : prog) (w : list string) : bool :=
  existsb (chg_get (p_chg p)) (matrices p)
  && existsb (fun q => negb (chg_get (p_chg p) q) || written p w q) (matrices p).

Fixpoint rebuilds (p : prog) (first : bool) (w : list string) (os : list hop) : nat :=
  match os with
  | [] => 0
  | HUpd n :: t => rebuilds p first (n :: w) t
  | HSolve :: t => (if first || rebuild p w then 1 else 0) + rebuilds p false [] t
  | HSet :: t => rebuilds p first w t
  end.

(** Objects allocated by the calls [os]. *)
Definition objects (p : prog) (os : list hop) : nat :=
  match p_solver p with
  | OSQP | QOCOGEN _ => 0
  | ECOS => Nat.min 1 (solves os)
  | QOCO _ => 5 * Nat.min 1 (solves os)
  | SCS _ => rebuilds p true [] os
  | CLARABEL _ => solves os
  end.

(** Allocated and not freed. *)
Definition held (h : hst) : nat :=
  length (filter (fun o => ob_heap o && ob_live o) (o_objs (h_obj h))).

(** Some pointer of the program refers to object [k]. *)
Definition named (h : hst) (k : nat) : Prop := exists v, o_env (h_obj h) v = At k.

(** Object [k] is allocated, not freed. *)
Definition alive (h : hst) (k : nat) : Prop :=
  nth_error (o_objs (h_obj h)) k = Some (mkObj true true).

(** Solvers whose objects are created at run time. *)
Definition dynamic (s : solver) : Prop := match s with OSQP | QOCOGEN _ => False | _ => True end.
