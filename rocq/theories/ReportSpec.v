(** What a problem object should hold after a call: vocabulary of C74. *)

From Coq Require Import String Arith Bool ZArith QArith List.
From Verif Require Import Base Retrieve RetrieveProofs Report Literals.
Import ListNotations.
Open Scope list_scope.
Open Scope nat_scope.

(** [u] is the last variable of its name. *)
Definition last_named (us : list uvar) (u : uvar) : Prop :=
  exists before after, us = before ++ u :: after /\ ~ In (uv_name u) (map uv_name after).

(** Entries of an array. *)
Definition at_idx {K} (k0 : K) (a : list nat * list K) (idx : list nat) : K := nth (fpos (fst a) idx) (snd a) k0.

(** [a] is the value of [u] when the solver's entries for it are [b]. *)
Definition value_of {K} (k0 : K) (u : uvar) (b : list K) (a : list nat * list K) : Prop :=
  fst a = uv_shape u /\ length (snd a) = fsize (uv_shape u) /\ var_value k0 u b (at_idx k0 a).

(** CVXPY's assumptions about variables, without any about names (compare vars_ok). *)
Definition sizes_ok (red : list (nat * nat)) (us : list uvar) : Prop :=
  NoDup (map uv_id us)
  /\ (forall u, In u us -> lookup (uv_id u) red = Some (packed_size u))
  /\ (forall u, In u us -> uv_sym u = true -> exists n, uv_shape u = [n; n]).

(** Distinct elements in the order of their first occurrence: the keys of a dictionary over the
    constraints. *)
Fixpoint firsts (l : list nat) : list nat :=
  match l with [] => [] | x :: t => x :: filter (fun y => negb (Nat.eqb y x)) (firsts t) end.

(** Array of a dual vector [d] with canonical shape [sh]. *)
Definition dual_array {K} (sh : list nat) (d : list K) : list nat * list K :=
  if Nat.eqb (fsize sh) (length d) then (sh, d)
  else (match d with [_] => [] | _ => [length d] end, d).

(** Objective as CVXPY reports it: the double 1e30 stands for infinity. *)
Definition big : Q := inject_Z 1000000000000000019884624838656.
Inductive reported : fnum -> fnum -> Prop :=
| rep_inf : forall q, (q == big)%Q -> reported (Fin q) PInf
| rep_ninf : forall q, (q == - big)%Q -> reported (Fin q) NInf
| rep_fin : forall q, ~ (q == big)%Q -> ~ (q == - big)%Q -> reported (Fin q) (Fin q)
| rep_other : forall v, (forall q, v <> Fin q) -> reported v v.

(** CVXPY's status texts (cvxpy/settings.py). *)
Definition cvxpy_status : list string :=
  ["optimal"; "optimal_inaccurate"; "infeasible"; "infeasible_inaccurate"; "unbounded"; "unbounded_inaccurate";
   "infeasible_or_unbounded"; "user_limit"; "solver_error"]%string.

(** Start of the entries of the k-th parameter in CVXPY's parameter vector. *)
Definition starts_at (params : list (string * nat)) (k : nat) : nat := list_sum (map snd (firstn k params)).
Definition total (params : list (string * nat)) : nat := list_sum (map snd params).
