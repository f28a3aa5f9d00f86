(** What explicit mode is compared with: the parametric quadratic program handed to MPQP (contract of the table)
    and the user's problem with the regularisation half*eps*|y|^2 added to its minimisation form. *)

From Coq Require Import String Arith Bool List.
From Verif Require Import Base Pus Machine Runtime RuntimeSpec Canon CanonSpec CanonProblem Info Explicit EndSpec.
Import ListNotations.
Open Scope list_scope.

Section ExplicitEndSpec.
  Variable K : ORing.
  Local Open Scope num_scope.

  (** *** MPQP(H, f, F, A, b, B, thmin, thmax, eq_inds): minimise half*y'Hy + (f + F theta)'y subject to
      A y <= b + B theta, with equality in the rows [eq]. *)
  Variables (n : nat) (H : list (list K)) (q : xqp K) (eq : list nat).
  Definition at2 (M : list (list K)) (i j : nat) : K := nth j (nth i M []) n0.
  Definition mp_lin (th : list K) (j : nat) : K := nth j (xq_f q) n0 + ldot (nth j (xq_F q) []) th.
  Definition mp_rhs (th : list K) (i : nat) : K := nth i (xq_b q) n0 + ldot (nth i (xq_B q) []) th.
  Definition mp_row (i : nat) (y : nat -> K) : K := rsum (map (fun j => at2 (xq_A q) i j * y j) (seq 0 n)).
  Definition mp_obj (half : K) (th : list K) (y : nat -> K) : K := half * qf n (at2 H) y + lf n (mp_lin th) y.
  Definition mp_feas (th : list K) (y : nat -> K) : Prop :=
    forall i, (i < length (xq_A q))%nat ->
      (In i eq -> mp_row i y = mp_rhs th i) /\ (~ In i eq -> ole (mp_row i y) (mp_rhs th i)).
  Definition mp_opt (half : K) (th : list K) (y : nat -> K) : Prop :=
    mp_feas th y /\ forall y', mp_feas th y' -> ole (mp_obj half th y) (mp_obj half th y').
  (** KKT conditions. *)
  Definition mp_stat (half : K) (th : list K) (y : nat -> K) (lam : list K) : Prop :=
    forall j, (j < n)%nat ->
      half * rsum (map (fun i => (at2 H i j + at2 H j i) * y i) (seq 0 n)) + mp_lin th j
      + rsum (map (fun i => at2 (xq_A q) i j * nth i lam n0) (seq 0 (length (xq_A q)))) = n0.
  Definition mp_signs (th : list K) (y : nat -> K) (lam : list K) : Prop :=
    forall i, (i < length (xq_A q))%nat -> ~ In i eq ->
      ole n0 (nth i lam n0) /\ (nth i lam n0 = n0 \/ mp_row i y = mp_rhs th i).
  Definition mp_kkt (half : K) (th : list K) (y : nat -> K) (lam : list K) : Prop :=
    mp_feas th y /\ mp_stat half th y lam /\ mp_signs th y lam.

  (** The table answers every theta of its box with a minimiser if there is one. *)
  Definition table_opt (half : K) (tab : list K -> list K * list K) : Prop :=
    forall th, length th = length (xq_min q) ->
      (forall j, (j < length th)%nat -> ole (nth j (xq_min q) n0) (nth j th n0) /\ ole (nth j th n0) (nth j (xq_max q) n0)) ->
      length (fst (tab th)) = n
      /\ ((exists y, mp_opt half th y) -> mp_opt half th (pt (fst (tab th)))).
  (** The same with multipliers. *)
  Definition table_kkt (half : K) (tab : list K -> list K * list K) : Prop :=
    forall th, length th = length (xq_min q) ->
      (forall j, (j < length th)%nat -> ole (nth j (xq_min q) n0) (nth j th n0) /\ ole (nth j th n0) (nth j (xq_max q) n0)) ->
      length (fst (tab th)) = n /\ length (snd (tab th)) = length (xq_A q)
      /\ ((exists y lam, length lam = length (xq_A q) /\ mp_kkt half th y lam)
          -> mp_kkt half th (pt (fst (tab th))) (snd (tab th))).
End ExplicitEndSpec.
Arguments at2 {K}. Arguments mp_lin {K}. Arguments mp_rhs {K}. Arguments mp_row {K}. Arguments mp_obj {K}. Arguments mp_feas {K}.
Arguments mp_opt {K}. Arguments mp_stat {K}. Arguments mp_signs {K}. Arguments mp_kkt {K}. Arguments table_opt {K}. Arguments table_kkt {K}.

Section RegSpec.
  Variable K : ORing.
  Local Open Scope num_scope.
  Variable x : cvx K.
  Variables half eps : K.

  (** |y|^2. *)
  Definition sqn (y : nat -> K) : K := rsum (map (fun j => y j * y j) (seq 0 (x_n x))).
  (** Best feasible point of the user's problem (minimisation form) with the regularisation. *)
  Definition reg_obj (v : list K) (y : nat -> K) : K := canon_obj x half v y + half * eps * sqn y.
  Definition reg_opt (v : list K) (y : nat -> K) : Prop :=
    u_feas x OSQP (fun _ => True) v y
    /\ forall y', u_feas x OSQP (fun _ => True) v y' -> ole (reg_obj v y) (reg_obj v y').
  (** KKT conditions with the gradient of the regularisation, 2*half*eps*y. *)
  Definition reg_kkt (v : list K) (y : nat -> K) (lam : list K) : Prop :=
    u_rel x OSQP (fun _ _ => True) v y lam
    /\ forall j, (j < x_n x)%nat ->
         u_grad x half v y j + half * (eps + eps) * y j
         + rsum (map (fun i => (if Nat.ltb i (x_neq x) then nth i lam n0 else - nth i lam n0) * cA x v i j)
                     (seq 0 (x_neq x + x_nineq x))) = n0.

  (** Values given by the user, limited to the declared bounds (the last one of each kind, else -big, big). *)
  Definition limited (lo hi v w : K) : Prop :=
    (ole lo v -> ole v hi -> w = v) /\ (~ ole lo v -> w = lo) /\ (~ ole v hi -> w = hi).

  (** Among the equality rows, no row with a variable comes after a row without. *)
  Definition zero_row (v : list K) (i : nat) : Prop := forall j, (j < x_n x)%nat -> cA x v i j = n0.
  Definition zero_eqs_last (v : list K) : Prop :=
    forall i i', (i < i' < x_neq x)%nat -> zero_row v i -> zero_row v i'.
End RegSpec.
Arguments sqn {K}. Arguments reg_obj {K}. Arguments reg_opt {K}. Arguments reg_kkt {K}. Arguments limited {K}.
Arguments zero_row {K}. Arguments zero_eqs_last {K}.
