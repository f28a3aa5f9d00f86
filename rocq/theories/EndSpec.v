(** What whole sessions are compared with: optimal points and multipliers of the user's problem (CVXPY's
    canonical data at a parameter vector) and of the problem given to a solver (the data of one solve). *)

From Coq Require Import String Arith Bool List.
From Verif Require Import Base Pus Machine Runtime RuntimeSpec Canon CanonSpec CanonProblem Info Retrieve.
Import ListNotations.
Open Scope list_scope.

(** Entries of block [id] in a vector made of the blocks [l] (id, size) in order. *)
Definition cut {K} (l : list (nat * nat)) (id : nat) (v : list K) : list K :=
  match lookup id (var_offsets 0 l), lookup id l with
  | Some o, Some z => firstn z (skipn o v)
  | _, _ => []
  end.
Definition total (l : list (nat * nat)) : nat := fold_right (fun e a => snd e + a) 0 l.

Section EndSpec.
  Variable K : ORing.
  Local Open Scope num_scope.
  Variable big : K.
  Variable x : cvx K.
  Variable s : solver.
  Notation n := (x_n x).
  Notation m := (x_neq x + x_nineq x)%nat.

  (** A vector as a point. *)
  Definition pt (l : list K) : nat -> K := fun j => nth j l n0.

  (** *** The user's problem for the flat parameter vector [v] *)

  (** Values of all constraint expressions. *)
  Definition u_slacks (v : list K) (y : nat -> K) : list K := map (resid x v y) (seq 0 m).
  (** Quadratic programs: equalities, then nonnegative expressions. *)
  Definition qp_set (r : list K) : Prop :=
    forall i, (i < m)%nat -> if Nat.ltb i (x_neq x) then nth i r n0 = n0 else ole n0 (nth i r n0).
  (** Conic programs: an arbitrary set [cone] of expression values (zero, nonnegative, second-order, ...
      cones one after the other). *)
  Definition u_feas (cone : list K -> Prop) (v : list K) (y : nat -> K) : Prop :=
    if is_qp s then qp_set (u_slacks v y) else cone (u_slacks v y).
  (** Best feasible point in the sense of the problem (minimise or maximise). *)
  Definition u_opt (cone : list K -> Prop) (half : K) (v : list K) (y : nat -> K) : Prop :=
    u_feas cone v y
    /\ forall y', u_feas cone v y' ->
         if x_max x then ole (user_obj x half v y') (user_obj x half v y) else ole (user_obj x half v y) (user_obj x half v y').

  (** CVXPY's minimisation form, its gradient, and the KKT conditions of the user's problem: the
      multipliers of inequality and cone rows enter with a minus, those of a QP's equality rows with a plus. *)
  Definition canon_obj (half : K) (v : list K) (y : nat -> K) : K :=
    half * qf (x_n x) (cP x v) y + lf (x_n x) (cq x v) y + cd x v.
  Definition u_grad (half : K) (v : list K) (y : nat -> K) (j : nat) : K :=
    half * rsum (map (fun i => (cP x v i j + cP x v j i) * y i) (seq 0 n)) + cq x v j.
  Definition u_stat (half : K) (v : list K) (y : nat -> K) (lam : list K) : Prop :=
    forall j, (j < n)%nat ->
      u_grad half v y j
      + rsum (map (fun i => (if is_qp s && Nat.ltb i (x_neq x) then nth i lam n0 else - nth i lam n0) * cA x v i j) (seq 0 m))
      = n0.
  (** QP: feasible, nonnegative multipliers of inequalities, complementary. *)
  Definition qp_rel (r lam : list K) : Prop :=
    qp_set r /\ forall i, (x_neq x <= i < m)%nat -> ole n0 (nth i lam n0) /\ (nth i lam n0 = n0 \/ nth i r n0 = n0).
  (** Conic programs: an arbitrary relation [rel] between expression values and multipliers (both in their
      cones, orthogonal). *)
  Definition u_rel (rel : list K -> list K -> Prop) (v : list K) (y : nat -> K) (lam : list K) : Prop :=
    if is_qp s then qp_rel (u_slacks v y) lam else rel (u_slacks v y) lam.
  Definition u_kkt rel (half : K) (v : list K) (y : nat -> K) (lam : list K) : Prop := u_stat half v y lam /\ u_rel rel v y lam.

  (** The right-hand sides are below OSQP's infinity. *)
  Definition small (v : list K) : Prop := forall i, (i < m)%nat -> ~ ole big (cb x v i) /\ ~ ole (cb x v i) (- big).

  (** *** The problem a solver is given *)

  (** Rows and right-hand sides: one matrix A (OSQP, SCS, Clarabel) or A above G. *)
  Definition s_row (e : entry K) (i j : nat) : K :=
    if is_qp s then dmat K big x s e pA i j
    else if Nat.ltb i (x_neq x) then dmat K big x s e pA i j else dmat K big x s e pG (i - x_neq x) j.
  Definition s_rhs (e : entry K) (i : nat) : K :=
    if Nat.ltb i (x_neq x) then dvec K e pb i else dvec K e ph (i - x_neq x).
  Definition s_slacks (e : entry K) (y : nat -> K) : list K :=
    map (fun i => s_rhs e i - mv K x (s_row e) y i) (seq 0 m).
  (** OSQP: l <= A y <= u, where bounds beyond -big, big count as absent. *)
  Definition bounds_hold (e : entry K) (y : nat -> K) : Prop :=
    forall i, (i < m)%nat ->
      (ole (dvec K e pl i) (- big) \/ ole (dvec K e pl i) (mv K x (s_row e) y i))
      /\ (ole big (dvec K e pu i) \/ ole (mv K x (s_row e) y i) (dvec K e pu i)).
  Definition s_feas (cone : list K -> Prop) (e : entry K) (y : nat -> K) : Prop :=
    if is_qp s then bounds_hold e y else cone (s_slacks e y).
  Definition s_opt (cone : list K -> Prop) (half : K) (e : entry K) (y : nat -> K) : Prop :=
    s_feas cone e y /\ forall y', s_feas cone e y' -> ole (solver_obj big x half s e y) (solver_obj big x half s e y').

  Definition s_grad (half : K) (e : entry K) (y : nat -> K) (j : nat) : K :=
    (if mem_pid pP (solver_pids s)
     then half * rsum (map (fun i => (dmat K big x s e pP i j + dmat K big x s e pP j i) * y i) (seq 0 n)) else n0)
    + dvec K e (qc_of s) j.
  Definition s_stat (half : K) (e : entry K) (y : nat -> K) (lam : list K) : Prop :=
    forall j, (j < n)%nat -> s_grad half e y j + rsum (map (fun i => s_row e i j * nth i lam n0) (seq 0 m)) = n0.
  (** OSQP: a positive multiplier needs an active finite upper bound, a negative one an active finite lower bound. *)
  Definition qp_signs (e : entry K) (y : nat -> K) (lam : list K) : Prop :=
    forall i, (i < m)%nat ->
      (~ ole (nth i lam n0) n0 -> ~ ole big (dvec K e pu i) /\ mv K x (s_row e) y i = dvec K e pu i)
      /\ (~ ole n0 (nth i lam n0) -> ~ ole (dvec K e pl i) (- big) /\ mv K x (s_row e) y i = dvec K e pl i).
  Definition s_rel (rel : list K -> list K -> Prop) (e : entry K) (y : nat -> K) (lam : list K) : Prop :=
    if is_qp s then bounds_hold e y /\ qp_signs e y lam else rel (s_slacks e y) lam.
  Definition s_kkt rel (half : K) (e : entry K) (y : nat -> K) (lam : list K) : Prop := s_stat half e y lam /\ s_rel rel e y lam.
End EndSpec.
Arguments pt {K}. Arguments u_slacks {K}. Arguments qp_set {K}. Arguments u_feas {K}. Arguments u_opt {K}. Arguments canon_obj {K}.
Arguments u_grad {K}. Arguments u_stat {K}. Arguments qp_rel {K}. Arguments u_rel {K}. Arguments u_kkt {K}. Arguments small {K}.
Arguments s_row {K}. Arguments s_rhs {K}. Arguments s_slacks {K}. Arguments bounds_hold {K}. Arguments s_feas {K}. Arguments s_opt {K}.
Arguments s_grad {K}. Arguments s_stat {K}. Arguments qp_signs {K}. Arguments s_rel {K}. Arguments s_kkt {K}.
