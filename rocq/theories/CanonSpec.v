(** Specification of canonicalization: what the solver's canonical data must mean, in
    terms of the problem data that CVXPY hands over.  Matrix entries are sums over the
    stored entries; nothing here uses the selection, sign, densification or compression
    code of Canon.v. *)

From Coq Require Import String Arith Bool List.
From Verif Require Import Base Pus Machine Runtime RuntimeSpec Canon.
Import ListNotations.

Section CanonSpec.
  Variable K : Ring.
  Local Open Scope num_scope.

  (** Entry (i, j) of a compressed-column matrix: sum of the stored values of column j
      whose row index is i. *)
  Definition csc_entry (val : nat -> K) (idx ip : list nat) (i j : nat) : K :=
    rsum (map (fun k => if Nat.eqb (nth k idx 0%nat) i then val k else n0)
              (seq (nth j ip 0%nat) (nth (S j) ip 0%nat - nth j ip 0%nat)%nat)).

  (** Column pointers: [nc]+1 of them, from 0 to [n], never decreasing. *)
  Definition ip_wf (ip : list nat) (nc n : nat) : Prop :=
    length ip = S nc /\ nth 0 ip 0%nat = 0%nat /\ nth nc ip 0%nat = n
    /\ forall c, c < nc -> nth c ip 0%nat <= nth (S c) ip 0%nat.

  Variable x : cvx K.

  (** Entry (i, j) of CVXPY's constraint matrix for the flat parameter vector [v], and of
      its offset (stored as one more column). *)
  Definition cA (v : list K) (i j : nat) : K :=
    csc_entry (fun k => dot v (nth k (x_A x) [])) (x_Ai x) (x_Ap x) i j.
  Definition cb (v : list K) (i : nat) : K := cA v i (x_n x).

  (** Entry (i, j) of the quadratic term, linear term, offset. *)
  Definition cP (v : list K) (i j : nat) : K :=
    match x_P x with
    | None => n0
    | Some (rows, idx, ip) => csc_entry (fun k => dot v (nth k rows [])) idx ip i j
    end.
  Definition cq (v : list K) (j : nat) : K := dot v (nth j (x_q x) []).
  Definition cd (v : list K) : K := dot v (nth (x_n x) (x_q x) []).

  (** CVXPY's constraint expression (A x + b)_i at the point [y]: equalities mean = 0,
      the others >= 0 (or membership in a cone). *)
  Definition resid (v : list K) (y : nat -> K) (i : nat) : K :=
    rsum (map (fun j => cA v i j * y j) (seq 0 (x_n x))) + cb v i.

  (** Shape of the data CVXPY provides. *)
  Record wf_cvx (th0 : pvals K) : Prop :=
    { wx_names : NoDup (map fst (x_params x));
      wx_flat : x_flat x = flat (x_params x) th0;
      wx_Ap : ip_wf (x_Ap x) (S (x_n x)) (length (x_Ai x));
      wx_A : length (x_A x) = length (x_Ai x);
      wx_Ai : forall i, In i (x_Ai x) -> i < x_neq x + x_nineq x;
      wx_b : NoDup (skipn (nth (x_n x) (x_Ap x) 0%nat) (x_Ai x));
      wx_colsA : forall r c w, In r (x_A x) -> In (c, w) r -> c < length (x_flat x);
      wx_q : length (x_q x) = S (x_n x);
      wx_colsq : forall r c w, In r (x_q x) -> In (c, w) r -> c < length (x_flat x);
      wx_P : forall rows idx ip, x_P x = Some (rows, idx, ip) ->
               ip_wf ip (x_n x) (length idx) /\ length rows = length idx
               /\ forall r c w, In r rows -> In (c, w) r -> c < length (x_flat x) }.

  (** How each solver interface sets n_eq / n_ineq (osqp.py via QPCanonMixin 32-37,
      scs.py 120-121, clarabel.py 130-131, ecos.py 79-80, qoco.py) and when the quadratic
      block exists. *)
  Definition wf_for (s : solver) : Prop :=
    match s with
    | SCS lp | CLARABEL lp => x_nineq x = 0%nat /\ (lp = true -> x_P x = None)
    | QOCO lp | QOCOGEN lp => lp = true -> x_P x = None
    | ECOS => x_P x = None
    | OSQP => True
    end.
End CanonSpec.
Arguments csc_entry {K}. Arguments cA {K}. Arguments cb {K}. Arguments cP {K}. Arguments cq {K}.
Arguments cd {K}. Arguments resid {K}. Arguments wf_cvx {K}. Arguments wf_for {K}.
