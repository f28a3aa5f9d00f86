(** Specification vocabulary for the gradient code, on the arrays themselves and independent
    of the algorithms: the matrix held by compressed columns, products, linear systems. *)

From Coq Require Import Arith Bool ZArith Lia List Sorted.
From Verif Require Import Base Runtime Sparse.
Import ListNotations.

Section Csc.
  Context {K : Type}.
  Definition cptr (M : csc K) (j : nat) : nat := nth j (c_p M) 0.
  (** Positions, rows and values of column [j]. *)
  Definition rows (M : csc K) (j : nat) : list nat := firstn (cptr M (S j) - cptr M j) (skipn (cptr M j) (c_i M)).
  Definition vals (M : csc K) (j : nat) : list K := firstn (cptr M (S j) - cptr M j) (skipn (cptr M j) (c_x M)).

  (** Well-formed compressed columns: [N] columns, rows increasing in each. *)
  Record csc_ok (N : nat) (M : csc K) : Prop := mkCscOk
    { o_p : length (c_p M) = S N;
      o_0 : cptr M 0 = 0;
      o_mono : forall j, j < N -> cptr M j <= cptr M (S j);
      o_n : c_n M = cptr M N;
      o_x : length (c_x M) = length (c_i M);
      o_cap : c_n M <= length (c_i M);
      o_sorted : forall j, j < N -> StronglySorted lt (rows M j) }.
End Csc.

Section Entry.
  Variable F : Ring.
  Local Open Scope num_scope.
  (** The matrix entry: the sum of the stored values at that place (0 if none). *)
  Definition entry (M : csc F) (i j : nat) : F :=
    rsum (map snd (filter (fun e => Nat.eqb (fst e) i) (combine (rows M j) (vals M j)))).
  (** Unit lower triangular: the diagonal is implicit. *)
  Definition unit_entry (M : csc F) (i j : nat) : F := if Nat.eqb i j then n1 else entry M i j.
  (** A symmetric matrix stored by its upper triangle. *)
  Definition sym_entry (M : csc F) (i j : nat) : F := if Nat.leb i j then entry M i j else entry M j i.
  (** Entry (p, q) of L D L^T. *)
  Definition ldlt (N : nat) (L : csc F) (D : list F) (p q : nat) : F :=
    rsum (map (fun k => unit_entry L p k * nth k D n0 * unit_entry L q k) (seq 0 N)).
  (** Rows and columns of inactive indices replaced by those of minus the identity. *)
  Definition masked (act : nat -> bool) (M : nat -> nat -> F) (p q : nat) : F :=
    if act p && act q then M p q else if Nat.eqb p q then - n1 else n0.
  (** Matrix-vector product, and solutions of a linear system. *)
  Definition mulv (N : nat) (M : nat -> nat -> F) (x : list F) (p : nat) : F :=
    rsum (map (fun q => M p q * nth q x n0) (seq 0 N)).
  (** [d] is the [j]-th pivot of elimination without row exchanges: some vector ending in a 1 at
      place [j] is mapped to zeros at the earlier places and [d] at place [j]. *)
  Definition pivot (N : nat) (M : nat -> nat -> F) (j : nat) (d : F) : Prop :=
    exists v : nat -> F, v j = n1 /\ (forall q, j < q -> v q = n0)
      /\ forall i, i <= j -> rsum (map (fun q => M i q * v q) (seq 0 N)) = if Nat.eqb i j then d else n0.
  (** Elimination without row exchanges breaks down, or a pivot of the trailing part (the
      constraints) has no square root after a change of sign. *)
  Definition stuck (n N : nat) (sqr : F -> res F) (M : nat -> nat -> F) : Prop :=
    (exists j, j < N /\ pivot N M j n0) \/ (exists j d e, n <= j < N /\ pivot N M j d /\ sqr (- d) = Err e).
  (** The set of errors [Er] takes breakdowns into account: it contains them unless none of the
      matrices obtained by (de)activating constraints has one. *)
  Definition admits (n N : nat) (sqr : F -> res F) (Er : exn -> Prop) (M : nat -> nat -> F) : Prop :=
    forall act, (forall k, k < n -> act k = true) -> stuck n N sqr (masked act M) -> Er Arith.
  Definition solves (N : nat) (M : nat -> nat -> F) (x b : list F) : Prop :=
    length x = N /\ forall p, p < N -> mulv N M x p = nth p b n0.
End Entry.
Arguments entry {F}. Arguments unit_entry {F}. Arguments sym_entry {F}. Arguments ldlt {F}. Arguments masked {F}.
Arguments mulv {F}. Arguments solves {F}. Arguments pivot {F}. Arguments stuck {F}. Arguments admits {F}.
