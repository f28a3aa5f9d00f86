(** Common vocabulary: results with Python exceptions, arithmetic carriers,
    list and array helpers.  Nothing in this file models cvxpygen itself. *)

From Coq Require Import String Arith Bool ZArith Lia Ring Ring_theory Field Field_theory.
From Coq Require Import QArith Qcanon List.
Import ListNotations.
Close Scope Q_scope.
Close Scope Qc_scope.
Open Scope nat_scope.

Set Implicit Arguments.
Set Asymmetric Patterns.

(** Python exceptions that the modelled code can raise. *)
Inductive exn :=
| KeyError | IndexError | ValueError | AttributeError | TypeError
| AssertionError | RecursionError
| OutOfBounds   (* C: access outside an array *)
| Arith.        (* C: division by zero or root of a negative number *)

Inductive res (A : Type) :=
| Ok (a : A)
| Err (e : exn).
Arguments Ok {A} a.
Arguments Err {A} e.

Definition bind {A B} (x : res A) (f : A -> res B) : res B :=
  match x with Ok a => f a | Err e => Err e end.
Notation "x <- e ;; f" := (bind e (fun x => f))
  (at level 61, e at next level, right associativity).
Notation "' p <- e ;; f" := (bind e (fun x => match x with p => f end))
  (at level 61, p pattern, e at next level, right associativity).

(** Arithmetic carriers.  [Num] assumes no law at all (IEEE doubles qualify);
    [Ring], [ORing], [Fld] add the laws that some theorems need. *)
Record Num := mkNum
  { car :> Type; n0 : car; n1 : car; nadd : car -> car -> car; nmul : car -> car -> car }.
Arguments n0 {n}. Arguments n1 {n}. Arguments nadd {n}. Arguments nmul {n}.

Record Ring := mkRing
  { rnum :> Num;
    rsub : rnum -> rnum -> rnum;
    ropp : rnum -> rnum;
    rth : ring_theory (@n0 rnum) (@n1 rnum) (@nadd rnum) (@nmul rnum) rsub ropp (@eq rnum);
    rz : rnum -> bool;
    rz_spec : forall x, rz x = true <-> x = n0 }.
Arguments rsub {r}. Arguments ropp {r}. Arguments rz {r}.

Record ORing := mkORing
  { oring :> Ring;
    ole : oring -> oring -> Prop;
    oleb : oring -> oring -> bool;
    oleb_spec : forall x y, oleb x y = true <-> ole x y;
    ole_refl : forall x, ole x x;
    ole_trans : forall x y z, ole x y -> ole y z -> ole x z;
    ole_antisym : forall x y, ole x y -> ole y x -> x = y;
    ole_total : forall x y, ole x y \/ ole y x;
    ole_add : forall x y z, ole x y -> ole (nadd z x) (nadd z y);
    ole_mul : forall x y, ole n0 x -> ole n0 y -> ole n0 (nmul x y) }.
Arguments ole {o}. Arguments oleb {o}.

Record Fld := mkFld
  { fring :> Ring;
    fdiv : fring -> fring -> fring;
    finv : fring -> fring;
    fth : field_theory (@n0 fring) (@n1 fring) (@nadd fring) (@nmul fring)
                       (@rsub fring) (@ropp fring) fdiv finv (@eq fring) }.
Arguments fdiv {f}. Arguments finv {f}.

Declare Scope num_scope.
Delimit Scope num_scope with num.
Infix "+" := nadd : num_scope.
Infix "*" := nmul : num_scope.
Infix "-" := rsub : num_scope.
Notation "- x" := (ropp x) : num_scope.
Infix "/" := fdiv : num_scope.

(** Instances used by the examples. *)
Definition ZNum : Num := mkNum 0%Z 1%Z Z.add Z.mul.

Lemma Zring_th : ring_theory 0%Z 1%Z Z.add Z.mul Z.sub Z.opp (@eq Z).
Proof. constructor; intros; try ring. Qed.

Definition ZRing : Ring :=
  @mkRing ZNum Z.sub Z.opp Zring_th (fun x => Z.eqb x 0) (fun x => Z.eqb_eq x 0).

Definition ZORing : ORing.
Proof.
  refine (@mkORing ZRing Z.le Z.leb _ _ _ _ _ _ _); simpl; intros.
  - apply Z.leb_le.
  - lia.
  - lia.
  - lia.
  - lia.
  - lia.
  - apply Z.mul_nonneg_nonneg; assumption.
Defined.

Definition QcNum : Num := mkNum 0%Qc 1%Qc Qcplus Qcmult.

Definition QcIsZero (x : Qc) : bool := if Qc_eq_dec x 0%Qc then true else false.

Lemma QcIsZero_spec : forall x, QcIsZero x = true <-> x = 0%Qc.
Proof.
  intro x. unfold QcIsZero. destruct (Qc_eq_dec x 0%Qc); split; intro; auto; congruence.
Qed.

Lemma Qcring_th : ring_theory 0%Qc 1%Qc Qcplus Qcmult Qcminus Qcopp (@eq Qc).
Proof. constructor; intros; ring. Qed.

Definition QcRing : Ring := @mkRing QcNum Qcminus Qcopp Qcring_th QcIsZero QcIsZero_spec.

Lemma Qcfield_th :
  field_theory 0%Qc 1%Qc Qcplus Qcmult Qcminus Qcopp Qcdiv Qcinv (@eq Qc).
Proof.
  constructor.
  - apply Qcring_th.
  - discriminate.
  - reflexivity.
  - intros. rewrite Qcmult_comm. apply Qcmult_inv_r. assumption.
Qed.

Definition QcFld : Fld := @mkFld QcRing Qcdiv Qcinv Qcfield_th.

(** Arrays as lists. *)
Fixpoint upd {A} (l : list A) (k : nat) (v : A) : list A :=
  match l, k with
  | [], _ => []
  | _ :: t, O => v :: t
  | x :: t, S k' => x :: upd t k' v
  end.

Lemma upd_length : forall A (l : list A) k v, length (upd l k v) = length l.
Proof. induction l; destruct k; simpl; intros; auto. Qed.

Lemma nth_upd_eq : forall A (l : list A) k v d, k < length l -> nth k (upd l k v) d = v.
Proof. induction l; destruct k; simpl; intros; auto; try lia. apply IHl. lia. Qed.

Lemma nth_upd_neq : forall A (l : list A) k j v d, j <> k -> nth j (upd l k v) d = nth j l d.
Proof.
  induction l; destruct k; simpl; intros; auto.
  - destruct j; auto. congruence.
  - destruct j; auto.
Qed.

Lemma nth_ext_len : forall A (l1 l2 : list A) d,
    length l1 = length l2 -> (forall k, k < length l1 -> nth k l1 d = nth k l2 d) -> l1 = l2.
Proof. intros. eapply nth_ext; eauto. Qed.

(** Sums. *)
Section Sums.
  Variable N : Num.
  Definition nsum (l : list N) : N := fold_left nadd l n0.
End Sums.
Arguments nsum {N}.

Section RingSums.
  Variable K : Ring.
  Add Ring Kring : (rth K).
  Local Open Scope num_scope.

  Fixpoint rsum (l : list K) : K :=
    match l with [] => n0 | x :: t => x + rsum t end.

  Lemma fold_add_rsum : forall (l : list K) a, fold_left nadd l a = a + rsum l.
  Proof.
    induction l; intros; simpl.
    - ring.
    - rewrite IHl. ring.
  Qed.

  Lemma nsum_rsum : forall l, @nsum K l = rsum l.
  Proof. intro. unfold nsum. rewrite fold_add_rsum. ring. Qed.

  Lemma rsum_app : forall l1 l2, rsum (l1 ++ l2) = rsum l1 + rsum l2.
  Proof. induction l1; intros; simpl. ring. rewrite IHl1. ring. Qed.

  Lemma rsum_map_add : forall A (f g : A -> K) l,
      rsum (map (fun x => f x + g x) l) = rsum (map f l) + rsum (map g l).
  Proof. induction l; simpl. ring. rewrite IHl. ring. Qed.

  Lemma rsum_map_mul : forall A (f : A -> K) c l,
      rsum (map (fun x => c * f x) l) = c * rsum (map f l).
  Proof. induction l; simpl. ring. rewrite IHl. ring. Qed.

  Lemma rsum_map_mul_r : forall A (f : A -> K) c l,
      rsum (map (fun x => f x * c) l) = rsum (map f l) * c.
  Proof. induction l; simpl. ring. rewrite IHl. ring. Qed.

  Lemma rsum_map_opp : forall A (f : A -> K) l,
      rsum (map (fun x => - f x) l) = - rsum (map f l).
  Proof. induction l; simpl. ring. rewrite IHl. ring. Qed.

  Lemma rsum_zero : forall A (f : A -> K) l,
      (forall x, In x l -> f x = n0) -> rsum (map f l) = n0.
  Proof.
    induction l; simpl; intros; auto.
    rewrite H by auto. rewrite IHl by auto. ring.
  Qed.

  Lemma rsum_ext : forall A (f g : A -> K) l,
      (forall x, In x l -> f x = g x) -> rsum (map f l) = rsum (map g l).
  Proof. induction l; simpl; intros; auto. rewrite H, IHl; auto. Qed.

  Lemma rsum_swap : forall A B (f : A -> B -> K) la lb,
      rsum (map (fun a => rsum (map (fun b => f a b) lb)) la)
      = rsum (map (fun b => rsum (map (fun a => f a b) la)) lb).
  Proof.
    induction la; simpl; intros.
    - symmetry. apply rsum_zero. auto.
    - rewrite IHla. rewrite <- rsum_map_add. reflexivity.
  Qed.

  (** A sum over [seq] in which exactly one index contributes. *)
  Lemma rsum_single : forall (f : nat -> K) n s k,
      s <= k < s + n ->
      (forall j, s <= j < s + n -> j <> k -> f j = n0) ->
      rsum (map f (seq s n)) = f k.
  Proof.
    induction n; simpl; intros. lia.
    destruct (Nat.eq_dec s k).
    - subst. rewrite rsum_zero. ring.
      intros x Hx. apply in_seq in Hx. apply H0; lia.
    - rewrite H0 by lia. rewrite IHn with (k := k). ring. lia.
      intros. apply H0; lia.
  Qed.
End RingSums.
Arguments rsum {K}.

(** Canonical parameter identifiers ('P', 'q', ... in the Python code). *)
Inductive pid := pP | pq | pd | pA | pl | pu | pc | pb | pG | ph.

Definition pid_eqb (x y : pid) : bool :=
  match x, y with
  | pP, pP | pq, pq | pd, pd | pA, pA | pl, pl | pu, pu | pc, pc | pb, pb | pG, pG | ph, ph => true
  | _, _ => false
  end.

Lemma pid_eqb_spec : forall x y, pid_eqb x y = true <-> x = y.
Proof. destruct x, y; simpl; split; intro; congruence. Qed.

Lemma pid_eqb_refl : forall x, pid_eqb x x = true.
Proof. destruct x; reflexivity. Qed.

Lemma pid_eqb_neq : forall x y, pid_eqb x y = false <-> x <> y.
Proof. destruct x, y; simpl; split; intro; congruence. Qed.

Definition pid_eq_dec : forall x y : pid, {x = y} + {x <> y}.
Proof. decide equality. Defined.

(** [p_id.isupper()] *)
Definition pid_upper (p : pid) : bool :=
  match p with pP | pA | pG => true | _ => false end.

Definition pid_name (p : pid) : string :=
  match p with
  | pP => "P" | pq => "q" | pd => "d" | pA => "A" | pl => "l" | pu => "u"
  | pc => "c" | pb => "b" | pG => "G" | ph => "h"
  end%string.

Definition mem_pid (p : pid) (l : list pid) : bool := existsb (pid_eqb p) l.

Lemma mem_pid_In : forall p l, mem_pid p l = true <-> In p l.
Proof.
  intros. unfold mem_pid. rewrite existsb_exists. split.
  - intros [x [H1 H2]]. apply pid_eqb_spec in H2. subst. auto.
  - intro. exists p. split; auto. apply pid_eqb_refl.
Qed.

Definition mem_str (s : string) (l : list string) : bool := existsb (String.eqb s) l.

Lemma mem_str_In : forall s l, mem_str s l = true <-> In s l.
Proof.
  intros. unfold mem_str. rewrite existsb_exists. split.
  - intros [x [H1 H2]]. apply String.eqb_eq in H2. subst. auto.
  - intro. exists s. split; auto. apply String.eqb_refl.
Qed.

(** Association lists as Python dicts (first match wins; [dict_set] replaces in
    place or appends, like assignment to a Python dict). *)
Fixpoint assoc {A} (k : string) (l : list (string * A)) : option A :=
  match l with
  | [] => None
  | (k', v) :: t => if String.eqb k k' then Some v else assoc k t
  end.

Fixpoint dict_set {A} (k : string) (v : A) (l : list (string * A)) : list (string * A) :=
  match l with
  | [] => [(k, v)]
  | (k', v') :: t => if String.eqb k k' then (k', v) :: t else (k', v') :: dict_set k v t
  end.

Lemma assoc_dict_set_eq : forall A k (v : A) l, assoc k (dict_set k v l) = Some v.
Proof.
  induction l as [|[k' v'] t]; simpl.
  - rewrite String.eqb_refl. auto.
  - destruct (String.eqb k k') eqn:E; simpl; rewrite E; auto.
Qed.

Lemma assoc_dict_set_neq : forall A k k' (v : A) l,
    k' <> k -> assoc k' (dict_set k v l) = assoc k' l.
Proof.
  induction l as [|[k2 v2] t]; simpl; intros.
  - apply String.eqb_neq in H. rewrite H. auto.
  - destruct (String.eqb k k2) eqn:E; simpl.
    + apply String.eqb_eq in E. subst k2.
      apply String.eqb_neq in H. rewrite H. auto.
    + destruct (String.eqb k' k2); auto.
Qed.

Lemma Forall2_impl : forall A B (P Q : A -> B -> Prop) l l',
    (forall a b, P a b -> Q a b) -> Forall2 P l l' -> Forall2 Q l l'.
Proof. induction 2; constructor; auto. Qed.

(** For witnesses: decide success of a computation without normalising its result. *)
Definition is_ok {A} (r : res A) : bool := match r with Ok _ => true | Err _ => false end.
Definition on_ok {A} (r : res A) (f : A -> bool) : bool := match r with Ok a => f a | Err _ => false end.
Lemma on_ok_true : forall A (r : res A) f, on_ok r f = true -> exists a, r = Ok a /\ f a = true.
Proof. intros A [a|e] f H; simpl in H; [eauto|discriminate]. Qed.
