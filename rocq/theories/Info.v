(** The objective value that generated code reports (utils.py 977-985). *)

From Coq Require Import String Arith Bool Lia List Permutation Ring.
From Verif Require Import Base Pus Machine PusParse PusCheck PusLift Runtime RuntimeSpec
     RuntimeProofs Canon CanonSpec CanonProofs CanonMain CanonGen CanonProblem CanonMore.
Import ListNotations.

Section Info.
  Variable K : Ring.
  Add Ring Kring : (rth K).
  Local Open Scope num_scope.

  (** utils.py 980: [CPG_Info.obj_val = -(<solver objective> + Canon_Params.d)], with the
      minus only for maximisation and the offset only if [nonzero_d]; the status, residual
      and iteration fields next to it (981-984) are plain copies and are not modelled.
      [Canon_Params.d] is read at the end of cpg_solve, hence the entry's offset. *)
  Definition retrieve_obj (g : genc K) (e : entry K) (so : K) : K :=
    let t := if g_nonzero_d g then so + nth 0 (e_d e) n0 else so in
    if g_max g then - t else t.

  (** y' P y and q' y. *)
  Definition qf (n : nat) (P : nat -> nat -> K) (y : nat -> K) : K :=
    rsum (map (fun i => rsum (map (fun j => y i * P i j * y j) (seq 0 n))) (seq 0 n)).
  Definition lf (n : nat) (q : nat -> K) (y : nat -> K) : K :=
    rsum (map (fun j => q j * y j) (seq 0 n)).

  Lemma qf_ext : forall n P P' y, (forall i j, (j < n)%nat -> P i j = P' i j) -> qf n P y = qf n P' y.
  Proof.
    intros n P P' y H. unfold qf. apply rsum_ext. intros i Hi. apply rsum_ext. intros j Hj.
    apply in_seq in Hj. rewrite H by lia. reflexivity.
  Qed.
  Lemma lf_ext : forall n q q' y, (forall j, (j < n)%nat -> q j = q' j) -> lf n q y = lf n q' y.
  Proof.
    intros n q q' y H. unfold lf. apply rsum_ext. intros j Hj. apply in_seq in Hj.
    rewrite H by lia. reflexivity.
  Qed.
  Lemma qf_zero : forall n P y, (forall i j, P i j = n0) -> qf n P y = n0.
  Proof.
    intros n P y H. unfold qf. apply rsum_zero. intros i _. apply rsum_zero. intros j _.
    rewrite H. ring.
  Qed.

  Variable big : K.
  Variable x : cvx K.

  (** The objective a solver reports at point [y]: half y'Py + q'y on the data it was
      given (no quadratic term for a solver interface without block P). *)
  Definition solver_obj (half : K) (s : solver) (e : entry K) (y : nat -> K) : K :=
    (if mem_pid pP (solver_pids s) then half * qf (x_n x) (dmat K big x s e pP) y else n0)
    + lf (x_n x) (dvec K e (qc_of s)) y.

  (** CVXPY's objective at [y] for parameter vector [v]: the canonical problem minimises,
      so a maximisation problem's objective is its negative. *)
  Definition user_obj (half : K) (v : list K) (y : nat -> K) : K :=
    let t := half * qf (x_n x) (cP x v) y + lf (x_n x) (cq x v) y + cd x v in
    if x_max x then - t else t.

  Variable th0 : pvals K.
  Hypothesis W : wf_cvx x th0.

  Lemma obj_reported : forall s order g e v half y, (forall l, Permutation l (order l)) ->
      generate big x s order = Ok g -> wf_for x s -> means K big x s e v ->
      retrieve_obj g e (solver_obj half s e y) = user_obj half v y.
  Proof.
    intros s order g e v half y Hord Hg Hwf Hm.
    assert (obj_means K big x s (qc_of s) e v) as (HP & HL & Hq & Hd).
    { destruct s as [|[]| |[]|[]|[]]; simpl in Hm; apply Hm. }
    unfold retrieve_obj, user_obj, solver_obj. rewrite (gen_max K big x s order g Hg).
    assert (E : (if mem_pid pP (solver_pids s) then half * qf (x_n x) (dmat K big x s e pP) y else n0)
                = half * qf (x_n x) (cP x v) y).
    { destruct (mem_pid pP (solver_pids s)) eqn:Em.
      - apply mem_pid_In in Em. rewrite (qf_ext _ _ (cP x v)); auto.
      - assert (x_P x = None) as E0.
        { destruct s as [|[]| |[]|[]|[]]; simpl in Em, Hwf; try discriminate; try tauto. }
        rewrite qf_zero; [ring|]. intros i j. unfold cP. rewrite E0. reflexivity. }
    rewrite E. rewrite (lf_ext _ (dvec K e (qc_of s)) (cq x v)) by auto. rewrite Hd. simpl nth.
    destruct (g_nonzero_d g) eqn:En; [reflexivity|].
    rewrite (offset_zero K big x th0 W s order g Hg En v).
    destruct (x_max x); ring.
  Qed.
End Info.
Arguments retrieve_obj {K}. Arguments solver_obj {K}. Arguments user_obj {K}. Arguments qf {K}. Arguments lf {K}.
