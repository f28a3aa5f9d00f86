(** A concrete problem used to show that the hypotheses of the theorems can be met:
    two variables, parameters p (2 entries) and q (1 entry), integer arithmetic.
      minimise  (quadratic term if hasP)  q*x0 + x1 + 2 q
      rows 0,1: x0 + q = 0,  2 x1 = 0;   rows 2,3: p0 x0 >= 0,  x1 + p1 >= 0. *)

From Coq Require Import String Arith Bool Lia List Permutation ZArith.
From Verif Require Import Base Pus Machine PusParse PusCheck PusLift Runtime RuntimeSpec RuntimeProofs
     Canon CanonSpec CanonGen.
Import ListNotations.
Open Scope string_scope.
Open Scope list_scope.

Definition ex_th0 : pvals ZRing :=
  fun n i => if String.eqb n "p" then (match i with 0 => 3%Z | _ => 4%Z end) else 5%Z.

Definition ex_params : list (string * nat) := [("p", 2); ("q", 1)].

Definition ex_P : list (row ZRing) * list nat * list nat :=
  ([[(3, 2%Z)]; [(0, 1%Z)]], [0; 1], [0; 1; 2]).

Definition ex_x (neq nineq : nat) (hasP : bool) : cvx ZRing :=
  mkCvx ZRing ex_params [3; 4; 5; 1]%Z 2 neq nineq
        (if hasP then Some ex_P else None)
        [[(2, 1%Z)]; [(3, 1%Z)]; [(2, 2%Z)]]
        [[(3, 1%Z)]; [(0, 1%Z)]; [(3, 2%Z)]; [(3, 1%Z)]; [(2, 1%Z)]; [(1, 1%Z)]]
        [0; 2; 1; 3; 0; 3] [0; 2; 4; 6] false.

Definition ex_big : Z := 1000000%Z.

(** The instance for each solver, with the row split the interface asks for. *)
Definition ex_for (s : solver) : cvx ZRing :=
  match s with
  | OSQP => ex_x 2 2 true
  | SCS lp | CLARABEL lp => ex_x 4 0 (negb lp)
  | ECOS => ex_x 2 2 false
  | QOCO lp | QOCOGEN lp => ex_x 2 2 (negb lp)
  end.

Ltac fin := repeat match goal with
  | H : In _ [] |- _ => destruct H
  | H : In _ (_ :: _) |- _ => destruct H as [H|H]
  | H : _ \/ _ |- _ => destruct H as [H|H]
  | H : False |- _ => destruct H
  | H : @eq (row _) _ _ |- _ => subst
  | H : @eq (list _) _ _ |- _ => subst
  | H : (_, _) = (_, _) |- _ => inversion H; subst; clear H
  end; simpl; try lia.

Lemma ex_wf_x : forall neq nineq hasP, neq + nineq = 4 -> wf_cvx (ex_x neq nineq hasP) ex_th0.
Proof.
  intros neq nineq hasP H. constructor.
  - repeat constructor; simpl; intuition discriminate.
  - reflexivity.
  - split; [reflexivity|]. split; [reflexivity|]. split; [reflexivity|].
    intros c Hc. simpl in Hc. destruct c as [|[|[|]]]; simpl; lia.
  - reflexivity.
  - intros i Hi. simpl in *. lia.
  - simpl. repeat constructor; simpl; intuition lia.
  - intros r c w H1 H2. simpl in H1. fin; simpl in H2; fin.
  - reflexivity.
  - intros r c w H1 H2. simpl in H1. fin; simpl in H2; fin.
  - intros rows idx ip E. destruct hasP; [|discriminate]. simpl in E. inversion E; subst.
    split; [|split; [reflexivity|]].
    + split; [reflexivity|]. split; [reflexivity|]. split; [reflexivity|].
      intros c Hc. simpl in Hc. destruct c as [|[|]]; simpl; lia.
    + intros r c w H1 H2. simpl in H1. fin; simpl in H2; fin.
Qed.

Lemma ex_wf : forall s, wf_cvx (ex_for s) ex_th0.
Proof. intros [|[]| |[]|[]|[]]; apply ex_wf_x; reflexivity. Qed.

Lemma ex_wf_for : forall s, wf_for (ex_for s) s.
Proof. intros [|[]| |[]|[]|[]]; simpl; auto; try (split; auto; discriminate); discriminate. Qed.

Definition ex_order (l : list string) : list string := rev l.
Lemma ex_order_perm : forall l, Permutation l (ex_order l).
Proof. apply Permutation_rev. Qed.

(** The generated code. *)
Definition ex_gen (s : solver) : genc ZRing :=
  match generate (K := ZRing) ex_big (ex_for s) s ex_order with
  | Ok g => g
  | Err _ => mkG ZRing s [] [] (fun _ => []) (fun _ => None) (fun _ => []) (fun _ => []) false false UNil
  end.

Lemma ex_generate : forall s, generate (K := ZRing) ex_big (ex_for s) s ex_order = Ok (ex_gen s).
Proof.
  intro s. unfold ex_gen.
  destruct (generate_wf ZRing ex_big (ex_for s) ex_th0 (ex_wf s) s ex_order ex_order_perm) as (g & E & _ & _).
  rewrite E. reflexivity.
Qed.

Lemma ex_wf_gen : forall s, wf_gen (ex_gen s) ex_th0 /\ g_solver (ex_gen s) = s.
Proof.
  intro s.
  destruct (generate_wf ZRing ex_big (ex_for s) ex_th0 (ex_wf s) s ex_order ex_order_perm) as (g & E & W & S).
  rewrite ex_generate in E. injection E as E. rewrite E. auto.
Qed.

Lemma ex_ecos_sizes : forall p, In p (owned ECOS) -> length (g_rows (ex_gen ECOS) p) <> 1.
Proof.
  intros p Hp. simpl in Hp.
  destruct Hp as [<-|[<-|[<-|[<-|[<-|[]]]]]]; vm_compute; discriminate.
Qed.

(** A history: solve, change p[1], solve, change q and p[0], solve twice. *)
Definition zupd : string -> nat -> Z -> op ZRing := @OUpd ZRing.
Definition ex_hist : list (op ZRing) :=
  [OSolve; zupd "p" 1 7%Z; OSolve; zupd "q" 0 (-2)%Z; zupd "p" 0 9%Z; OSolve; OSolve].

Lemma ex_hist_valid : forall s, Forall (valid_op (g_params (ex_gen s))) ex_hist.
Proof.
  intro s. assert (E : g_params (ex_gen s) = ex_params).
  { pose proof (ex_generate s) as H. unfold generate in H.
    destruct (block_for _ _ _ _); [|discriminate]. cbn [bind] in H. inversion H. simpl.
    destruct s as [|[]| |[]|[]|[]]; reflexivity. }
  rewrite E. repeat constructor; simpl.
  - exists 2. auto.
  - exists 1. auto.
  - exists 2. auto.
Qed.
