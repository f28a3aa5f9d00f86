(** C81: lengths of the arrays of the gradient code. *)

From Coq Require Import String Arith Bool List Lia.
From Verif Require Import GradDims.
Import ListNotations.
Open Scope string_scope.
Open Scope list_scope.

(** No access beyond the end of an array: every accessed array exists and is long enough. *)
Definition in_range (have want : list (string * nat)) : Prop :=
  forall a k, In (a, k) want -> exists len, In (a, len) have /\ k <= len.

(** What CVXPY gives for an OSQP form: A has a row for every constraint, P is there, variables lie inside x. *)
Definition osqp_form (c : canonical) : Prop := c_rows c = c_eq c + c_in c /\ c_P c <> None.
Definition inside (c : canonical) (l : list (nat * nat)) : Prop := forall o s, In (o, s) l -> o + s <= c_n c.


Ltac member := repeat (first [left; reflexivity | right]).

(** Single-stage: every file agrees on the dimensions and nothing is accessed out of range. *)
Theorem C81_single : forall g, g_two g = false -> osqp_form (g_first g) -> inside (g_first g) (g_sizes g) ->
  exists have, arrays g = Some have /\ in_range have (accesses g).
Proof.
  intros g T [R Q] IN. unfold arrays, workspace_arrays, accesses, compute_accesses, gradient_accesses, map_arrays, solution_arrays,
    solver_side, map_side in *. rewrite T. destruct (c_P (g_first g)) as [nz|] eqn:EP; [|contradiction].
  rewrite R. unfold dim_N. set (c := g_first g) in *.
  eexists. split; [reflexivity|]. intros a k H.
  repeat (apply in_app_or in H; destruct H as [H|H]).
  - cbn [In] in H. repeat (destruct H as [H|H]); try contradiction; injection H as <- <-;
      (eexists; split; [cbn [app In]; member|lia]).
  - cbn [In] in H. repeat (destruct H as [H|H]); try contradiction; injection H as <- <-;
      (eexists; split; [cbn [app In]; member|lia]).
  - apply in_map_iff in H. destruct H as [[o s] [H H1]]. injection H as <- <-. specialize (IN o s H1). cbn [fst snd].
    eexists. split; [cbn [app In]; member|exact IN].
  - destruct (g_cP g || g_cA g); [|destruct H]. destruct H as [H|[]]. injection H as <- <-. eexists; split; [cbn [app In]; member|lia].
  - destruct (g_q g); [|destruct H]. cbn [In] in H. repeat (destruct H as [H|H]); try contradiction; injection H as <- <-;
      (eexists; split; [cbn [app In]; member|lia]).
  - destruct (g_l g); [|destruct H]. cbn [In] in H. repeat (destruct H as [H|H]); try contradiction; injection H as <- <-;
      (eexists; split; [cbn [app In]; member|lia]).
  - destruct (g_u g); [|destruct H]. cbn [In] in H. repeat (destruct H as [H|H]); try contradiction; injection H as <- <-;
      (eexists; split; [cbn [app In]; member|lia]).
  - destruct (g_cP g); [|destruct H]. cbn [In] in H. repeat (destruct H as [H|H]); try contradiction; injection H as <- <-;
      (eexists; split; [cbn [app In]; member|lia]).
  - destruct (g_cA g); [|destruct H]. cbn [In] in H. repeat (destruct H as [H|H]); try contradiction; injection H as <- <-;
      (eexists; split; [cbn [app In]; member|lia]).
Qed.

(** Single-stage: the loops that turn the canonical gradient into the gradient of the parameters cover the maps and vectors of
    every changing block to their ends. *)
Theorem C81_cover : forall g have, g_two g = false -> osqp_form (g_first g) -> arrays g = Some have ->
  (g_q g = true -> forall a, In a ["q_map"; "dq"] -> exists k, In (a, k) (gradient_accesses g) /\ In (a, k) have) /\
  (g_l g = true -> exists k, In ("l_map", k) (gradient_accesses g) /\ In ("l_map", k) have) /\
  (g_u g = true -> forall a, In a ["u_map"; "du"] -> exists k, In (a, k) (gradient_accesses g) /\ In (a, k) have) /\
  (g_cP g = true -> forall a, In a ["P_map"; "dPx"] -> exists k, In (a, k) (gradient_accesses g) /\ In (a, k) have) /\
  (g_cA g = true -> forall a, In a ["A_map"; "dAx"] -> exists k, In (a, k) (gradient_accesses g) /\ In (a, k) have).
Proof.
  intros g have T [R Q] H. unfold arrays, workspace_arrays, map_arrays, solution_arrays, solver_side, map_side in H.
  rewrite T in H. destruct (c_P (g_first g)) as [nz|] eqn:EP; [|contradiction]. injection H as <-. rewrite R.
  unfold gradient_accesses, solver_side, map_side. rewrite T, EP.
  replace (c_n (g_first g) + (c_eq (g_first g) + c_in (g_first g)) - c_n (g_first g)) with (c_eq (g_first g) + c_in (g_first g)) by lia.
  split; [|split; [|split; [|split]]].
  - intros C a [<-|[<-|[]]]; rewrite C; eexists; (split; [do 3 (apply in_or_app; right); apply in_or_app; left; cbn [In]; member|cbn [app In]; member]).
  - intros C; rewrite C; eexists; (split; [do 4 (apply in_or_app; right); apply in_or_app; left; cbn [In]; member|cbn [app In]; member]).
  - intros C a [<-|[<-|[]]]; rewrite C; eexists; (split; [do 5 (apply in_or_app; right); apply in_or_app; left; cbn [In]; member|cbn [app In]; member]).
  - intros C a [<-|[<-|[]]]; rewrite C; eexists; (split; [do 6 (apply in_or_app; right); apply in_or_app; left; cbn [In]; member|cbn [app In]; member]).
  - intros C a [<-|[<-|[]]]; rewrite C; eexists; (split; [do 7 (apply in_or_app; right); cbn [In]; member|cbn [app In]; member]).
Qed.

(** Two-stage: the exact conditions on the second stage.  [m] is the OSQP form, [c] the problem the solver gets. *)
Definition fits_second (g : gprog) (m c : canonical) (nz : nat) : Prop :=
  c_P m <> None /\ c_P c = Some nz /\ c_eq c + c_in c <= c_rows c /\ inside c (g_sizes g)
  /\ (g_q g = true -> c_n c <= c_n m) /\ (g_l g = true -> c_eq c <= c_eq m) /\ (g_u g = true -> c_eq c + c_in c <= c_eq m + c_in m)
  /\ (g_cP g = true -> match c_P m with Some k => k | None => 0 end <= nz) /\ (g_cA g = true -> c_nnzA m <= c_nnzA c).
Lemma pairs_mono : forall a b, a <= b -> pairs a <= pairs b.
Proof. intros a b H. unfold pairs. apply Nat.div_le_mono; [lia|]. apply Nat.mul_le_mono; lia. Qed.
Theorem C81_two : forall g, g_two g = true ->
  ((exists have, arrays g = Some have /\ in_range have (accesses g)) <-> exists nz, fits_second g (g_first g) (g_second g) nz).
Proof.
  intros g T. unfold fits_second, arrays, workspace_arrays, accesses, compute_accesses, gradient_accesses, map_arrays, solution_arrays,
    solver_side, map_side. rewrite T. set (c := g_second g). set (m := g_first g). unfold dim_N. split.
  - intros [have [H IR]]. destruct (c_P m) as [k0|] eqn:EM; [|discriminate]. destruct (c_P c) as [nz|] eqn:EP; [|discriminate].
    injection H as <-. exists nz. split; [discriminate|]. split; [reflexivity|].
    assert (X : c_eq c + c_in c <= c_rows c).
    { destruct (IR "etree" (c_n c + (c_eq c + c_in c))) as [len [H1 H2]]; [apply in_or_app; left; cbn [In]; member|].
      cbn [app In] in H1. repeat (destruct H1 as [H1|H1]; [try discriminate; injection H1 as <-; lia|]). contradiction. }
    split; [exact X|]. split; [|split; [|split; [|split; [|split]]]].
    + intros o s H. destruct (IR "dx" (o + s)) as [len [H1 H2]].
      * apply in_or_app; right. apply in_or_app; right. apply in_or_app; left. apply in_map_iff. exists (o, s). auto.
      * cbn [app In] in H1. repeat (destruct H1 as [H1|H1]; [try discriminate; injection H1 as <-; lia|]). contradiction.
    + intros C. rewrite C in IR. destruct (IR "q_map" (c_n c + 1)) as [len [H1 H2]].
      * apply in_or_app; right. do 3 (apply in_or_app; right). apply in_or_app; left. cbn [In]. member.
      * cbn [app In] in H1. repeat (destruct H1 as [H1|H1]; [try discriminate; injection H1 as <-; lia|]). contradiction.
    + intros C. rewrite C in IR. destruct (IR "l_map" (c_eq c + 1)) as [len [H1 H2]].
      * apply in_or_app; right. do 4 (apply in_or_app; right). apply in_or_app; left. cbn [In]. member.
      * cbn [app In] in H1. repeat (destruct H1 as [H1|H1]; [try discriminate; injection H1 as <-; lia|]). contradiction.
    + intros C. rewrite C in IR. destruct (IR "u_map" (c_eq c + c_in c + 1)) as [len [H1 H2]].
      * apply in_or_app; right. do 5 (apply in_or_app; right). apply in_or_app; left. cbn [In]. member.
      * cbn [app In] in H1. repeat (destruct H1 as [H1|H1]; [try discriminate; injection H1 as <-; lia|]). contradiction.
    + intros C. rewrite C in IR. destruct (IR "dPx" k0) as [len [H1 H2]].
      * apply in_or_app; right. do 6 (apply in_or_app; right). apply in_or_app; left. cbn [In]. member.
      * cbn [app In] in H1. repeat (destruct H1 as [H1|H1]; [try discriminate; injection H1 as <-; lia|]). contradiction.
    + intros C. rewrite C in IR. destruct (IR "dAx" (c_nnzA m)) as [len [H1 H2]].
      * apply in_or_app; right. do 7 (apply in_or_app; right). cbn [In]. member.
      * cbn [app In] in H1. repeat (destruct H1 as [H1|H1]; [try discriminate; injection H1 as <-; lia|]). contradiction.
  - intros [nz [EM [EP [X [IN [CQ [CL [CU [CP CA]]]]]]]]]. rewrite EP. destruct (c_P m) as [k0|]; [|contradiction]. eexists. split; [reflexivity|]. intros a k H.
    pose proof (pairs_mono (c_n c + (c_eq c + c_in c)) (c_n c + c_rows c) ltac:(lia)) as PM.
    repeat (apply in_app_or in H; destruct H as [H|H]).
    + cbn [In] in H. repeat (destruct H as [H|H]); try contradiction; injection H as <- <-; (eexists; split; [cbn [app In]; member|lia]).
    + cbn [In] in H. repeat (destruct H as [H|H]); try contradiction; injection H as <- <-; (eexists; split; [cbn [app In]; member|lia]).
    + apply in_map_iff in H. destruct H as [[o s] [H H1]]. injection H as <- <-. specialize (IN o s H1). cbn [fst snd].
      eexists. split; [cbn [app In]; member|exact IN].
    + destruct (g_cP g || g_cA g); [|destruct H]. destruct H as [H|[]]. injection H as <- <-. eexists; split; [cbn [app In]; member|lia].
    + destruct (g_q g); [|destruct H]. specialize (CQ eq_refl). cbn [In] in H.
      repeat (destruct H as [H|H]); try contradiction; injection H as <- <-; (eexists; split; [cbn [app In]; member|lia]).
    + destruct (g_l g); [|destruct H]. specialize (CL eq_refl). cbn [In] in H.
      repeat (destruct H as [H|H]); try contradiction; injection H as <- <-; (eexists; split; [cbn [app In]; member|lia]).
    + destruct (g_u g); [|destruct H]. specialize (CU eq_refl). cbn [In] in H.
      repeat (destruct H as [H|H]); try contradiction; injection H as <- <-; (eexists; split; [cbn [app In]; member|lia]).
    + destruct (g_cP g); [|destruct H]. specialize (CP eq_refl). cbn [In] in H.
      repeat (destruct H as [H|H]); try contradiction; injection H as <- <-; (eexists; split; [cbn [app In]; member|lia]).
    + destruct (g_cA g); [|destruct H]. specialize (CA eq_refl). cbn [In] in H.
      repeat (destruct H as [H|H]); try contradiction; injection H as <- <-; (eexists; split; [cbn [app In]; member|lia]).
Qed.

(** Without a block P, of the problem itself or of the form the solver gets, the workspace cannot be written; otherwise it can. *)
Theorem C81_no_quadratic : forall g,
  arrays g = None <-> c_P (g_first g) = None \/ (g_two g = true /\ c_P (g_second g) = None).
Proof.
  intros g. unfold arrays, workspace_arrays, solver_side. destruct (g_two g); destruct (c_P (g_first g)) eqn:E1; destruct (c_P (g_second g)) eqn:E2;
    rewrite ?E1; split; intros H; try discriminate; try reflexivity; auto; destruct H as [H|[H H']]; discriminate.
Qed.
(** A solver that keeps its inequalities in a block of their own: accesses run past the arrays as soon as there is one. *)
Theorem C81_separate_blocks : forall g, g_two g = true -> c_rows (g_second g) = c_eq (g_second g) -> 0 < c_in (g_second g) ->
  ~ exists have, arrays g = Some have /\ in_range have (accesses g).
Proof. intros g T R L H. apply (C81_two g T) in H. destruct H as [nz [_ [_ [H _]]]]. lia. Qed.
(** A second stage with further variables: accesses run past the map of q, if the objective has parameters. *)
Theorem C81_more_variables : forall g, g_two g = true -> g_q g = true -> c_n (g_first g) < c_n (g_second g) ->
  ~ exists have, arrays g = Some have /\ in_range have (accesses g).
Proof. intros g T Q L H. apply (C81_two g T) in H. destruct H as [nz [_ [_ [_ [_ [H _]]]]]]. specialize (H Q). lia. Qed.

(** Least squares with one equality and two bounds on x in R^3; OSQP. *)
Definition single : gprog :=
  mkG false (mkCanonical 5 3 2 5 14 (Some 2)) (mkCanonical 0 0 0 0 0 None) true true true false true 6 [(0, 3)].
Example C81_single_example : g_two single = false /\ osqp_form (g_first single) /\ inside (g_first single) (g_sizes single).
Proof.
  split; [reflexivity|]. split; [split; [reflexivity|discriminate]|]. intros o s [H|[]]. injection H as <- <-. cbn. lia.
Qed.
(** The same with SCS: CVXPY adds a variable for the argument of the sum of squares, so x has 10 entries and A 5 + 3 + 5 rows. *)
Definition second_scs : gprog :=
  mkG true (mkCanonical 5 3 2 5 14 (Some 2)) (mkCanonical 10 13 0 13 30 (Some 5)) true true true false true 6 [(0, 3)].
(** A second stage of the dimensions of the first is fine: the conditions of [C81_two] can hold. *)
Example C81_two_example : exists nz, fits_second (mkG true (mkCanonical 5 3 2 5 14 (Some 2)) (mkCanonical 5 3 2 5 14 (Some 2)) true true true false true 6 [(0, 3)])
  (mkCanonical 5 3 2 5 14 (Some 2)) (mkCanonical 5 3 2 5 14 (Some 2)) nz.
Proof.
  exists 2. unfold fits_second, inside. cbn. split; [discriminate|]. repeat split; try lia. intros o s [H|[]]. injection H as <- <-. lia.
Qed.
(** The claim that two-stage gradient code stays inside its arrays is false, also for first stages in OSQP form. *)
Theorem C81_two_refuted : exists g, g_two g = true /\ osqp_form (g_first g) /\ osqp_form (g_second g) /\ inside (g_first g) (g_sizes g)
  /\ ~ exists have, arrays g = Some have /\ in_range have (accesses g).
Proof.
  exists second_scs. split; [reflexivity|]. split; [split; [reflexivity|discriminate]|]. split; [split; [reflexivity|discriminate]|].
  split; [intros o s [H|[]]; injection H as <- <-; cbn; lia|].
  apply C81_more_variables; [reflexivity|reflexivity|cbn; lia].
Qed.
(** With ECOS generation stops with a KeyError. *)
Theorem C81_ecos_refuted : exists g, g_two g = true /\ osqp_form (g_first g) /\ arrays g = None.
Proof.
  exists (mkG true (mkCanonical 5 3 2 5 14 (Some 2)) (mkCanonical 7 3 8 3 6 None) true true true false true 6 [(0, 3)]).
  split; [reflexivity|]. split; [split; [reflexivity|discriminate]|]. reflexivity.
Qed.
(** A linear program with OSQP: no block P, so generation with gradient=True stops with a KeyError. *)
Theorem C81_linear_refuted : exists g, g_two g = false /\ c_rows (g_first g) = c_eq (g_first g) + c_in (g_first g)
  /\ inside (g_first g) (g_sizes g) /\ arrays g = None.
Proof.
  exists (mkG false (mkCanonical 3 1 2 3 5 None) (mkCanonical 0 0 0 0 0 None) true true true false true 6 [(0, 3)]).
  split; [reflexivity|]. split; [reflexivity|]. split; [intros o s [H|[]]; injection H as <- <-; cbn; lia|reflexivity].
Qed.

Print Assumptions C81_single.
Print Assumptions C81_cover.
Print Assumptions C81_two.
Print Assumptions C81_no_quadratic.
Print Assumptions C81_separate_blocks.
Print Assumptions C81_more_variables.
Print Assumptions C81_two_refuted.
Print Assumptions C81_ecos_refuted.
Print Assumptions C81_linear_refuted.
