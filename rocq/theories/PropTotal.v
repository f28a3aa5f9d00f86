(** Property C57: gradient computations of convex problems never break down. *)

From Coq Require Import String Arith Bool ZArith Lia List Sorted Permutation QArith Qcanon Field.
From Verif Require Import Base Pus Machine PusCheck Runtime RuntimeSpec RuntimeProofs RuntimeMore Canon CanonSpec CanonProofs CanonMain CanonGen CanonProblem CanonMore.
From Verif Require Import Retrieve RetrieveProofs Explicit Examples Sparse SparseProofs Ldl LdlRank1 LdlProofs GradSpec LdlMain FactorProofs Gradient GradKkt Qdldl GradSolve GradKktSolve GradMain GradCall GradSession GradSessionProofs GradGen GradVars GradTotal PropExplicit PropFactor PropGrad.
From Coq Require Import Reals Lra.
Import ListNotations.
Open Scope string_scope.
Open Scope list_scope.
Local Open Scope nat_scope.

(** ** C57 *)

(** Exact arithmetic in an ordered field with roots of positive numbers; QDLDL and its solve by
    their contracts.  Every history of Python calls (solves with parameter changes, gradients
    with derivatives, also at earlier solutions) runs to its end and gives the gradients of
    the specification, if the objective is convex at the parameter values of the latest solve
    before each gradient.  In particular no division by zero and no root of a negative number
    occurs, whichever constraints become active or inactive, in whatever order. *)
Theorem C57_gradients_never_break_down :
  forall (F : Fld) (pos : F -> Prop) (big : F) (x : cvx F) (th0 : pvals F) (order : list string -> list string) (g : genc F)
         (sqr : F -> res F) (eps half : F) (below above : F -> bool)
         (qfactor : csc F -> csc F -> res (list nat * list nat * list F * list F * list F))
         (qsolve : csc F -> list F -> list F -> res (list F)) (scr : nat -> pid -> list F -> list F),
  let n := x_n x in
  let m := (x_neq x + x_nineq x)%nat in
  let prP := proc big x OSQP pP in
  ordered F pos -> wf_cvx x th0 -> layout x -> (forall l, Permutation l (order l)) -> generate big x OSQP order = Ok g ->
  (forall z s, sqr z = Ok s -> nmul s s = z) -> (forall z e, sqr z = Err e -> e = Arith) -> (forall z, pos z -> exists s, sqr z = Ok s) ->
  factor_contract F n (n + m) qfactor -> solve_contract F (n + m) qsolve ->
  below n0 = false -> pos eps -> no_zero F n eps (matP F (pr_ip prP) (pr_idx prP) (g_baked g pP)) ->
  forall os, Forall (py_ok F x g below) os ->
  Forall (fun '(th, _, _, _) => convex_at F pos x (flat (x_params x) th)) (expect n th0 (repeat n0 n) (repeat n0 m) os) ->
  exists s outs, py_session F big x g sqr eps half below above qfactor qsolve scr os = Ok (s, outs)
    /\ Forall2 (grad_of F x half below above eps) (expect n th0 (repeat n0 n) (repeat n0 m) os) outs.
Proof.
  intros F pos big x th0 order g sqr eps half below above qfactor qsolve scr n m prP O W Y Hord Hg S1 S2 S3 QF QS B0 Ep NZ os HV HC.
  pose proof (gen_session F big x th0 W Y order Hord g Hg sqr eps half below above qfactor qsolve S1 S2 QF QS B0 NZ scr none os HV) as H.
  destruct (run_none _ _ _ (H ltac:(eapply Forall_impl; [|exact HC]; intros [[[th sx] sy] dx] Hc; apply (convex_admits F pos O x eps Ep sqr S3); exact Hc))) as ([s outs] & E & HO).
  exists s, outs. split; auto.
Qed.
Print Assumptions C57_gradients_never_break_down.

(** The matrices behind it: with any set of constraints active, every pivot of the regularised
    KKT matrix of a convex problem is positive for a variable and negative for a constraint. *)
Theorem C57_pivot_signs : forall (F : Fld) (pos : F -> Prop) (x : cvx F) (eps : F) (v : list F) (act : nat -> bool) j d,
  ordered F pos -> pos eps -> convex_at F pos x v -> (forall k, (k < x_n x)%nat -> act k = true) ->
  (j < x_n x + (x_neq x + x_nineq x))%nat -> pivot (x_n x + (x_neq x + x_nineq x)) (masked act (kkt_symm F x eps v)) j d ->
  if Nat.ltb j (x_n x) then pos d else pos (ropp d).
Proof.
  intros F pos x eps v act j d O Ep HC Ha Hj HP.
  apply (quasi_pivot F pos O (x_n x) (x_n x + (x_neq x + x_nineq x)) ltac:(lia) _ j d (kkt_quasi F pos O x eps Ep v act HC Ha) Hj HP).
Qed.
Print Assumptions C57_pivot_signs.

(** ** The real numbers meet the hypotheses. *)
Definition RNum : Num := mkNum 0%R 1%R Rplus Rmult.
Definition Risz (a : R) : bool := if Req_EM_T a 0 then true else false.
Lemma Risz_spec : forall a : R, Risz a = true <-> a = 0%R.
Proof. intro a. unfold Risz. destruct (Req_EM_T a 0); split; intro; auto; congruence. Qed.
Definition RRing : Ring := @mkRing RNum Rminus Ropp RTheory Risz Risz_spec.
Definition RFld : Fld := @mkFld RRing Rdiv Rinv Rfield.
Definition r_sqrt (a : RFld) : res RFld := if Rlt_dec a 0 then Err Arith else Ok (sqrt a).
Definition r_pos (a : RFld) : Prop := (0 < a)%R.
Definition r_below (y : RFld) : bool := if Rlt_dec y (- / 1000000) then true else false.
Definition r_above (y : RFld) : bool := if Rlt_dec (/ 1000000) y then true else false.
Definition r_th0 : pvals RFld := fun nm i => if String.eqb nm "a" then 4%R else 1%R.
(** Minimise x^2 + x y + y^2 + 2 b x subject to a x + y <= b, over the real numbers. *)
Definition r_x : cvx RFld :=
  mkCvx RFld [("a", 1); ("b", 1)] [4; 1; 1]%R 2 0 1
        (Some ([[(2, 2%R)]; [(2, 1%R)]; [(2, 2%R)]], [0; 0; 1], [0; 1; 3]))
        [[(1, 2%R)]; []; []]
        [[(0, (-1)%R)]; [(2, (-1)%R)]; [(1, 1%R)]] [0; 0; 0] [0; 1; 2; 3] false.
Definition r_big : RFld := 1000%R.
Definition r_gen : genc RFld :=
  match generate (K := RFld) r_big r_x OSQP ex_order with
  | Ok g => g
  | Err _ => mkG RFld OSQP [] [] (fun _ => []) (fun _ => None) (fun _ => []) (fun _ => []) false false UNil
  end.
Definition r_hist : list (pyop RFld) :=
  [PSolve (F := RFld) [("a", 0, 8%R)] [1; 2]%R [1%R]; PGrad (F := RFld) [(0, 1%R); (1, 3%R)] None;
   PSolve (F := RFld) [("a", 0, 4%R); ("b", 0, 7%R)] [2; 5]%R [0%R]; PGrad (F := RFld) [(0, 1%R)] None; PGrad (F := RFld) [(1, 1%R)] (Some ([1; 2]%R, [1%R]))].

Lemma r_ordered : ordered RFld r_pos.
Proof.
  constructor; unfold r_pos; cbn.
  - intros a b Ha Hb. lra.
  - intros a b Ha Hb. apply Rmult_lt_0_compat; auto.
  - intro a. destruct (Rtotal_order 0 a) as [H|[H|H]]; [left; auto|right; left; auto|right; right; lra].
  - lra.
Qed.
Lemma r_wf : wf_cvx r_x r_th0.
Proof.
  constructor.
  - repeat constructor; simpl; intuition discriminate.
  - reflexivity.
  - split; [reflexivity|]. split; [reflexivity|]. split; [reflexivity|].
    intros c Hc. simpl in Hc. destruct c as [|[|[|]]]; simpl; lia.
  - reflexivity.
  - intros i Hi. simpl in *. lia.
  - simpl. repeat constructor; simpl; intuition lia.
  - intros r c w H1 H2. simpl in H1. fin; simpl in H2; fin.
  - reflexivity.
  - intros r c w H1 H2. simpl in H1. fin; simpl in H2; fin.
  - intros rows idx ip E. simpl in E. inversion E; subst.
    split; [|split; [reflexivity|]].
    + split; [reflexivity|]. split; [reflexivity|]. split; [reflexivity|].
      intros c Hc. simpl in Hc. destruct c as [|[|]]; simpl; lia.
    + intros r c w H1 H2. simpl in H1. fin; simpl in H2; fin.
Qed.
Lemma r_layout : layout r_x.
Proof.
  constructor.
  - intros j Hj. simpl in Hj. destruct j as [|[|]]; [| |lia]; apply lt_list_ok; reflexivity.
  - do 3 eexists. split; [reflexivity|]. intros j Hj. simpl in Hj. destruct j as [|[|]]; [| |lia]; (split; [apply lt_list_ok; reflexivity|]);
      intros i Hi; simpl in Hi; lia.
Qed.
Lemma r_generate : generate (K := RFld) r_big r_x OSQP ex_order = Ok r_gen.
Proof.
  unfold r_gen. destruct (generate_wf RFld r_big r_x r_th0 r_wf OSQP ex_order ex_order_perm) as (g & E & _ & _). rewrite E. reflexivity.
Qed.
Lemma r_convex : forall th, convex_at RFld r_pos r_x (flat (x_params r_x) th).
Proof.
  intros th z. cbv zeta. unfold r_pos. cbn.
  generalize (z 0) (z 1). cbn. intros a b.
  assert (H : (0 <= a * a + b * b + (a + b) * (a + b))%R) by (pose proof (Rle_0_sqr a); pose proof (Rle_0_sqr b); pose proof (Rle_0_sqr (a + b)); unfold Rsqr in *; lra).
  destruct (Rle_lt_or_eq_dec _ _ H) as [Hlt|Heq]; [right|left]; lra.
Qed.
Lemma r_nz : let prP := proc r_big r_x OSQP pP in no_zero RFld (x_n r_x) 1%R (matP RFld (pr_ip prP) (pr_idx prP) (g_baked r_gen pP)).
Proof.
  cbv zeta. split; [cbn; lra|]. intros j i Hj Hi.
  assert (IP : In pP (solver_pids OSQP)) by (cbn; auto 10).
  change (matP RFld (pr_ip (proc r_big r_x OSQP pP)) (pr_idx (proc r_big r_x OSQP pP)) (g_baked r_gen pP)) with (csc_of RFld (proc r_big r_x OSQP pP) (g_baked r_gen pP)) in Hi.
  rewrite (rows_of RFld r_x _ _ _ j (P_struct RFld r_big r_x r_th0 r_wf r_layout) Hj) in Hi.
  apply (proj2 (P_sorted RFld r_big r_x r_th0 r_wf r_layout j Hj)) in Hi.
  rewrite <- (baked_spec RFld r_big r_x r_th0 r_wf ex_order r_gen r_generate pP IP).
  rewrite (entry_P RFld r_big r_x r_th0 r_wf r_layout ex_order ex_order_perm r_gen r_generate r_th0 i j Hj).
  cbn in Hj. destruct j as [|[|j]]; [| |lia]; destruct i as [|[|i]]; try lia; cbn; lra.
Qed.
Lemma r_hist_ok : Forall (py_ok RFld r_x r_gen r_below) r_hist.
Proof.
  assert (EP : g_params r_gen = [("a", 1); ("b", 1)]).
  { pose proof r_generate as E0. unfold generate in E0. destruct (block_for r_big r_x OSQP ex_order); [|discriminate].
    cbn [bind] in E0. apply (f_equal (fun r => match r with Ok a => g_params a | Err _ => [] end)) in E0. cbv beta iota in E0. rewrite <- E0. reflexivity. }
  assert (VO : forall nm v, nm = "a" \/ nm = "b" -> valid_op (g_params r_gen) (OUpd (N := RFld) nm 0 v)).
  { intros nm v H. rewrite EP. exists 1. simpl. destruct H as [-> | ->]; auto. }
  assert (SO : forall sx y, length sx = 2 -> r_below y = false -> sol_ok RFld (x_n r_x) (x_n r_x + (x_neq r_x + x_nineq r_x)) r_below (gcfg_of RFld r_gen (x_neq r_x)) sx [y]).
  { intros sx y H1 H2. split; auto. split; auto. intros i Hi. cbn in Hi. replace i with 0 by lia. auto. }
  assert (B : forall y : RFld, (0 <= y)%R -> r_below y = false).
  { intros y Hy. unfold r_below. destruct (Rlt_dec y (- / 1000000)); auto. exfalso. cbn in *. lra. }
  unfold r_hist. repeat apply Forall_cons; try apply Forall_nil; (split; [repeat constructor; try (apply VO; auto); cbn; lia|]); try exact I; (apply SO; [reflexivity|apply B; lra]).
Qed.

Example C57_example : exists s outs,
  py_session RFld r_big r_x r_gen r_sqrt 1%R (/ 2)%R r_below r_above (qfactor_ref RFld 3) (qsolve_ref RFld 3) (fun _ _ d => d) r_hist = Ok (s, outs)
  /\ Forall2 (grad_of RFld r_x (/ 2)%R r_below r_above 1%R) (expect 2 r_th0 [0; 0]%R [0]%R r_hist) outs /\ length outs = 3.
Proof.
  assert (H := C57_gradients_never_break_down RFld r_pos r_big r_x r_th0 ex_order r_gen r_sqrt 1%R (/ 2)%R r_below r_above (qfactor_ref RFld 3) (qsolve_ref RFld 3) (fun _ _ d => d)
    r_ordered r_wf r_layout ex_order_perm r_generate).
  cbv zeta in H. destruct (H) with (os := r_hist) as (s & outs & E & HO).
  - intros z s. unfold r_sqrt. destruct (Rlt_dec z 0) as [Hz|Hz]; [discriminate|]. intro E. injection E as <-. cbn. apply sqrt_sqrt. cbn in Hz. lra.
  - intros z e. unfold r_sqrt. destruct (Rlt_dec z 0); [|discriminate]. intro E. injection E as <-. reflexivity.
  - intros z Hz. unfold r_sqrt, r_pos in *. destruct (Rlt_dec z 0) as [H1|H1]; [exfalso; cbn in *; lra|eauto].
  - apply (qfactor_ref_ok RFld 2 3).
  - apply (qsolve_ref_ok RFld 3).
  - unfold r_below. cbn. destruct (Rlt_dec 0 (- / 1000000)) as [H1|H1]; auto. exfalso. lra.
  - unfold r_pos. cbn. lra.
  - apply r_nz.
  - apply r_hist_ok.
  - apply Forall_forall. intros [[[th sx] sy] dx] _. apply r_convex.
  - exists s, outs. split; [exact E|]. split; [exact HO|]. 
    transitivity (length (expect (x_n r_x) r_th0 (repeat n0 (x_n r_x)) (repeat n0 (x_neq r_x + x_nineq r_x)) r_hist)); [|reflexivity].
    clear -HO. induction HO; cbn [length]; auto.
Qed.
Print Assumptions C57_example.

(** Without convexity: minimise (a/2) x^2 + 2 b x subject to 4 x <= b, rational numbers, eps = 9/4.
    With a updated to -9/4 the gradient divides by zero. *)
Definition nc_x : cvx QcFld :=
  mkCvx QcFld [("a", 1); ("b", 1)] [qz 4; qz 1; qz 1] 1 0 1
        (Some ([[(0, qz 1)]], [0], [0; 1])) [[(1, qz 2)]; []] [[(2, qz (-4))]; [(1, qz 1)]] [0; 0] [0; 1; 2] false.
Theorem C57_nonconvex_refuted : exists os : list (pyop QcFld),
  wf_cvx nc_x q_th0 /\ layout nc_x /\ generate (K := QcFld) q_big nc_x OSQP ex_order = Ok (q_gen nc_x)
  /\ no_zero QcFld 1 q_eps (matP QcFld (pr_ip (proc q_big nc_x OSQP pP)) (pr_idx (proc q_big nc_x OSQP pP)) (g_baked (q_gen nc_x) pP))
  /\ Forall (py_ok QcFld nc_x (q_gen nc_x) q_below) os
  /\ py_session QcFld q_big nc_x (q_gen nc_x) qsqrt q_eps q_half q_below q_above (qfactor_ref QcFld 2) (qsolve_ref QcFld 2) q_scr os = Err Arith.
Proof.
  exists [qup (qd (-9) 4) [qz 1] [qz 0]; qgr (qz 1) None].
  assert (W : wf_cvx nc_x q_th0).
  { constructor.
    - repeat constructor; simpl; intuition discriminate.
    - reflexivity.
    - split; [reflexivity|]. split; [reflexivity|]. split; [reflexivity|].
      intros c Hc. simpl in Hc. destruct c as [|[|]]; simpl; lia.
    - reflexivity.
    - intros i Hi. simpl in *. lia.
    - simpl. repeat constructor; simpl; intuition lia.
    - intros r c w H1 H2. simpl in H1. fin; simpl in H2; fin.
    - reflexivity.
    - intros r c w H1 H2. simpl in H1. fin; simpl in H2; fin.
    - intros rows idx ip E. simpl in E. inversion E; subst.
      split; [|split; [reflexivity|]].
      + split; [reflexivity|]. split; [reflexivity|]. split; [reflexivity|].
        intros c Hc. simpl in Hc. destruct c as [|]; simpl; lia.
      + intros r c w H1 H2. simpl in H1. fin; simpl in H2; fin. }
  assert (G : generate (K := QcFld) q_big nc_x OSQP ex_order = Ok (q_gen nc_x)) by (apply q_generate; exact W).
  split; [exact W|]. split; [|split; [exact G|]].
  - constructor.
    + intros j Hj. simpl in Hj. replace j with 0 by lia. apply lt_list_ok. reflexivity.
    + do 3 eexists. split; [reflexivity|]. intros j Hj. simpl in Hj. replace j with 0 by lia. split; [apply lt_list_ok; reflexivity|].
      intros i Hi. simpl in Hi. lia.
  - split; [|split].
    + split; [vm_compute; discriminate|]. intros j i Hj Hi. replace j with 0 in * by lia.
      assert (i = 0) by (vm_compute in Hi; lia). subst i. vm_compute. discriminate.
    + assert (E : g_params (q_gen nc_x) = [("a", 1); ("b", 1)]).
      { pose proof G as E0. unfold generate in E0. destruct (block_for q_big nc_x OSQP ex_order); [|discriminate].
        cbn [bind] in E0. apply (f_equal (fun r => match r with Ok a => g_params a | Err _ => [] end)) in E0. cbv beta iota in E0. rewrite <- E0. reflexivity. }
      repeat apply Forall_cons; try apply Forall_nil.
      * split; [repeat constructor; rewrite E; exists 1; simpl; auto|]. split; auto. split; auto. intros i Hi. cbn in Hi. replace i with 0 by lia. reflexivity.
      * split; [repeat constructor|exact I].
    + vm_compute. reflexivity.
Qed.
Print Assumptions C57_nonconvex_refuted.
