(** Properties of canonicalization and of the problem the generated code solves:
    C06, C07, C12-C18. *)

From Coq Require Import String Arith Bool Lia List Permutation ZArith.
From Verif Require Import Base Pus Machine PusParse PusCheck PusLift Runtime RuntimeSpec RuntimeProofs
     RuntimeMore Canon CanonSpec CanonProofs CanonMain CanonGen CanonProblem CanonMore Info Examples.
Import ListNotations.
Open Scope string_scope.
Open Scope list_scope.

(** ** C06 *)

(** If updating parameter [name] does not mark block [p] as outdated, the block's map has
    the same value for any two parameter settings that differ in [name] only. *)
Theorem C06_unregistered_parameter_is_irrelevant :
  forall (K : Ring) (big : K) (x : cvx K) th0, wf_cvx x th0 ->
  forall s order g name (th th' : pvals K) p,
  generate big x s order = Ok g -> In p (solver_pids s) -> ~ In p (g_outd g name) ->
  (forall m i, m <> name -> th m i = th' m i) -> In name (map fst (x_params x)) ->
  map (dot (flat (x_params x) th)) (g_rows g p) = map (dot (flat (x_params x) th')) (g_rows g p).
Proof. exact block_indep. Qed.
Print Assumptions C06_unregistered_parameter_is_irrelevant.

(** The equivalent structural statement: a kept entry of the map lies in a column of a
    parameter that marks the block, or in the column of the constant 1. *)
Theorem C06_kept_entries_are_registered :
  forall (K : Ring) (big : K) (x : cvx K) th0, wf_cvx x th0 ->
  forall s order g p r c v, (forall l, Permutation l (order l)) ->
  generate big x s order = Ok g -> In p (solver_pids s) -> chg_get (g_chg g) p = true ->
  In r (g_rows g p) -> In (c, v) r ->
  c = length (x_flat x) - 1
  \/ exists name sz c0, In (name, sz) (x_params x) /\ base_col g name = Some c0
       /\ c0 <= c < c0 + sz /\ In p (g_outd g name).
Proof.
  intros K big x th0 W s order g p r c v Hord Hg Hp Hc Hr Hv.
  destruct (generate_wf K big x th0 W s order Hord) as (g' & E & Wg & Es).
  rewrite Hg in E. injection E as <-.
  assert (Epar : g_params g = x_params x).
  { unfold generate in Hg. destruct (block_for _ _ _ _); [|discriminate]. cbn [bind] in Hg.
    injection Hg as <-. reflexivity. }
  pose proof (w_cols _ _ _ Wg p r c v Hr Hv) as Hlt.
  assert (Ef : length (x_flat x) = length (flat (g_params g) th0)).
  { rewrite Epar, <- (wx_flat _ _ _ W). reflexivity. }
  destruct (Nat.eq_dec c (length (x_flat x) - 1)) as [->|Hne]; [left; auto|right].
  destruct (slices_cover K (g_params g) th0 c (w_names _ _ _ Wg)) as (n & sz & c0 & H1 & H2 & H3); [lia|].
  exists n, sz, c0. rewrite <- Epar. split; auto. split; auto. split; auto.
  destruct (in_dec (fun a b : pid => ltac:(decide equality)) p (g_outd g n)) as [Hi|Hi]; auto.
  exfalso. exact (w_deps _ _ _ Wg p n sz c0 Hc H1 H2 Hi r c v Hr Hv H3).
Qed.
Print Assumptions C06_kept_entries_are_registered.

(** In the example, q does not mark the matrix A or the quadratic term, p does. *)
Example C06_example :
  ~ In pA (g_outd (ex_gen OSQP) "q") /\ In pA (g_outd (ex_gen OSQP) "p")
  /\ ~ In pP (g_outd (ex_gen OSQP) "q") /\ In pu (g_outd (ex_gen OSQP) "q").
Proof. vm_compute. intuition discriminate. Qed.

(** ** C07 *)

Theorem C07_constant_blocks :
  forall (K : Ring) (big : K) (x : cvx K) th0, wf_cvx x th0 ->
  forall s order g p, generate big x s order = Ok g -> In p (solver_pids s) ->
  chg_get (g_chg g) p = false ->
  forall th : pvals K,
  map (dot (flat (x_params x) th)) (g_rows g p) ++ skipn (length (g_rows g p)) (g_baked g p) = g_baked g p.
Proof. exact block_const. Qed.
Print Assumptions C07_constant_blocks.

Example C07_example : chg_get (g_chg (ex_gen ECOS)) pA = false /\ g_baked (ex_gen ECOS) pA = [-1; -2]%Z.
Proof. vm_compute. auto. Qed.

(** ** C12 *)

(** Any history, any solve of it: if the solver reports half y'Py + c'y for the data it
    was given, the code reports the user's objective at y for the current parameters. *)
Theorem C12_reported_objective :
  forall (K : Ring) (big : K) (x : cvx K) th0, wf_cvx x th0 ->
  forall s order scr os, wf_for x s -> (forall l, Permutation l (order l)) ->
  (s = ECOS -> forall p, In p (owned ECOS) -> length (pr_rows (proc big x s p)) <> 1) ->
  (keeps s = true -> forall n p d, scr n p d = d) -> Forall (valid_op (x_params x)) os ->
  exists g s', generate big x s order = Ok g /\ steps g scr (init_state g) os = Ok s'
    /\ Forall2 (fun e th => forall half y,
         retrieve_obj g e (solver_obj big x half s e y) = user_obj x half (flat (x_params x) th) y)
         (r_log s') (solve_vals th0 os).
Proof.
  intros K big x th0 W s order scr os Hwf Hord He Hk Hv.
  destruct (pipeline_ok K big x th0 W s order scr os Hwf Hord He Hk Hv) as (g & s' & E1 & E2 & E3).
  exists g, s'. split; auto. split; auto. eapply Forall2_impl; [|exact E3].
  intros e th Hm half y. eapply obj_reported; eauto.
Qed.
Print Assumptions C12_reported_objective.

(** The example problem as a maximisation: objective (2 y0^2 + p0 y1^2) + q y0 + y1 + 2 q,
    negated; offset 2 q is tracked although only q changes between the solves. *)
Definition ex_max : cvx ZRing :=
  let x := ex_x 2 2 true in
  mkCvx ZRing (x_params x) (x_flat x) (x_n x) (x_neq x) (x_nineq x) (x_P x) (x_q x) (x_A x) (x_Ai x) (x_Ap x) true.
Example C12_example :
  (match generate (K := ZRing) ex_big ex_max OSQP ex_order with
   | Ok g => match steps g (fun _ _ d => d) (init_state g) [OSolve; zupd "q" 0 (-2)%Z; OSolve] with
             | Ok s => map (fun e => retrieve_obj g e (solver_obj (K := ZRing) ex_big ex_max 1%Z OSQP e (fun _ => 1%Z))) (r_log s)
             | Err _ => [] end
   | Err _ => [] end) = [-(2 + 3 + 5 + 1 + 10); -(2 + 3 - 2 + 1 - 4)]%Z.
Proof. vm_compute. reflexivity. Qed.

(** ** C13 *)

(** In the baked data and at every solve of every history, the lower bounds of the
    inequality rows are -big ([big] models 1e30). *)
Theorem C13_lower_bounds_of_inequalities :
  forall (K : Ring) (big : K) (x : cvx K) th0, wf_cvx x th0 ->
  forall order scr os, (forall l, Permutation l (order l)) -> Forall (valid_op (x_params x)) os ->
  exists g s', generate big x OSQP order = Ok g /\ steps g scr (init_state g) os = Ok s'
    /\ Forall (fun e => length (e_data e pl) = x_neq x + x_nineq x
                        /\ forall i, x_neq x <= i < x_neq x + x_nineq x -> nth i (e_data e pl) n0 = ropp big) (r_log s')
    /\ length (g_baked g pl) = x_neq x + x_nineq x
    /\ forall i, x_neq x <= i < x_neq x + x_nineq x -> nth i (g_baked g pl) n0 = ropp big.
Proof.
  intros K big x th0 W order scr os Hord Hv.
  destruct (pipeline_ok K big x th0 W OSQP order scr os I Hord) as (g & s' & E1 & E2 & E3); auto; try discriminate.
  destruct (pipeline_ok K big x th0 W OSQP order (fun _ _ d => d) [OSolve] I Hord) as (g2 & s2 & F1 & F2 & F3);
    auto; try discriminate.
  { repeat constructor. }
  rewrite E1 in F1. injection F1 as <-.
  exists g, s'. split; auto. split; auto. split.
  - clear - E3. induction E3 as [|e th l l' H HF IH]; constructor; auto.
    simpl in H. unfold qp_means in H. destruct H as (_ & _ & L & _ & _ & H). split; auto.
    intros i Hi. apply (H i Hi).
  - (* the baked vector is what the first solve without updates sees *)
    destruct (generate_wf K big x th0 W OSQP order Hord) as (g3 & G1 & Wg & Gs).
    rewrite E1 in G1. injection G1 as <-.
    assert (Hb : canon_spec g th0 pl = g_baked g pl).
    { unfold canon_spec. destruct (chg_get (g_chg g) pl) eqn:Ec; auto.
      assert (HB : canonicalize (csr_of (g_rows g pl)) (g_vec0 g) (g_baked g pl) = Ok (g_baked g pl)).
      { apply (baked_ok K big x OSQP order g pl E1). simpl; tauto. }
      rewrite canonicalize_ok in HB.
      - injection HB as HB. rewrite (w_vec0 _ _ _ Wg) in HB. exact HB.
      - rewrite (w_vec0 _ _ _ Wg). exact (w_cols _ _ _ Wg pl).
      - exact (w_len _ _ _ Wg pl). }
    destruct (run_ok K g th0 Wg (fun _ _ d => d)) with (os := [OSolve (N := K)]) as (s3 & l3 & R1 & <- & R3).
    { intro E. rewrite Gs in E. discriminate. }
    { rewrite Gs. discriminate. }
    { repeat constructor. }
    rewrite F2 in R1. injection R1 as <-. simpl in R3, F3.
    inversion R3 as [|e3 ? l3 ? H3 H4]; subst. rewrite <- H in F3. inversion F3 as [|? ? ? ? H5 H6]; subst.
    destruct H3 as [H3 _]. rewrite Gs in H3. specialize (H3 pl). rewrite Hb in H3.
    simpl in H5. unfold qp_means in H5. destruct H5 as (_ & _ & L & _ & _ & H5). unfold dvec in H5.
    rewrite H3 in L, H5 by (simpl; tauto). split; auto. intros i Hi. apply (H5 i Hi).
Qed.
Print Assumptions C13_lower_bounds_of_inequalities.

Example C13_example : g_baked (ex_gen OSQP) pl = [-5; 0; -1000000; -1000000]%Z
  /\ wf_cvx (ex_x 2 2 true) ex_th0.
Proof. split; [vm_compute; reflexivity|apply ex_wf_x; reflexivity]. Qed.

(** ** C14 *)

(** The QP data of every solve describe CVXPY's problem at the current parameters.  The
    lower bound -big stands for minus infinity, hence the premise of the second part. *)
Theorem C14_qp_equivalent :
  forall (K : ORing) (big : K) (x : cvx K) th0, wf_cvx x th0 ->
  forall order scr os, (forall l, Permutation l (order l)) -> Forall (valid_op (x_params x)) os ->
  exists g s', generate big x OSQP order = Ok g /\ steps g scr (init_state g) os = Ok s'
    /\ Forall2 (fun e th => let v := flat (x_params x) th in
         (forall (y : nat -> K) half,
            nadd (nadd (nmul half (qform K x (dmat K big x OSQP e pP) y)) (lform K x (dvec K e pq) y)) (nth 0 (e_d e) n0)
            = nadd (nadd (nmul half (qform K x (cP x v) y)) (lform K x (cq x v) y)) (cd x v))
         /\ (forall y : nat -> K,
               (forall i, x_neq x <= i < x_neq x + x_nineq x -> ole (ropp big) (ropp (mv K x (cA x v) y i))) ->
               (qp_feasible K big x e y <-> cvx_feasible K x v y)))
         (r_log s') (solve_vals th0 os).
Proof.
  intros K big x th0 W order scr os Hord Hv.
  destruct (pipeline_ok K big x th0 W OSQP order scr os I Hord) as (g & s' & E1 & E2 & E3); auto; try discriminate.
  exists g, s'. split; auto. split; auto. eapply Forall2_impl; [|exact E3].
  intros e th H. simpl in H. exact (qp_same K big x e (flat (x_params x) th) H).
Qed.
Print Assumptions C14_qp_equivalent.

(** With q = -5 the point (5,0) is feasible in the example, the point (1,0) is not, and
    the premise about the range of the rows holds at (5,0). *)
Definition ex_pt (a b : Z) : nat -> ZORing := fun j => match j with 0 => a | _ => b end.
Definition ex_thq : pvals ZRing := fun m i => if String.eqb m "q" then (-5)%Z else ex_th0 m i.
Example C14_example :
  let v := flat (N := ZRing) ex_params ex_thq in
  cvx_feasible ZORing (ex_x 2 2 true) v (ex_pt 5 0)
  /\ ~ cvx_feasible ZORing (ex_x 2 2 true) v (ex_pt 1 0)
  /\ (forall i, 2 <= i < 4 -> ole (o := ZORing) (- ex_big)%Z (- mv ZRing (ex_x 2 2 true) (cA (ex_x 2 2 true) v) (ex_pt 5 0) i)%Z).
Proof.
  split; [|split].
  - split; intros i Hi; simpl x_neq in Hi; simpl x_nineq in Hi.
    + destruct i as [|[|]]; [vm_compute; reflexivity|vm_compute; reflexivity|lia].
    + destruct i as [|[|[|[|]]]]; try lia; vm_compute; discriminate.
  - intros [H _]. specialize (H 0). vm_compute in H. assert (1 <= 2) by lia. specialize (H H0). discriminate.
  - intros i Hi. destruct i as [|[|[|[|]]]]; try lia; vm_compute; discriminate.
Qed.

(** ** C15 *)

(** Slack vectors of the conic forms are CVXPY's constraint expressions row by row. *)
Theorem C15_conic_residuals :
  forall (K : Ring) (big : K) (x : cvx K) th0, wf_cvx x th0 ->
  forall s order scr os, s <> OSQP -> wf_for x s -> (forall l, Permutation l (order l)) ->
  (s = ECOS -> forall p, In p (owned ECOS) -> length (pr_rows (proc big x s p)) <> 1) ->
  (keeps s = true -> forall n p d, scr n p d = d) -> Forall (valid_op (x_params x)) os ->
  exists g s', generate big x s order = Ok g /\ steps g scr (init_state g) os = Ok s'
    /\ Forall2 (fun e th => let v := flat (x_params x) th in
         length (e_data e pb) = x_neq x
         /\ (forall y i, i < x_neq x -> rsub (dvec K e pb i) (mv K x (dmat K big x s e pA) y i) = resid x v y i)
         /\ (is_split s = true ->
               length (e_data e ph) = x_nineq x
               /\ forall y i, i < x_nineq x ->
                    rsub (dvec K e ph i) (mv K x (dmat K big x s e pG) y i) = resid x v y (x_neq x + i)))
         (r_log s') (solve_vals th0 os).
Proof.
  intros K big x th0 W s order scr os Hs Hwf Hord He Hk Hv.
  destruct (pipeline_ok K big x th0 W s order scr os Hwf Hord He Hk Hv) as (g & s' & E1 & E2 & E3).
  exists g, s'. split; auto. split; auto. eapply Forall2_impl; [|exact E3].
  intros e th H. assert (conic_means K big x s (qc_of s) e (flat (x_params x) th)) as HC.
  { destruct s as [|[]| |[]|[]|[]]; try congruence; exact H. }
  destruct HC as (_ & H1 & H2 & H3). auto.
Qed.
Print Assumptions C15_conic_residuals.

Example C15_example : wf_cvx (ex_for ECOS) ex_th0 /\ wf_for (ex_for ECOS) ECOS
  /\ (forall p, In p (owned ECOS) -> length (pr_rows (proc (K := ZRing) ex_big (ex_for ECOS) ECOS p)) <> 1)
  /\ wf_for (ex_for (SCS false)) (SCS false).
Proof.
  split; [apply ex_wf|]. split; [apply ex_wf_for|]. split; [|apply ex_wf_for].
  intros p Hp. simpl in Hp. destruct Hp as [<-|[<-|[<-|[<-|[<-|[]]]]]]; vm_compute; discriminate.
Qed.

(** ** C16 *)

(** Well-formed compressed-column arrays of the matrix blocks. *)
Theorem C16_well_formed :
  forall (K : Ring) (big : K) (x : cvx K) th0, wf_cvx x th0 ->
  (csc_ok x (proc big x OSQP pA) (x_neq x + x_nineq x))
  /\ (forall s, is_qp s = false -> wf_for x s -> csc_ok x (proc big x s pA) (x_neq x))
  /\ (forall s, is_split s = true -> csc_ok x (proc big x s pG) (x_nineq x))
  /\ (forall s nr rows idx ip, x_P x = Some (rows, idx, ip) -> In pP (solver_pids s) ->
        (forall i, In i idx -> i < nr) -> csc_ok x (proc big x s pP) nr).
Proof.
  intros K big x th0 W. split; [|split; [|split]].
  - exact (osqp_A_wf K big x th0 W).
  - exact (conic_A_wf K big x th0 W).
  - exact (conic_G_wf K big x th0 W).
  - exact (P_wf K big x th0 W).
Qed.
Print Assumptions C16_well_formed.

(** Entries for every parameter vector: nothing lost, nothing duplicated, the right row. *)
Theorem C16_entries :
  forall (K : Ring) (big : K) (x : cvx K) th0, wf_cvx x th0 -> forall v,
  let entry s p i j := csc_entry (fun k => nth k (map (dot v) (pr_rows (proc big x s p))) n0)
                                 (pr_idx (proc big x s p)) (pr_ip (proc big x s p)) i j in
  (forall s i j, In pP (solver_pids s) -> j < x_n x -> entry s pP i j = cP x v i j)
  /\ (forall i j, j < x_n x ->
        entry OSQP pA i j = if Nat.ltb i (x_neq x) then cA x v i j else ropp (cA x v i j))
  /\ (forall s i j, is_qp s = false -> wf_for x s -> i < x_neq x -> j < x_n x -> entry s pA i j = ropp (cA x v i j))
  /\ (forall s i j, is_split s = true -> i < x_nineq x -> j < x_n x ->
        entry s pG i j = ropp (cA x v (x_neq x + i) j)).
Proof.
  intros K big x th0 W v entry. split; [|split; [|split]].
  - intros. apply (P_ok K big x th0 W s v i j); auto.
  - intros. apply (osqp_A K big x th0 W v i j); auto.
  - intros. apply (conic_A K big x th0 W s v i j); auto.
  - intros. apply (conic_G K big x th0 W s v i j); auto.
Qed.
Print Assumptions C16_entries.

(** A structurally zero column entry: the map's row for entry (1,0) of A is empty and is
    dropped; the column pointers shrink accordingly. *)
Definition zero_x : cvx ZRing :=
  mkCvx ZRing [("p", 1)] [2; 1]%Z 2 2 0 None
        [[(1, 1%Z)]; [(1, 1%Z)]; []]
        [[(0, 1%Z)]; []; [(1, 3%Z)]; [(1, 5%Z)]]
        [0; 1; 1; 0] [0; 2; 3; 4] false.
Example C16_example :
  let r := proc (K := ZRing) ex_big zero_x (SCS true) pA in
  (pr_idx r, pr_ip r, length (pr_rows r)) = ([0; 1], [0; 1; 2], 2).
Proof. vm_compute. reflexivity. Qed.

(** ** C17 *)

Theorem C17_right_hand_sides :
  forall (K : Ring) (big : K) (x : cvx K) th0, wf_cvx x th0 -> forall v,
  let val s p := map (dot v) (pr_rows (proc big x s p)) in
  (length (val OSQP pl) = x_neq x /\ forall i, i < x_neq x -> nth i (val OSQP pl) n0 = ropp (cb x v i))
  /\ (length (val OSQP pu) = x_neq x + x_nineq x
      /\ forall i, i < x_neq x + x_nineq x ->
           nth i (val OSQP pu) n0 = if Nat.ltb i (x_neq x) then ropp (cb x v i) else cb x v i)
  /\ (forall s, is_qp s = false -> length (val s pb) = x_neq x
        /\ forall i, i < x_neq x -> nth i (val s pb) n0 = cb x v i)
  /\ (forall s, is_qp s = false -> length (val s ph) = x_nineq x
        /\ forall i, i < x_nineq x -> nth i (val s ph) n0 = cb x v (x_neq x + i)).
Proof.
  intros K big x th0 W v val. split; [|split; [|split]].
  - exact (osqp_l K big x th0 W v).
  - exact (osqp_u K big x th0 W v).
  - intros s H. exact (conic_b K big x th0 W s v H).
  - intros s H. exact (conic_h K big x th0 W s v H).
Qed.
Print Assumptions C17_right_hand_sides.

(** Rows that CVXPY does not store at all are zero: in [zero_x] row 1 has no offset. *)
Example C17_example :
  map (dot (N := ZRing) [2; 1]%Z) (pr_rows (proc (K := ZRing) ex_big zero_x (SCS true) pb)) = [5; 0]%Z
  /\ cb zero_x [2; 1]%Z 1 = 0%Z.
Proof. vm_compute. auto. Qed.

(** ** C18 *)

Theorem C18_baked_data_match_baked_parameters :
  forall (K : Ring) (big : K) (x : cvx K) s order g p,
  generate big x s order = Ok g -> In p (solver_pids s) ->
  canonicalize (csr_of (g_rows g p)) (g_vec0 g) (g_baked g p) = Ok (g_baked g p).
Proof. exact baked_ok. Qed.
Print Assumptions C18_baked_data_match_baked_parameters.

Example C18_example : map (fun p => g_baked (ex_gen OSQP) p) [pq; pu] = [[5; 1]; [-5; 0; 0; 4]]%Z
  /\ g_vec0 (ex_gen OSQP) = [3; 4; 5; 1]%Z.
Proof. vm_compute. auto. Qed.
