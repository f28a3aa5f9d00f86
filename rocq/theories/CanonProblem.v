(** What every solve of generated code is handed, in terms of CVXPY's problem data: the
    whole pipeline from canonicalization to the solver call. *)

From Coq Require Import String Arith Bool Lia List Permutation Ring.
From Verif Require Import Base Pus Machine PusParse PusCheck PusLift Runtime RuntimeSpec
     RuntimeProofs Canon CanonSpec CanonProofs CanonMain CanonGen.
Import ListNotations.

Section Problem.
  Variable K : Ring.
  Add Ring Kring : (rth K).
  Local Open Scope num_scope.
  Variable big : K.
  Variable x : cvx K.

  (** Entry (i, j) of matrix block [p] as the solver sees it at a solve: values from the
      solve's data, structure as baked into the C arrays. *)
  Definition dmat (s : solver) (e : entry K) (p : pid) (i j : nat) : K :=
    csc_entry (fun k => nth k (e_data e p) n0) (pr_idx (proc big x s p)) (pr_ip (proc big x s p)) i j.
  Definition dvec (e : entry K) (p : pid) (i : nat) : K := nth i (e_data e p) n0.
  Definition mv (A : nat -> nat -> K) (y : nat -> K) (i : nat) : K :=
    rsum (map (fun j => A i j * y j) (seq 0 (x_n x))).

  (** The objective data of a solve are CVXPY's at parameter vector [v]. *)
  Definition obj_means (s : solver) (qc : pid) (e : entry K) (v : list K) : Prop :=
    (In pP (solver_pids s) -> forall i j, (j < x_n x)%nat -> dmat s e pP i j = cP x v i j)
    /\ length (e_data e qc) = x_n x
    /\ (forall j, (j < x_n x)%nat -> dvec e qc j = cq x v j)
    /\ e_d e = [cd x v].

  (** QP form: equality rows A y = -b, inequality rows -big <= -A y <= b. *)
  Definition qp_means (e : entry K) (v : list K) : Prop :=
    obj_means OSQP pq e v
    /\ (forall i j, (j < x_n x)%nat ->
          dmat OSQP e pA i j = if Nat.ltb i (x_neq x) then cA x v i j else - cA x v i j)
    /\ length (e_data e pl) = (x_neq x + x_nineq x)%nat
    /\ length (e_data e pu) = (x_neq x + x_nineq x)%nat
    /\ (forall i, (i < x_neq x)%nat -> dvec e pl i = - cb x v i /\ dvec e pu i = - cb x v i)
    /\ (forall i, (x_neq x <= i < x_neq x + x_nineq x)%nat ->
          dvec e pl i = - big /\ dvec e pu i = cb x v i).

  (** Conic form: b - A y and h - G y are CVXPY's constraint expressions. *)
  Definition conic_means (s : solver) (qc : pid) (e : entry K) (v : list K) : Prop :=
    obj_means s qc e v
    /\ length (e_data e pb) = x_neq x
    /\ (forall y i, (i < x_neq x)%nat -> dvec e pb i - mv (dmat s e pA) y i = resid x v y i)
    /\ (is_split s = true ->
          length (e_data e ph) = x_nineq x
          /\ forall y i, (i < x_nineq x)%nat ->
               dvec e ph i - mv (dmat s e pG) y i = resid x v y (x_neq x + i)%nat).

  Definition qc_of (s : solver) : pid := match s with OSQP | CLARABEL _ => pq | _ => pc end.

  Variable th0 : pvals K.
  Hypothesis W : wf_cvx x th0.

  Section One.
    Variable s : solver.
    Variable order : list string -> list string.
    Variable g : genc K.
    Hypothesis Hord : forall l, Permutation l (order l).
    Hypothesis Hg : generate big x s order = Ok g.
    Hypothesis Hwf : wf_for x s.

    Lemma data_is : forall e th p, (forall p, In p (owned s) -> e_data e p = canon_spec g th p) ->
        In p (owned s) -> e_data e p = bval K big x s p (flat (x_params x) th) ++ tail_of K big x s p.
    Proof.
      intros e th p H Hp. rewrite H by auto.
      eapply canon_spec_meaning; eauto. apply owned_pids in Hp. tauto.
    Qed.

    Lemma qc_owned : In (qc_of s) (owned s).
    Proof. destruct s as [|[]| |[]|[]|[]]; simpl; tauto. Qed.
    Lemma tail_nil : forall p, p <> pl -> tail_of K big x s p = [].
    Proof. intros. unfold tail_of, tl_of. destruct p; try congruence; reflexivity. Qed.

    Lemma obj_ok : forall e th, (forall p, In p (owned s) -> e_data e p = canon_spec g th p) ->
        e_d e = canon_spec g th pd -> obj_means s (qc_of s) e (flat (x_params x) th).
    Proof.
      intros e th H Hd. unfold obj_means, dvec.
      assert (qc_of s = pq \/ qc_of s = pc) as Hq by (destruct s; simpl; auto).
      assert (qc_of s = pc -> is_qp s = false) as Hq2 by (destruct s; simpl; auto; discriminate).
      destruct (q_block K big x th0 W s (qc_of s) (flat (x_params x) th) Hq Hq2) as [Q1 Q2].
      assert (e_data e (qc_of s) = bval K big x s (qc_of s) (flat (x_params x) th)) as Eq.
      { rewrite (data_is e th _ H qc_owned). rewrite tail_nil. apply app_nil_r. destruct s; discriminate. }
      split; [|split; [|split]].
      - intros HP i j Hj. unfold dmat.
        assert (e_data e pP = bval K big x s pP (flat (x_params x) th)) as EP.
        { rewrite (data_is e th pP H). rewrite tail_nil by discriminate. apply app_nil_r.
          apply filter_In. auto. }
        rewrite EP. apply (P_ok K big x th0 W s); auto.
      - rewrite Eq. exact Q1.
      - intros j Hj. rewrite Eq. apply Q2. auto.
      - rewrite Hd. rewrite (canon_spec_meaning K big x th0 W s order); auto.
        + rewrite tail_nil by discriminate. rewrite app_nil_r. apply (d_ok K big x th0 W).
        + destruct s as [|[]| |[]|[]|[]]; simpl; tauto.
    Qed.

    Lemma mv_neg : forall (A B : nat -> nat -> K) y i i',
        (forall j, (j < x_n x)%nat -> A i j = - B i' j) -> mv A y i = - mv B y i'.
    Proof.
      intros A B y i i' H. unfold mv. rewrite <- rsum_map_opp. apply rsum_ext.
      intros j Hj. apply in_seq in Hj. rewrite H by lia. ring.
    Qed.

    Lemma conic_ok : is_qp s = false -> forall e th,
        (forall p, In p (owned s) -> e_data e p = canon_spec g th p) ->
        e_d e = canon_spec g th pd -> conic_means s (qc_of s) e (flat (x_params x) th).
    Proof.
      intros Hqp e th H Hd. set (v := flat (x_params x) th).
      assert (forall p, In p (owned s) -> p <> pl -> e_data e p = bval K big x s p v) as E.
      { intros p Hp Hl. rewrite (data_is e th p H Hp). rewrite tail_nil by auto. apply app_nil_r. }
      assert (In pA (owned s) /\ In pb (owned s)) as [HA Hb].
      { destruct s as [|[]| |[]|[]|[]]; simpl; try discriminate; tauto. }
      destruct (conic_b K big x th0 W s v Hqp) as [B1 B2].
      split; [apply obj_ok; auto|]. split; [rewrite E; auto; discriminate|]. split.
      - intros y i Hi. unfold dvec. rewrite (E pb) by (auto; discriminate). rewrite B2 by auto.
        rewrite (mv_neg _ (cA x v) y i i).
        + unfold resid, mv. ring.
        + intros j Hj. unfold dmat. rewrite E by (auto; discriminate).
          apply (conic_A K big x th0 W); auto.
      - intro Hsp.
        assert (In pG (owned s) /\ In ph (owned s)) as [HG Hh].
        { destruct s as [|[]| |[]|[]|[]]; simpl; try discriminate; tauto. }
        destruct (conic_h K big x th0 W s v Hqp) as [H1 H2].
        split; [rewrite E; auto; discriminate|].
        intros y i Hi. unfold dvec. rewrite (E ph) by (auto; discriminate). rewrite H2 by auto.
        rewrite (mv_neg _ (cA x v) y i (x_neq x + i)%nat).
        + unfold resid, mv. ring.
        + intros j Hj. unfold dmat. rewrite E by (auto; discriminate).
          apply (conic_G K big x th0 W); auto.
    Qed.
  End One.

  Lemma qp_ok : forall order g, (forall l, Permutation l (order l)) ->
      generate big x OSQP order = Ok g -> forall e th,
      (forall p, In p (owned OSQP) -> e_data e p = canon_spec g th p) ->
      e_d e = canon_spec g th pd -> qp_means e (flat (x_params x) th).
  Proof.
    intros order g Hord Hg e th H Hd. set (v := flat (x_params x) th).
    assert (forall p, In p (owned OSQP) -> p <> pl -> e_data e p = bval K big x OSQP p v) as E.
    { intros p Hp Hl. rewrite (data_is OSQP order g Hord Hg e th p H Hp).
      rewrite tail_nil by auto. apply app_nil_r. }
    assert (e_data e pl = bval K big x OSQP pl v ++ repeat (- big) (x_nineq x)) as El.
    { rewrite (data_is OSQP order g Hord Hg e th pl H). reflexivity. simpl; tauto. }
    destruct (osqp_l K big x th0 W v) as [L1 L2]. destruct (osqp_u K big x th0 W v) as [U1 U2].
    assert (In pA (owned OSQP) /\ In pu (owned OSQP)) as [HA Hu] by (simpl; tauto).
    unfold qp_means. split; [apply (obj_ok OSQP order g Hord Hg I); auto|]. split; [|split; [|split; [|split]]].
    - intros i j Hj. unfold dmat. rewrite E by (auto; discriminate). apply (osqp_A K big x th0 W); auto.
    - rewrite El, app_length, repeat_length, L1. reflexivity.
    - rewrite E by (auto; discriminate). auto.
    - intros i Hi. unfold dvec. rewrite El, (E pu) by (auto; discriminate).
      rewrite app_nth1 by lia. rewrite L2, U2 by lia.
      assert (Nat.ltb i (x_neq x) = true) as -> by (apply Nat.ltb_lt; auto). auto.
    - intros i Hi. unfold dvec. rewrite El, (E pu) by (auto; discriminate).
      rewrite app_nth2 by lia. rewrite U2 by lia.
      assert (Nat.ltb i (x_neq x) = false) as -> by (apply Nat.ltb_ge; lia). split; auto.
      rewrite nth_indep with (d' := - big) by (rewrite repeat_length; lia). apply nth_repeat.
  Qed.

  (** ** The whole pipeline *)
  Definition means (s : solver) (e : entry K) (v : list K) : Prop :=
    match s with OSQP => qp_means e v | _ => conic_means s (qc_of s) e v end.

  Theorem pipeline_ok : forall s order scr os,
      wf_for x s -> (forall l, Permutation l (order l)) ->
      (s = ECOS -> forall p, In p (owned ECOS) -> length (pr_rows (proc big x s p)) <> 1%nat) ->
      (keeps s = true -> forall n p d, scr n p d = d) ->
      Forall (valid_op (x_params x)) os ->
      exists g s', generate big x s order = Ok g /\ steps g scr (init_state g) os = Ok s'
        /\ Forall2 (fun e th => means s e (flat (x_params x) th)) (r_log s') (solve_vals th0 os).
  Proof.
    intros s order scr os Hwf Hord Hecos Hkeep Hv.
    destruct (generate_wf K big x th0 W s order Hord) as (g & Hg & Wg & Hs).
    assert (g_params g = x_params x /\ forall p, In p (solver_pids s) -> g_rows g p = pr_rows (proc big x s p)) as [Hp Hr].
    { unfold generate in Hg. destruct (block_for big x s order); [|discriminate]. cbn [bind] in Hg.
      inversion Hg; subst g; simpl. split; auto. intros p Hp. apply mem_pid_In in Hp. rewrite Hp. auto. }
    destruct (run_ok K g th0 Wg scr) with (os := os) as (s' & log & E & L & F).
    - intros Es p Hpo. rewrite Hs in Es. rewrite Hr by (rewrite Es; apply owned_pids in Hpo; tauto). apply Hecos; auto.
    - rewrite Hs. exact Hkeep.
    - rewrite Hp. exact Hv.
    - exists g, s'. split; auto. split; auto. rewrite L.
      clear E L. induction F; constructor; auto.
      destruct H as [H1 H2]. rewrite Hs in H1. unfold means.
      destruct (is_qp s) eqn:Eq.
      + destruct s; try discriminate. eapply qp_ok; eauto.
      + pose proof (conic_ok s order g Hord Hg Hwf Eq _ _ H1 H2) as HC. destruct s; try discriminate; exact HC.
  Qed.
End Problem.
