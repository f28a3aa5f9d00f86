(** Further facts about canonicalization: well-formed compressed matrices, the objective
    offset, and the equivalence of the QP with CVXPY's problem. *)

From Coq Require Import String Arith Bool Lia List Permutation Ring.
From Verif Require Import Base Pus Machine PusParse PusCheck PusLift Runtime RuntimeSpec
     RuntimeProofs RuntimeMore Canon CanonSpec CanonProofs CanonMain CanonGen CanonProblem.
Import ListNotations.

Section CanonMore.
  Variable K : Ring.
  Add Ring Kring : (rth K).
  Local Open Scope num_scope.
  Variable big : K.
  Variable x : cvx K.
  Variable th0 : pvals K.
  Hypothesis W : wf_cvx x th0.
  Notation n := (x_n x).

  (** Structure of a matrix block of solver [s]: rows of the map, indices, pointers. *)
  Definition csc_ok (r : pres K) (nr : nat) : Prop :=
    ip_wf (pr_ip r) n (length (pr_rows r)) /\ length (pr_idx r) = length (pr_rows r)
    /\ forall i, In i (pr_idx r) -> (i < nr)%nat.

  Lemma upper_block : forall (a : amap K) ip ncols (m1 : list (row K)), am_nc a = n ->
      let map2 := resparse ncols a m1 in
      let nz := np_where (fun k => negb (Nat.eqb (length (nth k map2 [])) 0)) (length map2) in
      ip_wf ip n (length m1) -> (length (am_idx a) = length m1) ->
      (forall i, In i (am_idx a) -> (i < am_nr a)%nat) ->
      forall b c, csc_ok (mkPr m1 (take [] map2 nz) b (take 0%nat (am_idx a) nz) (recount (am_nc a) ip nz) c) (am_nr a).
  Proof.
    intros a ip ncols m1 Hn map2 nz Hip Hl Hi b c. unfold csc_ok; simpl.
    assert (length map2 = length m1) as L2 by apply resparse_length.
    rewrite !take_length. split; [|split; auto].
    - rewrite Hn. unfold nz. rewrite L2. apply recount_wf. exact Hip.
    - intros i H. apply Hi. unfold take in H. apply in_map_iff in H. destruct H as [k [E Hk]]. subst i.
      apply nth_In. apply np_where_In in Hk. lia.
  Qed.

  Lemma osqp_A_wf : csc_ok (proc big x OSQP pA) (x_neq x + x_nineq x).
  Proof.
    destruct (Ap_facts K x th0 W) as (H1 & H2 & H3).
    unfold proc, process. simpl is_qp. cbn [qp_map bind pid_upper constr_vec indptr_for is_split].
    pose proof (n_mat_eq K x th0 W) as HM.
    match goal with |- context [@mkAm ?t ?a ?b ?c ?d ?e ?f] => pose (a0 := @mkAm t a b c d e f) end.
    refine (upper_block a0 (removelast (x_Ap x)) (length (x_flat x)) (am_map a0) eq_refl _ _ _ _ _).
    - assert (length (am_map a0) = n_mat x) as ->.
      { simpl. rewrite map_length, seq_length, firstn_length, (wx_A _ _ _ W), HM. lia. }
      rewrite HM. apply (ip0_wf K x th0 W).
    - simpl. rewrite map_length, seq_length, !firstn_length, (wx_A _ _ _ W). reflexivity.
    - simpl. intros i Hi. apply (wx_Ai _ _ _ W). rewrite <- (firstn_skipn (n_mat x)). apply in_or_app. auto.
  Qed.

  Lemma idx_bound : forall k, (k < n_data x)%nat -> (nth k (x_Ai x) 0 < x_neq x + x_nineq x)%nat.
  Proof. intros. apply (wx_Ai _ _ _ W). apply nth_In. exact H. Qed.

  Lemma conic_A_wf : forall s, is_qp s = false -> wf_for x s -> csc_ok (proc big x s pA) (x_neq x).
  Proof.
    intros s Hs Hw. destruct (Ap_facts K x th0 W) as (H1 & H2 & H3).
    unfold proc, process. rewrite Hs. cbn [conic_map bind pid_upper constr_vec].
    match goal with |- context [@mkAm ?t ?a ?b ?c ?d ?e ?f] => pose (a0 := @mkAm t a b c d e f) end.
    refine (upper_block a0 (indptr_for x (is_split s) pA a0) (length (x_flat x)) (am_map a0) eq_refl _ _ _ _ _).
    - simpl. rewrite take_length. unfold rows_eq. rewrite (mrows_mat K x th0 W). destruct (is_split s) eqn:Esp.
      + apply recount_wf. apply (ip0_wf K x th0 W).
      + assert (x_nineq x = 0%nat) as H0 by (destruct s; simpl in *; try discriminate; tauto).
        set (f := fun k => Nat.ltb (nth k (x_Ai x) 0%nat) (x_neq x)).
        assert (np_where f (nth n (x_Ap x) 0%nat) = seq 0 (nth n (x_Ap x) 0%nat)) as EN.
        { unfold np_where. apply filter_all. intros k Hk. apply in_seq in Hk. unfold f.
          apply Nat.ltb_lt. pose proof (idx_bound k). unfold n_data in *. lia. }
        rewrite EN, seq_length. apply (ip0_wf K x th0 W).
    - simpl. rewrite !take_length. reflexivity.
    - simpl. intros i Hi. unfold take in Hi. apply in_map_iff in Hi. destruct Hi as [k [E Hk]]. subst i.
      apply filter_In in Hk. destruct Hk as [Hk _]. apply np_where_In in Hk. destruct Hk as [_ Hk].
      apply Nat.ltb_lt in Hk. exact Hk.
  Qed.

  Lemma conic_G_wf : forall s, is_split s = true -> csc_ok (proc big x s pG) (x_nineq x).
  Proof.
    intros s Hs. destruct (Ap_facts K x th0 W) as (H1 & H2 & H3).
    unfold proc, process. assert (is_qp s = false) as -> by (destruct s; auto; discriminate).
    cbn [conic_map bind pid_upper constr_vec].
    match goal with |- context [@mkAm ?t ?a ?b ?c ?d ?e ?f] => pose (a0 := @mkAm t a b c d e f) end.
    refine (upper_block a0 (indptr_for x (is_split s) pG a0) (length (x_flat x)) (am_map a0) eq_refl _ _ _ _ _).
    - simpl. rewrite take_length. unfold rows_ineq. rewrite (mrows_mat K x th0 W), Hs.
      apply recount_wf. apply (ip0_wf K x th0 W).
    - simpl. rewrite map_length, !take_length. reflexivity.
    - simpl. intros i Hi. apply in_map_iff in Hi. destruct Hi as [i0 [E Hi]]. subst i.
      unfold take in Hi. apply in_map_iff in Hi. destruct Hi as [k [E Hk]]. subst i0.
      apply filter_In in Hk. destruct Hk as [Hk _]. apply np_where_In in Hk. destruct Hk as [Hkn Hk].
      apply Nat.leb_le in Hk. pose proof (idx_bound k Hkn). lia.
  Qed.

  Lemma P_wf : forall s nr rows idx ip, x_P x = Some (rows, idx, ip) -> In pP (solver_pids s) ->
      (forall i, In i idx -> (i < nr)%nat) -> csc_ok (proc big x s pP) nr.
  Proof.
    intros s nr rows idx ip EP Hp Hi. destruct (wx_P _ _ _ W _ _ _ EP) as (H1 & H2 & H3).
    unfold proc, process.
    assert ((if is_qp s then qp_map x pP else conic_map x pP) = Ok (Some (mkAm [] rows no_sign idx n n))) as ->.
    { unfold qp_map, conic_map, map_P. rewrite EP. destruct (is_qp s); reflexivity. }
    cbn [bind pid_upper constr_vec]. unfold indptr_for. rewrite EP.
    pose (a0 := mkAm [] rows no_sign idx n n : amap K).
    pose (a1 := mkAm [] rows no_sign idx nr n : amap K).
    exact (upper_block a1 ip (length (x_flat x)) rows eq_refl
             ltac:(simpl; rewrite H2; exact H1) ltac:(simpl; auto) Hi _ _).
  Qed.

  (** ** The offset *)
  Lemma offset_zero : forall s order g, generate big x s order = Ok g ->
      g_nonzero_d g = false -> forall v, cd x v = n0.
  Proof.
    intros s order g Hg Hz v. unfold generate in Hg. destruct (block_for big x s order); [|discriminate].
    cbn [bind] in Hg. inversion Hg; subst g. clear Hg. cbn [g_nonzero_d] in Hz.
    destruct (d_rows K big x th0 W s) as [_ E]. rewrite E in Hz. unfold nnz in Hz. simpl in Hz.
    rewrite app_nil_r in Hz. unfold cd. destruct (nth (x_n x) (x_q x) []); [reflexivity|discriminate].
  Qed.

  Lemma gen_max : forall s order g, generate big x s order = Ok g -> g_max g = x_max x.
  Proof.
    intros s order g Hg. unfold generate in Hg. destruct (block_for big x s order); [|discriminate].
    cbn [bind] in Hg. inversion Hg; reflexivity.
  Qed.

  (** ** Dependency lists *)
  Lemma block_indep : forall s order g name th th' p, generate big x s order = Ok g ->
      In p (solver_pids s) -> ~ In p (g_outd g name) ->
      (forall m i, m <> name -> th m i = th' m i) ->
      In name (map fst (x_params x)) ->
      map (dot (flat (x_params x) th)) (g_rows g p) = map (dot (flat (x_params x) th')) (g_rows g p).
  Proof.
    intros s order g name th th' p Hg Hp Hno Hth Hname.
    unfold generate in Hg. destruct (block_for big x s order); [|discriminate].
    cbn [bind] in Hg. inversion Hg; subst g; clear Hg. cbn [g_rows g_outd] in *.
    pose proof Hp as Hp'. apply mem_pid_In in Hp'. rewrite Hp'.
    destruct (proc_facts K big x s p Hp) as (F1 & _).
    apply in_map_iff in Hname. destruct Hname as [[nm sz] [En Hin]]. simpl in En. subst nm.
    destruct (find_col_some name sz (x_params x) 0 Hin) as [c0 Hc0].
    apply map_ext_in. intros r Hr. apply dot_ext. intros c w Hcw.
    destruct (F1 r c w Hr Hcw) as (Hlt & r' & w' & H1 & H2).
    assert (Hout : ~ (c0 <= c < c0 + sz)%nat).
    { intro Hrange. apply Hno. unfold outdated. rewrite Hc0.
      rewrite (assoc_In _ _ _ _ (wx_names _ _ _ W) Hin). apply filter_In. split; auto.
      destruct (touches (pr_map1 (proc big x s p)) c0 (c0 + sz)) eqn:Et; auto.
      exfalso. exact (touches_false K _ _ _ Et r' c w' H1 H2 Hrange). }
    rewrite (wx_flat _ _ _ W) in Hlt.
    destruct (Nat.eq_dec c (length (flat (x_params x) th0) - 1)) as [E|E].
    - subst c. rewrite (flat_length K _ th0 th) at 1. rewrite flat_trailing.
      rewrite (flat_length K _ th0 th'). rewrite flat_trailing. reflexivity.
    - destruct (slices_cover K (x_params x) th0 c (wx_names _ _ _ W)) as (m & s' & cm & Hm & Hcm & Hr'); [lia|].
      pose (gg := mkG K s (x_params x) [] (fun _ => []) (fun _ => None) (fun _ => []) (fun _ => []) false false UNil).
      assert (base_col gg m = Some cm) as Hb by exact Hcm.
      replace c with (cm + (c - cm))%nat by lia. change (x_params x) with (g_params gg).
      rewrite (slice_value K gg th m s' (c - cm) cm n0 (wx_names _ _ _ W) Hm) by (auto; lia).
      rewrite (slice_value K gg th' m s' (c - cm) cm n0 (wx_names _ _ _ W) Hm) by (auto; lia).
      apply Hth. intro Em. subst m. rewrite Hc0 in Hcm. inversion Hcm; subst cm.
      assert (s' = sz).
      { pose proof (assoc_In _ _ _ _ (wx_names _ _ _ W) Hin) as A1.
        pose proof (assoc_In _ _ _ _ (wx_names _ _ _ W) Hm) as A2. congruence. }
      subst. lia.
  Qed.

  (** A block without update code is the same for all parameter values. *)
  Lemma block_const : forall s order g p, generate big x s order = Ok g -> In p (solver_pids s) ->
      chg_get (g_chg g) p = false ->
      forall th, map (dot (flat (x_params x) th)) (g_rows g p) ++ skipn (length (g_rows g p)) (g_baked g p)
                 = g_baked g p.
  Proof.
    intros s order g p Hg Hp Hc th.
    unfold generate in Hg. destruct (block_for big x s order); [|discriminate].
    cbn [bind] in Hg. inversion Hg; subst g; clear Hg. cbn [g_rows g_baked g_chg] in *.
    unfold chg_get, chg in Hc. apply mem_pid_In in Hp. rewrite Hp in *. apply mem_pid_In in Hp.
    rewrite (const_block K big x th0 W s p th Hp Hc).
    destruct (proc_facts K big x s p Hp) as (_ & _ & Eb & _). cbv zeta in Eb. rewrite Eb.
    rewrite skipn_app, map_length, Nat.sub_diag, skipn_all2 by (rewrite map_length; auto). reflexivity.
  Qed.

  (** Baked data are what the generated code computes from the baked vector. *)
  Lemma baked_ok : forall s order g p, generate big x s order = Ok g -> In p (solver_pids s) ->
      canonicalize (csr_of (g_rows g p)) (g_vec0 g) (g_baked g p) = Ok (g_baked g p).
  Proof.
    intros s order g p Hg Hp.
    unfold generate in Hg. destruct (block_for big x s order); [|discriminate].
    cbn [bind] in Hg. inversion Hg; subst g; clear Hg. cbn [g_rows g_baked g_vec0] in *.
    pose proof Hp as Hp'. apply mem_pid_In in Hp'. rewrite Hp'.
    destruct (proc_facts K big x s p Hp) as (F1 & _ & Eb & _). cbv zeta in Eb.
    rewrite canonicalize_ok.
    - rewrite Eb. rewrite skipn_app, map_length, Nat.sub_diag, skipn_all2 by (rewrite map_length; auto). reflexivity.
    - intros r c v Hr Hc. apply (F1 r c v Hr Hc).
    - rewrite Eb, app_length, map_length. lia.
  Qed.
End CanonMore.
Arguments csc_ok {K}.

(** ** The QP is CVXPY's problem *)
Section Order.
  Variable K : ORing.
  Add Ring Kring2 : (rth K).
  Local Open Scope num_scope.

  Lemma le_opp : forall a b : K, ole a b -> ole (- b) (- a).
  Proof.
    intros a b H. pose proof (ole_add K _ _ (- a - b) H) as H2.
    replace (- a - b + a) with (- b) in H2 by ring. replace (- a - b + b) with (- a) in H2 by ring. exact H2.
  Qed.
  Lemma le_sub0 : forall a b : K, ole a b <-> ole n0 (b - a).
  Proof.
    intros a b. split; intro H.
    - pose proof (ole_add K _ _ (- a) H) as H2. replace (- a + a) with (n0 : K) in H2 by ring.
      replace (- a + b) with (b - a) in H2 by ring. exact H2.
    - pose proof (ole_add K _ _ a H) as H2. replace (a + n0) with a in H2 by ring.
      replace (a + (b - a)) with b in H2 by ring. exact H2.
  Qed.

  Variable big : K.
  Variable x : cvx K.
  Notation n := (x_n x).

  (** Quadratic form and linear form over the first n coordinates. *)
  Definition qform (P : nat -> nat -> K) (y : nat -> K) : K :=
    rsum (map (fun i => rsum (map (fun j => y i * P i j * y j) (seq 0 n))) (seq 0 n)).
  Definition lform (q : nat -> K) (y : nat -> K) : K := rsum (map (fun j => q j * y j) (seq 0 n)).

  Definition qp_feasible (e : entry K) (y : nat -> K) : Prop :=
    forall i, (i < x_neq x + x_nineq x)%nat ->
      ole (dvec K e pl i) (mv K x (dmat K big x OSQP e pA) y i)
      /\ ole (mv K x (dmat K big x OSQP e pA) y i) (dvec K e pu i).

  Definition cvx_feasible (v : list K) (y : nat -> K) : Prop :=
    (forall i, (i < x_neq x)%nat -> resid x v y i = n0)
    /\ (forall i, (x_neq x <= i < x_neq x + x_nineq x)%nat -> ole n0 (resid x v y i)).

  Lemma qp_same : forall e v, qp_means K big x e v ->
      (forall y half, half * qform (dmat K big x OSQP e pP) y + lform (dvec K e pq) y + nth 0 (e_d e) n0
                      = half * qform (cP x v) y + lform (cq x v) y + cd x v)
      /\ forall y, (forall i, (x_neq x <= i < x_neq x + x_nineq x)%nat ->
                              ole (- big) (- mv K x (cA x v) y i)) ->
                   (qp_feasible e y <-> cvx_feasible v y).
  Proof.
    intros e v ((M1 & M2 & M3 & M4) & MA & L1 & L2 & Me & Mi). split.
    - intros y half.
      assert (qform (dmat K big x OSQP e pP) y = qform (cP x v) y) as ->.
      { apply rsum_ext. intros i Hi. apply rsum_ext. intros j Hj. apply in_seq in Hj.
        rewrite M1; auto; [simpl; auto|lia]. }
      assert (lform (dvec K e pq) y = lform (cq x v) y) as ->.
      { apply rsum_ext. intros j Hj. apply in_seq in Hj. rewrite M3; auto. lia. }
      rewrite M4. reflexivity.
    - intros y Hbig.
      assert (EQ : forall i, (i < x_neq x)%nat -> mv K x (dmat K big x OSQP e pA) y i = mv K x (cA x v) y i).
      { intros i Hi. apply rsum_ext. intros j Hj. apply in_seq in Hj. rewrite MA by lia.
        assert (Nat.ltb i (x_neq x) = true) as -> by (apply Nat.ltb_lt; auto). reflexivity. }
      assert (IN : forall i, (x_neq x <= i)%nat -> mv K x (dmat K big x OSQP e pA) y i = - mv K x (cA x v) y i).
      { intros i Hi. apply (mv_neg K x (dmat K big x OSQP e pA) (cA x v) y i i).
        intros j Hj. rewrite MA by lia.
        assert (Nat.ltb i (x_neq x) = false) as -> by (apply Nat.ltb_ge; auto). reflexivity. }
      unfold qp_feasible, cvx_feasible, resid. fold (mv K x (cA x v) y). split.
      + intro H. split.
        * intros i Hi. destruct (H i) as [A B]; [lia|]. destruct (Me i Hi) as [E1 E2].
          rewrite EQ in A, B by auto. rewrite E1 in A. rewrite E2 in B.
          pose proof (ole_antisym K _ _ A B) as E. unfold mv in E. rewrite <- E. ring.
        * intros i Hi. destruct (H i) as [A B]; [lia|]. destruct (Mi i Hi) as [E1 E2].
          rewrite IN in B by lia. rewrite E2 in B. apply le_sub0 in B.
          replace (cb x v i - - mv K x (cA x v) y i) with (mv K x (cA x v) y i + cb x v i) in B by ring.
          exact B.
      + intros [H1 H2] i Hi. destruct (Nat.lt_ge_cases i (x_neq x)) as [L|L].
        * destruct (Me i L) as [E1 E2]. rewrite EQ by auto. rewrite E1, E2. specialize (H1 i L).
          assert (mv K x (cA x v) y i = - cb x v i) as ->.
          { transitivity (mv K x (cA x v) y i + cb x v i - cb x v i); [ring|]. unfold mv. rewrite H1. ring. }
          split; apply ole_refl.
        * assert (x_neq x <= i < x_neq x + x_nineq x)%nat as R by lia.
          destruct (Mi i R) as [E1 E2]. rewrite IN by auto. rewrite E1, E2. split; [apply Hbig; auto|].
          apply le_sub0. replace (cb x v i - - mv K x (cA x v) y i) with (mv K x (cA x v) y i + cb x v i) by ring.
          apply H2. exact R.
  Qed.
End Order.
