(** The code generated from CVXPY data is well formed, and its blocks have the specified
    meaning at every parameter value. *)

From Coq Require Import String Arith Bool Lia List Permutation Ring.
From Verif Require Import Base Pus Machine PusParse PusCheck PusLift Runtime RuntimeSpec
     RuntimeProofs Canon CanonSpec CanonProofs CanonMain.
Import ListNotations.

Section Gen.
  Variable K : Ring.
  Add Ring Kring : (rth K).
  Variable big : K.
  Variable x : cvx K.
  Variable th0 : pvals K.
  Hypothesis W : wf_cvx x th0.

  Lemma take_sub : forall A (d : A) l idx a, (forall k, In k idx -> k < length l) ->
      In a (take d l idx) -> In a l.
  Proof.
    intros. unfold take in H0. apply in_map_iff in H0. destruct H0 as [k [E Hk]]. subst.
    apply nth_In. auto.
  Qed.

  Definition tl_of (qp : bool) (p : pid) : list K :=
    match p, qp with pl, true => repeat (ropp big) (x_nineq x) | _, _ => [] end.

  (** Facts about one processed parameter that do not depend on which one it is. *)
  Lemma process_facts : forall qp sp p r, process big x qp sp p = Ok r ->
      (forall rw c w, In rw (pr_rows r) -> In (c, w) rw ->
         c < length (x_flat x) /\ exists r' w', In r' (pr_map1 r) /\ In (c, w') r')
      /\ pr_chg r = touches (pr_rows r) 0 (length (x_flat x) - 1)
      /\ pr_base r = map (dot (x_flat x)) (pr_rows r) ++ tl_of qp p
      /\ (pid_upper p = true -> length (pr_idx r) = length (pr_rows r)
                                /\ forall rw, In rw (pr_rows r) -> rw <> []).
  Proof.
    intros qp sp p r H. unfold process in H.
    destruct (if qp then qp_map x p else conic_map x p) as [[a|]|] eqn:Em; simpl in H; try discriminate.
    - set (map1 := if constr_vec p then to_dense x a else am_map a) in *.
      set (map2 := resparse (length (x_flat x)) a map1) in *.
      destruct (pid_upper p) eqn:Eu.
      + set (nz := np_where (fun k => negb (Nat.eqb (length (nth k map2 [])) 0)) (length map2)) in *.
        assert (forall k, In k nz -> k < length map2) as Hnz.
        { intros k Hk. apply np_where_In in Hk. tauto. }
        inversion H; subst r; clear H. simpl. split; [|split; [|split]].
        * intros rw c w Hr Hc. apply take_sub in Hr; auto.
          apply resparse_In with (r := rw) (c := c) (w := w) in Hr; auto.
        * reflexivity.
        * destruct p; try discriminate; simpl; rewrite app_nil_r; reflexivity.
        * intros _. rewrite !take_length. split; auto.
          intros rw Hr. unfold take in Hr. apply in_map_iff in Hr. destruct Hr as [k [E Hk]].
          apply np_where_In in Hk. destruct Hk as [_ Hk]. intro E2. subst rw. unfold row in *.
          cbv beta in Hk. rewrite E2 in Hk. discriminate.
      + inversion H; subst r; clear H. simpl. split; [|split; [|split]].
        * intros rw c w Hr Hc. apply resparse_In with (r := rw) (c := c) (w := w) in Hr; auto.
        * reflexivity.
        * destruct p, qp; simpl; rewrite ?app_nil_r; reflexivity.
        * discriminate.
    - inversion H; subst r; clear H. simpl. repeat split; try tauto.
      destruct p, qp; auto. discriminate.
  Qed.

  Lemma process_ok : forall s p, In p (solver_pids s) ->
      exists r, process big x (is_qp s) (is_split s) p = Ok r /\ proc big x s p = r.
  Proof.
    intros s p Hp. unfold proc.
    assert (exists r, process big x (is_qp s) (is_split s) p = Ok r) as [r E].
    { unfold process.
      assert (exists oa, (if is_qp s then qp_map x p else conic_map x p) = Ok oa) as [oa E].
      { destruct s as [|[]| |[]|[]|[]]; simpl in Hp |- *; intuition (subst; simpl; eauto). }
      rewrite E. simpl. destruct oa; [destruct (pid_upper p)|]; eauto. }
    rewrite E. eauto.
  Qed.

  Lemma proc_facts : forall s p, In p (solver_pids s) -> let r := proc big x s p in
      (forall rw c w, In rw (pr_rows r) -> In (c, w) rw ->
         c < length (x_flat x) /\ exists r' w', In r' (pr_map1 r) /\ In (c, w') r')
      /\ pr_chg r = touches (pr_rows r) 0 (length (x_flat x) - 1)
      /\ pr_base r = map (dot (x_flat x)) (pr_rows r) ++ tl_of (is_qp s) p
      /\ (pid_upper p = true -> length (pr_idx r) = length (pr_rows r)
                                /\ forall rw, In rw (pr_rows r) -> rw <> []).
  Proof.
    intros s p Hp. destruct (process_ok s p Hp) as [r [E1 E2]]. cbv zeta. rewrite E2.
    eapply process_facts. exact E1.
  Qed.

  Lemma assoc_In : forall A (l : list (string * A)) k v, NoDup (map fst l) -> In (k, v) l ->
      assoc k l = Some v.
  Proof.
    induction l as [|[k' v'] l]; simpl; intros k v Hn Hi. destruct Hi.
    inversion Hn; subst. destruct Hi as [Hi|Hi].
    - inversion Hi; subst. rewrite String.eqb_refl. auto.
    - destruct (String.eqb k k') eqn:E; auto. apply String.eqb_eq in E. subst.
      exfalso. apply H1. apply in_map_iff. exists (k', v). auto.
  Qed.

  Lemma chg_wf_gen : forall s, chg_wf s (chg big x s).
  Proof.
    intros s p. unfold chg. rewrite <- mem_pid_In.
    destruct (mem_pid p (solver_pids s)); split; intros; try congruence.
  Qed.

  Theorem generate_wf : forall s order, (forall l, Permutation l (order l)) ->
      exists g, generate big x s order = Ok g /\ wf_gen g th0 /\ g_solver g = s.
  Proof.
    intros s order Hord.
    destruct (analyze_ok s (chg big x s) (chg_wf_gen s)) as (top & never & Ea).
    destruct (update_code_ok s _ top never (order top) (chg_wf_gen s) Ea (Hord top))
      as (t' & toks & b & Eg & Epa & Eps & _).
    unfold generate, block_for. rewrite Ea. cbn [bind]. rewrite Eg. cbn [bind]. rewrite Epa. cbn [bind].
    eexists. split; [reflexivity|]. split; [|reflexivity].
    constructor; simpl.
    - apply (wx_names _ _ _ W).
    - apply (wx_flat _ _ _ W).
    - apply chg_wf_gen.
    - intros p r c v Hr Hc. rewrite <- (wx_flat _ _ _ W).
      destruct (mem_pid p (solver_pids s)) eqn:Ep; [|destruct Hr].
      apply mem_pid_In in Ep. destruct (proc_facts s p Ep) as (F1 & _).
      apply (F1 r c v Hr Hc).
    - intro p. destruct (mem_pid p (solver_pids s)) eqn:Ep; [|simpl; lia].
      apply mem_pid_In in Ep. destruct (proc_facts s p Ep) as (_ & _ & E & _). cbv zeta in E.
      rewrite E, app_length, map_length. lia.
    - intros p nm sz c0 Hc Hin Hb Hno r c v Hr Hcv Hrange.
      destruct (mem_pid p (solver_pids s)) eqn:Ep; [|destruct Hr].
      apply mem_pid_In in Ep. destruct (proc_facts s p Ep) as (F1 & _).
      destruct (F1 r c v Hr Hcv) as (_ & r' & w' & H1 & H2).
      apply Hno. unfold outdated. unfold base_col in Hb. simpl in Hb. rewrite Hb.
      rewrite (assoc_In _ _ _ _ (wx_names _ _ _ W) Hin).
      apply filter_In. split; auto.
      destruct (touches (pr_map1 (proc big x s p)) c0 (c0 + sz)) eqn:Et; auto.
      exfalso. exact (touches_false K _ _ _ Et r' c w' H1 H2 Hrange).
    - exists top, never, (order top), t', toks. repeat split; auto.
  Qed.

  (** ** Meaning of the blocks at any parameter value *)

  Lemma flat_last : forall (ps : list (string * nat)) (th : pvals K),
      nth (length (flat ps th) - 1) (flat ps th) n0 = n1.
  Proof.
    intros. unfold flat. rewrite app_length. simpl.
    rewrite app_nth2 by lia.
    match goal with |- nth ?k _ _ = _ => replace k with 0 by lia end. reflexivity.
  Qed.

  (** C07: a block without changing entries is the same at every parameter value. *)
  Lemma const_block : forall s p th, In p (solver_pids s) -> pr_chg (proc big x s p) = false ->
      map (dot (flat (x_params x) th)) (pr_rows (proc big x s p))
      = map (dot (x_flat x)) (pr_rows (proc big x s p)).
  Proof.
    intros s p th Hp Hc. destruct (proc_facts s p Hp) as (F1 & F2 & _).
    rewrite F2 in Hc. apply map_ext_in. intros r Hr. apply dot_ext.
    intros c v Hcv. destruct (F1 r c v Hr Hcv) as [Hlt _].
    pose proof (touches_false K _ _ _ Hc r c v Hr Hcv) as Hn.
    assert (c = length (x_flat x) - 1) by lia. subst c.
    rewrite (wx_flat _ _ _ W). rewrite flat_last.
    replace (length (flat (x_params x) th0)) with (length (flat (x_params x) th)) by apply flat_length.
    apply flat_last.
  Qed.

  Definition tail_of (s : solver) (p : pid) : list K := tl_of (is_qp s) p.

  Theorem canon_spec_meaning : forall s order g th p, (forall l, Permutation l (order l)) ->
      generate big x s order = Ok g -> In p (solver_pids s) ->
      canon_spec g th p = bval K big x s p (flat (x_params x) th) ++ tail_of s p.
  Proof.
    intros s order g th p Hord Hg Hp.
    destruct (generate_wf s order Hord) as (g' & Hg' & Wg & Hs). rewrite Hg in Hg'.
    inversion Hg'; subst g'; clear Hg'.
    unfold generate in Hg. destruct (block_for big x s order); [|discriminate]. cbn [bind] in Hg.
    inversion Hg; subst g; clear Hg.
    unfold canon_spec. simpl. unfold chg_get, chg.
    apply mem_pid_In in Hp. rewrite Hp. apply mem_pid_In in Hp.
    destruct (proc_facts s p Hp) as (_ & _ & Eb & _). cbv zeta in Eb. rewrite Eb. unfold bval, tail_of.
    destruct (pr_chg (proc big x s p)) eqn:Ec.
    - rewrite skipn_app, map_length, Nat.sub_diag. simpl.
      rewrite skipn_all2 by (rewrite map_length; auto). reflexivity.
    - rewrite const_block by auto. reflexivity.
  Qed.
End Gen.
