(** Sessions with gradients: every gradient at Python level is that of the data of the latest
    solve, at the solution in force and the derivatives given. *)

From Coq Require Import String Arith Bool ZArith Lia List Field.
From Verif Require Import Base Pus Machine PusCheck Runtime RuntimeSpec RuntimeProofs Retrieve Sparse SparseProofs Ldl LdlRank1 LdlProofs GradSpec LdlMain FactorProofs Gradient GradKkt Qdldl GradSolve GradKktSolve GradMain GradCall GradSession.
Import ListNotations.

(** Specification: what each Python-level gradient belongs to. *)
Section Expect.
  Variable F : Fld.
  Variable n : nat.
  Definition set_vals (th : pvals F) (ups : list (string * nat * F)) : pvals F :=
    fold_left (fun th '(nm, i, v) => set_val th nm i v) ups th.
  (** The right-hand side after the writes [ds], from zeros. *)
  Definition writes (ds : list (nat * F)) : list F := fold_left (fun l '(k, v) => upd l k v) ds (repeat n0 n).
  (** Parameter values of the latest solve, solution in force, derivatives. *)
  Fixpoint expect (th : pvals F) (sx sy : list F) (os : list (pyop F)) : list (pvals F * list F * list F * list F) :=
    match os with
    | [] => []
    | PSolve ups sx' sy' :: t => expect (set_vals th ups) sx' sy' t
    | PGrad ds None :: t => (th, sx, sy, writes ds) :: expect th sx sy t
    | PGrad ds (Some (sx', sy')) :: t => (th, sx', sy', writes ds) :: expect th sx' sy' t
    end.
  (** Parameter values after a history. *)
  Definition end_vals (th : pvals F) (os : list (pyop F)) : pvals F :=
    fold_left (fun th o => match o with PSolve ups _ _ => set_vals th ups | PGrad _ _ => th end) os th.
End Expect.
Arguments set_vals {F}. Arguments writes {F}. Arguments expect {F}. Arguments end_vals {F}.

Section Proofs.
  Variable F : Fld.
  Add Field Fses : (fth F).
  Variables n N : nat.
  Variable sqr : F -> res F.
  Variables eps half : F.
  Variables below above : F -> bool.
  Variable qfactor : csc F -> csc F -> res (list nat * list nat * list F * list F * list F).
  Variable qsolve : csc F -> list F -> list F -> res (list F).
  Hypothesis n_le : (n <= N)%nat.
  Hypothesis sqr_ok : forall x s, sqr x = Ok s -> (s * s = x)%num.
  Hypothesis sqr_err : forall x e, sqr x = Err e -> e = Arith.
  Hypothesis qf_ok : factor_contract F n N qfactor.
  Hypothesis qs_ok : solve_contract F N qsolve.
  Variable g : genc F.
  Variable scr : nat -> pid -> list F -> list F.
  Variable th0 : pvals F.
  Hypothesis W : wf_gen g th0.
  Hypothesis Hs : g_solver g = OSQP.
  (** The threshold for a negative dual is negative. *)
  Hypothesis below0 : below n0 = false.
  Variable nl : nat.
  Variables Pp Pi Ap Ai : list nat.
  Notation matP := (matP F Pp Pi).
  Notation matA := (matA F Ap Ai).
  Notation cfg := (gcfg_of F g nl).
  Notation np := (length (g_vec0 g)).
  Local Open Scope num_scope.

  (** What the generator guarantees about the gradient's data (GradGen.v): patterns of P and A
      that fit the sizes, no stored entry of P + eps*I vanishing at generation, baked matrix
      data those of the baked parameters, map sizes, and l's map that of u's first rows. *)
  Record wf_grad : Prop := mkWfGrad
    { wg_P : P_ok F n (matP (g_baked g pP));
      wg_A : A_ok F n N (matA (g_baked g pA));
      wg_nz : no_zero F n eps (matP (g_baked g pP));
      wg_bP : canon_spec g th0 pP = g_baked g pP;
      wg_bA : canon_spec g th0 pA = g_baked g pA;
      wg_nl : (nl <= N - n)%nat;
      wg_q : chg_get (g_chg g) pq = true -> (n <= length (g_rows g pq))%nat;
      wg_l : chg_get (g_chg g) pl = true -> (nl <= length (g_rows g pl))%nat;
      wg_u : chg_get (g_chg g) pu = true -> (N - n <= length (g_rows g pu))%nat;
      wg_rP : chg_get (g_chg g) pP = true -> length (g_rows g pP) = length (g_baked g pP);
      wg_rA : chg_get (g_chg g) pA = true -> length (g_rows g pA) = length (g_baked g pA);
      wg_lu : forall delta i, nth (np - 1) delta n0 = n0 -> (i < nl)%nat ->
                mapd F (map_of F g pl) delta i = mapd F (map_of F g pu) delta i }.
  Hypothesis G : wf_grad.

  (** The gradient of the spec: data of [th], solution, derivatives. *)
  Definition grad_at (e : pvals F * list F * list F * list F) (dp : list F) : Prop :=
    let '(th, sx, sy, dx) := e in
    let P := matP (canon_spec g th pP) in
    let A := matA (canon_spec g th pA) in
    length dp = np /\
    exists r, kkt_solution F n N eps below above P A sy dx r
      /\ (forall r', kkt_solution F n N eps below above P A sy dx r' -> r' = r)
      /\ forall delta, nth (np - 1) delta n0 = n0 -> ip np dp delta = slope F n N half below above cfg P A sx sy r delta.

  (** Histories the interface supports. *)
  Definition py_valid (o : pyop F) : Prop :=
    match o with
    | PSolve ups sx sy => Forall (fun '(nm, i, v) => valid_op (g_params g) (OUpd (N := F) nm i v)) ups /\ sol_ok F n N below cfg sx sy
    | PGrad ds use => Forall (fun '(k, _) => (k < n)%nat) ds /\ match use with Some (sx, sy) => sol_ok F n N below cfg sx sy | None => True end
    end.

  Lemma spec_length : forall th p, length (canon_spec g th p) = length (g_baked g p).
  Proof.
    intros th p. unfold canon_spec. destruct (chg_get (g_chg g) p); auto. rewrite app_length, map_length, skipn_length. pose proof (w_len _ _ _ W p). lia.
  Qed.
  Lemma spec_const : forall th p, chg_get (g_chg g) p = false -> canon_spec g th p = g_baked g p.
  Proof. intros th p H. unfold canon_spec. rewrite H. auto. Qed.

  Lemma matP_pat : forall d d', length d = length d' -> same_pat F (matP d) (matP d').
  Proof. intros d d' H. repeat split; cbn; auto. Qed.
  Lemma matA_pat : forall d d', length d = length d' -> same_pat F (matA d) (matA d').
  Proof. intros d d' H. repeat split; cbn; auto. Qed.
  Lemma mats_ok : forall dP dA, length dP = length (g_baked g pP) -> length dA = length (g_baked g pA) -> mat_ok F n N (matP dP) (matA dA).
  Proof.
    intros dP dA H1 H2. destruct (wg_P G) as [P1 P2]. destruct (wg_A G) as [A1 A2].
    pose proof (matP_pat _ _ (eq_sym H1)) as SP. pose proof (matA_pat _ _ (eq_sym H2)) as SA.
    split; [split; [exact (same_pat_ok F n _ _ SP P1)|]|split; [split; [exact (same_pat_ok F n _ _ SA A1)|]|split; reflexivity]].
    - intros j i Hj Hi. rewrite (same_pat_rows F _ _ j SP) in Hi. apply (P2 j i Hj Hi).
    - intros j i Hj Hi. rewrite (same_pat_rows F _ _ j SA) in Hi. apply (A2 j i Hj Hi).
  Qed.
  Lemma cols_fit : forall p, chg_get (g_chg g) p = true -> GradMain.cols_lt F np (g_rows g p).
  Proof. intros p _ r Hr cv Hc. destruct cv as [c v]. cbn [fst]. rewrite (w_vec0 _ _ _ W). exact (w_cols _ _ _ W p r c v Hr Hc). Qed.
  Lemma cfg_good : forall dP dA, length dP = length (g_baked g pP) -> length dA = length (g_baked g pA) -> cfg_ok F n N cfg (matP dP) (matA dA).
  Proof.
    intros dP dA H1 H2. constructor; cbn [gc_nl gc_np gc_q gc_l gc_u gc_P gc_A gcfg_of]; unfold map_fits, map_of.
    - apply (wg_nl G).
    - destruct (chg_get (g_chg g) pq) eqn:E; auto. split; [apply cols_fit; auto|apply (wg_q G); auto].
    - destruct (chg_get (g_chg g) pl) eqn:E; auto. split; [apply cols_fit; auto|apply (wg_l G); auto].
    - destruct (chg_get (g_chg g) pu) eqn:E; auto. split; [apply cols_fit; auto|apply (wg_u G); auto].
    - destruct (chg_get (g_chg g) pP) eqn:E; auto. split; [apply cols_fit; auto|]. cbn. rewrite (wg_rP G E). lia.
    - destruct (chg_get (g_chg g) pA) eqn:E; auto. split; [apply cols_fit; auto|]. cbn. rewrite (wg_rA G E). lia.
    - intros delta i Hd Hi. apply (wg_lu G); auto.
  Qed.
  Lemma shape_pat : forall P P' A A' K Kt, same_pat F P P' -> same_pat F A A' -> kkt_shape F n N eps P A K Kt -> kkt_shape F n N eps P' A' K Kt.
  Proof.
    intros P P' A A' K Kt HP HA [h1 h2 h3 h4 h5 h6 h7 h8].
    constructor; auto; intros; rewrite ?(same_pat_rows F P P' _ HP), ?(same_pat_rows F A A' _ HA); auto.
    apply h7; auto. rewrite <- (same_pat_rows F P P' _ HP). auto.
  Qed.
  Lemma ginv_pat : forall P P' A A' Pk Ak s, same_pat F P P' -> same_pat F A A' ->
    ginv F n N eps qfactor cfg P A Pk Ak s -> ginv F n N eps qfactor cfg P' A' Pk Ak s.
  Proof.
    intros P P' A A' Pk Ak s HP HA [h1 h2 h3 h4 h5 h6 h7 h8 h9 h10 h11].
    pose proof (same_pat_sym F P P' HP) as HP'. pose proof (same_pat_sym F A A' HA) as HA'.
    constructor; auto; try (eapply same_pat_trans; eauto; fail). apply (shape_pat P P' A A'); auto.
  Qed.

  (** State of the two halves at any time: K and K_true hold data that are current, or the flag
      is up. *)
  Record J (th : pvals F) (s : sst F) (dx : list F) : Prop := mkJ
    { j_r : RuntimeProofs.Inv F g scr th (x_r s);
      j_sol : sol_ok F n N below cfg (x_sx s) (x_sy s);
      j_dx : s_dx (x_g s) = dx;
      j_g : exists dP dA, length dP = length (g_baked g pP) /\ length dA = length (g_baked g pA)
              /\ ginv F n N eps qfactor cfg (matP (g_baked g pP)) (matA (g_baked g pA)) (matP dP) (matA dA) (x_g s)
              /\ (s_fP (x_g s) && chg_get (g_chg g) pP = false -> dP = canon_spec g th pP)
              /\ (s_fA (x_g s) && chg_get (g_chg g) pA = false -> dA = canon_spec g th pA) }.
  Definition fresh (th : pvals F) (s : sst F) : Prop :=
    m_can (r_m (x_r s)) pP = canon_spec g th pP /\ m_can (r_m (x_r s)) pA = canon_spec g th pA.

  Lemma ecos_no : g_solver g = ECOS -> forall p, In p (owned ECOS) -> length (g_rows g p) <> 1.
  Proof. rewrite Hs. discriminate. Qed.
  Lemma keep_no : keeps (g_solver g) = true -> forall k p (d : list F), scr k p d = d.
  Proof. rewrite Hs. discriminate. Qed.

  Lemma J_init : J th0 (init_sst F n N eps g Pp Pi Ap Ai) (repeat n0 n) /\ fresh th0 (init_sst F n N eps g Pp Pi Ap Ai).
  Proof.
    split; [|split; cbn; symmetry; apply G].
    destruct (kkt_arrays F n N eps n_le _ _ (wg_P G) (wg_A G) (wg_nz G)) as [HS HH].
    constructor; cbn [x_r x_g x_sx x_sy init_sst init_gst s_dx].
    - apply (inv_init F g th0 W scr ecos_no keep_no).
    - split; [apply repeat_length|]. split; [apply repeat_length|]. intros i Hi. rewrite nth_repeat. auto.
    - auto.
    - exists (g_baked g pP), (g_baked g pA). do 2 (split; [auto|]). split; [|split; intros _; symmetry; apply G].
      constructor; cbn [s_ws s_Kt s_dP s_dA s_dx s_a s_init gK init_gst]; auto.
      + apply same_pat_refl.
      + apply same_pat_refl.
      + repeat split; cbn. apply map_length.
      + repeat split; cbn. apply map_length.
      + apply repeat_length.
      + split; [apply repeat_length|]. intros i Hi. right. left. cbn [gcfg_of gc_nl]. rewrite (nth_indep _ 0%Z 1%Z) by (rewrite repeat_length; auto). apply nth_repeat.
      + unfold sizes. cbn [gMask gc gw gwi gl gli glx]. rewrite !repeat_length, !seq_length. repeat split.
        destruct (Nat.Even_or_Odd N) as [[k ->]|[k ->]].
        * replace (2 * k * (2 * k - 1))%nat with (k * (2 * k - 1) * 2)%nat by lia. rewrite Nat.div_mul; lia.
        * replace ((2 * k + 1) * (2 * k + 1 - 1))%nat with ((2 * k + 1) * k * 2)%nat by lia. rewrite Nat.div_mul; lia.
      + intros _ i Hi. rewrite (nth_indep _ 0%Z 1%Z) by (rewrite repeat_length; auto). apply nth_repeat.
      + discriminate.
  Qed.

  Lemma update_keep : forall th nm i v p, valid_op (g_params g) (OUpd (N := F) nm i v) -> chg_get (g_chg g) p = true -> mem_pid p (g_outd g nm) = false ->
    canon_spec g (set_val th nm i v) p = canon_spec g th p.
  Proof.
    intros th nm i v p (sz & Hin & Hi) Hc Hm. destruct (base_in F g nm sz Hin) as [c Ec].
    destruct (flat_set F g th nm sz i v c (w_names _ _ _ W) Hin Hi Ec) as [Hf Hl].
    unfold canon_spec. rewrite Hc. f_equal. apply map_ext_in. intros r Hr. apply dot_ext. intros c' v' Hcv. rewrite Hf. apply nth_upd_neq.
    assert (~ (c <= c' < c + sz)%nat); [|lia]. eapply (w_deps _ _ _ W); eauto. intro HI. apply mem_pid_In in HI. congruence.
  Qed.

  Lemma J_upd : forall th s dx nm i v, J th s dx -> valid_op (g_params g) (OUpd (N := F) nm i v) ->
    exists s', cstep F n N sqr eps half below above qfactor qsolve g scr nl Pp Pi Ap Ai s (CUpd nm i v) = Ok (s', []) /\ J (set_val th nm i v) s' dx.
  Proof.
    intros th s dx nm i v [H1 H2 H3 (dP & dA & L1 & L2 & HG & FP & FA)] Hv. destruct (inv_update F g th0 W scr th (x_r s) nm i v H1 Hv) as (r & Er & HI & _).
    cbn [cstep]. rewrite Er. cbn [bind]. eexists. split; [reflexivity|]. constructor; cbn [x_r x_g x_sx x_sy flag_g s_dx]; auto.
    exists dP, dA. split; auto. split; auto. split; [|split].
    - destruct HG. constructor; cbn [s_ws s_Kt s_dP s_dA s_dx s_a s_init flag_g]; auto.
    - cbn [flag_g s_fP]. intro H. destruct (chg_get (g_chg g) pP) eqn:Ec.
      + rewrite andb_true_r in H. apply orb_false_iff in H. destruct H as [Hm Hf]. rewrite update_keep; auto. apply FP. rewrite Hf. auto.
      + rewrite spec_const by auto. rewrite <- (spec_const th pP Ec). apply FP. apply andb_false_r.
    - cbn [flag_g s_fA]. intro H. destruct (chg_get (g_chg g) pA) eqn:Ec.
      + rewrite andb_true_r in H. apply orb_false_iff in H. destruct H as [Hm Hf]. rewrite update_keep; auto. apply FA. rewrite Hf. auto.
      + rewrite spec_const by auto. rewrite <- (spec_const th pA Ec). apply FA. apply andb_false_r.
  Qed.

  Lemma J_solve : forall th s dx sx sy, J th s dx -> sol_ok F n N below cfg sx sy ->
    exists s', cstep F n N sqr eps half below above qfactor qsolve g scr nl Pp Pi Ap Ai s (CSolve sx sy) = Ok (s', [])
      /\ J th s' dx /\ fresh th s' /\ x_sx s' = sx /\ x_sy s' = sy.
  Proof.
    intros th s dx sx sy [H1 H2 H3 H4] Hsol. destruct (inv_solve F g th0 W scr ecos_no keep_no th (x_r s) H1) as (r & e & Er & HI & _).
    cbn [cstep]. rewrite Er. cbn [bind]. eexists. split; [reflexivity|]. cbn [x_sx x_sy]. split; [|split; auto].
    - constructor; cbn [x_r x_g x_sx x_sy]; auto.
    - assert (Hfl : forall p, In p (solver_pids OSQP) -> chg_get (g_chg g) p = true -> r_flag r p = false).
      { intros p Hp Hc. revert Er. unfold do_solve. destruct (canon_blocks _ _ _ _ _) as [can|]; [|discriminate]. cbn [bind].
        destruct (Pus.run _ _ _) as [acts ini]. intro Er. injection Er as <-. cbn [r_flag]. rewrite Hs, Hc. apply mem_pid_In in Hp. rewrite Hp. auto. }
      assert (Hcan : forall p, In p (solver_pids OSQP) -> m_can (r_m r) p = canon_spec g th p).
      { intros p Hp. destruct (chg_get (g_chg g) p) eqn:Ec.
        - apply (i_fresh _ _ _ _ _ HI); auto.
        - rewrite spec_const by auto. apply (i_const _ _ _ _ _ HI). auto. }
      split; cbn [x_r]; apply Hcan; cbn; auto 10.
  Qed.

  Lemma J_sol : forall th s dx sx sy, J th s dx -> fresh th s -> sol_ok F n N below cfg sx sy ->
    J th (mkS (x_r s) (x_g s) sx sy) dx /\ fresh th (mkS (x_r s) (x_g s) sx sy).
  Proof. intros th s dx sx sy [H1 H2 H3 H4] Hf Hsol. split; [constructor; auto|exact Hf]. Qed.

  Lemma J_updd : forall th s dx k v, J th s dx -> fresh th s -> (k < n)%nat ->
    exists s', cstep F n N sqr eps half below above qfactor qsolve g scr nl Pp Pi Ap Ai s (CUpdD k v) = Ok (s', []) /\ J th s' (upd dx k v) /\ fresh th s'
      /\ x_sx s' = x_sx s /\ x_sy s' = x_sy s.
  Proof.
    intros th s dx k v [H1 H2 H3 (dP & dA & L1 & L2 & HG & FP & FA)] Hf Hk. cbn [cstep]. unfold update_d. cbn [Nat.add].
    pose proof (gi_dx _ _ _ _ _ _ _ _ _ _ _ HG) as Ld.
    rewrite put_ok by lia. cbn [bind]. eexists. split; [reflexivity|]. cbn [x_sx x_sy]. split; [|split; [exact Hf|split; auto]].
    constructor; cbn [x_r x_g x_sx x_sy s_dx]; auto. { rewrite H3. auto. }
    exists dP, dA. split; auto. split; auto. split; [|split; auto]. destruct HG. constructor; cbn [s_ws s_Kt s_dP s_dA s_dx s_a s_init]; auto.
    rewrite upd_length. auto.
  Qed.

  (** The errors that may happen in the gradient calls of a history. *)
  Variable Er : exn -> Prop.
  Definition adm (th : pvals F) : Prop :=
    admits n N sqr Er (sym F (kkt_reg F n eps (matP (canon_spec g th pP)) (matA (canon_spec g th pA)))).
  Definition adm_all (es : list (pvals F * list F * list F * list F)) : Prop := Forall (fun '(th, _, _, _) => adm th) es.

  Lemma J_grad : forall th s dx, J th s dx -> fresh th s -> adm th ->
    run Er (cstep F n N sqr eps half below above qfactor qsolve g scr nl Pp Pi Ap Ai s CGrad) (fun '(s', o) =>
      J th s' (repeat n0 n) /\ fresh th s' /\ x_sx s' = x_sx s /\ x_sy s' = x_sy s
      /\ (exists dp, o = [dp] /\ grad_at (th, x_sx s, x_sy s, dx) dp)
      /\ (forall i, (i < N - n)%nat -> supp (s_a (x_g s')) i = active_at F below above (x_sy s) i)
      /\ holds_kkt F n N eps (matP (canon_spec g th pP)) (matA (canon_spec g th pA)) (gK (s_ws (x_g s'))) (s_Kt (x_g s'))).
  Proof.
    intros th s dx [H1 H2 H3 (dP & dA & L1 & L2 & HG & FP & FA)] [Fr1 Fr2] HE. cbn [cstep]. rewrite Fr1, Fr2.
    set (P := matP (canon_spec g th pP)). set (A := matA (canon_spec g th pA)).
    assert (SP : same_pat F (matP (g_baked g pP)) P) by (apply matP_pat; symmetry; apply spec_length).
    assert (SA : same_pat F (matA (g_baked g pA)) A) by (apply matA_pat; symmetry; apply spec_length).
    assert (HG1 : ginv F n N eps qfactor cfg P A (matP dP) (matA dA) (x_g s)) by (apply (ginv_pat (matP (g_baked g pP)) _ (matA (g_baked g pA))); auto).
    assert (MO : mat_ok F n N P A) by (apply mats_ok; apply spec_length).
    assert (CO : cfg_ok F n N cfg P A) by (apply cfg_good; apply spec_length).
    assert (EP : chP F cfg = chg_get (g_chg g) pP) by (unfold chP, chA; cbn [gcfg_of gc_P gc_A]; unfold map_of; destruct (chg_get (g_chg g) pP); auto).
    assert (EA : chA F cfg = chg_get (g_chg g) pA) by (unfold chP, chA; cbn [gcfg_of gc_P gc_A]; unfold map_of; destruct (chg_get (g_chg g) pA); auto).
    assert (UP : used F (s_fP (x_g s) && chP F cfg) P (matP dP) = P).
    { rewrite EP. unfold used. destruct (s_fP (x_g s) && chg_get (g_chg g) pP) eqn:E; auto. rewrite (FP eq_refl). auto. }
    assert (UA : used F (s_fA (x_g s) && chA F cfg) A (matA dA) = A).
    { rewrite EA. unfold used. destruct (s_fA (x_g s) && chg_get (g_chg g) pA) eqn:E; auto. rewrite (FA eq_refl). auto. }
    eapply run_bind; [apply (gradient_ok F n N sqr eps half below above qfactor qsolve n_le sqr_ok sqr_err qf_ok qs_ok Er cfg P A (matP dP) (matA dA) (x_g s)); auto; rewrite UP, UA; exact HE|].
    intros [dp g'] (I1 & I2 & I3 & I4 & I5 & I6 & I7 & r & R1 & R2 & R3). rewrite UP, UA in *. cbn [SparseProofs.run].
    split; [|split; [split; auto|split; [auto|split; [auto|]]]].
    - constructor; cbn [x_r x_g x_sx x_sy]; auto. exists (canon_spec g th pP), (canon_spec g th pA). do 2 (split; [apply spec_length|]). split; [|auto].
      apply (ginv_pat P _ A); auto; apply same_pat_sym; auto.
    - split; [|cbn [x_g]; split; [auto|apply (gi_kkt _ _ _ _ _ _ _ _ _ _ _ I1)]]. exists dp. split; auto. split; auto. rewrite H3 in *. exists r. auto.
  Qed.

  Notation csteps := (csteps F n N sqr eps half below above qfactor qsolve g scr nl Pp Pi Ap Ai).
  Notation pysteps := (pysteps F n N sqr eps half below above qfactor qsolve g scr nl Pp Pi Ap Ai).

  Lemma csteps_app : forall a b s, csteps s (a ++ b) = ('(s1, o1) <- csteps s a;; '(s2, o2) <- csteps s1 b;; Ok (s2, o1 ++ o2)).
  Proof.
    induction a as [|o a IH]; intros b s; cbn [app GradSession.csteps].
    - cbn [bind]. destruct (csteps s b) as [[s2 o2]|]; auto.
    - destruct (cstep _ _ _ _ _ _ _ _ _ _ _ _ _ _ _ _ _ s o) as [[s1 o1]|]; auto. cbn [bind]. rewrite IH. destruct (csteps s1 a) as [[s2 o2]|]; auto. cbn [bind].
      destruct (csteps s2 b) as [[s3 o3]|]; auto. cbn [bind]. rewrite app_assoc. auto.
  Qed.

  Lemma J_upds : forall ups th s dx, J th s dx -> Forall (fun '(nm, i, v) => valid_op (g_params g) (OUpd (N := F) nm i v)) ups ->
    exists s', csteps s (map (fun '(nm, i, v) => CUpd nm i v) ups) = Ok (s', []) /\ J (set_vals th ups) s' dx.
  Proof.
    induction ups as [|[[nm i] v] ups IH]; intros th s dx HJ HV; cbn [map GradSession.csteps].
    - exists s. auto.
    - apply Forall_cons_iff in HV. destruct HV as [Hv HV]. destruct (J_upd th s dx nm i v HJ Hv) as (s1 & E1 & J1). rewrite E1. cbn [bind].
      destruct (IH (set_val th nm i v) s1 dx J1 HV) as (s2 & E2 & J2). rewrite E2. cbn [bind app]. exists s2. auto.
  Qed.
  Lemma J_updds : forall ds th s dx, J th s dx -> fresh th s -> Forall (fun '(k, _) => (k < n)%nat) ds ->
    exists s', csteps s (map (fun '(k, v) => CUpdD k v) ds) = Ok (s', []) /\ J th s' (fold_left (fun l '(k, v) => upd l k v) ds dx) /\ fresh th s'
      /\ x_sx s' = x_sx s /\ x_sy s' = x_sy s.
  Proof.
    induction ds as [|[k v] ds IH]; intros th s dx HJ HF HV; cbn [map GradSession.csteps fold_left].
    - exists s. auto.
    - apply Forall_cons_iff in HV. destruct HV as [Hv HV]. destruct (J_updd th s dx k v HJ HF Hv) as (s1 & E1 & J1 & F1 & A1 & B1). rewrite E1. cbn [bind].
      destruct (IH th s1 (upd dx k v) J1 F1 HV) as (s2 & E2 & J2 & F2 & A2 & B2). rewrite E2. cbn [bind app]. exists s2. split; auto. split; auto. split; auto.
      split; congruence.
  Qed.

  Theorem session_ok : forall os th s, J th s (repeat n0 n) -> fresh th s -> Forall py_valid os ->
    adm_all (expect n th (x_sx s) (x_sy s) os) ->
    run Er (pysteps s os) (fun '(s', outs) => Forall2 grad_at (expect n th (x_sx s) (x_sy s) os) outs
       /\ J (end_vals th os) s' (repeat n0 n) /\ fresh (end_vals th os) s').
  Proof.
    induction os as [|o os IH]; intros th s HJ HF HV HE.
    - cbn. split; [constructor|auto].
    - apply Forall_cons_iff in HV. destruct HV as [Hv HV]. unfold GradSession.pysteps. cbn [flat_map]. rewrite csteps_app. fold (pysteps).
      destruct o as [ups sx sy|ds use]; cbn [py_ops expect].
      + destruct Hv as [V1 V2]. destruct (J_upds ups th s _ HJ V1) as (s1 & E1 & J1). rewrite csteps_app, E1. cbn [bind GradSession.csteps].
        destruct (J_solve _ s1 _ sx sy J1 V2) as (s2 & E2 & J2 & F2 & <- & <-). rewrite E2. cbn [bind app].
        eapply run_bind; [apply (IH _ s2 J2 F2 HV HE)|]. intros [s3 o3] [H1 H2]. cbn [SparseProofs.run app]. auto.
      + destruct Hv as [V1 V2].
        set (s0 := match use with Some (sx, sy) => mkS (x_r s) (x_g s) sx sy | None => s end).
        assert (E0 : csteps s (match use with Some (sx, sy) => [CSol sx sy] | None => [] end) = Ok (s0, [])) by (destruct use as [[sx sy]|]; auto).
        assert (H0 : J th s0 (repeat n0 n) /\ fresh th s0).
        { destruct use as [[sx sy]|]; [|auto]. apply J_sol; auto. }
        destruct H0 as [J0 F0]. destruct (J_updds ds th s0 _ J0 F0 V1) as (s1 & E1 & J1 & F1 & A1 & B1).
        rewrite csteps_app, E0. cbn [bind]. rewrite csteps_app, E1. cbn [bind GradSession.csteps app].
        assert (HE2 : adm th /\ adm_all (expect n th (x_sx s0) (x_sy s0) os)).
        { unfold s0. clear - HE. destruct use as [[sx sy]|]; cbn [expect] in HE; apply Forall_cons_iff in HE; exact HE. }
        destruct HE2 as [HE1 HE2].
        pose proof (J_grad th s1 _ J1 F1 HE1) as HR. destruct (cstep _ _ _ _ _ _ _ _ _ _ _ _ _ _ _ _ _ s1 CGrad) as [[s2 o2]|e] eqn:E2; [|exact HR].
        cbn [SparseProofs.run] in HR. destruct HR as (J2 & F2 & A2 & B2 & (dp & -> & HD) & _). cbn [bind app].
        eapply run_bind; [apply (IH th s2 J2 F2 HV); rewrite A2, B2, A1, B1; exact HE2|]. intros [s3 o3] [H1 H2]. cbn [SparseProofs.run app]. split; auto.
        rewrite A1, B1 in HD. rewrite A2, B2, A1, B1 in H1. destruct use as [[sx sy]|]; constructor; auto.
  Qed.

  Theorem session_init : forall os, Forall py_valid os -> adm_all (expect n th0 (repeat n0 n) (repeat n0 (N - n)) os) ->
    run Er (pysteps (init_sst F n N eps g Pp Pi Ap Ai) os) (fun '(_, outs) =>
      Forall2 grad_at (expect n th0 (repeat n0 n) (repeat n0 (N - n)) os) outs).
  Proof.
    intros os HV HE. destruct J_init as [J0 F0]. eapply run_imp; [apply (session_ok os th0 _ J0 F0 HV HE)|]. intros [s o] [H _]. exact H.
  Qed.

  Lemma pysteps_app : forall a b s, pysteps s (a ++ b) = ('(s1, o1) <- pysteps s a;; '(s2, o2) <- pysteps s1 b;; Ok (s2, o1 ++ o2)).
  Proof. intros. unfold GradSession.pysteps. rewrite flat_map_app. apply csteps_app. Qed.

  (** After a history ending in a gradient call, exactly the constraints whose dual is beyond
      the tolerance are marked, and the KKT matrices are those of the latest solve. *)
  Theorem session_marks : forall os ds use, Forall py_valid os -> py_valid (PGrad ds use) ->
    adm_all (expect n th0 (repeat n0 n) (repeat n0 (N - n)) os) -> adm (end_vals th0 os) ->
    run Er (pysteps (init_sst F n N eps g Pp Pi Ap Ai) (os ++ [PGrad ds use])) (fun '(s', _) =>
      length (s_a (x_g s')) = (N - n)%nat /\ (forall i, (i < N - n)%nat -> supp (s_a (x_g s')) i = active_at F below above (x_sy s') i)
      /\ holds_kkt F n N eps (matP (canon_spec g (end_vals th0 os) pP)) (matA (canon_spec g (end_vals th0 os) pA)) (gK (s_ws (x_g s'))) (s_Kt (x_g s'))).
  Proof.
    intros os ds use HV [V1 V2] HE HEe. destruct J_init as [J0 F0]. rewrite pysteps_app. eapply run_bind; [apply (session_ok os th0 _ J0 F0 HV HE)|].
    intros [s outs] (_ & HJ & HF). revert HJ HF HEe. generalize (end_vals th0 os) as th. intros th HJ HF HEe. unfold GradSession.pysteps. cbn [flat_map py_ops]. rewrite app_nil_r.
    set (s0 := match use with Some (sx, sy) => mkS (x_r s) (x_g s) sx sy | None => s end).
    assert (E0 : csteps s (match use with Some (sx, sy) => [CSol sx sy] | None => [] end) = Ok (s0, [])) by (destruct use as [[sx sy]|]; auto).
    assert (H0 : J th s0 (repeat n0 n) /\ fresh th s0).
    { destruct use as [[sx sy]|]; [|auto]. apply J_sol; auto. }
    destruct H0 as [J0' F0']. destruct (J_updds ds th s0 _ J0' F0' V1) as (s1 & E1 & J1 & F1 & A1 & B1).
    rewrite csteps_app, E0. cbn [bind]. rewrite csteps_app, E1. cbn [bind GradSession.csteps app].
    pose proof (J_grad th s1 _ J1 F1 HEe) as HR. destruct (cstep _ _ _ _ _ _ _ _ _ _ _ _ _ _ _ _ _ s1 CGrad) as [[s2 o2]|e] eqn:E2; [|exact HR].
    cbn [SparseProofs.run] in HR. destruct HR as (J2 & F2 & A2 & B2 & _ & HM & HK). cbn [bind app SparseProofs.run]. rewrite B2. split; auto.
    destruct (j_g _ _ _ J2) as (dP & dA & _ & _ & HG & _). apply (gi_a _ _ _ _ _ _ _ _ _ _ _ HG).
  Qed.
End Proofs.
