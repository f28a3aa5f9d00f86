(** Further facts about generated code at run time: parameter layout, the CSR encoding,
    solves without updates, and histories under OSQP's bound validation. *)

From Coq Require Import String Arith Bool Lia List Permutation.
From Verif Require Import Base Pus Machine PusParse PusCheck PusLift PusMore Runtime RuntimeSpec RuntimeProofs.
Import ListNotations.

Section More.
  Variable N : Num.
  Notation V := (car N).

  (** ** Layout of the flat vector *)
  Fixpoint sizes_before (ps : list (string * nat)) (k : nat) : nat :=
    match ps, k with
    | (_, s) :: t, S k' => s + sizes_before t k'
    | _, _ => 0
    end.

  Lemma find_col_nth : forall ps k n s cum, NoDup (map fst ps) -> nth_error ps k = Some (n, s) ->
      find_col n (col_to_name cum ps) = Some (cum + sizes_before ps k).
  Proof.
    induction ps as [|[m t] ps IH]; intros k n s cum Hn Hk; [destruct k; discriminate|].
    inversion Hn; subst. destruct k as [|k]; simpl in *.
    - inversion Hk; subst. rewrite String.eqb_refl. f_equal. lia.
    - destruct (String.eqb n m) eqn:E.
      + apply String.eqb_eq in E. subst. exfalso. apply H1. apply nth_error_In in Hk.
        apply in_map_iff. exists (m, s). auto.
      + rewrite (IH k n s) by auto. f_equal. lia.
  Qed.

  Lemma find_col_inv : forall ps n c cum, find_col n (col_to_name cum ps) = Some c ->
      exists k s, nth_error ps k = Some (n, s).
  Proof.
    induction ps as [|[m t] ps IH]; simpl; intros n c cum H; [discriminate|].
    destruct (String.eqb n m) eqn:E.
    - apply String.eqb_eq in E. subst. exists 0, t. reflexivity.
    - apply IH in H. destruct H as (k & s & Hk). exists (S k), s. exact Hk.
  Qed.

  Lemma sizes_before_step : forall ps k n s, nth_error ps k = Some (n, s) ->
      sizes_before ps (S k) = sizes_before ps k + s.
  Proof.
    induction ps as [|[m t] ps IH]; intros k n s H; [destruct k; discriminate|].
    destruct k as [|k]; simpl in *.
    - inversion H; subst. destruct ps as [|[]]; simpl; lia.
    - specialize (IH k n s H). simpl in IH. rewrite IH. lia.
  Qed.

  Lemma sizes_before_mono : forall ps k k', k <= k' -> sizes_before ps k <= sizes_before ps k'.
  Proof.
    induction ps as [|[m t] ps IH]; intros k k' H; [simpl; lia|].
    destruct k, k'; simpl; try lia. specialize (IH k k' ltac:(lia)). lia.
  Qed.

  Lemma flat_total : forall ps (th : pvals N), length (flat ps th) = S (sizes_before ps (length ps)).
  Proof.
    intros ps th. unfold flat. rewrite app_length. simpl. rewrite Nat.add_comm. simpl. f_equal.
    induction ps as [|[m t] ps IH]; simpl; auto. rewrite app_length, map_length, seq_length, IH. reflexivity.
  Qed.

  Lemma flat_ext : forall ps (th th' : pvals N), (forall n i, th n i = th' n i) -> flat ps th = flat ps th'.
  Proof.
    intros. unfold flat. f_equal. apply flat_map_ext_in. intros. apply map_ext. auto.
  Qed.

  Lemma slice_value : forall (g : genc N) (th : pvals N) name s i c d,
      NoDup (map fst (g_params g)) -> In (name, s) (g_params g) -> i < s -> base_col g name = Some c ->
      nth (c + i) (flat (g_params g) th) d = th name i.
  Proof.
    intros g th name s i c d Hn Hin Hi Hc.
    destruct (flat_set N g th name s i (th name i) c Hn Hin Hi Hc) as [H1 H2].
    rewrite (flat_ext _ th (set_val th name i (th name i))).
    - rewrite H1, Nat.add_comm. rewrite nth_upd_eq by lia. reflexivity.
    - intros n j. unfold set_val. destruct (String.eqb n name) eqn:E1; simpl; auto.
      destruct (Nat.eqb j i) eqn:E2; auto. apply String.eqb_eq in E1. apply Nat.eqb_eq in E2. congruence.
  Qed.

  Lemma slices_cover : forall ps (th : pvals N) k, NoDup (map fst ps) -> k < length (flat ps th) - 1 ->
      exists n s c, In (n, s) ps /\ find_col n (col_to_name 0 ps) = Some c /\ c <= k < c + s.
  Proof.
    intros ps th k Hn Hk. rewrite flat_total in Hk.
    assert (exists j n s, nth_error ps j = Some (n, s)
                          /\ sizes_before ps j <= k < sizes_before ps j + s) as (j & n & s & Hj & Hr).
    { clear Hn th. assert (Hk' : k < sizes_before ps (length ps)) by lia. clear Hk.
      revert k Hk'. induction ps as [|[m t] ps IH]; simpl; intros k Hk; [lia|].
      destruct (Nat.lt_ge_cases k t).
      - exists 0, m, t. simpl. split; [reflexivity|lia].
      - destruct (IH (k - t)) as (j & n & s & Hj & Hr); [lia|].
        exists (S j), n, s. simpl. split; [exact Hj|lia]. }
    exists n, s, (sizes_before ps j). split; [eapply nth_error_In; eauto|]. split; auto.
    rewrite (find_col_nth ps j n s 0); auto.
  Qed.

  Lemma slices_disjoint : forall ps n n' s s' c c', NoDup (map fst ps) -> n <> n' ->
      In (n, s) ps -> In (n', s') ps ->
      find_col n (col_to_name 0 ps) = Some c -> find_col n' (col_to_name 0 ps) = Some c' ->
      c + s <= c' \/ c' + s' <= c.
  Proof.
    intros ps n n' s s' c c' Hnd Hne H H' Hc Hc'.
    apply In_nth_error in H. apply In_nth_error in H'. destruct H as [k H]. destruct H' as [k' H'].
    rewrite (find_col_nth ps k n s 0 Hnd H) in Hc. rewrite (find_col_nth ps k' n' s' 0 Hnd H') in Hc'.
    inversion Hc; inversion Hc'; subst c c'. simpl.
    pose proof (sizes_before_step _ _ _ _ H). pose proof (sizes_before_step _ _ _ _ H').
    destruct (Nat.lt_trichotomy k k') as [L|[L|L]].
    - left. pose proof (sizes_before_mono ps (S k) k' L). lia.
    - subst. rewrite H in H'. inversion H'. congruence.
    - right. pose proof (sizes_before_mono ps (S k') k L). lia.
  Qed.

  Lemma update_local : forall (g : genc N) (th : pvals N) (s : rst N) name sz i v,
      NoDup (map fst (g_params g)) -> In (name, sz) (g_params g) -> i < sz ->
      length (r_vec s) = length (flat (g_params g) th) ->
      exists s' c, do_update g s name i v = Ok s' /\ base_col g name = Some c
        /\ length (r_vec s') = length (r_vec s)
        /\ nth (c + i) (r_vec s') n0 = v
        /\ forall k, k <> c + i -> nth k (r_vec s') n0 = nth k (r_vec s) n0.
  Proof.
    intros g th s name sz i v Hn Hin Hi Hl.
    destruct (find_col_some name sz (g_params g) 0 Hin) as [c Hc].
    destruct (flat_set N g th name sz i v c Hn Hin Hi Hc) as [_ H2].
    unfold do_update. assert (base_col g name = Some c) as Hb by exact Hc. rewrite Hb.
    rewrite put_ok by (rewrite Hl; lia). cbn [bind]. eexists _, c. split; [reflexivity|].
    split; auto. simpl. split; [apply upd_length|]. split.
    - rewrite Nat.add_comm. apply nth_upd_eq. rewrite Hl. lia.
    - intros k Hk. apply nth_upd_neq. lia.
  Qed.

  Lemma vec_history : forall (g : genc N), NoDup (map fst (g_params g)) ->
      forall scr os th (s s' : rst N), r_vec s = flat (g_params g) th ->
      Forall (valid_op (g_params g)) os -> steps g scr s os = Ok s' ->
      r_vec s' = flat (g_params g) (@final_vals N th os).
  Proof.
    intros g Hn scr os. induction os as [|o os IH]; intros th s s' Hv Hval Hs; simpl in *.
    - inversion Hs; subst. auto.
    - inversion Hval; subst. destruct o as [name i v|]; simpl in Hs.
      + destruct H1 as (sz & Hin & Hi).
        destruct (find_col_some name sz (g_params g) 0 Hin) as [c Hc].
        destruct (flat_set N g th name sz i v c Hn Hin Hi Hc) as [Hf H3].
        unfold do_update in Hs. assert (base_col g name = Some c) as Hb by exact Hc. rewrite Hb in Hs.
        rewrite put_ok in Hs by (rewrite Hv; lia). cbn [bind] in Hs.
        eapply IH; [|exact H2|exact Hs]. simpl. rewrite Hv. symmetry. exact Hf.
      + unfold do_solve in Hs. destruct (canon_blocks _ _ _ _ _); [|discriminate]. cbn [bind] in Hs.
        destruct (run _ _ _) as [acts ini]. cbn [bind] in Hs.
        eapply IH; [|exact H2|exact Hs]. exact Hv.
  Qed.

  Lemma flat_trailing : forall ps (th : pvals N) d, nth (length (flat ps th) - 1) (flat ps th) d = n1.
  Proof.
    intros. unfold flat. rewrite app_length. simpl. rewrite app_nth2 by lia.
    match goal with |- nth ?k _ _ = _ => replace k with 0 by lia end. reflexivity.
  Qed.

  (** ** The CSR arrays encode the rows *)
  Lemma csr_encodes : forall rows : list (row V), let m := csr_of rows in
      c_n m = length rows /\ length (c_p m) = S (length rows) /\ nth 0 (c_p m) 0 = 0
      /\ nth (length rows) (c_p m) 0 = length (c_x m) /\ length (c_i m) = length (c_x m)
      /\ forall k, k < length rows ->
           nth k (c_p m) 0 <= nth (S k) (c_p m) 0
           /\ firstn (nth (S k) (c_p m) 0 - nth k (c_p m) 0)
                     (skipn (nth k (c_p m) 0) (combine (c_i m) (c_x m))) = nth k rows [].
  Proof.
    intros rows m. unfold m, csr_of; simpl. clear m.
    split; auto. split; [apply indptr_length|]. split; [destruct rows; reflexivity|]. split.
    { pose proof (indptr_nth N rows [] 0) as H. rewrite app_nil_r in H. rewrite H, map_length. reflexivity. }
    split; [rewrite !map_length; auto|].
    intros k Hk.
    assert (rows = firstn k rows ++ nth k rows [] :: skipn (S k) rows) as E.
    { clear - Hk. revert k Hk. induction rows as [|a rows IH]; simpl; intros k Hk; [lia|].
      destruct k; simpl; auto. f_equal. apply IH. lia. }
    assert (L : length (firstn k rows) = k) by (rewrite firstn_length; lia).
    set (a := firstn k rows) in *. set (r := nth k rows []) in *. set (b := skipn (S k) rows) in *.
    clearbody a r b. subst rows.
    assert (N1 : nth k (indptr_from 0 (a ++ r :: b)) 0 = length (concat a)).
    { rewrite <- L. rewrite indptr_nth. reflexivity. }
    assert (N2 : nth (S k) (indptr_from 0 (a ++ r :: b)) 0 = length (concat a) + length r).
    { replace (a ++ r :: b) with ((a ++ [r]) ++ b) by (rewrite <- app_assoc; reflexivity).
      replace (S k) with (length (a ++ [r])) by (rewrite app_length, L; simpl; lia).
      rewrite indptr_nth, concat_app, app_length. simpl. rewrite app_nil_r. reflexivity. }
    rewrite N1, N2. split; [lia|].
    replace (combine (map fst (concat (a ++ r :: b))) (map snd (concat (a ++ r :: b))))
      with (concat (a ++ r :: b)).
    2:{ generalize (concat (a ++ r :: b)). induction l as [|[x y] l IH]; simpl; auto. f_equal; auto. }
    rewrite concat_app. simpl. rewrite skipn_app, skipn_all, Nat.sub_diag. simpl.
    rewrite Nat.add_comm, Nat.add_sub, firstn_app, firstn_all, Nat.sub_diag. simpl. apply app_nil_r.
  Qed.

  (** ** A solve right after a solve *)
  Section Hist.
    Variable g : genc N.
    Variable th0 : pvals N.
    Hypothesis W : wf_gen g th0.
    Variable scr : nat -> pid -> list V -> list V.
    Hypothesis Hecos : g_solver g = ECOS -> forall p, In p (owned ECOS) -> length (g_rows g p) <> 1.
    Hypothesis Hkeep : keeps (g_solver g) = true -> forall n p d, scr n p d = d.

    Lemma const_flags : forall os (s s' : rst N),
        (forall p, chg_get (g_chg g) p = false -> r_flag s p = true) -> steps g scr s os = Ok s' ->
        forall p, chg_get (g_chg g) p = false -> r_flag s' p = true.
    Proof.
      induction os as [|o os IH]; intros s s' H Hs p Hp; simpl in Hs.
      - inversion Hs; subst. auto.
      - destruct (step g scr s o) as [s1|] eqn:E; [|discriminate]. cbn [bind] in Hs.
        refine (IH s1 s' _ Hs p Hp). clear p Hp. intros p Hp. destruct o as [name i v|]; simpl in E.
        + unfold do_update in E. destruct (base_col g name); [|discriminate].
          destruct (put (r_vec s) (i + n) v); [|discriminate]. cbn [bind] in E. inversion E; subst. simpl.
          rewrite H by auto. apply orb_true_r.
        + unfold do_solve in E. destruct (canon_blocks _ _ _ _ _); [|discriminate]. cbn [bind] in E.
          destruct (run _ _ _) as [acts ini]. inversion E; subst. simpl. rewrite Hp, andb_false_r. auto.
    Qed.

    Lemma steps_app : forall os1 os2 (s : rst N),
        steps g scr s (os1 ++ os2) = (s' <- steps g scr s os1 ;; steps g scr s' os2).
    Proof.
      induction os1 as [|o os1 IH]; intros; simpl; auto.
      destruct (step g scr s o); simpl; auto.
    Qed.

    Lemma gen_is_code : is_code (g_solver g) (g_chg g) (g_block g).
    Proof. exact (w_block _ _ _ W). Qed.

    Lemma ini_after_solve : forall th (s : rst N), Inv N g scr th s -> forall s', do_solve g scr s = Ok s' -> r_ini s' = true.
    Proof.
      intros th s I s' E.
      destruct (inv_solve N g th0 W scr Hecos Hkeep th s I) as (s1 & e & E1 & I1 & _).
      rewrite E in E1. inversion E1; subst s1.
      destruct (r_ini s') eqn:Ei; auto. exfalso.
      unfold do_solve in E. destruct (canon_blocks _ _ _ _ _) as [can|] eqn:Ec; [|discriminate]. cbn [bind] in E.
      destruct (run (g_block g) (r_flag s) (r_ini s)) as [acts ini] eqn:Er.
      inversion E; subst s'. simpl in Ei.
      pose proof (block_is_ok N g th0 W) as B.
      specialize (B _ (g_size g) (g_baked g) scr
                    (mkM can (m_cnd (r_m s)) (m_alias (r_m s)) (m_sol (r_m s)) (m_tick (r_m s)))
                    (r_flag s) (r_ini s)).
      assert (P : upd_pre (g_solver g) (g_size g) scr
                (mkM can (m_cnd (r_m s)) (m_alias (r_m s)) (m_sol (r_m s)) (m_tick (r_m s)))).
      { destruct (i_upd _ _ _ _ _ I) as [P1 P2 P3 P4]. constructor; auto.
        destruct (canon_all_ok N g th0 W scr Hecos Hkeep th s I) as (can' & Ec' & Hc').
        rewrite Ec in Ec'. inversion Ec'; subst can'.
        intros p Hp. specialize (P1 p Hp). unfold view_cnd in *. simpl.
        destruct (m_alias (r_m s) p); auto. rewrite P1. rewrite Hc'.
        rewrite canon_spec_size0 by exact Hp.
        destruct (changing (g_chg g) p) eqn:Ech.
        + destruct (i_tail _ _ _ _ _ I p Ech) as [_ T]. unfold g_size in Hp. rewrite Hp in T. exact T.
        + apply (i_const _ _ _ _ _ I). exact Ech. }
      specialize (B P (i_ini _ _ _ _ _ I)). rewrite Er in B. destruct B as (B & _). congruence.
    Qed.

    (** Updates issued by a solve that directly follows another solve. *)
    Lemma idle_history : forall os s', Forall (valid_op (g_params g)) os ->
        steps g scr (init_state g) (os ++ [OSolve]) = Ok s' ->
        (fst (run (g_block g) (r_flag s') (r_ini s')) = []
         <-> idle_ok (g_solver g) (chg_get (g_chg g)) = true).
    Proof.
      intros os s' Hv Hs. pose proof Hs as Hs0. rewrite steps_app in Hs.
      destruct (steps_ok N g th0 W scr Hecos Hkeep os th0 _ (inv_init N g th0 W scr Hecos Hkeep) Hv)
        as (s1 & log & E1 & _ & _ & I1).
      rewrite E1 in Hs. cbn [bind steps step] in Hs.
      destruct (do_solve g scr s1) as [s2|] eqn:E2; [|discriminate]. cbn [bind] in Hs. inversion Hs; subst s2.
      rewrite (ini_after_solve _ _ I1 _ E2).
      apply (idle_lemma (g_solver g) (g_chg g) (g_block g) (r_flag s') (w_chg _ _ _ W) gen_is_code).
      intros p Hp. unfold changing. destruct (chg_get (g_chg g) p) eqn:Ec.
      - unfold do_solve in E2. destruct (canon_blocks _ _ _ _ _); [|discriminate]. cbn [bind] in E2.
        destruct (run _ _ _) as [acts ini]. inversion E2; subst. simpl.
        apply owned_pids in Hp. destruct Hp as [Hp _]. apply mem_pid_In in Hp. rewrite Hp, Ec. reflexivity.
      - apply (const_flags (os ++ [OSolve]) (init_state g) s'); auto.
    Qed.
  End Hist.

  (** ** Histories under bound validation (C10) *)
  Section ValidHist.
    Variable g : genc N.
    Variable valid : list V -> list V -> bool.
    Variable scr : nat -> pid -> list V -> list V.

    (** Like [steps], but the library's data [sol] evolve by validated calls; records the
        data at each solve. *)
    Inductive vsteps : rst N -> (pid -> list V) -> list (op N) -> list (pid -> list V) -> Prop :=
    | VsNil : forall s sol, vsteps s sol [] []
    | VsUpd : forall s s' sol n i v os log,
        do_update g s n i v = Ok s' -> vsteps s' sol os log -> vsteps s sol (OUpd n i v :: os) log
    | VsSolve : forall s s' sol sol' can os log,
        canon_blocks g (r_vec s) (r_flag s) (m_can (r_m s)) (solver_pids (g_solver g)) = Ok can ->
        vexec (list V) valid can sol (fst (run (g_block g) (r_flag s) (r_ini s))) sol' ->
        do_solve g scr s = Ok s' ->
        vsteps s' sol' os log ->
        vsteps s sol (OSolve :: os) (sol' :: log).

    Variable th0 : pvals N.
    Hypothesis W : wf_gen g th0.
    Hypothesis Hs : g_solver g = OSQP.

    Lemma osqp_ini : solver_init0 (g_solver g) = true.
    Proof. rewrite Hs. reflexivity. Qed.

    Lemma vsteps_ok : forall os th s sol log, Inv N g scr th s ->
        r_ini s = true ->
        (forall p, In p (owned OSQP) -> sol p = m_sol (r_m s) p) ->
        Forall (valid_op (g_params g)) os ->
        Forall (fun th => valid (canon_spec g th pl) (canon_spec g th pu) = true) (solve_vals th os) ->
        vsteps s sol os log ->
        Forall2 (fun d th => forall p, In p (owned OSQP) -> d p = canon_spec g th p) log (solve_vals th os).
    Proof.
      assert (Hkeep : keeps (g_solver g) = true -> forall n p d, scr n p d = d) by (rewrite Hs; discriminate).
      assert (Hecos : g_solver g = ECOS -> forall p, In p (owned ECOS) -> length (g_rows g p) <> 1) by (rewrite Hs; discriminate).
      induction os as [|o os IH]; intros th s sol log I Hini Hsol Hv Hval H.
      - inversion H; subst. constructor.
      - inversion Hv as [|? ? Hv1 Hv2]; subst.
        inversion H as [|? s1 ? n i v ? ? Hu Hr|? s1 ? sol1 can ? log1 Hcb Hve Hds Hr]; subst;
          cbn [solve_vals] in *.
        + destruct (inv_update N g th0 W scr th s n i v I Hv1) as (s2 & E1 & I1 & _).
          rewrite Hu in E1. injection E1 as E1. rewrite <- E1 in I1. clear E1 s2.
          assert (r_ini s1 = r_ini s /\ r_m s1 = r_m s) as [R1 R2].
          { unfold do_update in Hu. destruct (base_col g n); [|discriminate].
            destruct (put _ _ _); [|discriminate]. cbn [bind] in Hu. inversion Hu; subst. auto. }
          apply (IH _ s1 sol); auto.
          * rewrite R1. exact Hini.
          * rewrite R2. exact Hsol.
        + inversion Hval as [|? ? Hval1 Hval2]; subst.
          destruct (canon_all_ok N g th0 W scr Hecos Hkeep th s I) as (can' & Ec' & Hc').
          rewrite Hcb in Ec'. injection Ec' as Ec'. subst can'.
          destruct (inv_solve N g th0 W scr Hecos Hkeep th s I) as (s2 & e & E1 & I1 & L1 & D1 & _).
          rewrite Hds in E1. injection E1 as E1. rewrite <- E1 in I1, L1. clear E1 s2.
          assert (R : forall p, In p (owned OSQP) -> sol1 p = canon_spec g th p).
          { intros p Hp. rewrite <- Hc'. rewrite Hini in Hve.
            assert (is_code OSQP (g_chg g) (g_block g)) as HC by (rewrite <- Hs; exact (gen_is_code g th0 W)).
            assert (chg_wf OSQP (g_chg g)) as HW by (rewrite <- Hs; exact (w_chg _ _ _ W)).
            apply (bounds_survive (g_chg g) (g_block g) HW HC (list V) valid can sol (r_flag s) sol1); auto.
            - rewrite !Hc'. auto.
            - intros q Hq Hnot. rewrite Hsol by auto.
              assert (In q (owned (g_solver g))) as Hq' by (rewrite Hs; auto).
              pose proof (i_sync _ _ _ _ _ I Hini q Hq' Hnot) as Sy. rewrite Hs in Sy. simpl in Sy.
              rewrite Sy, Hc'. unfold changing in Hnot.
              destruct (chg_get (g_chg g) q) eqn:Eq; simpl in Hnot.
              + apply (i_fresh _ _ _ _ _ I); auto.
              + rewrite (i_const _ _ _ _ _ I) by auto. unfold canon_spec. rewrite Eq. reflexivity. }
          constructor; auto. apply (IH _ s1 sol1); auto.
          * exact (ini_after_solve g th0 W scr Hecos Hkeep th s I s1 Hds).
          * intros p Hp. rewrite R by auto.
            rewrite <- D1 by (rewrite Hs; auto).
            clear - Hds L1 Hs.
            unfold do_solve in Hds. destruct (canon_blocks _ _ _ _ _); [|discriminate]. cbn [bind] in Hds.
            destruct (run _ _ _) as [acts ini]. inversion Hds; subst s1. simpl in L1.
            apply app_inv_head in L1. inversion L1; subst e. simpl. rewrite Hs. reflexivity.
    Qed.
  End ValidHist.
End More.
Arguments sizes_before ps k : simpl nomatch.
Arguments vsteps {N}.
