(** The finite sweep of PusCheck lifted to all change patterns, iteration orders, flags
    and data. *)

From Coq Require Import String Arith Bool Lia List Permutation.
From Verif Require Import Base Pus Machine PusParse PusCheck.
Import ListNotations.

(** ** Lifting the sweep *)

(** Well-formed [p_id_to_changes]: exactly the canonical ids of the solver are keys
    (canonicalizer.py 299-328). *)
Definition chg_wf (s : solver) (chg : changes) : Prop :=
  forall p, chg p <> None <-> In p (solver_pids s).

Definition chg_set (s : solver) (chg : changes) : list pid := filter (chg_get chg) (solver_pids s).

Lemma mem_filter : forall (f : pid -> bool) p l, mem_pid p (filter f l) = mem_pid p l && f p.
Proof.
  intros. destruct (mem_pid p (filter f l)) eqn:E.
  - apply mem_pid_In in E. apply filter_In in E. destruct E as [E1 E2].
    apply mem_pid_In in E1. rewrite E1, E2. reflexivity.
  - destruct (mem_pid p l) eqn:E2; auto. destruct (f p) eqn:E3; auto.
    apply mem_pid_In in E2. exfalso.
    assert (mem_pid p (filter f l) = true) by (apply mem_pid_In; apply filter_In; auto). congruence.
Qed.

Lemma chg_of_set : forall s chg, chg_wf s chg ->
    forall p, chg p = chg_of (solver_pids s) (chg_set s chg) p.
Proof.
  intros s chg H p. unfold chg_of, chg_set. rewrite mem_filter.
  specialize (H p). destruct (mem_pid p (solver_pids s)) eqn:E.
  - apply mem_pid_In in E. apply H in E. unfold chg_get. destruct (chg p); simpl; congruence.
  - destruct (chg p) eqn:E2; auto. exfalso.
    assert (In p (solver_pids s)) as HI by (apply H; congruence).
    apply mem_pid_In in HI. congruence.
Qed.

Lemma init_first_idem : forall l, init_first (init_first l) = init_first l.
Proof.
  intro l. unfold init_first. destruct (mem_str "init" l) eqn:E; simpl; auto.
  rewrite E. reflexivity.
Qed.

Lemma gen_update_init_first : forall t quad c o,
    gen_update t quad c o = gen_update t quad c (init_first o).
Proof.
  intros. unfold gen_update. destruct (analyze_pus t c) as [[top never]|]; simpl; auto.
  rewrite init_first_idem. reflexivity.
Qed.

Lemma remove_first_perm : forall x (l : list string), In x l ->
    Permutation l (x :: remove_first String.eqb x l).
Proof.
  induction l as [|y l IH]; simpl; intros H; [contradiction|].
  destruct (String.eqb x y) eqn:E.
  - apply String.eqb_eq in E. subst. auto.
  - apply String.eqb_neq in E. destruct H as [H|H]; [congruence|].
    rewrite perm_swap. constructor. apply IH. exact H.
Qed.

Lemma orders_complete : forall top o, Permutation top o -> In (init_first o) (orders top).
Proof.
  intros top o H. unfold orders, init_first.
  assert (E : mem_str "init" o = mem_str "init" top).
  { destruct (mem_str "init" o) eqn:E1; destruct (mem_str "init" top) eqn:E2; auto.
    - apply mem_str_In in E1. apply Permutation_sym in H.
      pose proof (Permutation_in _ H E1) as H2. apply mem_str_In in H2. congruence.
    - apply mem_str_In in E2.
      pose proof (Permutation_in _ H E2) as H2. apply mem_str_In in H2. congruence. }
  rewrite E. destruct (mem_str "init" top) eqn:E2.
  - apply in_map. apply perms_complete.
    apply mem_str_In in E. apply mem_str_In in E2.
    apply Permutation_cons_inv with "init"%string.
    rewrite <- (remove_first_perm _ _ E2), <- (remove_first_perm _ _ E). exact H.
  - apply perms_complete. exact H.
Qed.

Lemma analyze_ok : forall s chg, chg_wf s chg ->
    exists top never, analyze_pus (solver_pus s) chg = Ok (top, never).
Proof.
  intros s chg H. pose proof (check_all s) as HC. unfold check_solver in HC.
  rewrite forallb_forall in HC. specialize (HC (chg_set s chg)).
  rewrite (analyze_pus_ext _ _ _ (chg_of_set s chg H)).
  destruct (analyze_pus (solver_pus s) (chg_of (solver_pids s) (chg_set s chg))) as [[top never]|].
  - eauto.
  - discriminate HC. apply filter_in_subsets.
Qed.

Lemma check_gen_ok : forall s chg top never order,
    chg_wf s chg -> analyze_pus (solver_pus s) chg = Ok (top, never) -> Permutation top order ->
    check_gen s (chg_set s chg) (init_first order) = true.
Proof.
  intros s chg top never order H Ha Hp.
  pose proof (check_all s) as HC. unfold check_solver in HC.
  rewrite forallb_forall in HC. specialize (HC (chg_set s chg) (filter_in_subsets _ _ _)).
  rewrite (analyze_pus_ext _ _ _ (chg_of_set s chg H)) in Ha. rewrite Ha in HC.
  rewrite forallb_forall in HC. apply HC. apply orders_complete. exact Hp.
Qed.

Definition changing (chg : changes) (p : pid) : bool := chg_get chg p.

(** State assumptions of one update: empty blocks agree trivially, aliasing only happens
    for one-entry blocks; for ECOS no block handed to the library has one entry and
    nothing is aliased; a
    library that keeps reading the conditioning arrays (Clarabel) leaves them alone. *)
Record upd_pre {D} (s : solver) (size : pid -> nat) (scr : nat -> pid -> D -> D) (m : mst D) : Prop :=
  { up_sz0 : forall p, size p = 0 -> view_cnd m p = m_can m p;
    up_alias : forall p, m_alias m p = true -> size p = 1;
    up_ecos : s = ECOS -> (forall p, In p (owned s) -> size p <> 1) /\ forall p, m_alias m p = false;
    up_keep : keeps s = true -> forall n p d, scr n p d = d }.

(** What the emitted update code (followed by the solve call's own reads) guarantees. *)
Definition block_ok (s : solver) (chg : changes) (b : ublock) : Prop :=
  forall D size baked scr (m : mst D) fl ini,
    upd_pre s size scr m ->
    (ini = false -> solver_init0 s = false /\ forall p, In p (owned s) -> changing chg p = true -> fl p = true) ->
    let '(acts, ini') := run b fl ini in
    let m' := exec_all size (owned s) baked scr m (acts ++ solver_solve_acts s) in
    (ini' || existsb sets_init (solver_solve_acts s)) = true
    /\ upd_pre s size scr m'
    /\ (forall p, m_can m' p = m_can m p)
    /\ (forall p, In p (owned s) -> changing chg p = true -> fl p = true -> m_sol m' p = m_can m p)
    /\ ((forall p, In p (owned s) -> changing chg p = false -> m_can m p = baked p) ->
        (ini = true -> forall p, In p (owned s) -> changing chg p && fl p = false ->
                                 (if keeps s then view_cnd m p else m_sol m p) = m_can m p) ->
        forall p, In p (owned s) ->
                  m_sol m' p = m_can m p /\ (keeps s = true -> view_cnd m' p = m_can m p)).

Lemma owned_pids : forall s p, In p (owned s) -> In p (solver_pids s) /\ p <> pd.
Proof.
  intros s p H. apply filter_In in H. destruct H as [H1 H2]. split; auto.
  apply negb_true_iff in H2. apply pid_eqb_neq in H2. exact H2.
Qed.

Lemma check_run_ok : forall s chg b fl ini,
    (forall p, In p (block_atoms b) -> In p (owned s)) ->
    (forall p, In p (solver_pids s) -> mem_pid p (chg_set s chg) = changing chg p) ->
    check_run s (chg_set s chg) (filter fl (owned s)) ini b = true ->
    forall D size baked scr (m : mst D),
    upd_pre s size scr m ->
    (ini = false -> solver_init0 s = false /\ forall p, In p (owned s) -> changing chg p = true -> fl p = true) ->
    let '(acts, ini') := run b fl ini in
    let m' := exec_all size (owned s) baked scr m (acts ++ solver_solve_acts s) in
    (ini' || existsb sets_init (solver_solve_acts s)) = true
    /\ upd_pre s size scr m'
    /\ (forall p, m_can m' p = m_can m p)
    /\ (forall p, In p (owned s) -> changing chg p = true -> fl p = true -> m_sol m' p = m_can m p)
    /\ ((forall p, In p (owned s) -> changing chg p = false -> m_can m p = baked p) ->
        (ini = true -> forall p, In p (owned s) -> changing chg p && fl p = false ->
                                 (if keeps s then view_cnd m p else m_sol m p) = m_can m p) ->
        forall p, In p (owned s) ->
                  m_sol m' p = m_can m p /\ (keeps s = true -> view_cnd m' p = m_can m p)).
Proof.
  intros s chg b fl ini Hat HS HC D size baked scr m Hpre Hini.
  unfold check_run in HC.
  rewrite (run_ext b (fun p => mem_pid p (filter fl (owned s))) fl ini) in HC.
  2: { intros p Hp. rewrite mem_filter. apply Hat in Hp. apply mem_pid_In in Hp. rewrite Hp. auto. }
  destruct (run b fl ini) as [acts ini'].
  apply andb_true_iff in HC. destruct HC as [HC HCcp].
  apply orb_true_iff in HC. destruct HC as [HC|HC].
  { exfalso. apply andb_true_iff in HC. destruct HC as [H1 H2].
    apply negb_true_iff in H1. destruct (Hini H1) as [Hi Hf]. rewrite Hi in H2. simpl in H2.
    apply negb_true_iff in H2.
    assert (Hsub : subset_pid (filter (fun p => negb (pid_eqb p pd)) (chg_set s chg))
                              (filter fl (owned s)) = true); [|congruence].
    unfold subset_pid. apply forallb_forall. intros p Hp.
    apply filter_In in Hp. destruct Hp as [Hp Hd].
    assert (Hpo : In p (owned s)).
    { apply filter_In. split; auto. unfold chg_set in Hp. apply filter_In in Hp. tauto. }
    rewrite mem_filter. apply andb_true_iff. split; [apply mem_pid_In; auto|].
    apply Hf; auto. rewrite <- HS. apply mem_pid_In; auto.
    apply owned_pids in Hpo. tauto. }
  apply andb_true_iff in HC. destruct HC as [HC HC3].
  apply andb_true_iff in HC. destruct HC as [HC1 HC2].
  rewrite forallb_forall in HC1.
  set (acts' := acts ++ solver_solve_acts s) in *.
  set (m' := exec_all size (owned s) baked scr m acts').
  set (a := fold_left (aexec (scribbles s) (owned s)) acts' a0) in *.
  destruct Hpre as [P1 P2 P3 P4].
  assert (Hal : alias_ok D size (scribbles s) m).
  { unfold alias_ok. destruct (scribbles s) eqn:E; auto.
    destruct s; try discriminate. exact (proj2 (P3 eq_refl)). }
  assert (Hscr : scr_ok D size (owned s) scr (scribbles s) acts').
  { split.
    { intros p Hp. rewrite forallb_forall in HCcp. specialize (HCcp _ Hp). simpl in HCcp.
      apply mem_pid_In. exact HCcp. }
    destruct (scribbles s) eqn:E.
    - destruct s; try discriminate. apply P3. auto.
    - destruct (keeps s) eqn:E2; [left; auto|right].
      simpl in HC3. apply negb_true_iff in HC3. exact HC3. }
  destruct (aexec_all_sound D size (owned s) baked scr (scribbles s) m acts' a0 m Hscr Hal
              (gamma0 D size baked m P1)) as [G Hal'].
  fold a in G. fold m' in G. fold m' in Hal'.
  assert (Hout : forall p, In p (owned s) ->
            mem_pid p (chg_set s chg) && mem_pid p (filter fl (owned s)) = changing chg p && fl p).
  { intros p Hp. rewrite HS by (apply owned_pids in Hp; tauto).
    rewrite mem_filter. apply mem_pid_In in Hp. rewrite Hp. auto. }
  destruct G as [G1 G2 G3 G4].
  split; [exact HC2|]. split.
  { constructor; auto.
    - intros p Hp. unfold alias_ok in Hal'. destruct (scribbles s).
      + rewrite Hal' in Hp. discriminate.
      + auto.
    - intro Es. split; [apply P3; auto|]. subst s. exact Hal'. }
  split; [exact G1|]. split.
  - intros p Hp Hc Hf. specialize (HC1 p Hp). apply andb_true_iff in HC1. destruct HC1 as [HC1 _].
    unfold sol_ok in HC1. rewrite Hout in HC1 by auto. rewrite Hc, Hf in HC1. simpl in HC1.
    specialize (G2 p). destruct (a_sol a p); simpl in *; try discriminate; auto.
    rewrite HS in HC1 by (apply owned_pids in Hp; tauto). rewrite Hc in HC1. discriminate.
  - intros Hb Hsync p Hp. specialize (HC1 p Hp). apply andb_true_iff in HC1. destruct HC1 as [HC1 HC4].
    unfold sol_ok in HC1. unfold cnd_ok in HC4. rewrite Hout in HC1, HC4 by auto.
    rewrite HS in HC1 by (apply owned_pids in Hp; tauto).
    split.
    + specialize (G2 p). destruct (a_sol a p); simpl in *; try discriminate; auto.
      * rewrite G2. apply andb_true_iff in HC1. destruct HC1 as [HC1 H3].
        apply andb_true_iff in HC1. destruct HC1 as [H1 H2].
        apply negb_true_iff in H1. apply negb_true_iff in H3.
        specialize (Hsync H2 p Hp H1). rewrite H3 in Hsync. exact Hsync.
      * rewrite G2. apply andb_true_iff in HC1. destruct HC1 as [HC1 H3].
        apply andb_true_iff in HC1. destruct HC1 as [H1 H2].
        apply negb_true_iff in H1.
        specialize (Hsync H2 p Hp H1). rewrite H3 in Hsync. exact Hsync.
      * rewrite G2. symmetry. apply Hb; auto. apply negb_true_iff in HC1. exact HC1.
    + intro Hk. rewrite Hk in HC4, Hsync. simpl in HC4.
      specialize (G3 p). destruct (a_cnd a p); simpl in *; try discriminate; auto.
      rewrite G3. apply andb_true_iff in HC4. destruct HC4 as [H1 H2].
      apply negb_true_iff in H1. apply (Hsync H2 p Hp H1).
Qed.

Theorem update_code_ok : forall s chg top never order,
    chg_wf s chg -> analyze_pus (solver_pus s) chg = Ok (top, never) -> Permutation top order ->
    exists t' toks b,
      gen_update (solver_pus s) (solver_quad s) chg order = Ok (t', toks)
      /\ parse_all toks = Some b /\ Parses toks b /\ block_ok s chg b.
Proof.
  intros s chg top never order H Ha Hp.
  pose proof (check_gen_ok s chg top never order H Ha Hp) as HC.
  unfold check_gen in HC. rewrite <- gen_update_init_first in HC.
  rewrite (gen_update_ext _ _ _ _ order (chg_of_set s chg H)).
  destruct (gen_update (solver_pus s) (solver_quad s) (chg_of (solver_pids s) (chg_set s chg)) order)
    as [[t' toks]|]; [|discriminate].
  destruct (parse_all toks) as [b|] eqn:E; [|discriminate].
  exists t', toks, b. split; auto. split; auto. split; [apply parse_all_sound; auto|].
  apply andb_true_iff in HC. destruct HC as [HC1 HC2].
  rewrite forallb_forall in HC1, HC2.
  intros D size baked scr m fl ini Hpre Hini.
  apply check_run_ok; auto.
  - intros p Hpa. apply mem_pid_In. apply HC1. exact Hpa.
  - intros p Hpa. unfold chg_set. rewrite mem_filter. apply mem_pid_In in Hpa. rewrite Hpa. reflexivity.
  - specialize (HC2 (filter fl (owned s)) (filter_in_subsets _ _ _)).
    apply andb_true_iff in HC2. destruct ini; tauto.
Qed.
