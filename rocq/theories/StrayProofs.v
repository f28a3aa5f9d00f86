(** Proofs about update functions called with any index. *)

From Coq Require Import String Arith Bool Lia ZArith List Permutation.
From Verif Require Import Base Pus Machine PusParse PusCheck PusLift Runtime RuntimeSpec RuntimeProofs RuntimeMore
     Explicit ExplicitProofs Stray StraySpec.
Import ListNotations.
Open Scope list_scope.

(** ** Places *)

Lemma find_col_offset : forall ps n k, In n (map fst ps) -> find_col n (col_to_name k ps) = Some (k + offset ps n).
Proof.
  induction ps as [|[m s] t IH]; cbn [map fst In col_to_name find_col offset]; intros n k H; [contradiction|].
  destruct (String.eqb n m) eqn:E; [f_equal; lia|].
  destruct H as [H|H]; [subst; rewrite String.eqb_refl in E; discriminate|].
  rewrite IH by auto. f_equal. lia.
Qed.

Lemma assoc_size : forall ps n, In n (map fst ps) -> assoc n ps = Some (size_of ps n).
Proof.
  induction ps as [|[m s] t IH]; cbn [map fst In assoc size_of]; intros n H; [contradiction|].
  destruct (String.eqb n m) eqn:E; auto.
  destruct H as [H|H]; [subst; rewrite String.eqb_refl in E; discriminate|]. auto.
Qed.

Lemma find_col_none : forall ps n k, ~ In n (map fst ps) -> find_col n (col_to_name k ps) = None.
Proof.
  induction ps as [|[m s] t IH]; cbn [map fst In col_to_name find_col]; intros n k H; auto.
  destruct (String.eqb n m) eqn:E; [apply String.eqb_eq in E; subst; exfalso; auto|]. auto.
Qed.

Lemma size_in : forall ps n, In n (map fst ps) -> In (n, size_of ps n) ps.
Proof.
  induction ps as [|[m s] t IH]; cbn [map fst In size_of]; intros n H; [contradiction|].
  destruct (String.eqb n m) eqn:E; [apply String.eqb_eq in E; subst; auto|].
  destruct H as [H|H]; [subst; rewrite String.eqb_refl in E; discriminate|]. auto.
Qed.

Lemma size_uniq : forall ps n s, NoDup (map fst ps) -> In (n, s) ps -> size_of ps n = s.
Proof.
  induction ps as [|[m t] l IH]; cbn [map fst In size_of]; intros n s ND H; [contradiction|].
  inversion ND; subst. destruct H as [H|H].
  - inversion H; subst. rewrite String.eqb_refl. auto.
  - destruct (String.eqb n m) eqn:E; [|auto]. apply String.eqb_eq in E. subst.
    exfalso. apply H2. apply (in_map fst) in H. exact H.
Qed.

Lemma offset_total : forall ps n, In n (map fst ps) -> offset ps n + size_of ps n <= total ps.
Proof.
  induction ps as [|[m s] t IH]; cbn [map fst In offset size_of total]; intros n H; [contradiction|].
  destruct (String.eqb n m) eqn:E; [lia|].
  destruct H as [H|H]; [subst; rewrite String.eqb_refl in E; discriminate|]. specialize (IH n H). lia.
Qed.

Lemma place_owner : forall ps k, NoDup (map fst ps) -> k < total ps ->
  exists q j, In q (map fst ps) /\ j < size_of ps q /\ k = offset ps q + j.
Proof.
  induction ps as [|[m s] t IH]; cbn [map fst total]; intros k ND H; [lia|].
  inversion ND; subst. destruct (Nat.lt_ge_cases k s) as [L|L].
  - exists m, k. cbn [size_of offset In]. rewrite String.eqb_refl. auto.
  - destruct (IH (k - s)) as (q & j & H1 & H4 & H5); auto; [lia|].
    exists q, j. cbn [size_of offset In].
    assert (E : String.eqb q m = false). { apply String.eqb_neq. intro; subst. contradiction. }
    rewrite E. split; [auto|]. split; [auto|lia].
Qed.

Section Proofs.
  Variable N : Num.
  Notation V := (car N).

  Lemma flat_total : forall ps (th : pvals N), length (flat ps th) = S (total ps).
  Proof.
    intros ps th. unfold flat. rewrite app_length. cbn [length]. rewrite Nat.add_1_r. f_equal.
    induction ps as [|[n s] t IH]; cbn [flat_map total fst snd]; auto. rewrite app_length, map_length, seq_length. auto.
  Qed.

  Variable g : genc N.
  Notation ps := (g_params g).

  Lemma subscript_place : forall n idx, In n (map fst ps) -> subscript g n idx = Some (place ps n idx).
  Proof.
    intros n idx H. unfold subscript, base_col. rewrite find_col_offset, assoc_size by auto. unfold place.
    destruct (Nat.eqb (size_of ps n) 1); f_equal; lia.
  Qed.

  Lemma subscript_none : forall n idx, ~ In n (map fst ps) -> subscript g n idx = None.
  Proof. intros n idx H. unfold subscript, base_col. rewrite find_col_none by auto. reflexivity. Qed.

  (** In range: the calls of Runtime.v. *)
  Lemma in_range_same : forall s n idx v, in_range ps (ZUpd n idx v) ->
      z_update g s n idx v = step g (fun _ _ d => d) s (plain ps (ZUpd n idx v)).
  Proof.
    intros s n idx v [H R]. cbn [plain step]. unfold z_update, do_update. rewrite subscript_place by auto.
    unfold base_col. rewrite find_col_offset by auto. unfold place.
    destruct (Nat.eqb (size_of ps n) 1) eqn:E.
    - unfold zput. replace (Z.of_nat (offset ps n) <? 0)%Z with false by (symmetry; apply Z.ltb_ge; lia).
      rewrite Nat2Z.id. reflexivity.
    - apply Nat.eqb_neq in E. destruct R as [R|R]; [contradiction|].
      unfold zput. replace (Z.of_nat (offset ps n) + idx <? 0)%Z with false by (symmetry; apply Z.ltb_ge; lia).
      replace (Z.to_nat (Z.of_nat (offset ps n) + idx)) with (Z.to_nat idx + (0 + offset ps n)) by lia. reflexivity.
  Qed.

  Variable th0 : pvals N.
  Hypothesis W : wf_gen g th0.
  Variable scr : nat -> pid -> list V -> list V.
  Hypothesis Hecos : g_solver g = ECOS -> forall p, In p (owned ECOS) -> length (g_rows g p) <> 1.
  Hypothesis Hkeep : keeps (g_solver g) = true -> forall n p d, scr n p d = d.

  Notation slv := (g_solver g).
  Notation chgp := (changing (g_chg g)).
  Notation dat := (data_for g).

  Lemma vec0_length : length (g_vec0 g) = S (total ps).
  Proof. rewrite (w_vec0 _ _ _ W). apply flat_total. Qed.

  (** [tg p]: the array block [p] is computed from when a solve comes now. *)
  Record IInv (vec : list V) (old : pid -> list V) (s : rst N) : Prop :=
    { j_vec : r_vec s = vec;
      j_len : length vec = S (total ps);
      j_tail : forall p, chgp p = true ->
                 length (m_can (r_m s) p) = length (g_baked g p)
                 /\ skipn (length (g_rows g p)) (m_can (r_m s) p) = skipn (length (g_rows g p)) (g_baked g p);
      j_fresh : forall p, chgp p = true -> r_flag s p = false -> m_can (r_m s) p = dat p (old p);
      j_const : forall p, chgp p = false -> m_can (r_m s) p = g_baked g p;
      j_upd : upd_pre slv (g_size g) scr (r_m s);
      j_ini : r_ini s = false -> solver_init0 slv = false
                                 /\ forall p, In p (owned slv) -> chgp p = true -> r_flag s p = true;
      j_sync : r_ini s = true -> forall p, In p (owned slv) -> chgp p && r_flag s p = false ->
                 (if keeps slv then view_cnd (r_m s) p else m_sol (r_m s) p) = m_can (r_m s) p }.

  Lemma iinv_init : IInv (g_vec0 g) (fun _ => g_vec0 g) (init_state g).
  Proof.
    constructor; simpl.
    - auto.
    - apply vec0_length.
    - auto.
    - intros; discriminate.
    - auto.
    - constructor; simpl; intros; auto; try discriminate.
      split; auto. rewrite H. apply Hecos; auto.
    - intros; split; auto.
    - intros _ p _ H. destruct (keeps slv); reflexivity.
  Qed.

  Lemma iinv_update : forall vec old s n idx v, IInv vec old s -> inside ps (ZUpd n idx v) ->
      exists s', z_update g s n idx v = Ok s' /\ IInv (upd vec (Z.to_nat (place ps n idx)) v) old s'
        /\ r_log s' = r_log s /\ (forall p, r_flag s' p = r_flag s p || mem_pid p (g_outd g n)).
  Proof.
    intros vec old s n idx v I [H [R1 R2]]. unfold z_update. rewrite subscript_place by auto.
    unfold zput. replace (place ps n idx <? 0)%Z with false by (symmetry; apply Z.ltb_ge; lia).
    rewrite put_ok by (rewrite (j_vec _ _ _ I), (j_len _ _ _ I); lia). cbn [bind].
    eexists. split; [reflexivity|]. split; [|split; [reflexivity|intro p; cbn; apply orb_comm]].
    destruct I as [I1 I1' I2 I3 I4 I5 I6 I7]. constructor; simpl; auto.
    - rewrite I1. reflexivity.
    - rewrite upd_length. auto.
    - intros p Hp Hfl. apply orb_false_iff in Hfl. apply I3; tauto.
    - intros Hi0. destruct (I6 Hi0) as [Ha Hb]. split; auto.
      intros p Hp Hcp. rewrite (Hb p Hp Hcp). apply orb_true_r.
    - intros Hi1 p Hp Hcf. apply I7; auto.
      destruct (chgp p); simpl in *; auto. apply orb_false_iff in Hcf. tauto.
  Qed.

  Definition now (vec : list V) (old : pid -> list V) (s : rst N) (p : pid) : list V :=
    if r_flag s p then vec else old p.

  Lemma w_cols_total : forall p r c v, In r (g_rows g p) -> In (c, v) r -> c < S (total ps).
  Proof. intros. rewrite <- (flat_total ps th0). eapply (w_cols _ _ _ W); eauto. Qed.

  Lemma icanon_blocks : forall vec old s l can,
      IInv vec old s -> NoDup l -> (forall p, In p l -> can p = m_can (r_m s) p) ->
      exists can', canon_blocks g (r_vec s) (r_flag s) can l = Ok can'
        /\ (forall p, ~ In p l -> can' p = can p)
        /\ (forall p, In p l -> can' p = if chgp p && r_flag s p then dat p vec else can p).
  Proof.
    induction l as [|p l IH]; intros can I Hnd Hc; simpl.
    - exists can. repeat split; auto; tauto.
    - inversion Hnd; subst.
      change (chg_get (g_chg g) p) with (chgp p).
      destruct (chgp p && r_flag s p) eqn:E.
      + assert (Ecan : canonicalize (csr_of (g_rows g p)) (r_vec s) (can p) = Ok (dat p vec)).
        { apply andb_true_iff in E. destruct E as [E1 E2].
          destruct (j_tail _ _ _ I p E1) as [T1 T2].
          rewrite canonicalize_ok.
          - f_equal. unfold data_for. change (chg_get (g_chg g) p) with (chgp p). rewrite E1.
            rewrite (j_vec _ _ _ I), Hc, T2 by (simpl; auto). reflexivity.
          - intros. rewrite (j_vec _ _ _ I), (j_len _ _ _ I). eapply w_cols_total; eauto.
          - rewrite Hc by (simpl; auto). rewrite T1. apply (w_len _ _ _ W). }
        rewrite Ecan. cbn [bind].
        destruct (IH (pset can p (dat p vec))) as (can' & E' & F1 & F2); auto.
        { intros q Hq. unfold pset. destruct (pid_eqb q p) eqn:Eq.
          - apply pid_eqb_spec in Eq. subst. contradiction.
          - apply Hc. simpl; auto. }
        exists can'. split; auto. split.
        * intros q Hq. rewrite F1 by (intro; apply Hq; simpl; auto). unfold pset.
          destruct (pid_eqb q p) eqn:Eq; auto. apply pid_eqb_spec in Eq. subst.
          exfalso; apply Hq; simpl; auto.
        * intros q [Hq|Hq].
          -- subst q. rewrite F1 by auto. unfold pset. rewrite pid_eqb_refl, E. auto.
          -- rewrite F2 by auto. unfold pset. destruct (pid_eqb q p) eqn:Eq; auto.
             apply pid_eqb_spec in Eq. subst. contradiction.
      + destruct (IH can) as (can' & E' & F1 & F2); auto.
        { intros; apply Hc; simpl; auto. }
        exists can'. split; auto. split.
        * intros q Hq. apply F1. intro; apply Hq; simpl; auto.
        * intros q [Hq|Hq].
          -- subst q. rewrite E. apply F1. auto.
          -- apply F2; auto.
  Qed.

  Lemma icanon_all : forall vec old s, IInv vec old s ->
      exists can', canon_blocks g (r_vec s) (r_flag s) (m_can (r_m s)) (solver_pids slv) = Ok can'
        /\ (forall p, can' p = dat p (now vec old s p)).
  Proof.
    intros vec old s I.
    destruct (icanon_blocks vec old s (solver_pids slv) (m_can (r_m s)) I (pids_nodup N g scr Hecos Hkeep)) as (can' & E & F1 & F2).
    { auto. }
    exists can'. split; auto. intro p. unfold now.
    destruct (chgp p) eqn:Ec.
    - rewrite F2 by (apply (chg_in_pids N g th0 W); auto). rewrite Ec. simpl.
      destruct (r_flag s p) eqn:Ef; auto. apply (j_fresh _ _ _ I); auto.
    - assert (E2 : can' p = m_can (r_m s) p).
      { destruct (mem_pid p (solver_pids slv)) eqn:Em.
        - apply mem_pid_In in Em. rewrite F2 by auto. rewrite Ec. reflexivity.
        - apply F1. intro H. apply mem_pid_In in H. congruence. }
      rewrite E2, (j_const _ _ _ I p Ec). unfold data_for.
      change (chg_get (g_chg g) p) with (chgp p). rewrite Ec. reflexivity.
  Qed.

  Lemma dat_size0 : forall p vec, length (g_rows g p) = 0 -> dat p vec = g_baked g p.
  Proof.
    intros p vec H. unfold data_for. destruct (chg_get (g_chg g) p); auto.
    destruct (g_rows g p); simpl in *; auto. discriminate.
  Qed.

  Lemma iinv_solve : forall vec old s, IInv vec old s ->
      exists s' e, do_solve g scr s = Ok s' /\ IInv vec (now vec old s) s' /\ r_log s' = r_log s ++ [e]
        /\ (forall p, chgp p = true -> r_flag s' p = false)
        /\ (forall p, In p (owned slv) -> e_data e p = dat p (now vec old s p))
        /\ e_d e = dat pd (now vec old s pd).
  Proof.
    intros vec old s I.
    destruct (icanon_all vec old s I) as (can' & Ecan & Hcan).
    unfold do_solve. rewrite Ecan. cbn [bind].
    set (m1 := mkM can' (m_cnd (r_m s)) (m_alias (r_m s)) (m_sol (r_m s)) (m_tick (r_m s))).
    destruct (run (g_block g) (r_flag s) (r_ini s)) as [acts ini] eqn:Erun.
    set (D := fun p => dat p (now vec old s p)).
    assert (Hcan1 : forall p, m_can m1 p = D p) by (intro; apply Hcan).
    assert (Hpre : upd_pre slv (g_size g) scr m1).
    { destruct (j_upd _ _ _ I) as [P1 P2 P3 P4]. constructor; auto.
      intros p Hp. unfold view_cnd. simpl. rewrite Hcan.
      destruct (m_alias (r_m s) p) eqn:Ea; auto.
      specialize (P1 p Hp). unfold view_cnd in P1. rewrite Ea in P1. rewrite P1.
      rewrite dat_size0 by exact Hp.
      destruct (chgp p) eqn:Ec.
      - destruct (j_tail _ _ _ I p Ec) as [_ T].
        unfold g_size in Hp. rewrite Hp in T. simpl in T. exact T.
      - apply (j_const _ _ _ I); auto. }
    pose proof (block_is_ok N g th0 W (list V) (g_size g) (g_baked g) scr m1 (r_flag s) (r_ini s) Hpre (j_ini _ _ _ I)) as HB.
    rewrite Erun in HB.
    set (m2 := exec_all (g_size g) (owned slv) (g_baked g) scr m1 (acts ++ solver_solve_acts slv)) in *.
    destruct HB as (HB1 & HB2 & HB3 & HB4 & HB5).
    assert (Dconst : forall p, chgp p = false -> D p = g_baked g p).
    { intros p Hc. unfold D, data_for. change (chg_get (g_chg g) p) with (chgp p). rewrite Hc. reflexivity. }
    assert (HB6 : forall p, In p (owned slv) ->
              m_sol m2 p = m_can m1 p /\ (keeps slv = true -> view_cnd m2 p = m_can m1 p)).
    { apply HB5.
      - intros p Hp Hc. rewrite Hcan1. apply Dconst. exact Hc.
      - intros Hi p Hp Hout.
        pose proof (j_sync _ _ _ I Hi p Hp Hout) as Hs.
        assert (Hsame : D p = m_can (r_m s) p).
        { destruct (chgp p) eqn:Ec; simpl in Hout.
          - unfold D, now. rewrite Hout. symmetry. apply (j_fresh _ _ _ I); auto.
          - rewrite Dconst by auto. symmetry. apply (j_const _ _ _ I); auto. }
        destruct (keeps slv).
        + unfold view_cnd in *. simpl. rewrite Hcan. fold (D p).
          destruct (m_alias (r_m s) p); auto. rewrite Hs. auto.
        + simpl. rewrite Hcan, Hs. symmetry. exact Hsame. }
    set (m3 := match slv with ECOS | CLARABEL _ => scribble (g_size g) scr m2 | _ => m2 end).
    assert (Hm3can : forall p, m_can m3 p = D p).
    { intro p. rewrite <- Hcan1, <- HB3. unfold m3. destruct slv eqn:Es; auto; simpl.
      - destruct (m_alias m2 p) eqn:Ea; auto.
        exfalso. destruct (up_ecos _ _ _ _ HB2 eq_refl) as [_ HN]. congruence.
      - rewrite Hkeep by reflexivity. destruct (m_alias m2 p); auto. }
    assert (Hm3view : keeps slv = true -> forall p, view_cnd m3 p = view_cnd m2 p).
    { intros Hk p. unfold m3. destruct slv; try discriminate.
      unfold view_cnd, scribble. simpl. rewrite !Hkeep by reflexivity.
      destruct (m_alias m2 p); auto. destruct (g_size g p); auto. }
    assert (Hm3sol : forall p, m_sol m3 p = m_sol m2 p).
    { intro p. unfold m3. destruct slv; reflexivity. }
    assert (Hm3pre : upd_pre slv (g_size g) scr m3).
    { destruct HB2 as [P1 P2 P3 P4]. constructor; auto.
      - intros p Hp. rewrite Hm3can, <- Hcan1, <- HB3, <- P1 by auto.
        unfold m3.
        assert (HV : view_cnd (scribble (g_size g) scr m2) p = view_cnd m2 p).
        { unfold view_cnd, scribble. simpl. destruct (m_alias m2 p) eqn:Ea.
          - exfalso. apply P2 in Ea. congruence.
          - rewrite Hp. auto. }
        destruct slv; auto.
      - intros p Hp. apply P2. revert Hp. unfold m3. destruct slv; auto.
      - intro Es. destruct (P3 Es) as [P3a P3b]. split; auto. intro p. unfold m3. rewrite Es. apply P3b. }
    eexists. eexists. split; [reflexivity|]. split; [|split; [reflexivity|split; [|split]]].
    - constructor; simpl.
      + apply (j_vec _ _ _ I).
      + apply (j_len _ _ _ I).
      + intros p Hp. rewrite Hm3can. unfold D, data_for.
        change (chg_get (g_chg g) p) with (chgp p). rewrite Hp.
        pose proof (w_len _ _ _ W p) as Hl. split.
        * rewrite app_length, map_length, skipn_length. lia.
        * rewrite skipn_app, map_length, Nat.sub_diag. simpl.
          rewrite skipn_all2 by (rewrite map_length; auto). reflexivity.
      + intros p _ _. apply Hm3can.
      + intros p Hp. rewrite Hm3can. apply Dconst. exact Hp.
      + exact Hm3pre.
      + intro Hi. rewrite HB1 in Hi. discriminate.
      + intros _ p Hp _. destruct (HB6 p Hp) as [S1 S2]. destruct (keeps slv) eqn:Ek.
        * rewrite Hm3view, S2 by auto. rewrite Hm3can, Hcan1. reflexivity.
        * rewrite Hm3sol, S1, Hm3can, Hcan1. reflexivity.
    - intros p Hp. simpl.
      assert (Hm : mem_pid p (solver_pids slv) = true) by (apply mem_pid_In; apply (chg_in_pids N g th0 W); auto).
      rewrite Hm. change (chg_get (g_chg g) p) with (chgp p). rewrite Hp. reflexivity.
    - intros p Hp. simpl. destruct (HB6 p Hp) as [S1 _]. rewrite S1. apply Hcan1.
    - simpl. rewrite HB3. apply Hcan1.
  Qed.

  (** The two records read by the caller. *)
  Definition reads (p : pid) (e : entry N) (d : list V) : Prop := In p (owned slv) -> e_data e p = d.

  Lemma dat_const : forall p vec vec', chgp p = false -> dat p vec = dat p vec'.
  Proof. intros p vec vec' H. unfold data_for. change (chg_get (g_chg g) p) with (chgp p). rewrite H. auto. Qed.

  Lemma seen_const : forall p os names vec vec' due due' old old', chgp p = false ->
      map (dat p) (seen ps names vec due old os) = map (dat p) (seen ps names vec' due' old' os).
  Proof.
    intros p os names. induction os as [|[n idx v|] os IH]; intros vec vec' due due' old old' H; cbn [seen map]; auto.
    f_equal; auto. apply dat_const. auto.
  Qed.

  Theorem z_steps_ok : forall os vec old s, IInv vec old s -> Forall (inside ps) os ->
      exists s' log, z_steps g scr s os = Ok s' /\ r_log s' = r_log s ++ log
        /\ r_vec s' = array ps vec os /\ length (r_vec s') = S (total ps)
        /\ (forall p, In p (owned slv) -> map (fun e => e_data e p) log
              = map (dat p) (seen ps (fun n => mem_pid p (g_outd g n)) vec (r_flag s p) (old p) os))
        /\ map (@e_d N) log = map (dat pd) (seen ps (fun n => mem_pid pd (g_outd g n)) vec (r_flag s pd) (old pd) os).
  Proof.
    induction os as [|o os IH]; intros vec old s I Hv; cbn [z_steps array seen].
    - exists s, []. rewrite app_nil_r. split; [reflexivity|]. split; [reflexivity|].
      split; [apply (j_vec _ _ _ I)|]. split; [rewrite (j_vec _ _ _ I); apply (j_len _ _ _ I)|].
      split; [intros; reflexivity|reflexivity].
    - inversion Hv as [|? ? Ho Hos]; subst. destruct o as [n idx v|].
      + destruct (iinv_update vec old s n idx v I Ho) as (s1 & E & I1 & L1 & F1).
        cbn [z_step]. rewrite E. cbn [bind].
        destruct (IH _ _ _ I1 Hos) as (s' & log & E2 & L2 & V2 & N2 & D1 & D2).
        exists s', log. rewrite L2, L1. split; [exact E2|]. split; [reflexivity|]. split; [exact V2|]. split; [exact N2|].
        split; [intros p Hp; rewrite (D1 p Hp), F1|rewrite D2, F1]; reflexivity.
      + destruct (iinv_solve vec old s I) as (s1 & e & E & I1 & L1 & F1 & D1 & D2).
        cbn [z_step]. rewrite E. cbn [bind].
        destruct (IH _ _ _ I1 Hos) as (s' & log & E2 & L2 & V2 & N2 & D3 & D4).
        exists s', (e :: log). rewrite L2, L1, <- app_assoc. split; [exact E2|]. split; [reflexivity|].
        split; [exact V2|]. split; [exact N2|]. cbv zeta.
        assert (G : forall p, map (dat p) (seen ps (fun n => mem_pid p (g_outd g n)) vec (r_flag s1 p) (now vec old s p) os)
                   = map (dat p) (seen ps (fun n => mem_pid p (g_outd g n)) vec false (now vec old s p) os)).
        { intro p. destruct (chgp p) eqn:Ec; [rewrite F1 by auto; reflexivity|apply seen_const; auto]. }
        split.
        * intros p Hp. cbn [map]. rewrite D1, D3, G by auto. reflexivity.
        * cbn [map]. rewrite D2, D4, G. reflexivity.
  Qed.

  Theorem z_run_ok : forall os, Forall (inside ps) os ->
      exists s', z_steps g scr (init_state g) os = Ok s'
        /\ r_vec s' = array ps (g_vec0 g) os /\ length (r_vec s') = S (total ps)
        /\ (forall p, In p (owned slv) -> map (fun e => e_data e p) (r_log s')
              = map (dat p) (seen ps (fun n => mem_pid p (g_outd g n)) (g_vec0 g) true (g_vec0 g) os))
        /\ map (@e_d N) (r_log s') = map (dat pd) (seen ps (fun n => mem_pid pd (g_outd g n)) (g_vec0 g) true (g_vec0 g) os).
  Proof.
    intros os Hv. destruct (z_steps_ok os _ _ _ iinv_init Hv) as (s' & log & E & L & V1 & N1 & D1 & D2).
    exists s'. simpl in L. subst log. auto.
  Qed.

  (** Where every block reading the entry is named, each solve works on the array of that moment. *)
  Lemma dat_ext : forall p vec k v, (forall r c w, chgp p = true -> In r (g_rows g p) -> In (c, w) r -> c <> k) ->
      dat p (upd vec k v) = dat p vec.
  Proof.
    intros p vec k v H. unfold data_for. change (chg_get (g_chg g) p) with (chgp p). destruct (chgp p) eqn:E; auto.
    f_equal. apply map_ext_in. intros r Hr. apply dot_ext. intros c w Hcw. apply nth_upd_neq. eapply H; eauto.
  Qed.

  Lemma seen_fresh : forall p os vec due old, Forall (inside ps) os -> Forall (covers g) os ->
      (due = false -> dat p old = dat p vec) ->
      map (dat p) (seen ps (fun n => mem_pid p (g_outd g n)) vec due old os) = map (dat p) (arrays ps vec os).
  Proof.
    intros p os. induction os as [|[n idx v|] os IH]; intros vec due old Hi Hc H; cbn [seen arrays map]; auto;
      inversion Hi as [|? ? Hi1 Hi2]; inversion Hc as [|? ? Hc1 Hc2]; subst.
    - apply IH; auto. intro E. apply orb_false_iff in E. destruct E as [E1 E2]. rewrite (H E1). symmetry.
      apply dat_ext. intros r c w Hp Hr Hcw Ek. destruct Hi1 as [_ [R1 R2]].
      assert (Hin : In p (g_outd g n)) by (eapply (Hc1 p r c w); eauto; lia).
      apply mem_pid_In in Hin. congruence.
    - f_equal.
      + destruct due; auto.
      + apply IH; auto. intros _. destruct due; auto.
  Qed.
End Proofs.
