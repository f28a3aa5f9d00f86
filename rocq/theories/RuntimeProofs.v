(** Proofs about the generated code at run time. *)

From Coq Require Import String Arith Bool Lia List Permutation.
From Verif Require Import Base Pus Machine PusParse PusCheck PusLift Runtime RuntimeSpec.
Import ListNotations.

Lemma get_ok : forall A (l : list A) k d, k < length l -> get l k = Ok (nth k l d).
Proof.
  intros. unfold get. rewrite nth_error_nth' with (d := d); auto.
Qed.

Lemma get_app_mid : forall A (l1 l2 : list A) x, get (l1 ++ x :: l2) (length l1) = Ok x.
Proof.
  intros. unfold get. rewrite nth_error_app2, Nat.sub_diag by lia. reflexivity.
Qed.

Lemma put_ok : forall A (l : list A) k v, k < length l -> put l k v = Ok (upd l k v).
Proof. intros. unfold put. apply Nat.ltb_lt in H. rewrite H. auto. Qed.

Lemma upd_upd : forall A (l : list A) k v w, upd (upd l k v) k w = upd l k w.
Proof. induction l; destruct k; simpl; intros; auto. rewrite IHl. auto. Qed.

Lemma upd_app_mid : forall A (l1 l2 : list A) x v k,
    k = length l1 -> upd (l1 ++ x :: l2) k v = l1 ++ v :: l2.
Proof. intros; subst. induction l1; simpl; intros; auto. rewrite IHl1. auto. Qed.

Lemma nth_app_mid : forall A (l1 l2 : list A) x d k, k = length l1 -> nth k (l1 ++ x :: l2) d = x.
Proof. intros; subst. rewrite app_nth2, Nat.sub_diag by lia. reflexivity. Qed.

Section Proofs.
  Variable N : Num.
  Notation V := (car N).

  Lemma indptr_length : forall (rows : list (row V)) s, length (indptr_from s rows) = S (length rows).
  Proof. induction rows; simpl; intros; auto. Qed.

  Lemma indptr_nth : forall (done rest : list (row V)) s,
      nth (length done) (indptr_from s (done ++ rest)) 0 = s + length (concat done).
  Proof.
    induction done as [|r done IH]; simpl; intros.
    - destruct rest; simpl; lia.
    - rewrite IH, app_length. lia.
  Qed.

  Lemma canon_inner_spec : forall (m : csr V) vec i r pre post blk,
      c_i m = map fst (pre ++ r ++ post) -> c_x m = map snd (pre ++ r ++ post) ->
      (forall c v, In (c, v) r -> c < length vec) -> i < length blk ->
      canon_inner m vec i blk (length pre) (length r)
      = Ok (upd blk i (fold_left (fun acc cv => nadd acc (nmul (snd cv) (nth (fst cv) vec n0)))
                                 r (nth i blk n0))).
  Proof.
    induction r as [|[c v] r IH]; intros pre post blk Hi Hx Hc Hb; cbn [canon_inner length].
    - simpl. f_equal. apply nth_ext_len with (d := n0); [rewrite upd_length; auto|].
      intros k Hk. destruct (Nat.eq_dec k i).
      + subst. rewrite nth_upd_eq; auto.
      + rewrite nth_upd_neq; auto.
    - rewrite (get_ok _ blk i n0) by auto. cbn [bind].
      assert (Ex : get (c_x m) (length pre) = Ok v).
      { rewrite Hx, map_app. simpl. rewrite <- (map_length snd pre). apply get_app_mid. }
      assert (Ei : get (c_i m) (length pre) = Ok c).
      { rewrite Hi, map_app. simpl. rewrite <- (map_length fst pre). apply get_app_mid. }
      rewrite Ex, Ei. cbn [bind].
      rewrite (get_ok _ vec c n0) by (apply Hc with v; simpl; auto). cbn [bind].
      rewrite put_ok by auto. cbn [bind].
      replace (S (length pre)) with (length (pre ++ [(c, v)])) by (rewrite app_length; simpl; lia).
      rewrite IH with (post := post).
      + simpl. rewrite upd_upd, nth_upd_eq by auto. reflexivity.
      + rewrite Hi, <- app_assoc. reflexivity.
      + rewrite Hx, <- app_assoc. reflexivity.
      + intros. apply Hc with v0. simpl; auto.
      + rewrite upd_length. auto.
  Qed.

  Lemma canon_outer_spec : forall (rows : list (row V)) vec rest done blk0,
      rows = done ++ rest ->
      (forall r c v, In r rows -> In (c, v) r -> c < length vec) ->
      length rows <= length blk0 ->
      canon_outer (csr_of rows) vec (map (dot vec) done ++ skipn (length done) blk0)
                  (length done) (length rest)
      = Ok (map (dot vec) rows ++ skipn (length rows) blk0).
  Proof.
    intros rows vec rest. induction rest as [|r rest IH]; intros done blk0 E Hc Hl; cbn [canon_outer length].
    - rewrite app_nil_r in E. subst. reflexivity.
    - assert (Hd : length done < length blk0).
      { subst rows. rewrite app_length in Hl. simpl in Hl. lia. }
      assert (Hsk : exists x, skipn (length done) blk0 = x :: skipn (S (length done)) blk0).
      { clear - Hd. revert blk0 Hd. induction (length done); intros [|y t] H; simpl in *; try lia.
        - exists y. reflexivity.
        - apply IHn. lia. }
      destruct Hsk as [x Hsk]. rewrite Hsk.
      assert (Elen : length done = length (map (dot vec) done)) by (rewrite map_length; auto).
      rewrite put_ok by (rewrite app_length, <- Elen; simpl; lia). cbn [bind].
      assert (Hp1 : get (c_p (csr_of rows)) (length done) = Ok (length (concat done))).
      { simpl. rewrite (get_ok _ _ _ 0).
        - rewrite E, indptr_nth. reflexivity.
        - rewrite indptr_length. subst rows. rewrite app_length. simpl. lia. }
      assert (Hp2 : get (c_p (csr_of rows)) (S (length done)) = Ok (length (concat done) + length r)).
      { simpl. rewrite (get_ok _ _ _ 0).
        - replace (done ++ r :: rest) with ((done ++ [r]) ++ rest) in E by (rewrite <- app_assoc; auto).
          replace (S (length done)) with (length (done ++ [r])) by (rewrite app_length; simpl; lia).
          rewrite E, indptr_nth, concat_app, app_length. simpl. rewrite app_nil_r. reflexivity.
        - rewrite indptr_length. subst rows. rewrite app_length. simpl. lia. }
      rewrite Hp1, Hp2. cbn [bind].
      replace (length (concat done) + length r - length (concat done)) with (length r) by lia.
      rewrite upd_app_mid by auto.
      rewrite canon_inner_spec with (post := concat rest).
      + cbn [bind]. rewrite upd_app_mid, nth_app_mid by auto.
        change (fold_left _ r n0) with (dot vec r).
        specialize (IH (done ++ [r]) blk0).
        rewrite <- IH; auto.
        * rewrite map_app, app_length. simpl. rewrite <- app_assoc. simpl.
          replace (length done + 1) with (S (length done)) by lia. reflexivity.
        * rewrite <- app_assoc. simpl. auto.
      + simpl. rewrite E, concat_app. reflexivity.
      + simpl. rewrite E, concat_app. reflexivity.
      + intros. eapply Hc; eauto. subst rows. apply in_or_app. simpl. auto.
      + rewrite app_length, <- Elen. simpl. lia.
  Qed.

  (** C08 *)
  Theorem canonicalize_ok : forall (rows : list (row V)) vec blk,
      (forall r c v, In r rows -> In (c, v) r -> c < length vec) ->
      length rows <= length blk ->
      canonicalize (csr_of rows) vec blk = Ok (map (dot vec) rows ++ skipn (length rows) blk).
  Proof.
    intros. unfold canonicalize. simpl c_n.
    apply (canon_outer_spec rows vec rows [] blk); auto.
  Qed.

  (** Flat layout. *)
  Lemma flat_length_aux : forall ps (th th' : pvals N),
      length (flat_map (fun ns => map (th (fst ns)) (seq 0 (snd ns))) ps)
      = length (flat_map (fun ns => map (th' (fst ns)) (seq 0 (snd ns))) ps).
  Proof.
    induction ps as [|[n s] ps IH]; simpl; intros; auto.
    rewrite !app_length, !map_length. rewrite (IH th th'). auto.
  Qed.

  Lemma flat_length : forall ps (th th' : pvals N), length (flat ps th) = length (flat ps th').
  Proof. intros. unfold flat. rewrite !app_length. rewrite (flat_length_aux ps th th'). auto. Qed.

  Lemma find_col_ge : forall name ps cum c, find_col name (col_to_name cum ps) = Some c -> cum <= c.
  Proof.
    induction ps as [|[n s] ps IH]; simpl; intros; try discriminate.
    destruct (String.eqb name n). inversion H; lia. apply IH in H. lia.
  Qed.

  Lemma find_col_shift : forall name ps cum k,
      find_col name (col_to_name (cum + k) ps)
      = match find_col name (col_to_name k ps) with Some c => Some (cum + c) | None => None end.
  Proof.
    induction ps as [|[n s] ps IH]; simpl; intros; auto.
    destruct (String.eqb name n); auto.
    rewrite <- Nat.add_assoc. apply IH.
  Qed.

  Lemma find_col_some : forall name s ps cum, In (name, s) ps ->
      exists c, find_col name (col_to_name cum ps) = Some c.
  Proof.
    induction ps as [|[n s'] ps IH]; simpl; intros cum H; [contradiction|].
    destruct (String.eqb name n) eqn:E; eauto.
    destruct H as [H|H]; eauto. inversion H; subst. rewrite String.eqb_refl in E. discriminate.
  Qed.

  Lemma map_seq_set : forall (f f' : nat -> V) n s k, 
      (forall i, f' i = if Nat.eqb i k then f' k else f i) -> s <= k < s + n ->
      map f' (seq s n) = upd (map f (seq s n)) (k - s) (f' k).
  Proof.
    induction n; simpl; intros; [lia|].
    destruct (Nat.eq_dec s k).
    - subst. rewrite Nat.sub_diag. f_equal. apply map_ext_in. intros a Ha. apply in_seq in Ha.
      rewrite H. destruct (Nat.eqb a k) eqn:E; auto. apply Nat.eqb_eq in E. lia.
    - destruct (k - s) eqn:E; [lia|]. f_equal.
      + rewrite H. destruct (Nat.eqb s k) eqn:E2; auto. apply Nat.eqb_eq in E2. lia.
      + rewrite IHn with (k := k) by (auto; lia). f_equal. lia.
  Qed.

  Lemma upd_app1 : forall A (l1 l2 : list A) k v, k < length l1 -> upd (l1 ++ l2) k v = upd l1 k v ++ l2.
  Proof. induction l1; destruct k; simpl; intros; auto; try lia. rewrite IHl1; auto. lia. Qed.

  Lemma upd_app2 : forall A (l1 l2 : list A) k v, upd (l1 ++ l2) (length l1 + k) v = l1 ++ upd l2 k v.
  Proof. induction l1; simpl; intros; auto. rewrite IHl1. auto. Qed.

  Lemma flat_map_ext_in : forall A B (f g : A -> list B) l,
      (forall x, In x l -> f x = g x) -> flat_map f l = flat_map g l.
  Proof. induction l; simpl; intros; auto. rewrite H, IHl; auto. Qed.

  Lemma flat_set_aux : forall ps (th : pvals N) name s i v c,
      NoDup (map fst ps) -> In (name, s) ps -> i < s ->
      find_col name (col_to_name 0 ps) = Some c ->
      flat_map (fun ns => map (set_val th name i v (fst ns)) (seq 0 (snd ns))) ps
      = upd (flat_map (fun ns => map (th (fst ns)) (seq 0 (snd ns))) ps) (i + c) v
      /\ c + s <= length (flat_map (fun ns => map (th (fst ns)) (seq 0 (snd ns))) ps).
  Proof.
    induction ps as [|[n s'] ps IH]; simpl; intros th name s i v c Hnd Hin Hi Hc; [contradiction|].
    inversion Hnd; subst.
    destruct (String.eqb name n) eqn:E.
    - apply String.eqb_eq in E. subst n. inversion Hc; subst c. clear Hc.
      assert (s' = s).
      { destruct Hin as [Hin|Hin]; [inversion Hin; auto|].
        exfalso. apply H1. apply (in_map fst) in Hin. exact Hin. }
      subst s'.
      assert (Erest : flat_map (fun ns => map (set_val th name i v (fst ns)) (seq 0 (snd ns))) ps
                      = flat_map (fun ns => map (th (fst ns)) (seq 0 (snd ns))) ps).
      { apply flat_map_ext_in. intros [n s2] Hx. apply map_ext. intro k. unfold set_val. simpl.
        destruct (String.eqb n name) eqn:E; auto. apply String.eqb_eq in E. subst.
        exfalso. apply H1. apply (in_map fst) in Hx. exact Hx. }
      rewrite Erest. split.
      + rewrite upd_app1 by (rewrite map_length, seq_length; lia).
        f_equal. rewrite map_seq_set with (f := th name) (k := i).
        * unfold set_val. rewrite String.eqb_refl, Nat.eqb_refl. simpl. f_equal. lia.
        * intro k. unfold set_val. rewrite String.eqb_refl, Nat.eqb_refl. simpl.
          destruct (Nat.eqb k i); auto.
        * lia.
      + rewrite app_length, map_length, seq_length. lia.
    - destruct Hin as [Hin|Hin].
      { inversion Hin; subst. rewrite String.eqb_refl in E. discriminate. }
      replace s' with (s' + 0) in Hc by lia.
      rewrite find_col_shift in Hc.
      destruct (find_col name (col_to_name 0 ps)) as [c'|] eqn:Ec; [|discriminate].
      inversion Hc; subst c.
      destruct (IH th name s i v c' H2 Hin Hi Ec) as [IH1 IH2]. split.
      + replace (i + (s' + c')) with (length (map (th n) (seq 0 s')) + (i + c'))
          by (rewrite map_length, seq_length; lia).
        rewrite upd_app2. f_equal; auto.
        apply map_ext. intro k. unfold set_val.
        destruct (String.eqb n name) eqn:E2; auto. apply String.eqb_eq in E2. subst.
        rewrite String.eqb_refl in E. discriminate.
      + rewrite app_length, map_length, seq_length. lia.
  Qed.

  Lemma flat_set : forall (g : genc N) (th : pvals N) name s i v c,
      NoDup (map fst (g_params g)) -> In (name, s) (g_params g) -> i < s ->
      base_col g name = Some c ->
      flat (g_params g) (set_val th name i v) = upd (flat (g_params g) th) (i + c) v
      /\ c + s < length (flat (g_params g) th).
  Proof.
    intros g th name s i v c Hnd Hin Hi Hc.
    destruct (flat_set_aux (g_params g) th name s i v c Hnd Hin Hi Hc) as [H1 H2].
    unfold flat. split.
    - rewrite H1, upd_app1; auto. lia.
    - rewrite app_length. simpl. lia.
  Qed.

  (** ** The run-time invariant *)
  Variable g : genc N.
  Variable th0 : pvals N.
  Hypothesis W : wf_gen g th0.
  Variable scr : nat -> pid -> list V -> list V.
  Hypothesis Hecos : g_solver g = ECOS -> forall p, In p (owned ECOS) -> length (g_rows g p) <> 1.
  Hypothesis Hkeep : keeps (g_solver g) = true -> forall n p d, scr n p d = d.

  Notation slv := (g_solver g).
  Notation chgp := (changing (g_chg g)).

  Record Inv (th : pvals N) (s : rst N) : Prop :=
    { i_vec : r_vec s = flat (g_params g) th;
      i_tail : forall p, chgp p = true ->
                 length (m_can (r_m s) p) = length (g_baked g p)
                 /\ skipn (length (g_rows g p)) (m_can (r_m s) p) = skipn (length (g_rows g p)) (g_baked g p);
      i_fresh : forall p, chgp p = true -> r_flag s p = false ->
                  m_can (r_m s) p = canon_spec g th p;
      i_const : forall p, chgp p = false -> m_can (r_m s) p = g_baked g p;
      i_upd : upd_pre slv (g_size g) scr (r_m s);
      i_ini : r_ini s = false -> solver_init0 slv = false
                                 /\ forall p, In p (owned slv) -> chgp p = true -> r_flag s p = true;
      i_sync : r_ini s = true -> forall p, In p (owned slv) -> chgp p && r_flag s p = false ->
                 (if keeps slv then view_cnd (r_m s) p else m_sol (r_m s) p) = m_can (r_m s) p }.

  Lemma block_is_ok : block_ok slv (g_chg g) (g_block g).
  Proof.
    destruct (w_block _ _ _ W) as (top & never & order & t' & toks & Ha & Hp & Hg & Hps).
    destruct (update_code_ok slv (g_chg g) top never order (w_chg _ _ _ W) Ha Hp)
      as (t2 & toks2 & b2 & Hg2 & _ & Hps2 & Hok).
    rewrite Hg in Hg2. inversion Hg2; subst.
    rewrite (Parses_det _ _ _ Hps Hps2). exact Hok.
  Qed.

  Lemma inv_init : Inv th0 (init_state g).
  Proof.
    constructor; simpl.
    - apply (w_vec0 _ _ _ W).
    - auto.
    - intros; discriminate.
    - auto.
    - constructor; simpl; intros; auto; try discriminate.
      split; auto. rewrite H. apply Hecos; auto.
    - intros; split; auto.
    - intros _ p _ H. destruct (keeps slv); reflexivity.
  Qed.

  Lemma base_in : forall name s, In (name, s) (g_params g) -> exists c, base_col g name = Some c.
  Proof. intros. unfold base_col. eapply find_col_some; eauto. Qed.

  Lemma dot_ext : forall vec vec' (r : row V),
      (forall c v, In (c, v) r -> nth c vec n0 = nth c vec' n0) -> dot vec r = dot vec' r.
  Proof.
    intros vec vec' r H. unfold dot. 
    assert (HA : forall acc,
      fold_left (fun acc cv => nadd acc (nmul (snd cv) (nth (fst cv) vec n0))) r acc
      = fold_left (fun acc cv => nadd acc (nmul (snd cv) (nth (fst cv) vec' n0))) r acc);
      [|apply HA].
    induction r as [|[c v] r IH]; simpl; intros; auto.
    rewrite (H c v) by (simpl; auto). apply IH. intros. apply H with v0. simpl; auto.
  Qed.

  Lemma inv_update : forall th s name i v, Inv th s -> valid_op (g_params g) (OUpd name i v) ->
      exists s', do_update g s name i v = Ok s' /\ Inv (set_val th name i v) s' /\ r_log s' = r_log s.
  Proof.
    intros th s name i v I (sz & Hin & Hi).
    destruct (base_in name sz Hin) as [c Hc].
    destruct (flat_set g th name sz i v c (w_names _ _ _ W) Hin Hi Hc) as [Hf Hl].
    unfold do_update. rewrite Hc.
    rewrite put_ok by (rewrite (i_vec _ _ I); lia). cbn [bind].
    eexists. split; [reflexivity|]. split; [|reflexivity].
    destruct I as [I1 I2 I3 I4 I5 I6 I7]. constructor; simpl; auto.
    - rewrite I1, Hf. reflexivity.
    - intros p Hp Hfl. apply orb_false_iff in Hfl. destruct Hfl as [Hno Hfl].
      rewrite (I3 p Hp Hfl). unfold canon_spec.
      change (chg_get (g_chg g) p) with (chgp p). rewrite Hp. f_equal.
      apply map_ext_in. intros r Hr. apply dot_ext. intros c' v' Hcv.
      rewrite Hf. symmetry. apply nth_upd_neq.
      assert (~ (c <= c' < c + sz)); [|lia].
      eapply (w_deps _ _ _ W); eauto.
      intro HI. apply mem_pid_In in HI. congruence.
    - intros Hi0. destruct (I6 Hi0) as [Ha Hb]. split; auto.
      intros p Hp Hcp. rewrite (Hb p Hp Hcp). apply orb_true_r.
    - intros Hi1 p Hp Hcf. apply I7; auto.
      destruct (chgp p); simpl in *; auto. apply orb_false_iff in Hcf. tauto.
  Qed.

  Lemma canon_blocks_ok : forall th s ps can,
      Inv th s -> NoDup ps ->
      (forall p, In p ps -> can p = m_can (r_m s) p) ->
      exists can', canon_blocks g (r_vec s) (r_flag s) can ps = Ok can'
        /\ (forall p, ~ In p ps -> can' p = can p)
        /\ (forall p, In p ps -> can' p = if chgp p && r_flag s p then canon_spec g th p else can p).
  Proof.
    induction ps as [|p ps IH]; intros can I Hnd Hc; simpl.
    - exists can. repeat split; auto; tauto.
    - inversion Hnd; subst.
      change (chg_get (g_chg g) p) with (chgp p).
      destruct (chgp p && r_flag s p) eqn:E.
      + assert (Ecan : canonicalize (csr_of (g_rows g p)) (r_vec s) (can p) = Ok (canon_spec g th p)).
        { apply andb_true_iff in E. destruct E as [E1 E2].
          destruct (i_tail _ _ I p E1) as [T1 T2].
          rewrite canonicalize_ok.
          - f_equal. unfold canon_spec. change (chg_get (g_chg g) p) with (chgp p). rewrite E1.
            rewrite (i_vec _ _ I), Hc, T2 by (simpl; auto). reflexivity.
          - intros. rewrite (i_vec _ _ I), (flat_length _ th th0). eapply (w_cols _ _ _ W); eauto.
          - rewrite Hc by (simpl; auto). rewrite T1. apply (w_len _ _ _ W). }
        rewrite Ecan. cbn [bind].
        destruct (IH (pset can p (canon_spec g th p))) as (can' & E' & F1 & F2); auto.
        { intros q Hq. unfold pset. destruct (pid_eqb q p) eqn:Eq.
          - apply pid_eqb_spec in Eq. subst. contradiction.
          - apply Hc. simpl; auto. }
        exists can'. split; auto. split.
        * intros q Hq. rewrite F1 by (intro; apply Hq; simpl; auto). unfold pset.
          destruct (pid_eqb q p) eqn:Eq; auto. apply pid_eqb_spec in Eq. subst.
          exfalso; apply Hq; simpl; auto.
        * intros q [Hq|Hq].
          -- subst q. rewrite F1 by auto. unfold pset. rewrite pid_eqb_refl, E. auto.
          -- rewrite F2 by auto. unfold pset. destruct (pid_eqb q p) eqn:Eq; auto.
             apply pid_eqb_spec in Eq. subst. contradiction.
      + destruct (IH can) as (can' & E' & F1 & F2); auto.
        { intros; apply Hc; simpl; auto. }
        exists can'. split; auto. split.
        * intros q Hq. apply F1. intro; apply Hq; simpl; auto.
        * intros q [Hq|Hq].
          -- subst q. rewrite E. apply F1. auto.
          -- apply F2; auto.
  Qed.

  Lemma pids_nodup : NoDup (solver_pids slv).
  Proof.
    destruct slv as [|[]| |[]|[]|[]]; simpl; repeat constructor; simpl; intuition congruence.
  Qed.

  Lemma chg_in_pids : forall p, chgp p = true -> In p (solver_pids slv).
  Proof.
    intros p H. apply (w_chg _ _ _ W). unfold changing, chg_get in H. destruct (g_chg g p); congruence.
  Qed.

  Lemma canon_all_ok : forall th s, Inv th s ->
      exists can', canon_blocks g (r_vec s) (r_flag s) (m_can (r_m s)) (solver_pids slv) = Ok can'
        /\ (forall p, can' p = canon_spec g th p).
  Proof.
    intros th s I.
    destruct (canon_blocks_ok th s (solver_pids slv) (m_can (r_m s)) I pids_nodup) as (can' & E & F1 & F2).
    { auto. }
    exists can'. split; auto. intro p.
    destruct (chgp p) eqn:Ec.
    - rewrite F2 by (apply chg_in_pids; auto). rewrite Ec. simpl.
      destruct (r_flag s p) eqn:Ef; auto. apply (i_fresh _ _ I); auto.
    - assert (E2 : can' p = m_can (r_m s) p).
      { destruct (mem_pid p (solver_pids slv)) eqn:Em.
        - apply mem_pid_In in Em. rewrite F2 by auto. rewrite Ec. reflexivity.
        - apply F1. intro H. apply mem_pid_In in H. congruence. }
      rewrite E2, (i_const _ _ I p Ec). unfold canon_spec.
      change (chg_get (g_chg g) p) with (chgp p). rewrite Ec. reflexivity.
  Qed.

  Lemma canon_spec_size0 : forall th p, length (g_rows g p) = 0 -> canon_spec g th p = g_baked g p.
  Proof.
    intros th p H. unfold canon_spec. destruct (chg_get (g_chg g) p); auto.
    destruct (g_rows g p); simpl in *; auto. discriminate.
  Qed.

  Lemma inv_solve : forall th s, Inv th s ->
      exists s' e, do_solve g scr s = Ok s' /\ Inv th s' /\ r_log s' = r_log s ++ [e]
        /\ (forall p, In p (owned slv) -> e_data e p = canon_spec g th p)
        /\ e_d e = canon_spec g th pd.
  Proof.
    intros th s I.
    destruct (canon_all_ok th s I) as (can' & Ecan & Hcan).
    unfold do_solve. rewrite Ecan. cbn [bind].
    set (m1 := mkM can' (m_cnd (r_m s)) (m_alias (r_m s)) (m_sol (r_m s)) (m_tick (r_m s))).
    destruct (run (g_block g) (r_flag s) (r_ini s)) as [acts ini] eqn:Erun.
    assert (Hcan1 : forall p, m_can m1 p = canon_spec g th p) by (intro; apply Hcan).
    assert (Hpre : upd_pre slv (g_size g) scr m1).
    { destruct (i_upd _ _ I) as [P1 P2 P3 P4]. constructor; auto.
      intros p Hp. unfold view_cnd. simpl. rewrite Hcan.
      destruct (m_alias (r_m s) p) eqn:Ea; auto.
      specialize (P1 p Hp). unfold view_cnd in P1. rewrite Ea in P1. rewrite P1.
      rewrite canon_spec_size0 by exact Hp.
      destruct (chgp p) eqn:Ec.
      - destruct (i_tail _ _ I p Ec) as [_ T].
        unfold g_size in Hp. rewrite Hp in T. simpl in T. exact T.
      - apply (i_const _ _ I); auto. }
    pose proof (block_is_ok (list V) (g_size g) (g_baked g) scr m1 (r_flag s) (r_ini s) Hpre (i_ini _ _ I)) as HB.
    rewrite Erun in HB.
    set (m2 := exec_all (g_size g) (owned slv) (g_baked g) scr m1 (acts ++ solver_solve_acts slv)) in *.
    destruct HB as (HB1 & HB2 & HB3 & HB4 & HB5).
    assert (HB6 : forall p, In p (owned slv) ->
              m_sol m2 p = m_can m1 p /\ (keeps slv = true -> view_cnd m2 p = m_can m1 p)).
    { apply HB5.
      - intros p Hp Hc. rewrite Hcan1. unfold canon_spec.
        change (chg_get (g_chg g) p) with (chgp p). rewrite Hc. reflexivity.
      - intros Hi p Hp Hout.
        pose proof (i_sync _ _ I Hi p Hp Hout) as Hs.
        assert (Hsame : canon_spec g th p = m_can (r_m s) p).
        { destruct (chgp p) eqn:Ec; simpl in Hout.
          - symmetry. apply (i_fresh _ _ I); auto.
          - unfold canon_spec. change (chg_get (g_chg g) p) with (chgp p). rewrite Ec.
            symmetry. apply (i_const _ _ I); auto. }
        destruct (keeps slv).
        + unfold view_cnd in *. simpl. rewrite Hcan.
          destruct (m_alias (r_m s) p); auto. rewrite Hs. auto.
        + simpl. rewrite Hcan, Hs. auto. }
    set (m3 := match slv with ECOS | CLARABEL _ => scribble (g_size g) scr m2 | _ => m2 end).
    assert (Hm3can : forall p, m_can m3 p = canon_spec g th p).
    { intro p. rewrite <- Hcan1, <- HB3. unfold m3. destruct slv eqn:Es; auto; simpl.
      - destruct (m_alias m2 p) eqn:Ea; auto.
        exfalso. destruct (up_ecos _ _ _ _ HB2 eq_refl) as [_ HN]. congruence.
      - rewrite Hkeep by reflexivity. destruct (m_alias m2 p); auto. }
    assert (Hm3view : keeps slv = true -> forall p, view_cnd m3 p = view_cnd m2 p).
    { intros Hk p. unfold m3. destruct slv; try discriminate.
      unfold view_cnd, scribble. simpl. rewrite !Hkeep by reflexivity.
      destruct (m_alias m2 p); auto. destruct (g_size g p); auto. }
    assert (Hm3sol : forall p, m_sol m3 p = m_sol m2 p).
    { intro p. unfold m3. destruct slv; reflexivity. }
    assert (Hm3pre : upd_pre slv (g_size g) scr m3).
    { destruct HB2 as [P1 P2 P3 P4]. constructor; auto.
      - intros p Hp. rewrite Hm3can, <- Hcan1, <- HB3, <- P1 by auto.
        unfold m3.
        assert (HV : view_cnd (scribble (g_size g) scr m2) p = view_cnd m2 p).
        { unfold view_cnd, scribble. simpl. destruct (m_alias m2 p) eqn:Ea.
          - exfalso. apply P2 in Ea. congruence.
          - rewrite Hp. auto. }
        destruct slv; auto.
      - intros p Hp. apply P2. revert Hp. unfold m3. destruct slv; auto.
      - intro Es. destruct (P3 Es) as [P3a P3b]. split; auto. intro p. unfold m3. rewrite Es. apply P3b. }
    eexists. eexists. split; [reflexivity|]. split; [|split; [reflexivity|split]].
    - constructor; simpl.
      + apply (i_vec _ _ I).
      + intros p Hp. rewrite Hm3can. unfold canon_spec.
        change (chg_get (g_chg g) p) with (chgp p). rewrite Hp.
        pose proof (w_len _ _ _ W p) as Hl. split.
        * rewrite app_length, map_length, skipn_length. lia.
        * rewrite skipn_app, map_length, Nat.sub_diag. simpl.
          rewrite skipn_all2 by (rewrite map_length; auto). reflexivity.
      + intros p _ _. apply Hm3can.
      + intros p Hp. rewrite Hm3can. unfold canon_spec.
        change (chg_get (g_chg g) p) with (chgp p). rewrite Hp. reflexivity.
      + exact Hm3pre.
      + intro Hi. rewrite HB1 in Hi. discriminate.
      + intros _ p Hp _. destruct (HB6 p Hp) as [S1 S2]. destruct (keeps slv) eqn:Ek.
        * rewrite Hm3view, S2 by auto. rewrite Hm3can, Hcan1. reflexivity.
        * rewrite Hm3sol, S1, Hm3can, Hcan1. reflexivity.
    - intros p Hp. simpl. destruct (HB6 p Hp) as [S1 _]. rewrite S1. apply Hcan1.
    - simpl. rewrite HB3. apply Hcan1.
  Qed.

  Definition entry_ok (e : entry N) (th : pvals N) : Prop :=
    (forall p, In p (owned slv) -> e_data e p = canon_spec g th p) /\ e_d e = canon_spec g th pd.

  Theorem steps_ok : forall os th s, Inv th s -> Forall (valid_op (g_params g)) os ->
      exists s' log, steps g scr s os = Ok s' /\ r_log s' = r_log s ++ log
        /\ Forall2 entry_ok log (solve_vals th os) /\ Inv (final_vals th os) s'.
  Proof.
    induction os as [|o os IH]; intros th s I Hv; simpl.
    - exists s, []. rewrite app_nil_r. split; [reflexivity|]. split; [reflexivity|]. split; [constructor|exact I].
    - inversion Hv; subst. destruct o as [name i v|].
      + destruct (inv_update th s name i v I H1) as (s1 & E & I1 & L1).
        simpl. rewrite E. cbn [bind].
        destruct (IH _ _ I1 H2) as (s' & log & E2 & L2 & F & I2).
        exists s', log. rewrite E2, L2, L1.
        split; [reflexivity|]. split; [reflexivity|]. split; assumption.
      + destruct (inv_solve th s I) as (s1 & e & E & I1 & L1 & D1 & D2).
        simpl. rewrite E. cbn [bind].
        destruct (IH _ _ I1 H2) as (s' & log & E2 & L2 & F & I2).
        exists s', (e :: log). rewrite E2, L2, L1, <- app_assoc. simpl.
        split; [reflexivity|]. split; [reflexivity|]. split; [|exact I2].
        constructor; [split; assumption|exact F].
  Qed.

  (** Main run-time theorem (C01, C02, C03). *)
  Theorem run_ok : forall os, Forall (valid_op (g_params g)) os ->
      exists s' log, steps g scr (init_state g) os = Ok s' /\ r_log s' = log
        /\ Forall2 entry_ok log (solve_vals th0 os).
  Proof.
    intros os Hv. destruct (steps_ok os th0 _ inv_init Hv) as (s' & log & E & L & F & _).
    exists s', log. auto.
  Qed.
End Proofs.
