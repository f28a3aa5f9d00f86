(** Copying P and A into the KKT matrices (C41). *)

From Coq Require Import Arith Bool ZArith Lia List Sorted Field.
From Verif Require Import Base Machine Runtime RuntimeProofs Retrieve Sparse SparseProofs Ldl LdlRank1 LdlProofs GradSpec LdlMain FactorProofs Gradient.
Import ListNotations.

(** The loop over all entries of compressed columns. *)
Section Loop.
  Context {K : Type}.
  Lemma run_entries : forall E S (I : nat -> nat -> S -> Prop) n (P : csc K) (body : nat -> nat -> S -> res S) s,
    csc_ok n P -> I 0 0 s ->
    (forall j t r v s, j < n -> nth_error (rows P j) t = Some r -> nth_error (vals P j) t = Some v ->
       nth_error (c_i P) (cptr P j + t) = Some r -> nth_error (c_x P) (cptr P j + t) = Some v ->
       I j t s -> run E (body j (cptr P j + t) s) (I j (Datatypes.S t))) ->
    (forall j s, j < n -> I j (length (rows P j)) s -> I (Datatypes.S j) 0 s) ->
    run E (for_ n 0 (fun col st => s <- get (c_p P) col;; e <- get (c_p P) (col + 1);; for_ (e - s) s (body col) st) s) (I n 0).
  Proof.
    intros E S I n P body s HO H0 HB HN. change (I n 0) with ((fun j => I j 0) (0 + n)). apply (run_for E S (fun j => I j 0)); auto.
    intros j st Hj Hst. assert (Hjn : j < n) by lia.
    assert (Hp : forall k, k <= n -> nth_error (c_p P) k = Some (cptr P k)).
    { intros k Hk. unfold cptr. apply nth_error_nth'. rewrite (o_p n P HO). lia. }
    apply run_get with (a := cptr P j); [apply Hp; lia|]. apply run_get with (a := cptr P (Datatypes.S j)); [rewrite Nat.add_1_r; apply Hp; lia|].
    destruct (alen K n P j HO Hjn) as [A B].
    eapply run_imp; [apply (run_for E S (fun k => I j (k - cptr P j)) (body j) (cptr P (Datatypes.S j) - cptr P j) (cptr P j) st)|].
    - rewrite Nat.sub_diag. auto.
    - intros k st' Hk HI. set (t := k - cptr P j) in *. replace k with (cptr P j + t) by lia.
      assert (Ht : t < length (rows P j)) by lia. destruct (nth_err_lt _ _ _ Ht) as (r & Er). destruct (nth_err_lt _ (vals P j) t ltac:(lia)) as (v & Ev).
      replace (Datatypes.S (cptr P j + t) - cptr P j) with (Datatypes.S t) by lia. apply (HB j t r v); auto.
      + unfold rows in Er. rewrite nth_error_firstn', nth_error_skipn' in Er by lia. auto.
      + unfold vals in Ev. rewrite nth_error_firstn', nth_error_skipn' in Ev by lia. auto.
    - intros st' HI. apply HN; auto. cbn beta in HI. replace (length (rows P j)) with (cptr P j + (cptr P (Datatypes.S j) - cptr P j) - cptr P j) by lia. auto.
  Qed.
End Loop.

Section Put.
  Variable F : Fld.
  Variable N : nat.
  Add Field Fput : (fth F).
  Local Open Scope num_scope.

  (** Same pattern. *)
  Definition same_pat (M M' : csc F) : Prop := c_p M' = c_p M /\ c_i M' = c_i M /\ c_n M' = c_n M /\ length (c_x M') = length (c_x M).
  Lemma same_pat_refl : forall M, same_pat M M.
  Proof. repeat split. Qed.
  Lemma same_pat_trans : forall M1 M2 M3, same_pat M1 M2 -> same_pat M2 M3 -> same_pat M1 M3.
  Proof. intros M1 M2 M3 (A & B & C & D) (A' & B' & C' & D'). repeat split; congruence. Qed.
  Lemma same_pat_rows : forall M M' j, same_pat M M' -> rows M' j = rows M j.
  Proof. intros M M' j (A & B & C & D). unfold rows, cptr. rewrite A, B. auto. Qed.
  Lemma same_pat_ok : forall M M', same_pat M M' -> csc_ok N M -> csc_ok N M'.
  Proof.
    intros M M' S H. pose proof (fun j => same_pat_rows M M' j S) as Hr. destruct S as (A & B & C & D). destruct H. unfold cptr in *.
    constructor; unfold cptr; rewrite ?A, ?B, ?C, ?D; auto. intros j Hj. rewrite Hr. auto.
  Qed.

  (** Overwriting the entry (target, line) where it is stored. *)
  Definition set_entry (M M' : csc F) (i j : nat) (v : F) : Prop :=
    same_pat M M' /\ forall p q, q < N -> entry M' p q = if Nat.eqb p i && Nat.eqb q j && mem p (rows M q) then v else entry M p q.

  Lemma find_put_ok : forall M line target v, csc_ok N M -> line < N ->
    exists M', find_put F M line target v = Ok M' /\ set_entry M M' target line v.
  Proof.
    intros M line target v HO Hl. apply run_none. unfold find_put.
    assert (Hp : forall k, (k <= N)%nat -> nth_error (c_p M) k = Some (cptr M k)).
    { intros k Hk. unfold cptr. apply nth_error_nth'. rewrite (o_p N M HO). lia. }
    apply run_get with (a := cptr M line); [apply Hp; lia|]. apply run_get with (a := cptr M (S line)); [rewrite Nat.add_1_r; apply Hp; lia|].
    destruct (alen F N M line HO Hl) as [A B].
    apply run_for_break with (I := fun k M' => M' = M /\ ~ In target (firstn (k - cptr M line) (rows M line))).
    - split; auto. rewrite Nat.sub_diag. auto.
    - intros k M' Hk [-> Hni]. set (t := (k - cptr M line)%nat) in *. assert (Ht : (t < length (rows M line))%nat) by lia.
      destruct (nth_err_lt _ _ _ Ht) as (r & Er).
      assert (Er' : nth_error (c_i M) k = Some r).
      { unfold rows in Er. rewrite nth_error_firstn', nth_error_skipn' in Er by lia. replace k with (cptr M line + t)%nat by lia. auto. }
      apply run_get with (a := r); auto. destruct (Nat.eqb r target) eqn:Et.
      + apply Nat.eqb_eq in Et. subst r. pose proof (nth_err_some _ _ _ _ Er'). pose proof (o_x N M HO).
        apply run_put; [lia|]. cbn. unfold set_entry.
        assert (Hsp : same_pat M (set_x M (upd (c_x M) k v))) by (repeat split; simpl; apply upd_length).
        split; auto. intros p q Hq.
        assert (HO' : csc_ok N (set_x M (upd (c_x M) k v))) by (eapply same_pat_ok; eauto).
        destruct (mem p (rows M q)) eqn:Em.
        * pose proof Em as Em'. apply mem_in in Em'. destruct (In_nth_error _ _ Em') as (t' & Et').
          pose proof (nth_err_some _ _ _ _ Et') as Hlt.
          destruct (alen F N _ q HO' Hq) as [A' B']. destruct (alen F N _ q HO Hq) as [A2 B2]. rewrite (same_pat_rows _ _ q Hsp) in A', B'.
          destruct (nth_err_lt _ (vals (set_x M (upd (c_x M) k v)) q) t' ltac:(lia)) as (v' & Ev').
          rewrite (entry_at F N _ q t' p v' HO' Hq); auto.
          unfold vals in Ev'. change (cptr (set_x M (upd (c_x M) k v))) with (cptr M) in Ev'. rewrite nth_error_firstn', nth_error_skipn' in Ev' by lia.
          cbn [set_x c_x] in Ev'. rewrite nth_error_upd in Ev' by lia.
          destruct (Nat.eqb_spec (cptr M q + t') k) as [Ek|Ek].
          -- assert (q = line).
             { destruct (Nat.lt_trichotomy q line) as [Hlt'|[->|Hgt]]; auto; exfalso.
               - pose proof (cptr_mono F N M (S q) line HO ltac:(lia) ltac:(lia)). lia.
               - pose proof (cptr_mono F N M (S line) q HO ltac:(lia) ltac:(lia)). lia. }
             subst q. assert (t' = t) by lia. subst t'. assert (p = target) by congruence. subst p. rewrite !Nat.eqb_refl. cbn [andb]. congruence.
          -- destruct (nth_err_lt _ (vals M q) t' ltac:(lia)) as (v2 & Ev2). rewrite (entry_at F N M q t' p v2 HO Hq Et' Ev2).
             assert (E2 : v' = v2). { unfold vals in Ev2. rewrite nth_error_firstn', nth_error_skipn' in Ev2 by lia. congruence. }
             subst v2. destruct (Nat.eqb_spec p target) as [->|]; auto. destruct (Nat.eqb_spec q line) as [->|]; auto. exfalso.
             assert (t' = t); [|lia]. apply (NoDup_nth_error (rows M line)); [apply SS_NoDup; apply (o_sorted N M HO); auto|auto|congruence].
        * rewrite andb_false_r. apply mem_nin in Em. rewrite !entry_out; auto.
      + cbn [run fst snd]. split; auto. replace (S k - cptr M line)%nat with (S t) by lia. rewrite (firstn_S_nth _ _ _ _ Er), in_app_iff.
        apply Nat.eqb_neq in Et. intros [H|[H|[]]]; auto.
    - intros M' [-> Hni]. split; [apply same_pat_refl|]. intros p q Hq.
      rewrite firstn_all2 in Hni by lia.
      destruct (Nat.eqb_spec p target) as [->|]; auto. destruct (Nat.eqb_spec q line) as [->|]; auto. apply mem_nin in Hni. rewrite Hni. auto.
  Qed.
End Put.

Section Copy.
  Variable F : Fld.
  Variables n N : nat.
  Variable eps : F.
  Hypothesis n_le : (n <= N)%nat.
  Add Field Fcp : (fth F).
  Local Open Scope num_scope.

  (** Entries (r, c) of P visited before entry [t] of column [j]. *)
  Definition dn (P : csc F) (j t r c : nat) : bool :=
    Nat.ltb c j && mem r (rows P c) || Nat.eqb c j && mem r (firstn t (rows P c)).
  Definition stored (P : csc F) (r c : nat) : bool := Nat.ltb c n && mem r (rows P c).

  Lemma dn_0 : forall P r c, dn P 0 0 r c = false.
  Proof. intros. unfold dn. replace (Nat.ltb c 0) with false by (symmetry; apply Nat.ltb_ge; lia). cbn. rewrite andb_false_r. auto. Qed.
  Lemma dn_next : forall P j r c, dn P (S j) 0 r c = dn P j (length (rows P j)) r c.
  Proof.
    intros P j r c. unfold dn. cbn [firstn mem existsb]. rewrite andb_false_r, orb_false_r.
    destruct (Nat.ltb_spec c (S j)), (Nat.ltb_spec c j), (Nat.eqb_spec c j); try lia; subst; cbn [andb orb]; rewrite ?firstn_all; auto; destruct (mem r (rows P c)); auto.
  Qed.
  Lemma dn_end : forall P r c, dn P n 0 r c = stored P r c.
  Proof. intros. unfold dn, stored. cbn. rewrite andb_false_r, orb_false_r. auto. Qed.
  Lemma dn_S : forall P j t r0 r c, nth_error (rows P j) t = Some r0 -> dn P j (S t) r c = dn P j t r c || Nat.eqb r r0 && Nat.eqb c j.
  Proof.
    intros P j t r0 r c H. unfold dn. destruct (Nat.eqb_spec c j) as [->|]; cbn [andb].
    - rewrite (mem_firstn_S _ _ _ _ H). rewrite andb_true_r. destruct (Nat.ltb j j && mem r (rows P j)), (mem r (firstn t (rows P j))), (Nat.eqb r r0); auto.
    - rewrite andb_false_r, !orb_false_r. auto.
  Qed.

  (** A matrix [M'] that has the pattern of [M] and entries [f] where [d] holds. *)
  Definition filled (M : csc F) (d : nat -> nat -> bool) (f : nat -> nat -> F) (M' : csc F) : Prop :=
    same_pat F M M' /\ forall p q, q < N -> entry M' p q = if d p q && mem p (rows M q) then f p q else entry M p q.
  Lemma filled_0 : forall M d f, (forall p q, d p q = false) -> filled M d f M.
  Proof. intros M d f H. split; [apply same_pat_refl|]. intros. rewrite H. auto. Qed.
  Lemma filled_ext : forall M d d' f M', (forall p q, d p q = d' p q) -> filled M d f M' -> filled M d' f M'.
  Proof. intros M d d' f M' H [A B]. split; auto. intros p q Hq. rewrite B, H; auto. Qed.
  Lemma filled_ok : forall M d f M', csc_ok N M -> filled M d f M' -> csc_ok N M'.
  Proof. intros M d f M' H [A _]. eapply same_pat_ok; eauto. Qed.
  Lemma filled_S : forall M d d' f M' M'' i j v, filled M d f M' -> set_entry F N M' M'' i j v -> f i j = v ->
    (forall p q, d' p q = d p q || Nat.eqb p i && Nat.eqb q j) -> filled M d' f M''.
  Proof.
    intros M d d' f M' M'' i j v [A B] [C D] Hf Hd. split; [eapply same_pat_trans; eauto|]. intros p q Hq. rewrite D, Hd, B by auto.
    rewrite (same_pat_rows F M M' q A). destruct (Nat.eqb_spec p i), (Nat.eqb_spec q j); subst; cbn [andb orb]; rewrite ?orb_false_r, ?orb_true_r; cbn [andb]; auto;
      destruct (mem i (rows M j)) eqn:E; rewrite ?andb_false_r; auto.
  Qed.

  Definition P_val (P : csc F) (p q : nat) : F := entry P p q + (if Nat.eqb p q then eps else n0).

  Theorem P_to_K_ok : forall P K Kt, csc_ok n P -> (forall j i, j < n -> In i (rows P j) -> (i < n)%nat) -> csc_ok N K -> csc_ok N Kt ->
    exists K' Kt', P_to_K F n eps P K Kt = Ok (K', Kt')
      /\ filled K (stored P) (P_val P) K'
      /\ filled Kt (fun p q => stored P q p) (fun p q => entry P q p) Kt'.
  Proof.
    intros P K Kt HP HPn HK HKt. unfold P_to_K.
    pose (I := fun j t (KK : csc F * csc F) => filled K (dn P j t) (P_val P) (fst KK) /\ filled Kt (fun p q => dn P j t q p) (fun p q => entry P q p) (snd KK)).
    match goal with |- exists K' Kt', ?r = _ /\ _ => assert (HR : run none r (I n 0)) end.
    { apply (run_entries none (csc F * csc F) I n P (fun col idx '(K, Kt) =>
        row <- get (c_i P) idx;;
        value <- get (c_x P) idx;;
        K' <- find_put F K col row (if Nat.eqb row col then value + eps else value);;
        Kt' <- find_put F Kt row col value;;
        Ok (K', Kt')) (K, Kt) HP).
    - split; apply filled_0; intros; apply dn_0.
    - intros j t r v [K1 Kt1] Hj Hr Hv Hr' Hv' [A B]. cbn [fst snd] in A, B.
      apply run_get with (a := r); auto. apply run_get with (a := v); auto.
      pose proof (nth_error_In _ _ Hr) as Hin. pose proof (HPn j r Hj Hin) as Hrn.
      pose proof (entry_at F n P j t r v HP Hj Hr Hv) as Ev.
      destruct (find_put_ok F N K1 j r (if Nat.eqb r j then v + eps else v) (filled_ok _ _ _ _ HK A) ltac:(lia)) as (K2 & E2 & S2). rewrite E2. cbn [bind].
      destruct (find_put_ok F N Kt1 r j v (filled_ok _ _ _ _ HKt B) ltac:(lia)) as (Kt2 & E3 & S3). rewrite E3. cbn [bind run fst snd]. split.
      + eapply filled_S; [exact A|exact S2| |]; [unfold P_val; rewrite Ev; destruct (Nat.eqb r j); ring|intros; apply dn_S; auto].
      + eapply filled_S; [exact B|exact S3|cbn beta; auto|]. intros. cbn beta. rewrite (dn_S P j t r) by auto. f_equal. apply andb_comm.
    - intros j [K1 Kt1] Hj [A B]. split; [eapply filled_ext; [|exact A]|eapply filled_ext; [|exact B]]; intros; cbn beta; rewrite dn_next; auto.
    }
    destruct (run_none _ _ _ HR) as ([K' Kt'] & E & A & B).
    exists K', Kt'. split; [exact E|]. cbn [fst snd] in A, B. split; [eapply filled_ext; [|exact A]|eapply filled_ext; [|exact B]]; intros; cbn beta; rewrite dn_end; auto.
  Qed.

  Definition At_at (d : nat -> nat -> bool) (p q : nat) : bool := Nat.leb n q && d (q - n)%nat p.
  Definition A_at (d : nat -> nat -> bool) (p q : nat) : bool := Nat.leb n p && d (p - n)%nat q || Nat.leb n q && d (q - n)%nat p.
  Definition A_true (A : csc F) (p q : nat) : F := if Nat.leb n p then entry A (p - n)%nat q else entry A (q - n)%nat p.

  Lemma shift_eqb : forall p r, Nat.leb n p && Nat.eqb (p - n) r = Nat.eqb p (n + r).
  Proof. intros p r. destruct (Nat.leb_spec n p), (Nat.eqb_spec p (n + r)); cbn [andb]; auto; try lia; [apply Nat.eqb_eq; lia|apply Nat.eqb_neq; lia]. Qed.

  Theorem A_to_K_ok : forall A K Kt, csc_ok n A -> (forall j i, j < n -> In i (rows A j) -> (n + i < N)%nat) -> csc_ok N K -> csc_ok N Kt ->
    exists K' Kt', A_to_K F n A K Kt = Ok (K', Kt')
      /\ filled K (At_at (stored A)) (fun p q => entry A (q - n)%nat p) K'
      /\ filled Kt (A_at (stored A)) (A_true A) Kt'.
  Proof.
    intros A K Kt HA HAn HK HKt. unfold A_to_K.
    pose (I := fun j t (KK : csc F * csc F) => filled K (At_at (dn A j t)) (fun p q => entry A (q - n)%nat p) (fst KK) /\ filled Kt (A_at (dn A j t)) (A_true A) (snd KK)).
    match goal with |- exists K' Kt', ?r = _ /\ _ => assert (HR : run none r (I n 0)) end.
    { apply (run_entries none (csc F * csc F) I n A (fun col idx '(K, Kt) =>
        row <- get (c_i A) idx;;
        value <- get (c_x A) idx;;
        K' <- find_put F K (n + row) col value;;
        Kt1 <- find_put F Kt col (n + row) value;;
        Kt2 <- find_put F Kt1 (n + row) col value;;
        Ok (K', Kt2)) (K, Kt) HA).
    - split; apply filled_0; intros; unfold At_at, A_at; rewrite ?dn_0, ?andb_false_r; auto.
    - intros j t r v [K1 Kt1] Hj Hr Hv Hr' Hv' [B C]. cbn [fst snd] in B, C.
      apply run_get with (a := r); auto. apply run_get with (a := v); auto.
      pose proof (nth_error_In _ _ Hr) as Hin. pose proof (HAn j r Hj Hin) as Hrn.
      pose proof (entry_at F n A j t r v HA Hj Hr Hv) as Ev.
      destruct (find_put_ok F N K1 (n + r) j v (filled_ok _ _ _ _ HK B) ltac:(lia)) as (K2 & E2 & S2). rewrite E2. cbn [bind].
      destruct (find_put_ok F N Kt1 j (n + r) v (filled_ok _ _ _ _ HKt C) ltac:(lia)) as (Kt2 & E3 & S3). rewrite E3. cbn [bind].
      assert (HT1 : A_true A (n + r) j = v).
      { unfold A_true. replace (Nat.leb n (n + r)) with true by (symmetry; apply Nat.leb_le; lia). replace (n + r - n)%nat with r by lia. auto. }
      assert (HT2 : A_true A j (n + r) = v).
      { unfold A_true. replace (Nat.leb n j) with false by (symmetry; apply Nat.leb_gt; lia). replace (n + r - n)%nat with r by lia. auto. }
      set (mid := fun p q => A_at (dn A j t) p q || Nat.eqb p (n + r) && Nat.eqb q j).
      assert (C2 : filled Kt mid (A_true A) Kt2) by (eapply filled_S; [exact C|exact S3|auto|auto]).
      destruct (find_put_ok F N Kt2 (n + r) j v (filled_ok _ _ _ _ HKt C2) ltac:(lia)) as (Kt3 & E4 & S4). rewrite E4. cbn [bind run fst snd]. split.
      + eapply filled_S; [exact B|exact S2| |].
        * cbn beta. replace (n + r - n)%nat with r by lia. auto.
        * intros p q. unfold At_at. rewrite (dn_S A j t r) by auto. rewrite andb_orb_distrib_r. f_equal. rewrite <- shift_eqb.
          destruct (Nat.leb n q), (Nat.eqb (q - n) r), (Nat.eqb p j); auto.
      + eapply filled_S; [exact C2|exact S4|auto|]. intros p q. unfold mid, A_at. rewrite !(dn_S A j t r) by auto. rewrite <- !shift_eqb.
        destruct (Nat.leb n p), (Nat.leb n q), (Nat.eqb (p - n) r), (Nat.eqb (q - n) r), (Nat.eqb q j), (Nat.eqb p j), (dn A j t (p - n) q), (dn A j t (q - n) p); auto.
    - intros j [K1 Kt1] Hj [B C]. split; [eapply filled_ext; [|exact B]|eapply filled_ext; [|exact C]]; intros; unfold At_at, A_at; rewrite ?dn_next; auto.
    }
    destruct (run_none _ _ _ HR) as ([K' Kt'] & E & B & C).
    exists K', Kt'. split; [exact E|]. cbn [fst snd] in B, C. split; [eapply filled_ext; [|exact B]|eapply filled_ext; [|exact C]]; intros; unfold At_at, A_at; rewrite ?dn_end; auto.
  Qed.
End Copy.

(** Arrays from columns. *)
Section OfCols.
  Variable F : Fld.
  Lemma indptr_nth : forall (cs : list (list (nat * F))) s j, (j <= length cs)%nat ->
    nth j (indptr_from s cs) 0 = s + list_sum (map (@length _) (firstn j cs)).
  Proof.
    induction cs as [|c cs IH]; intros s j Hj; simpl in Hj.
    - replace j with 0 by lia. simpl. lia.
    - destruct j as [|j]; [simpl; lia|]. cbn [indptr_from nth firstn map]. rewrite IH by lia.
      change (list_sum (?a :: ?l)) with (a + list_sum l). lia.
  Qed.
  Lemma cols_rep : forall N cs, length cs = N -> rep N (csc_cols F cs) cs.
  Proof.
    intros N cs Hl.
    assert (Hc : forall j, j <= N -> cstart (csc_cols F cs) j = list_sum (map (@length _) (firstn j cs))).
    { intros j Hj. unfold cstart, csc_cols. cbn [c_p]. rewrite indptr_nth by lia. lia. }
    constructor.
    - auto.
    - unfold csc_cols. cbn [c_p]. transitivity (S (length cs)); [apply (indptr_length F)|lia].
    - rewrite Hc by lia. auto.
    - intros j Hj. rewrite !Hc by lia. rewrite Nat.add_1_r.
      rewrite (firstn_S_nth _ cs j (nth j cs [])) by (apply nth_error_nth'; lia). rewrite map_app, list_sum_app. simpl. lia.
    - rewrite Hc by lia. unfold csc_cols. cbn [c_n]. rewrite concat_length, firstn_all2 by lia. auto.
    - unfold csc_cols. cbn [c_x c_i]. rewrite !map_length. auto.
    - unfold csc_cols. cbn [c_n c_i]. rewrite map_length. auto.
    - intros j k r v Hj Hk. rewrite Hc by lia. destruct (skipn_concat _ cs j ltac:(lia)) as (tl & Et).
      assert (Hi : nth_error (concat cs) (list_sum (map (@length _) (firstn j cs)) + k) = Some (r, v)).
      { rewrite <- nth_error_skipn', Et. rewrite nth_error_app1; auto. eapply nth_err_some; eauto. }
      unfold csc_cols. cbn [c_i c_x]. rewrite !nth_error_map, Hi. auto.
  Qed.
  Lemma cols_ok : forall N cs, length cs = N -> (forall j, j < N -> sorted (nth j cs [])) ->
    csc_ok N (csc_cols F cs) /\ (forall j, j < N -> rows (csc_cols F cs) j = map fst (nth j cs []))
    /\ (forall i j, j < N -> entry (csc_cols F cs) i j = match find i (nth j cs []) with Some v => v | None => n0 end).
  Proof.
    intros N cs Hl HS. pose proof (cols_rep N cs Hl) as R.
    assert (HS' : forall j, sorted (nth j cs [])).
    { intro j. destruct (Nat.lt_ge_cases j N); auto. rewrite nth_overflow by lia. constructor. }
    destruct (of_rep F N _ _ R HS') as [A B]. split; auto. split; [intros j Hj; apply B; auto|].
    intros i j Hj. apply (entry_cs F N); auto.
  Qed.
End OfCols.

Section Shape.
  Variable F : Fld.
  Variables n N : nat.
  Variable eps : F.
  Hypothesis n_le : (n <= N)%nat.
  Add Field Fsh : (fth F).
  Local Open Scope num_scope.

  (** P upper triangular, A with N - n rows. *)
  Definition P_ok (P : csc F) : Prop := csc_ok n P /\ forall j i, j < n -> In i (rows P j) -> (i <= j)%nat.
  Definition A_ok (A : csc F) : Prop := csc_ok n A /\ forall j i, j < n -> In i (rows A j) -> (n + i < N)%nat.

  (** The two matrices, as in the paper: [P + eps I, A^T; . , -eps I] and [P, A^T; A, 0]. *)
  Definition kkt_reg (P A : csc F) (p q : nat) : F :=
    if Nat.ltb q n then (if Nat.ltb p n then entry P p q + (if Nat.eqb p q then eps else n0) else n0)
    else if Nat.ltb p n then entry A (q - n)%nat p else if Nat.eqb p q then - eps else n0.
  Definition kkt_true (P A : csc F) (p q : nat) : F :=
    if Nat.ltb p n then (if Nat.ltb q n then entry P p q else entry A (q - n)%nat p)
    else if Nat.ltb q n then entry A (p - n)%nat q else n0.

  (** Patterns of K (columns) and K_true (rows) for those of P and A, and the entries of K that
      no copy ever touches. *)
  Record kkt_shape (P A K Kt : csc F) : Prop := mkShape
    { sh_K : csc_ok N K; sh_Kt : csc_ok N Kt;
      sh_P : forall p q, (q < n)%nat -> In p (rows K q) <-> In p (rows P q) \/ p = q;
      sh_At : forall p q, (n <= q < N)%nat -> In p (rows K q) <-> (p < n)%nat /\ In (q - n)%nat (rows A p) \/ p = q;
      sh_tu : forall p q, (p < n)%nat -> In q (rows Kt p) <-> (q < n)%nat /\ In p (rows P q) \/ (n <= q)%nat /\ In (q - n)%nat (rows A p);
      sh_tl : forall p q, (n <= p < N)%nat -> In q (rows Kt p) <-> (q < n)%nat /\ In (p - n)%nat (rows A q);
      sh_eps : forall q, (q < n)%nat -> ~ In q (rows P q) -> entry K q q = eps;
      sh_meps : forall q, (n <= q < N)%nat -> entry K q q = - eps }.

  (** The current contents. *)
  Definition holds_kkt (P A K Kt : csc F) : Prop :=
    (forall p q, q < N -> entry K p q = kkt_reg P A p q) /\ (forall p q, p < N -> entry Kt q p = kkt_true P A p q).

  Lemma ltb_t : forall a b, (a < b)%nat -> Nat.ltb a b = true.
  Proof. intros. apply Nat.ltb_lt. auto. Qed.
  Lemma ltb_f : forall a b, (b <= a)%nat -> Nat.ltb a b = false.
  Proof. intros. apply Nat.ltb_ge. auto. Qed.

  Lemma shape_same : forall P A K Kt K' Kt' P' A',
    kkt_shape P A K Kt -> same_pat F K K' -> same_pat F Kt Kt' ->
    (forall j, rows P' j = rows P j) -> (forall j, rows A' j = rows A j) ->
    (forall q, (q < n)%nat -> ~ In q (rows P q) -> entry K' q q = eps) ->
    (forall q, (n <= q < N)%nat -> entry K' q q = - eps) ->
    kkt_shape P' A' K' Kt'.
  Proof.
    intros P A K Kt K' Kt' P' A' H S1 S2 EP EA H1 H2. destruct H. constructor.
    - eapply same_pat_ok; eauto.
    - eapply same_pat_ok; eauto.
    - intros. rewrite (same_pat_rows F K K' q S1), EP. auto.
    - intros. rewrite (same_pat_rows F K K' q S1), EA. auto.
    - intros. rewrite (same_pat_rows F Kt Kt' p S2), EP, EA. auto.
    - intros. rewrite (same_pat_rows F Kt Kt' p S2), EA. auto.
    - intros q Hq. rewrite EP. auto.
    - auto.
  Qed.

  Lemma stored_in : forall (P : csc F) r c, stored F n P r c = true <-> (c < n)%nat /\ In r (rows P c).
  Proof. intros. unfold stored. rewrite andb_true_iff, Nat.ltb_lt, mem_in. tauto. Qed.
  Lemma fill_t : forall (d : bool) (l : list nat) p (x y : F), d = true -> In p l -> (if d && mem p l then x else y) = x.
  Proof. intros d l p x y -> H. apply mem_in in H. rewrite H. auto. Qed.
  Lemma fill_f : forall (d : bool) (l : list nat) p (x y : F), (d = true -> In p l -> False) -> (if d && mem p l then x else y) = y.
  Proof.
    intros d l p x y H. destruct d; auto. destruct (mem p l) eqn:E; auto. apply mem_in in E. exfalso. auto.
  Qed.

  (** Entries of P refreshed by P_to_K. *)
  Theorem P_refresh : forall P A K Kt, P_ok P -> kkt_shape P A K Kt ->
    exists K' Kt', P_to_K F n eps P K Kt = Ok (K', Kt') /\ kkt_shape P A K' Kt' /\ same_pat F K K' /\ same_pat F Kt Kt'
      /\ (forall p q, (q < n)%nat -> entry K' p q = kkt_reg P A p q)
      /\ (forall p q, (n <= q < N)%nat -> entry K' p q = entry K p q)
      /\ (forall p q, (p < n)%nat -> (q < n)%nat -> entry Kt' q p = kkt_true P A p q)
      /\ (forall p q, p < N -> (n <= p \/ n <= q)%nat -> entry Kt' q p = entry Kt q p).
  Proof.
    intros P A K Kt [HP HPu] SH.
    assert (HPn : forall j i, j < n -> In i (rows P j) -> (i < n)%nat) by (intros j i Hj Hi; pose proof (HPu j i Hj Hi); lia).
    destruct (P_to_K_ok F n N eps n_le P K Kt HP HPn (sh_K _ _ _ _ SH) (sh_Kt _ _ _ _ SH)) as (K' & Kt' & E & [SA A1] & [SB B1]).
    assert (H1 : forall p q, (q < n)%nat -> entry K' p q = kkt_reg P A p q).
    { intros p q Hq. rewrite A1 by lia. unfold kkt_reg. rewrite (ltb_t q n) by auto. pose proof (sh_P _ _ _ _ SH p q Hq) as Hs.
      destruct (in_dec Nat.eq_dec p (rows P q)) as [Hin|Hout].
      - rewrite fill_t; [|apply stored_in; auto|apply Hs; auto]. rewrite (ltb_t p n) by (apply (HPn q p); auto). auto.
      - rewrite fill_f by (intros Hs1 _; apply stored_in in Hs1; tauto). rewrite (entry_out F P p q Hout).
        destruct (Nat.eqb_spec p q) as [->|Hne].
        + rewrite (ltb_t q n) by auto. rewrite (sh_eps _ _ _ _ SH q Hq Hout). ring.
        + rewrite entry_out by (rewrite Hs; tauto). destruct (Nat.ltb p n); ring. }
    assert (H2 : forall p q, (n <= q < N)%nat -> entry K' p q = entry K p q).
    { intros p q Hq. rewrite A1 by lia. apply fill_f. intros Hs _. apply stored_in in Hs. lia. }
    assert (H3 : forall p q, (p < n)%nat -> (q < n)%nat -> entry Kt' q p = kkt_true P A p q).
    { intros p q Hp Hq. rewrite B1 by lia. unfold kkt_true. rewrite (ltb_t p n), (ltb_t q n) by auto. pose proof (sh_tu _ _ _ _ SH p q Hp) as Hs.
      destruct (in_dec Nat.eq_dec p (rows P q)) as [Hin|Hout].
      - rewrite fill_t; [auto|apply stored_in; auto|apply Hs; auto].
      - rewrite fill_f by (intros Hs1 _; apply stored_in in Hs1; tauto). rewrite (entry_out F P p q Hout). apply entry_out. rewrite Hs. intros [H|H]; [tauto|lia]. }
    assert (H4 : forall p q, p < N -> (n <= p \/ n <= q)%nat -> entry Kt' q p = entry Kt q p).
    { intros p q Hp Hor. rewrite B1 by lia. apply fill_f. intros Hs Hin. apply stored_in in Hs. destruct Hs as [Hq Hs]. pose proof (HPn q p Hq Hs). lia. }
    exists K', Kt'. split; auto. split; [|repeat (split; auto)].
    eapply shape_same; eauto.
    - intros q Hq Hni. rewrite H1 by auto. unfold kkt_reg. rewrite (ltb_t q n), Nat.eqb_refl, (entry_out F P q q Hni) by auto. ring.
    - intros q Hq. rewrite H2 by auto. apply (sh_meps _ _ _ _ SH); auto.
  Qed.

  Theorem A_refresh : forall P A K Kt, P_ok P -> A_ok A -> kkt_shape P A K Kt ->
    exists K' Kt', A_to_K F n A K Kt = Ok (K', Kt') /\ kkt_shape P A K' Kt' /\ same_pat F K K' /\ same_pat F Kt Kt'
      /\ (forall p q, (n <= q < N)%nat -> entry K' p q = kkt_reg P A p q)
      /\ (forall p q, (q < n)%nat -> entry K' p q = entry K p q)
      /\ (forall p q, p < N -> (n <= p \/ n <= q)%nat -> entry Kt' q p = kkt_true P A p q)
      /\ (forall p q, (p < n)%nat -> (q < n)%nat -> entry Kt' q p = entry Kt q p).
  Proof.
    intros P A K Kt HPk [HA HAn] SH.
    destruct (A_to_K_ok F n N n_le A K Kt HA HAn (sh_K _ _ _ _ SH) (sh_Kt _ _ _ _ SH)) as (K' & Kt' & E & [SA A1] & [SB B1]).
    assert (H1 : forall p q, (n <= q < N)%nat -> entry K' p q = kkt_reg P A p q).
    { intros p q Hq. rewrite A1 by lia. unfold kkt_reg, At_at. rewrite (ltb_f q n) by lia. pose proof (sh_At _ _ _ _ SH p q Hq) as Hs.
      replace (Nat.leb n q) with true by (symmetry; apply Nat.leb_le; lia). cbn [andb].
      destruct (Nat.ltb_spec p n) as [Hp|Hp].
      - destruct (in_dec Nat.eq_dec (q - n)%nat (rows A p)) as [Hin|Hout].
        + rewrite fill_t; [auto|apply stored_in; auto|apply Hs; auto].
        + rewrite fill_f by (intros Hs1 _; apply stored_in in Hs1; tauto). rewrite (entry_out F A _ p Hout). apply entry_out. rewrite Hs. intros [H|H]; [tauto|lia].
      - rewrite fill_f by (intros Hs1 _; apply stored_in in Hs1; lia). destruct (Nat.eqb_spec p q) as [->|Hne].
        + apply (sh_meps _ _ _ _ SH). lia.
        + apply entry_out. rewrite Hs. intros [H|H]; [lia|auto]. }
    assert (H2 : forall p q, (q < n)%nat -> entry K' p q = entry K p q).
    { intros p q Hq. rewrite A1 by lia. apply fill_f. unfold At_at. intros Hs _. apply andb_true_iff in Hs. destruct Hs as [Hs _]. apply Nat.leb_le in Hs. lia. }
    assert (H3 : forall p q, p < N -> (n <= p \/ n <= q)%nat -> entry Kt' q p = kkt_true P A p q).
    { intros p q Hp Hor. rewrite B1 by lia. unfold kkt_true, A_at, A_true. destruct (Nat.ltb_spec p n) as [Hpn|Hpn].
      - assert (Hqn : (n <= q)%nat) by lia. rewrite (ltb_f q n) by lia. pose proof (sh_tu _ _ _ _ SH p q Hpn) as Hs.
        replace (Nat.leb n q) with true by (symmetry; apply Nat.leb_le; lia). replace (Nat.leb n p) with false by (symmetry; apply Nat.leb_gt; lia).
        cbn [andb orb]. rewrite orb_false_r.
        destruct (in_dec Nat.eq_dec (q - n)%nat (rows A p)) as [Hin|Hout].
        + rewrite fill_t; [auto|apply stored_in; auto|apply Hs; auto].
        + rewrite fill_f by (intros Hs1 _; apply stored_in in Hs1; tauto). rewrite (entry_out F A _ p Hout). apply entry_out. rewrite Hs. intros [H|H]; [lia|tauto].
      - pose proof (sh_tl _ _ _ _ SH p q (conj Hpn Hp)) as Hs. replace (Nat.leb n p) with true by (symmetry; apply Nat.leb_le; lia). cbn [andb].
        destruct (Nat.ltb_spec q n) as [Hq|Hq].
        + replace (Nat.leb n q) with false by (symmetry; apply Nat.leb_gt; lia). cbn [andb orb].
          destruct (in_dec Nat.eq_dec (p - n)%nat (rows A q)) as [Hin|Hout].
          * rewrite fill_t; [auto|apply stored_in; auto|apply Hs; auto].
          * rewrite fill_f by (intros Hs1 _; apply stored_in in Hs1; tauto). rewrite (entry_out F A _ q Hout). apply entry_out. rewrite Hs. tauto.
        + rewrite fill_f; [apply entry_out; rewrite Hs; lia|]. intros _ Hin. apply Hs in Hin. lia. }
    assert (H4 : forall p q, (p < n)%nat -> (q < n)%nat -> entry Kt' q p = entry Kt q p).
    { intros p q Hp Hq. rewrite B1 by lia. apply fill_f. unfold A_at. replace (Nat.leb n q) with false by (symmetry; apply Nat.leb_gt; lia).
      replace (Nat.leb n p) with false by (symmetry; apply Nat.leb_gt; lia). discriminate. }
    exists K', Kt'. split; auto. split; [|repeat (split; auto)].
    eapply shape_same; eauto.
    - intros q Hq Hni. rewrite H2 by auto. apply (sh_eps _ _ _ _ SH); auto.
    - intros q Hq. rewrite H1 by auto. unfold kkt_reg. rewrite (ltb_f q n), Nat.eqb_refl by lia. auto.
  Qed.

  (** Both copies: the matrices are those of P and A, whatever was there. *)
  Theorem PA_refresh : forall P A K Kt, P_ok P -> A_ok A -> kkt_shape P A K Kt ->
    exists K1 Kt1 K2 Kt2, P_to_K F n eps P K Kt = Ok (K1, Kt1) /\ A_to_K F n A K1 Kt1 = Ok (K2, Kt2)
      /\ kkt_shape P A K2 Kt2 /\ holds_kkt P A K2 Kt2.
  Proof.
    intros P A K Kt HP HA SH. destruct (P_refresh P A K Kt HP SH) as (K1 & Kt1 & E1 & SH1 & _ & _ & A1 & A2 & A3 & A4).
    destruct (A_refresh P A K1 Kt1 HP HA SH1) as (K2 & Kt2 & E2 & SH2 & _ & _ & B1 & B2 & B3 & B4).
    exists K1, Kt1, K2, Kt2. split; auto. split; auto. split; auto. split.
    - intros p q Hq. destruct (Nat.lt_ge_cases q n); [rewrite B2, A1|rewrite B1]; auto.
    - intros p q Hp. destruct (Nat.lt_ge_cases p n), (Nat.lt_ge_cases q n); try (apply B3; auto; lia). rewrite B4, A3; auto.
  Qed.
End Shape.

(** The arrays written by the generator (writer.py 362-372). *)
Section Arrays0.
  Variable F : Fld.
  Variables n N : nat.
  Variable eps : F.
  Hypothesis n_le : (n <= N)%nat.
  Add Field Fa0 : (fth F).
  Local Open Scope num_scope.

  Lemma SS_app : forall a b, StronglySorted lt a -> StronglySorted lt b -> (forall x y, In x a -> In y b -> (x < y)%nat) -> StronglySorted lt (a ++ b).
  Proof.
    induction a as [|x a IH]; intros b Ha Hb H; simpl; auto. inversion Ha; subst. constructor.
    - apply IH; auto. intros; apply H; simpl; auto.
    - apply Forall_app. split; auto. apply Forall_forall. intros y Hy. apply H; simpl; auto.
  Qed.
  Lemma find_app : forall (a b : list (nat * F)) i, find i (a ++ b) = match find i a with Some v => Some v | None => find i b end.
  Proof. induction a as [|[k x] a IH]; intros b i; simpl; auto. destruct (Nat.eqb i k); auto. Qed.

  Lemma column_eq : forall (M : csc F) j, column F M j = combine (rows M j) (vals M j).
  Proof. auto. Qed.
  Lemma column_find : forall m (M : csc F) i j, csc_ok m M -> j < m ->
    find i (column F M j) = if mem i (rows M j) then Some (entry M i j) else None.
  Proof.
    intros m M i j HO Hj. assert (HS : sorted (column F M j)) by (unfold sorted; rewrite column_eq, (a_fst F m) by auto; apply (o_sorted m M HO j Hj)).
    destruct (mem i (rows M j)) eqn:E.
    - apply mem_in in E. rewrite <- (a_fst F m M j HO Hj) in E. rewrite <- column_eq in E.
      destruct (find i (column F M j)) as [v|] eqn:Ef; [|apply find_rows in Ef; contradiction].
      f_equal. symmetry. unfold entry. rewrite <- column_eq, (entry_find F), Ef by auto. auto.
    - apply find_rows. rewrite column_eq, (a_fst F m) by auto. apply mem_nin. auto.
  Qed.

  (** Rows. *)
  Lemma row_seg : forall (M : csc F) i s k, csc_ok n M -> (s + k <= n)%nat ->
    let l := flat_map (fun j => map (fun e => (j, snd e)) (filter (fun e => Nat.eqb (fst e) i) (column F M j))) (seq s k) in
    sorted l /\ (forall j v, In (j, v) l -> (s <= j < s + k)%nat)
    /\ forall j, find j l = if Nat.leb s j && Nat.ltb j (s + k) && mem i (rows M j) then Some (entry M i j) else None.
  Proof.
    intros M i s k HO. revert s. induction k as [|k IH]; intros s Hs l.
    - split; [constructor|]. split; [intros j v []|]. intro j. destruct (Nat.leb_spec s j), (Nat.ltb_spec j (s + 0)); cbn [andb]; auto; lia.
    - destruct (IH (S s) ltac:(lia)) as (A & B & C). unfold l. cbn [seq flat_map].
      assert (E : map (fun e => (s, snd e)) (filter (fun e => Nat.eqb (fst e) i) (column F M s)) = if mem i (rows M s) then [(s, entry M i s)] else []).
      { pose proof (a_fst F n M s HO ltac:(lia)) as Hf. pose proof (o_sorted n M HO s ltac:(lia)) as HSr. destruct (mem i (rows M s)) eqn:Em.
        - apply mem_in in Em. destruct (In_nth_error _ _ Em) as (t & Et). destruct (alen F n M s HO ltac:(lia)) as [L1 L2].
          destruct (nth_err_lt _ (vals M s) t) as (v & Ev); [pose proof (nth_err_some _ _ _ _ Et); lia|].
          rewrite column_eq, (filter_sorted F (rows M s) (vals M s) t i v) by (auto using SS_NoDup). simpl. rewrite (entry_at F n M s t i v); auto. lia.
        - apply mem_nin in Em. rewrite filter_none; auto. intros [a b] Hin. apply in_combine_l in Hin. simpl. apply Nat.eqb_neq. intro; subst. contradiction. }
      rewrite E. clear E l. cbv zeta in A, B, C. match type of A with sorted ?t => set (tl := t) in * end.
      assert (Hcase : forall b : bool, let l := (if b then [(s, entry M i s)] else []) ++ tl in
        sorted l /\ (forall j v, In (j, v) l -> (s <= j < s + S k)%nat)
        /\ forall j, find j l = if Nat.eqb j s then (if b then Some (entry M i s) else None) else find j tl).
      { intros b l0. unfold l0. destruct b; cbn [app].
        - split; [|split].
          + apply sorted_cons; [exact A|]. intros r v Hin. apply B in Hin. lia.
          + intros j v [H|H]; [inversion H; lia|apply B in H; lia].
          + intro j. simpl. auto.
        - split; auto. split; [intros j v H; apply B in H; lia|]. intro j. destruct (Nat.eqb_spec j s) as [->|]; auto.
          apply find_none. intros a v H. apply B in H. lia. }
      destruct (Hcase (mem i (rows M s))) as (A' & B' & C'). split; auto. split; auto. intro j. rewrite C', C.
      destruct (Nat.eqb_spec j s) as [->|Hne].
      + replace (Nat.leb s s) with true by (symmetry; apply Nat.leb_le; lia). replace (Nat.ltb s (s + S k)) with true by (symmetry; apply Nat.ltb_lt; lia). cbn [andb].
        destruct (mem i (rows M s)); auto.
      + destruct (Nat.leb_spec (S s) j), (Nat.leb_spec s j), (Nat.ltb_spec j (S s + k)), (Nat.ltb_spec j (s + S k)); cbn [andb]; auto; lia.
  Qed.
  Lemma row_ok : forall (M : csc F) i, csc_ok n M ->
    sorted (row_of F n M i) /\ (forall j v, In (j, v) (row_of F n M i) -> (j < n)%nat)
    /\ (forall j, find j (row_of F n M i) = if Nat.ltb j n && mem i (rows M j) then Some (entry M i j) else None)
    /\ (forall j, In j (map fst (row_of F n M i)) <-> (j < n)%nat /\ In i (rows M j)).
  Proof.
    intros M i HO. destruct (row_seg M i 0 n HO ltac:(lia)) as (A & B & C). fold (row_of F n M i) in A, B, C.
    assert (D : forall j, find j (row_of F n M i) = if Nat.ltb j n && mem i (rows M j) then Some (entry M i j) else None) by (intro j; rewrite C; auto).
    split; auto. split; [intros j v H; apply B in H; lia|]. split; auto.
    intro j. pose proof (find_rows F j (row_of F n M i)) as H. rewrite D in H.
    rewrite <- (mem_in i), <- Nat.ltb_lt. destruct (in_dec Nat.eq_dec j (map fst (row_of F n M i))) as [Hi|Hi].
    - destruct (Nat.ltb j n), (mem i (rows M j)); cbn [andb] in H; try tauto; exfalso; apply (proj1 H eq_refl Hi).
    - destruct (Nat.ltb j n), (mem i (rows M j)); cbn [andb] in H; intuition congruence.
  Qed.

  (** The diagonal. *)
  Lemma plus_diag_ok : forall j c, sorted c ->
    sorted (plus_diag F eps j c)
    /\ (forall i, find i (plus_diag F eps j c) = if Nat.eqb i j then Some (match find j c with Some x => x + eps | None => eps end) else find i c)
    /\ (forall i v, In (i, v) (plus_diag F eps j c) -> i = j \/ exists w, In (i, w) c).
  Proof.
    induction c as [|[a x] c IH]; intro HS.
    - simpl. split; [repeat constructor|]. split; [intro i; auto|]. intros i v [H|[]]. inversion H; auto.
    - destruct (sorted_inv _ _ _ _ HS) as [HS' Hlt]. destruct (IH HS') as (A & B & C). cbn [plus_diag].
      destruct (Nat.ltb_spec a j) as [Haj|Haj].
      + split; [apply sorted_cons; auto; intros r v Hin; apply C in Hin; destruct Hin as [->|(w & Hin)]; eauto|]. split.
        * intro i. cbn [find]. rewrite B. replace (Nat.eqb j a) with false by (symmetry; apply Nat.eqb_neq; lia).
          destruct (Nat.eqb_spec i a), (Nat.eqb_spec i j); auto; lia.
        * intros i v [H|H]; [inversion H; subst; right; exists v; left; auto|]. apply C in H. destruct H as [H|(w & H)]; auto. right. exists w. right. auto.
      + destruct (Nat.eqb_spec a j) as [->|Hne].
        * split; [apply sorted_cons; auto|]. split.
          -- intro i. cbn [find]. rewrite Nat.eqb_refl. destruct (Nat.eqb_spec i j); auto.
          -- intros i v [H|H]; [inversion H; subst; auto|]. right. exists v. right. auto.
        * split; [apply sorted_cons; auto; intros r v [H|H]; [inversion H; subst; lia|apply Hlt in H; lia]|]. split.
          -- intro i. cbn [find]. replace (Nat.eqb j a) with false by (symmetry; apply Nat.eqb_neq; lia).
             rewrite (find_none F j c) by (intros r v H; apply Hlt in H; lia). destruct (Nat.eqb_spec i j); auto.
          -- intros i v [H|H]; [inversion H; auto|]. right. eauto.
  Qed.
  Lemma filter_find : forall (c : list (nat * F)), sorted c ->
    sorted (filter (fun e => negb (rz (snd e))) c)
    /\ forall i, find i (filter (fun e => negb (rz (snd e))) c) = match find i c with Some v => if rz v then None else Some v | None => None end.
  Proof.
    induction c as [|[a x] c IH]; intro HS; [split; [constructor|auto]|]. destruct (sorted_inv _ _ _ _ HS) as [HS' Hlt]. destruct (IH HS') as (A & B).
    cbn [filter snd]. destruct (rz x) eqn:E; cbn [negb].
    - split; auto. intro i. rewrite B. cbn [find]. destruct (Nat.eqb_spec i a) as [->|]; auto. rewrite E.
      rewrite (find_none F a c) by (intros r v H; apply Hlt in H; lia). auto.
    - split.
      + apply sorted_cons; auto. intros r v H. apply filter_In in H. destruct H. eauto.
      + intro i. cbn [find]. rewrite B. destruct (Nat.eqb i a); auto. rewrite E. auto.
  Qed.

  (** No entry is dropped. *)
  Definition no_zero (P : csc F) : Prop :=
    eps <> n0 /\ forall j i, j < n -> In i (rows P j) -> entry P i j + (if Nat.eqb i j then eps else n0) <> n0.

  Lemma rz_f : forall x : F, x <> n0 -> rz x = false.
  Proof. intros x H. destruct (rz x) eqn:E; auto. apply rz_spec in E. contradiction. Qed.

  Lemma nth_app2 : forall A (a b : list A) d j, nth j (a ++ b) d = if Nat.ltb j (length a) then nth j a d else nth (j - length a) b d.
  Proof. intros. destruct (Nat.ltb_spec j (length a)); [apply app_nth1|apply app_nth2]; auto. Qed.
  Lemma nth_ms : forall A (h : nat -> A) k j d, (j < k)%nat -> nth j (map h (seq 0 k)) d = h j.
  Proof. intros. rewrite nth_indep with (d' := h 0%nat) by (rewrite map_length, seq_length; auto). rewrite map_nth, seq_nth; auto. Qed.

  Theorem kkt_arrays : forall P A, P_ok F n P -> A_ok F n N A -> no_zero P ->
    kkt_shape F n N eps P A (kkt_K F n N eps P A) (kkt_Kt F n N P A) /\ holds_kkt F n N eps P A (kkt_K F n N eps P A) (kkt_Kt F n N P A).
  Proof.
    intros P A [HP HPu] [HA HAn] [He Hnz].
    set (cK := map (fun j => filter (fun e => negb (rz (snd e))) (plus_diag F eps j (column F P j))) (seq 0 n)
              ++ map (fun i => row_of F n A i ++ [((n + i)%nat, - eps)]) (seq 0 (N - n))).
    set (cT := map (fun i => row_of F n P i ++ map (fun e => ((n + fst e)%nat, snd e)) (column F A i)) (seq 0 n)
              ++ map (row_of F n A) (seq 0 (N - n))).
    assert (LK : length cK = N) by (unfold cK; rewrite app_length, !map_length, !seq_length; lia).
    assert (LT : length cT = N) by (unfold cT; rewrite app_length, !map_length, !seq_length; lia).
    assert (HSP : forall j, j < n -> sorted (column F P j)) by (intros j Hj; unfold sorted; rewrite column_eq, (a_fst F n) by auto; apply (o_sorted n P HP j Hj)).
    assert (HSA : forall j, j < n -> sorted (column F A j)) by (intros j Hj; unfold sorted; rewrite column_eq, (a_fst F n) by auto; apply (o_sorted n A HA j Hj)).
    assert (HnK1 : forall j, j < n -> nth j cK [] = filter (fun e => negb (rz (snd e))) (plus_diag F eps j (column F P j))).
    { intros j Hj. unfold cK. rewrite nth_app2, map_length, seq_length, (ltb_t j n) by auto. rewrite nth_ms by auto. auto. }
    assert (HnK2 : forall j, (n <= j < N)%nat -> nth j cK [] = row_of F n A (j - n) ++ [(j, - eps)]).
    { intros j Hj. unfold cK. rewrite nth_app2, map_length, seq_length, (ltb_f j n) by lia. rewrite nth_ms by lia. do 3 f_equal. lia. }
    assert (HnT1 : forall j, j < n -> nth j cT [] = row_of F n P j ++ map (fun e => ((n + fst e)%nat, snd e)) (column F A j)).
    { intros j Hj. unfold cT. rewrite nth_app2, map_length, seq_length, (ltb_t j n) by auto. rewrite nth_ms by auto. auto. }
    assert (HnT2 : forall j, (n <= j < N)%nat -> nth j cT [] = row_of F n A (j - n)).
    { intros j Hj. unfold cT. rewrite nth_app2, map_length, seq_length, (ltb_f j n) by lia. rewrite nth_ms by lia. auto. }
    assert (Hshift : forall (c : list (nat * F)), sorted c -> sorted (map (fun e => ((n + fst e)%nat, snd e)) c)
       /\ forall i, find i (map (fun e => ((n + fst e)%nat, snd e)) c) = if Nat.leb n i then find (i - n)%nat c else None).
    { induction c as [|[a x] c IH]; intro HS; [split; [constructor|intro; simpl; destruct (Nat.leb n i); auto]|].
      destruct (sorted_inv _ _ _ _ HS) as [HS' Hlt]. destruct (IH HS') as (B1 & B2). cbn [map fst snd]. split.
      - apply sorted_cons; auto. intros r v Hin. apply in_map_iff in Hin. destruct Hin as ([a' x'] & E & Hin). inversion E. apply Hlt in Hin. simpl. lia.
      - intro i. cbn [find]. rewrite B2. destruct (Nat.eqb_spec i (n + a)), (Nat.leb_spec n i); auto; try lia.
        + replace (Nat.eqb (i - n) a) with true by (symmetry; apply Nat.eqb_eq; lia). auto.
        + replace (Nat.eqb (i - n) a) with false by (symmetry; apply Nat.eqb_neq; lia). auto. }
    (* contents of the columns *)
    assert (FK1 : forall p q, q < n -> find p (nth q cK []) = if mem p (rows P q) || Nat.eqb p q then Some (entry P p q + (if Nat.eqb p q then eps else n0)) else None).
    { intros p q Hq. rewrite HnK1 by auto. destruct (plus_diag_ok q (column F P q) (HSP q Hq)) as (B1 & B2 & _).
      rewrite (proj2 (filter_find _ B1)), B2, !(column_find n P _ q HP Hq).
      destruct (Nat.eqb_spec p q) as [->|Hne].
      - rewrite orb_true_r. destruct (mem q (rows P q)) eqn:E.
        + apply mem_in in E. pose proof (Hnz q q Hq E) as Hz. rewrite Nat.eqb_refl in Hz. rewrite (rz_f _ Hz). auto.
        + rewrite (rz_f _ He). apply mem_nin in E. rewrite (entry_out F P q q E). f_equal. ring.
      - rewrite orb_false_r. destruct (mem p (rows P q)) eqn:E; auto. apply mem_in in E. pose proof (Hnz q p Hq E) as Hz.
        replace (Nat.eqb p q) with false in Hz by (symmetry; apply Nat.eqb_neq; auto).
        rewrite (rz_f (entry P p q)); [f_equal; ring|]. intro H0. apply Hz. rewrite H0. ring. }
    assert (FK2 : forall p q, (n <= q < N)%nat -> find p (nth q cK []) = if Nat.ltb p n && mem (q - n) (rows A p) then Some (entry A (q - n) p) else if Nat.eqb p q then Some (- eps) else None).
    { intros p q Hq. rewrite HnK2 by auto. rewrite find_app. destruct (row_ok A (q - n) HA) as (_ & _ & B & _). rewrite B.
      destruct (Nat.ltb p n && mem (q - n) (rows A p)); auto. }
    assert (FT1 : forall p q, p < n -> find q (nth p cT []) = if Nat.ltb q n then (if mem p (rows P q) then Some (entry P p q) else None)
                                       else if mem (q - n) (rows A p) then Some (entry A (q - n) p) else None).
    { intros p q Hp. rewrite HnT1 by auto. rewrite find_app. destruct (row_ok P p HP) as (_ & _ & B & _). rewrite B.
      rewrite (proj2 (Hshift _ (HSA p Hp))), (column_find n A _ p HA Hp).
      destruct (Nat.ltb_spec q n) as [Hq|Hq]; cbn [andb].
      - replace (Nat.leb n q) with false by (symmetry; apply Nat.leb_gt; lia). destruct (mem p (rows P q)); auto.
      - replace (Nat.leb n q) with true by (symmetry; apply Nat.leb_le; lia). auto. }
    assert (FT2 : forall p q, (n <= p < N)%nat -> find q (nth p cT []) = if Nat.ltb q n && mem (p - n) (rows A q) then Some (entry A (p - n) q) else None).
    { intros p q Hp. rewrite HnT2 by auto. destruct (row_ok A (p - n) HA) as (_ & _ & B & _). apply B. }
    assert (SK : forall j, j < N -> sorted (nth j cK [])).
    { intros j Hj. destruct (Nat.lt_ge_cases j n) as [Hn|Hn].
      - rewrite HnK1 by auto. apply filter_find. apply plus_diag_ok. auto.
      - rewrite HnK2 by auto. destruct (row_ok A (j - n) HA) as (B1 & B2 & _). unfold sorted. rewrite map_app. apply SS_app; auto; [repeat constructor|].
        intros x y Hx [<-|[]]. apply in_map_iff in Hx. destruct Hx as ([a b] & <- & Hx). apply B2 in Hx. simpl. lia. }
    assert (ST : forall j, j < N -> sorted (nth j cT [])).
    { intros j Hj. destruct (Nat.lt_ge_cases j n) as [Hn|Hn].
      - rewrite HnT1 by auto. destruct (row_ok P j HP) as (B1 & B2 & _). unfold sorted. rewrite map_app. apply SS_app; auto; [apply (proj1 (Hshift _ (HSA j Hn)))|].
        intros x y Hx Hy. apply in_map_iff in Hx. destruct Hx as ([a b] & <- & Hx). apply B2 in Hx. apply in_map_iff in Hy. destruct Hy as ([a' b'] & <- & Hy).
        apply in_map_iff in Hy. destruct Hy as ([a2 b2] & E & _). inversion E. simpl. lia.
      - rewrite HnT2 by auto. apply row_ok; auto. }
    destruct (cols_ok F N cK LK SK) as (OK & RK & EK). destruct (cols_ok F N cT LT ST) as (OT & RT & ET).
    change (csc_cols F cK) with (kkt_K F n N eps P A) in OK, RK, EK. change (csc_cols F cT) with (kkt_Kt F n N P A) in OT, RT, ET.
    assert (IK : forall p q, q < N -> In p (rows (kkt_K F n N eps P A) q) <-> find p (nth q cK []) <> None).
    { intros p q Hq. rewrite RK by auto. pose proof (find_rows F p (nth q cK [])) as H. destruct (in_dec Nat.eq_dec p (map fst (nth q cK []))); tauto. }
    assert (IT : forall p q, q < N -> In p (rows (kkt_Kt F n N P A) q) <-> find p (nth q cT []) <> None).
    { intros p q Hq. rewrite RT by auto. pose proof (find_rows F p (nth q cT [])) as H. destruct (in_dec Nat.eq_dec p (map fst (nth q cT []))); tauto. }
    split; [constructor; auto|split].
    - intros p q Hq. rewrite IK, FK1 by lia. rewrite <- mem_in. destruct (mem p (rows P q)), (Nat.eqb_spec p q); cbn [orb]; intuition; congruence.
    - intros p q Hq. rewrite IK, FK2 by lia. rewrite <- mem_in, <- Nat.ltb_lt.
      destruct (Nat.ltb p n), (mem (q - n) (rows A p)), (Nat.eqb_spec p q); cbn [andb]; intuition; congruence.
    - intros p q Hp. rewrite IT, FT1 by lia. rewrite <- !mem_in. destruct (Nat.ltb_spec q n); [destruct (mem p (rows P q))|destruct (mem (q - n) (rows A p))]; intuition; try congruence; try lia.
    - intros p q Hp. rewrite IT, FT2 by lia. rewrite <- !mem_in. destruct (Nat.ltb_spec q n), (mem (p - n) (rows A q)); cbn [andb]; intuition; try congruence; try lia.
    - intros q Hq Hni. rewrite EK, FK1 by lia. rewrite Nat.eqb_refl, orb_true_r, (entry_out F P q q Hni). ring.
    - intros q Hq. rewrite EK, FK2 by lia. rewrite (ltb_f q n), Nat.eqb_refl by lia. auto.
    - intros p q Hq. rewrite EK by auto. unfold kkt_reg. destruct (Nat.ltb_spec q n) as [Hqn|Hqn].
      + rewrite FK1 by auto. destruct (mem p (rows P q)) eqn:E; cbn [orb].
        * apply mem_in in E. pose proof (HPu q p Hqn E). rewrite (ltb_t p n) by lia. auto.
        * apply mem_nin in E. rewrite (entry_out F P p q E). destruct (Nat.eqb_spec p q) as [->|]; [rewrite (ltb_t q n) by auto; auto|destruct (Nat.ltb p n); ring].
      + rewrite FK2 by lia. destruct (Nat.ltb p n) eqn:Ep; cbn [andb].
        * destruct (mem (q - n) (rows A p)) eqn:E; auto. apply mem_nin in E. rewrite (entry_out F A _ p E). apply Nat.ltb_lt in Ep.
          replace (Nat.eqb p q) with false by (symmetry; apply Nat.eqb_neq; lia). auto.
        * destruct (Nat.eqb p q); auto.
    - intros p q Hp. rewrite ET by auto. unfold kkt_true. destruct (Nat.ltb_spec p n) as [Hpn|Hpn].
      + rewrite FT1 by auto. destruct (Nat.ltb q n).
        * destruct (mem p (rows P q)) eqn:E; auto. apply mem_nin in E. rewrite (entry_out F P p q E). auto.
        * destruct (mem (q - n) (rows A p)) eqn:E; auto. apply mem_nin in E. rewrite (entry_out F A _ p E). auto.
      + rewrite FT2 by lia. destruct (Nat.ltb q n); cbn [andb]; auto. destruct (mem (p - n) (rows A q)) eqn:E; auto. apply mem_nin in E. rewrite (entry_out F A _ q E). auto.
  Qed.

  (** The shape gives the pattern used by the factor updates. *)
  Theorem shape_pattern : forall P A K Kt, P_ok F n P -> A_ok F n N A -> kkt_shape F n N eps P A K Kt -> kkt_pattern F n N K.
  Proof.
    intros P A K Kt [HP HPu] [HA HAn] SH j Hj.
    assert (Hup : forall i, In i (rows K j) <-> (In i (rows K j) /\ (i < j)%nat) \/ i = j).
    { intro i. destruct (Nat.lt_ge_cases j n) as [Hn|Hn].
      - rewrite (sh_P _ _ _ _ _ _ _ _ SH i j Hn). split; [intros [H|H]; auto; pose proof (HPu j i Hn H); destruct (Nat.eq_dec i j); auto; left; split; auto; lia|tauto].
      - rewrite (sh_At _ _ _ _ _ _ _ _ SH i j (conj Hn Hj)). split; [intros [[H1 H2]|H]; auto; left; split; auto; lia|tauto]. }
    pose proof (o_sorted N K (sh_K _ _ _ _ _ _ _ _ SH) j Hj) as HS.
    assert (Hlast : forall l, StronglySorted lt l -> In j l -> (forall i, In i l -> (i <= j)%nat) -> exists up, l = up ++ [j] /\ forall i, In i up -> (i < j)%nat).
    { induction l as [|a l IH]; intros HSl Hin Hle; [contradiction|]. inversion HSl; subst. destruct l as [|b l].
      - destruct Hin as [->|[]]. exists []. split; auto. intros i [].
      - destruct (IH H1) as (up & E & Hu).
        + destruct Hin as [->|Hin]; auto. exfalso. rewrite Forall_forall in H2. pose proof (H2 b (or_introl eq_refl)). pose proof (Hle b (or_intror (or_introl eq_refl))). lia.
        + intros i Hi. apply Hle. right. auto.
        + exists (a :: up). rewrite E. split; auto. intros i [<-|Hi]; auto. rewrite Forall_forall in H2. apply H2. rewrite E. apply in_or_app. simpl. auto. }
    destruct (Hlast (rows K j) HS) as (up & E & Hu).
    - apply Hup. auto.
    - intros i Hi. apply Hup in Hi. destruct Hi as [[_ H]|H]; lia.
    - exists up. split; auto. intros i Hi. split; auto. intro Hn.
      assert (Hin : In i (rows K j)) by (rewrite E; apply in_or_app; auto).
      apply (sh_At _ _ _ _ _ _ _ _ SH i j (conj Hn Hj)) in Hin. destruct Hin as [[H _]|H]; auto. pose proof (Hu i Hi). lia.
  Qed.
End Arrays0.
