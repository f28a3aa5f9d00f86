(** From the arrays to the value functions used in LdlProofs, and sequences of updates. *)

From Coq Require Import Arith Bool ZArith Lia List Sorted Field.
From Verif Require Import Base Machine Runtime RuntimeProofs Sparse SparseProofs Ldl LdlRank1 LdlProofs GradSpec.
Import ListNotations.

Lemma nth_error_firstn' : forall A (l : list A) t k, t < k -> nth_error (firstn k l) t = nth_error l t.
Proof. induction l as [|a l IH]; intros t k H; destruct t, k; simpl; auto; try lia. apply IH. lia. Qed.
Lemma nth_error_skipn' : forall A (l : list A) t k, nth_error (skipn k l) t = nth_error l (k + t).
Proof. induction l as [|a l IH]; intros t k; destruct k; simpl; auto. destruct t; auto. Qed.
Lemma nth_error_combine : forall A B (l : list A) (m : list B) t a b,
  nth_error l t = Some a -> nth_error m t = Some b -> nth_error (combine l m) t = Some (a, b).
Proof. induction l as [|x l IH]; intros m t a b; destruct m, t; simpl; intros; try discriminate; auto; congruence. Qed.
Lemma nth_error_combine_inv : forall A B (l : list A) (m : list B) t a b,
  nth_error (combine l m) t = Some (a, b) -> nth_error l t = Some a /\ nth_error m t = Some b.
Proof. induction l as [|x l IH]; intros m t a b; destruct m, t; simpl; intros; try discriminate; auto. inversion H. auto. Qed.
Lemma map_fst_combine : forall A B (l : list A) (m : list B), length l = length m -> map fst (combine l m) = l.
Proof. induction l; destruct m; simpl; intros; try discriminate; auto. f_equal. auto. Qed.
Lemma list_eq_nth : forall A (l m : list A), (forall t, nth_error l t = nth_error m t) -> l = m.
Proof.
  induction l as [|a l IH]; intros m H; destruct m; auto.
  - specialize (H 0). discriminate.
  - specialize (H 0). discriminate.
  - pose proof (H 0) as H0. simpl in H0. inversion H0. f_equal. apply IH. intro t. apply (H (S t)).
Qed.

Section Bridge.
  Variable F : Fld.
  Add Field Fb : (fth F).
  Variable N : nat.
  Local Open Scope num_scope.

  Lemma rows_len : forall (M : csc F) j, csc_ok N M -> j < N -> length (rows M j) = (cptr M (S j) - cptr M j)%nat /\ length (vals M j) = length (rows M j).
  Proof.
    intros M j H Hj. unfold rows, vals. rewrite !firstn_length, !skipn_length. rewrite (o_x N M H).
    assert (cptr M (S j) <= length (c_i M))%nat; [|lia].
    assert (G : forall k, (S j <= k)%nat -> (k <= N)%nat -> (cptr M (S j) <= cptr M k)%nat).
    { induction k as [|k IH]; intros H1 H2; [lia|]. destruct (Nat.eq_dec (S j) (S k)) as [<-|Hne]; [lia|].
      pose proof (o_mono N M H k ltac:(lia)). specialize (IH ltac:(lia) ltac:(lia)). lia. }
    pose proof (G N ltac:(lia) ltac:(lia)). pose proof (o_n N M H). pose proof (o_cap N M H). lia.
  Qed.
  Lemma rows_nth : forall (M : csc F) j t r, csc_ok N M -> j < N -> nth_error (rows M j) t = Some r ->
    nth_error (c_i M) (cptr M j + t) = Some r.
  Proof.
    intros M j t r H Hj Ht. pose proof (nth_err_some _ _ _ _ Ht) as Hl. rewrite (proj1 (rows_len M j H Hj)) in Hl.
    unfold rows in Ht. rewrite nth_error_firstn', nth_error_skipn' in Ht by auto. auto.
  Qed.
  Lemma vals_nth : forall (M : csc F) j t v, csc_ok N M -> j < N -> nth_error (vals M j) t = Some v ->
    nth_error (c_x M) (cptr M j + t) = Some v.
  Proof.
    intros M j t v H Hj Ht. pose proof (nth_err_some _ _ _ _ Ht) as Hl. destruct (rows_len M j H Hj) as [A B]. rewrite B, A in Hl.
    unfold vals in Ht. rewrite nth_error_firstn', nth_error_skipn' in Ht by auto. auto.
  Qed.

  Lemma filter_none : forall A (f : A -> bool) l, (forall x, In x l -> f x = false) -> filter f l = [].
  Proof. induction l as [|a l IH]; simpl; intro H; auto. rewrite H by auto. auto. Qed.
  Lemma filter_sorted : forall (l : list nat) (m : list F) t r v, NoDup l -> nth_error l t = Some r -> nth_error m t = Some v ->
    filter (fun e => Nat.eqb (fst e) r) (combine l m) = [(r, v)].
  Proof.
    induction l as [|a l IH]; intros m t r v HN Hl Hm; destruct t; try discriminate; destruct m as [|b m]; try discriminate; inversion HN; subst.
    - simpl in *. inversion Hl; inversion Hm; subst. rewrite Nat.eqb_refl. f_equal. apply filter_none.
      intros [x y] Hin. apply in_combine_l in Hin. simpl. apply Nat.eqb_neq. intro; subst; contradiction.
    - simpl in *. replace (Nat.eqb a r) with false; [eapply IH; eauto|]. symmetry. apply Nat.eqb_neq. intro; subst.
      apply H1. eapply nth_error_In; eauto.
  Qed.
  Lemma entry_at : forall (M : csc F) j t r v, csc_ok N M -> j < N ->
    nth_error (rows M j) t = Some r -> nth_error (vals M j) t = Some v -> entry M r j = v.
  Proof.
    intros M j t r v H Hj Hr Hv. unfold entry. rewrite (filter_sorted _ _ t r v); auto.
    - simpl. ring.
    - apply SS_NoDup. apply (o_sorted N M H); auto.
  Qed.
  Lemma entry_out : forall (M : csc F) i j, ~ In i (rows M j) -> entry M i j = n0.
  Proof.
    intros M i j H. unfold entry. rewrite filter_none; auto. intros [a b] Hin. apply in_combine_l in Hin. simpl.
    apply Nat.eqb_neq. intro; subst; contradiction.
  Qed.

  Definition patN (M : csc F) (j : nat) : list nat := if Nat.ltb j N then rows M j else [].
  Lemma patN_lt : forall M j, j < N -> patN M j = rows M j.
  Proof. intros M j H. unfold patN. apply Nat.ltb_lt in H. rewrite H. auto. Qed.
  Lemma patN_in : forall M j i, In i (patN M j) -> j < N /\ In i (rows M j).
  Proof. intros M j i H. unfold patN in H. destruct (Nat.ltb_spec j N); auto. contradiction. Qed.

  (** The arrays hold the matrix. *)
  Lemma to_vrep : forall M, csc_ok N M -> vrep F N (patN M) M (entry M).
  Proof.
    intros M H. assert (Hc : forall j, j < N -> nth j (cols F N (patN M) (entry M)) [] = map (fun i => (i, entry M i j)) (rows M j)).
    { intros j Hj. rewrite nth_cols by auto. rewrite patN_lt by auto. auto. }
    constructor.
    - unfold cols. rewrite map_length, seq_length. auto.
    - rewrite (o_p N M H). lia.
    - apply (o_0 N M H).
    - intros j Hj. rewrite Hc by auto. rewrite map_length. rewrite (proj1 (rows_len M j H Hj)).
      pose proof (o_mono N M H j Hj). unfold cstart, cptr in *. rewrite Nat.add_1_r. lia.
    - apply (o_n N M H).
    - apply (o_x N M H).
    - apply (o_cap N M H).
    - intros j k r v Hj Hk. rewrite Hc in Hk by auto. rewrite nth_error_map in Hk. destruct (nth_error (rows M j) k) eqn:E; [|discriminate].
      simpl in Hk. inversion Hk; subst. split; [apply rows_nth; auto|]. destruct (rows_len M j H Hj) as [_ B].
      destruct (nth_err_lt _ (vals M j) k) as (v & Ev); [rewrite B; eapply nth_err_some; eauto|].
      rewrite (entry_at M j k r v H Hj E Ev). apply vals_nth; auto.
  Qed.
  Lemma of_vrep : forall pat M Lv, (forall j, StronglySorted lt (pat j)) -> vrep F N pat M Lv ->
    csc_ok N M /\ (forall j, j < N -> rows M j = pat j)
    /\ (forall i j, j < N -> entry M i j = if mem i (pat j) then Lv i j else n0).
  Proof.
    intros pat M Lv HS H.
    assert (Hend : forall j, j < N -> cptr M (S j) = (cptr M j + length (pat j))%nat).
    { intros j Hj. pose proof (vrep_end F N pat M Lv j H Hj) as E. rewrite Nat.add_1_r in E. exact E. }
    assert (Hcap : forall j, j < N -> (cptr M j + length (pat j) <= length (c_i M))%nat).
    { intros j Hj. pose proof (col_end _ _ _ _ j H Hj) as E. rewrite nth_cols, map_length in E by auto.
      pose proof (r_cap _ _ _ _ H). unfold cstart in E. unfold cptr. lia. }
    assert (Hrows : forall j, j < N -> rows M j = pat j).
    { intros j Hj. apply list_eq_nth. intro t. unfold rows. rewrite Hend by auto. replace (cptr M j + length (pat j) - cptr M j)%nat with (length (pat j)) by lia.
      destruct (Nat.lt_ge_cases t (length (pat j))) as [Ht|Ht].
      - destruct (nth_err_lt _ _ _ Ht) as (r & Er). rewrite Er. rewrite nth_error_firstn', nth_error_skipn' by auto.
        apply (vrep_ent F N pat M Lv j t r H Hj Er).
      - rewrite (proj2 (nth_error_None (pat j) t)) by auto. apply nth_error_None. rewrite firstn_length. lia. }
    assert (HO : csc_ok N M).
    { constructor.
      - rewrite (r_pl _ _ _ _ H). lia.
      - apply (r_p0 _ _ _ _ H).
      - intros j Hj. rewrite Hend by auto. lia.
      - apply (r_n _ _ _ _ H).
      - apply (r_xi _ _ _ _ H).
      - apply (r_cap _ _ _ _ H).
      - intros j Hj. rewrite Hrows by auto. auto. }
    split; auto. split; auto. intros i j Hj. destruct (mem i (pat j)) eqn:E.
    - apply mem_in in E. destruct (In_nth_error _ _ E) as (t & Ht).
      destruct (rows_len M j HO Hj) as [A B]. rewrite Hrows in A, B by auto.
      destruct (nth_err_lt _ (vals M j) t) as (v & Ev); [rewrite B; eapply nth_err_some; eauto|].
      rewrite (entry_at M j t i v HO Hj); auto; [|rewrite Hrows; auto].
      pose proof (vals_nth M j t v HO Hj Ev) as Hv. destruct (vrep_ent F N pat M Lv j t i H Hj Ht) as [_ Hx].
      unfold cptr, cstart in *. congruence.
    - apply mem_nin in E. apply entry_out. rewrite Hrows; auto.
  Qed.
End Bridge.

Section Main.
  Variable F : Fld.
  Add Field Fm : (fth F).
  Variables n N : nat.
  Variable sqr : F -> res F.
  Local Open Scope num_scope.

  (** The upper triangle of the KKT matrix: column [j] ends with its diagonal entry, and the
      lower-right block is diagonal. *)
  Definition kkt_pattern (K : csc F) : Prop :=
    forall j, j < N -> exists up, rows K j = up ++ [j] /\ (forall i, In i up -> (i < j)%nat /\ ((n <= j)%nat -> (i < n)%nat)).
  (** The factor's pattern: strictly lower, includes the matrix, and closed under elimination. *)
  Definition factor_pattern (K L : csc F) : Prop :=
    (forall j i, j < N -> In i (rows L j) -> j < i < N)
    /\ (forall j i k, j < N -> In i (rows L j) -> In k (rows L j) -> (i < k)%nat -> In k (rows L i))
    /\ (forall j i, j < N -> In i (rows K j) -> (i < j)%nat -> In j (rows L i)).
  Record kkt_ws (g : gws F) : Prop := mkKktWs
    { k_L : csc_ok N (gL g); k_K : csc_ok N (gK g);
      k_kp : kkt_pattern (gK g); k_fp : factor_pattern (gK g) (gL g);
      k_D : length (gD g) = N; k_Di : length (gDinv g) = N;
      k_m : (2 * length (gMask g) = N * (N - 1))%nat;
      k_c : length (gc g) = N; k_w : length (gw g) = N; k_wi : length (gwi g) = N;
      k_l : length (gl g) = N; k_li : length (gli g) = N; k_lx : length (glx g) = N }.
  (** The factorisation is that of [M], and [Dinv] inverts [D]. *)
  Definition holds (M : nat -> nat -> F) (g : gws F) : Prop :=
    (forall k, k < N -> nth k (gDinv g) n0 * nth k (gD g) n0 = n1)
    /\ (forall p q, p < N -> q < N -> ldlt N (gL g) (gD g) p q = M p q).

  Hypothesis n_le : (n <= N)%nat.
  Hypothesis sqr_ok : forall x s, sqr x = Ok s -> s * s = x.
  Hypothesis sqr_err : forall x e, sqr x = Err e -> e = Arith.

  Definition kpN (K : csc F) (j : nat) : list nat := if Nat.ltb j N then removelast (rows K j) else [].
  Lemma kpN_spec : forall K j, kkt_pattern K -> j < N -> rows K j = kpN K j ++ [j] /\ (forall i, In i (kpN K j) -> (i < j)%nat /\ ((n <= j)%nat -> (i < n)%nat)).
  Proof.
    intros K j H Hj. unfold kpN. replace (Nat.ltb j N) with true by (symmetry; apply Nat.ltb_lt; auto).
    destruct (H j Hj) as (up & E & Hup). rewrite E, removelast_last. auto.
  Qed.
  Lemma kpN_in : forall K j i, In i (kpN K j) -> j < N.
  Proof. intros K j i H. unfold kpN in H. destruct (Nat.ltb_spec j N); auto. contradiction. Qed.

  Section Pats.
    Variable g : gws F.
    Hypothesis HW : kkt_ws g.
    Let pat := patN F N (gL g).
    Let kp := kpN (gK g).
    Lemma h_pat_sorted : forall j, StronglySorted lt (pat j).
    Proof. intro j. unfold pat, patN. destruct (Nat.ltb_spec j N); [apply (o_sorted N _ (k_L g HW)); auto|constructor]. Qed.
    Lemma h_pat_lower : forall j i, In i (pat j) -> j < i < N.
    Proof. intros j i H. apply patN_in in H. destruct H. apply (proj1 (k_fp g HW)); auto. Qed.
    Lemma h_pat_closed : forall j i k, In i (pat j) -> In k (pat j) -> (i < k)%nat -> In k (pat i).
    Proof.
      intros j i k Hi Hk Hlt. pose proof (h_pat_lower _ _ Hi). apply patN_in in Hi. apply patN_in in Hk. destruct Hi, Hk.
      unfold pat. rewrite patN_lt by lia. apply (proj1 (proj2 (k_fp g HW)) j); auto.
    Qed.
    Lemma h_kp_sorted : forall j, StronglySorted lt (kp j).
    Proof.
      intro j. destruct (Nat.lt_ge_cases j N) as [Hj|Hj].
      - destruct (kpN_spec _ j (k_kp g HW) Hj) as [E _]. pose proof (o_sorted N _ (k_K g HW) j Hj) as HS. rewrite E in HS.
        fold kp in HS. clear E. induction (kp j) as [|a l IH]; [constructor|]. simpl in HS. inversion HS; subst. constructor; auto.
        apply Forall_app in H2. tauto.
      - unfold kp, kpN. replace (Nat.ltb j N) with false by (symmetry; apply Nat.ltb_ge; auto). constructor.
    Qed.
    Lemma h_kp_upper : forall j i, In i (kp j) -> (i < j)%nat.
    Proof. intros j i H. pose proof (kpN_in _ _ _ H) as Hj. destruct (kpN_spec _ j (k_kp g HW) Hj) as [_ E]. apply E; auto. Qed.
    Lemma h_kp_blocks : forall j i, In i (kp j) -> (n <= j)%nat -> (i < n)%nat.
    Proof. intros j i H Hn. pose proof (kpN_in _ _ _ H) as Hj. destruct (kpN_spec _ j (k_kp g HW) Hj) as [_ E]. apply E; auto. Qed.
    Lemma h_kp_pat : forall j i, j < N -> In i (kp j) -> In j (pat i).
    Proof.
      intros j i Hj H. pose proof (h_kp_upper _ _ H). unfold pat. rewrite patN_lt by lia. apply (proj2 (proj2 (k_fp g HW))); auto.
      destruct (kpN_spec _ j (k_kp g HW) Hj) as [E _]. rewrite E. apply in_or_app. auto.
    Qed.
    Lemma h_kvrep : LdlRank1.vrep F N (kpat kp) (gK g) (entry (gK g)).
    Proof.
      pose proof (to_vrep F N (gK g) (k_K g HW)) as H. unfold LdlRank1.vrep in *.
      replace (cols F N (kpat kp) (entry (gK g))) with (cols F N (patN F N (gK g)) (entry (gK g))); auto.
      apply map_ext_in. intros j Hj. apply in_seq in Hj. rewrite patN_lt by lia.
      destruct (kpN_spec _ j (k_kp g HW) ltac:(lia)) as [E _]. rewrite E. auto.
    Qed.
    Lemma h_Kn : forall i j, j < N -> Kn F kp (entry (gK g)) i j = entry (gK g) i j.
    Proof.
      intros i j Hj. unfold Kn. destruct (mem i (kpat kp j)) eqn:E; auto. apply mem_nin in E. symmetry. apply entry_out.
      destruct (kpN_spec _ j (k_kp g HW) Hj) as [E' _]. rewrite E'. auto.
    Qed.
    Lemma h_target : forall act p q, p < N -> q < N -> target F kp (entry (gK g)) act p q = masked act (sym_entry (gK g)) p q.
    Proof. intros act p q Hp Hq. unfold target, masked, Ks, sym_entry. rewrite !h_Kn by auto. auto. Qed.

    Lemma h_gram : forall D Df p q, LdlRank1.arr N D Df -> ldlt N (gL g) D p q = gram F 0 N (entry (gL g)) Df p q.
    Proof.
      intros D Df p q HD. unfold ldlt, gram. apply rsum_ext. intros k Hk. apply in_seq in Hk.
      rewrite (nth_error_nth _ _ n0 (proj2 HD k ltac:(lia))). auto.
    Qed.

    (** A row and column equal to those of minus the identity have no off-diagonal factor entries. *)
    Lemma dead_factor : forall (Lv : nat -> nat -> F) Df m, m < N ->
      (forall i j, (i <= j)%nat -> Lv i j = n0) -> (forall k, k < N -> Df k <> n0) ->
      (forall q, q < N -> q <> m -> gram F 0 N Lv Df m q = n0) ->
      forall q, q < N -> Lv m q = n0 /\ Lv q m = n0.
    Proof.
      intros Lv Df m Hm Hup HD HG.
      assert (Hun0 : forall i k, (i < k)%nat -> un F Lv i k = n0).
      { intros i k Hik. unfold un. replace (Nat.eqb i k) with false by (symmetry; apply Nat.eqb_neq; lia). apply Hup. lia. }
      assert (Hrow : forall q, (q < m)%nat -> Lv m q = n0).
      { induction q as [q IH] using lt_wf_ind. intro Hq. specialize (HG q ltac:(lia) ltac:(lia)). unfold gram in HG.
        rewrite (rsum_single F _ N (s := 0%nat) (k := q)) in HG.
        - unfold un in HG. rewrite Nat.eqb_refl in HG. replace (Nat.eqb m q) with false in HG by (symmetry; apply Nat.eqb_neq; lia).
          pose proof (HD q ltac:(lia)) as Hd. transitivity (Lv m q * Df q * n1 / Df q); [field; auto|]. rewrite HG. field. auto.
        - lia.
        - intros k Hk Hne. destruct (Nat.lt_ge_cases k q) as [Hkq|Hkq].
          + unfold un at 1. replace (Nat.eqb m k) with false by (symmetry; apply Nat.eqb_neq; lia). rewrite IH by lia. ring.
          + rewrite (Hun0 q k) by lia. ring. }
      assert (Hrow' : forall q, Lv m q = n0) by (intro q; destruct (Nat.lt_ge_cases q m); auto).
      intros q Hq. split; auto. destruct (Nat.lt_ge_cases m q) as [Hmq|Hmq]; [|apply Hup; auto].
      specialize (HG q Hq ltac:(lia)). unfold gram in HG. rewrite (rsum_single F _ N (s := 0%nat) (k := m)) in HG.
      - unfold un in HG. rewrite Nat.eqb_refl in HG. replace (Nat.eqb q m) with false in HG by (symmetry; apply Nat.eqb_neq; lia).
        pose proof (HD m Hm) as Hd. transitivity (n1 * Df m * Lv q m / Df m); [field; auto|]. rewrite HG. field. auto.
      - lia.
      - intros k Hk Hne. unfold un at 1. replace (Nat.eqb m k) with false by (symmetry; apply Nat.eqb_neq; lia). rewrite Hrow'. ring.
    Qed.

    Lemma entry_upper : forall i j, j < N -> (i <= j)%nat -> entry (gL g) i j = n0.
    Proof. intros i j Hj Hi. apply entry_out. intro Hin. apply (proj1 (k_fp g HW)) in Hin; auto. lia. Qed.

    Lemma to_factored : forall act, holds (masked act (sym_entry (gK g))) g ->
      factored F N pat kp (entry (gK g)) act g.
    Proof.
      intros act [Hinv Hf]. set (Lv := fun i j => if Nat.ltb j N then entry (gL g) i j else n0).
      exists Lv, (fun k => nth k (gD g) n0), (fun k => nth k (gDinv g) n0).
      assert (HD : LdlRank1.arr N (gD g) (fun k => nth k (gD g) n0)) by (apply arr_of; apply (k_D g HW)).
      assert (HLN : forall i j, j < N -> Lv i j = entry (gL g) i j) by (intros i j Hj; unfold Lv; apply Nat.ltb_lt in Hj; rewrite Hj; auto).
      assert (HG : forall p q, p < N -> q < N -> gram F 0 N Lv (fun k => nth k (gD g) n0) p q = target F kp (entry (gK g)) act p q).
      { intros p q Hp Hq. rewrite h_target by auto. rewrite <- Hf by auto. rewrite (h_gram _ _ p q HD).
        apply rsum_ext. intros k Hk. apply in_seq in Hk. unfold un. rewrite !HLN by lia. auto. }
      constructor.
      - eapply vrep_ext; [apply (to_vrep F N _ (k_L g HW))|]. intros j i Hj _. rewrite HLN; auto.
      - intros i j Hni. destruct (Nat.lt_ge_cases j N) as [Hj|Hj].
        + rewrite HLN by auto. apply entry_out. unfold pat in Hni. rewrite patN_lt in Hni by auto. auto.
        + unfold Lv. apply Nat.ltb_ge in Hj. rewrite Hj. auto.
      - exact HD.
      - apply arr_of. apply (k_Di g HW).
      - exact Hinv.
      - exact HG.
      - intros m k Ham Hm.
        assert (Hd : forall k, k < N -> nth k (gD g) n0 <> n0).
        { intros k' Hk' E. pose proof (Hinv k' Hk') as H. rewrite E in H. apply (F_1_neq_0 (fth F)). rewrite <- H. ring. }
        assert (Hup : forall i j, (i <= j)%nat -> Lv i j = n0).
        { intros i j Hij. unfold Lv. destruct (Nat.ltb_spec j N); auto. apply entry_upper; auto. }
        assert (Hz : forall q, q < N -> Lv m q = n0 /\ Lv q m = n0).
        { apply (dead_factor Lv _ m Hm Hup Hd). intros q Hq Hne. rewrite HG by auto. unfold target. rewrite Ham. cbn [andb].
          replace (Nat.eqb m q) with false by (symmetry; apply Nat.eqb_neq; auto). auto. }
        destruct (Nat.lt_ge_cases k N) as [Hk|Hk]; [apply Hz; auto|]. split.
        + unfold Lv. apply Nat.ltb_ge in Hk. rewrite Hk. auto.
        + rewrite HLN by auto. apply entry_out. intro Hin. apply (proj1 (k_fp g HW)) in Hin; auto. lia.
      - apply h_kvrep.
      - apply (k_m g HW).
      - apply (k_c g HW). 
      - apply (k_w g HW). 
      - apply (k_wi g HW). 
      - apply (k_l g HW). 
      - apply (k_li g HW). 
      - apply (k_lx g HW).
    Qed.
    Lemma of_factored : forall act g', factored F N pat kp (entry (gK g)) act g' ->
      kkt_ws g' /\ holds (masked act (sym_entry (gK g))) g'
      /\ (forall j, j < N -> rows (gL g') j = rows (gL g) j)
      /\ (forall j, j < N -> rows (gK g') j = rows (gK g) j) /\ (forall i j, j < N -> entry (gK g') i j = entry (gK g) i j).
    Proof.
      intros act g' (Lv & Df & Di & [HL Hn HD HDi Hinv Hf Hdead HK Hmask Hlc Hlw Hlwi Hll Hlli Hllx]).
      destruct (of_vrep F N pat (gL g') Lv h_pat_sorted HL) as (A1 & A2 & A3).
      destruct (of_vrep F N (kpat kp) (gK g') (entry (gK g)) (kpat_sorted kp h_kp_sorted h_kp_upper) HK) as (B1 & B2 & B3).
      assert (A2' : forall j, j < N -> rows (gL g') j = rows (gL g) j) by (intros j Hj; rewrite A2 by auto; apply patN_lt; auto).
      assert (B2' : forall j, j < N -> rows (gK g') j = rows (gK g) j).
      { intros j Hj. rewrite B2 by auto. destruct (kpN_spec _ j (k_kp g HW) Hj) as [E _]. rewrite E. auto. }
      assert (B3' : forall i j, j < N -> entry (gK g') i j = entry (gK g) i j).
      { intros i j Hj. rewrite B3 by auto. apply h_Kn; auto. }
      split; [|split; [|auto]].
      - constructor; auto; try (apply (proj1 HD)); try (apply (proj1 HDi)).
        + intros j Hj. rewrite B2' by auto. apply (k_kp g HW j Hj).
        + destruct (k_fp g HW) as (F1 & F2 & F3). split; [|split].
          * intros j i Hj. rewrite A2' by auto. auto.
          * intros j i k Hj Hi Hk Hlt. rewrite A2' in Hi, Hk by auto. pose proof (F1 j i Hj Hi). rewrite A2' by lia. eapply F2; eauto.
          * intros j i Hj Hi Hlt. rewrite B2' in Hi by auto. rewrite A2' by lia. auto.
      - split.
        + intros k Hk. rewrite (nth_error_nth _ _ n0 (proj2 HD k Hk)), (nth_error_nth _ _ n0 (proj2 HDi k Hk)). auto.
        + intros p q Hp Hq. rewrite <- h_target by auto. rewrite <- Hf by auto. unfold ldlt, gram. apply rsum_ext. intros k Hk. apply in_seq in Hk.
          rewrite (nth_error_nth _ _ n0 (proj2 HD k ltac:(lia))). unfold unit_entry, un.
          assert (E : forall i, entry (gL g') i k = Lv i k).
          { intro i. rewrite A3 by lia. destruct (mem i (pat k)) eqn:E; auto. apply mem_nin in E. rewrite Hn; auto. }
          rewrite !E. auto.
    Qed.
  End Pats.

  (** One update keeps the structure, the matrix, and the factorisation for the new active set. *)
  Definition same_mat (K K' : csc F) : Prop :=
    (forall j, j < N -> rows K' j = rows K j) /\ (forall i j, j < N -> entry K' i j = entry K i j).
  Lemma masked_same : forall act K K' p q, same_mat K K' -> p < N -> q < N -> masked act (sym_entry K') p q = masked act (sym_entry K) p q.
  Proof. intros act K K' p q [_ H] Hp Hq. unfold masked, sym_entry. rewrite !H by auto. auto. Qed.
  Definition good_ws (act : nat -> bool) (g : gws F) : Prop := kkt_ws g /\ holds (masked act (sym_entry (gK g))) g.

  Lemma holds_ext : forall M M' g, (forall p q, p < N -> q < N -> M p q = M' p q) -> holds M g -> holds M' g.
  Proof. intros M M' g E [H1 H2]. split; auto. intros p q Hp Hq. rewrite H2, E; auto. Qed.

  (** The errors that may happen. *)
  Variable Er : exn -> Prop.
  Lemma stuck_ext : forall M M' : nat -> nat -> F, (forall p q, p < N -> q < N -> M p q = M' p q) -> stuck n N sqr M -> stuck n N sqr M'.
  Proof.
    intros M M' H [(j & Hj & HP)|(j & d & e & Hj & HP & He)]; [left; exists j|right; exists j, d, e].
    - split; auto. eapply pivot_ext; eauto.
    - split; auto. split; auto. eapply pivot_ext; [lia|exact H|auto].
  Qed.
  Lemma admits_ext : forall M M' : nat -> nat -> F, (forall p q, p < N -> q < N -> M p q = M' p q) -> admits n N sqr Er M -> admits n N sqr Er M'.
  Proof.
    intros M M' H HE act Ha Hs. apply (HE act Ha). eapply stuck_ext; [|exact Hs]. intros p q Hp Hq. unfold masked. rewrite H by auto. auto.
  Qed.
  Lemma admits_target : forall g, kkt_ws g -> admits n N sqr Er (sym_entry (gK g)) ->
    forall act, (forall k, (k < n)%nat -> act k = true) -> stuck n N sqr (target F (kpN (gK g)) (entry (gK g)) act) -> Er Arith.
  Proof.
    intros g HW HE act Ha Hs. apply (HE act Ha). eapply stuck_ext; [|exact Hs]. intros p q Hp Hq. apply (h_target g HW); auto.
  Qed.

  Theorem delete_good : forall act g m, good_ws act g -> admits n N sqr Er (sym_entry (gK g)) -> (n <= m)%nat -> m < N -> act m = true ->
    (forall k, (k < n)%nat -> act k = true) ->
    run Er (ldl_delete F N sqr m g) (fun g' => good_ws (fset act m false) g' /\ same_mat (gK g) (gK g')
      /\ forall j, j < N -> rows (gL g') j = rows (gL g) j).
  Proof.
    intros act g m [HW HH] HE Hnm Hm Ha Hn.
    eapply run_imp; [apply (delete_ok F n N n_le (patN F N (gL g)) (h_pat_sorted g HW) (h_pat_lower g HW) (h_pat_closed g HW) sqr sqr_ok sqr_err (kpN (gK g)) (h_kp_pat g HW) (entry (gK g)) Er (admits_target g HW HE) act g m); auto|].
    - apply to_factored; auto.
    - intros g' Hg'. destruct (of_factored g HW _ g' Hg') as (A & B & C & D & E). split; [|split; [split|]; auto].
      split; auto. eapply holds_ext; [|exact B]. intros p q Hp Hq. symmetry. apply masked_same; auto. split; auto.
  Qed.
  Theorem add_good : forall act g m, good_ws act g -> admits n N sqr Er (sym_entry (gK g)) -> m < N -> act m = false ->
    (forall k, (k < n)%nat -> act k = true) ->
    run Er (ldl_add F N sqr m g) (fun g' => good_ws (fset act m true) g' /\ same_mat (gK g) (gK g')
      /\ forall j, j < N -> rows (gL g') j = rows (gL g) j).
  Proof.
    intros act g m [HW HH] HE Hm Ha Hn.
    eapply run_imp; [apply (add_ok F n N n_le (patN F N (gL g)) (h_pat_sorted g HW) (h_pat_lower g HW) (h_pat_closed g HW) sqr sqr_ok sqr_err (kpN (gK g))
       (h_kp_sorted g HW) (h_kp_upper g HW) (h_kp_blocks g HW) (h_kp_pat g HW) (entry (gK g)) Er (admits_target g HW HE) act g m); auto|].
    - apply to_factored; auto.
    - intros g' Hg'. destruct (of_factored g HW _ g' Hg') as (A & B & C & D & E). split; [|split; [split|]; auto].
      split; auto. eapply holds_ext; [|exact B]. intros p q Hp Hq. symmetry. apply masked_same; auto. split; auto.
  Qed.
End Main.
