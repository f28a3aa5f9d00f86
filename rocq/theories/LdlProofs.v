(** Deactivating and activating constraints keeps an exact factorisation. *)

From Coq Require Import Arith Bool ZArith Lia List Sorted Field.
From Verif Require Import Base Machine Runtime RuntimeProofs Sparse SparseProofs Ldl GradSpec LdlRank1.
Import ListNotations.

Lemma run_list : forall E S A (I : nat -> S -> Prop) f (l : list A) st s, I 0 s ->
  (forall t r s, nth_error l t = Some r -> I t s -> run E (f (st + t) s) (I (Datatypes.S t))) ->
  run E (for_ (length l) st f s) (I (length l)).
Proof.
  intros E S A I f l st s H0 HS.
  replace (length l) with (st + length l - st) at 2 by lia.
  apply (run_for E S (fun k => I (k - st))).
  - rewrite Nat.sub_diag. auto.
  - intros k s' Hk HI. destruct (nth_err_lt _ l (k - st) ltac:(lia)) as (r & Hr).
    replace k with (st + (k - st)) at 1 by lia. replace (Datatypes.S k - st) with (Datatypes.S (k - st)) by lia. eapply HS; eauto.
Qed.
Lemma run_list_break : forall E S A (I : nat -> S -> Prop) (Q : S -> Prop) f (l : list A) st s, I 0 s ->
  (forall t r s, nth_error l t = Some r -> I t s ->
     run E (f (st + t) s) (fun x => if fst x : bool then I (Datatypes.S t) (snd x) else Q (snd x))) ->
  (forall s, I (length l) s -> Q s) ->
  run E (for_break (length l) st f s) Q.
Proof.
  intros E S A I Q f l st s H0 HS HQ.
  apply (run_for_break E S (fun k => I (k - st))).
  - rewrite Nat.sub_diag. auto.
  - intros k s' Hk HI. destruct (nth_err_lt _ l (k - st) ltac:(lia)) as (r & Hr).
    replace k with (st + (k - st)) at 1 by lia. replace (Datatypes.S k - st) with (Datatypes.S (k - st)) by lia. eapply HS; eauto.
  - intros s' H. replace (st + length l - st) with (length l) in H by lia. auto.
Qed.
Lemma SS_app_inv : forall l1 l2, StronglySorted lt (l1 ++ l2) -> forall a b, In a l1 -> In b l2 -> a < b.
Proof.
  induction l1 as [|x l1 IH]; simpl; intros l2 H a b Ha Hb; [contradiction|]. inversion H; subst. destruct Ha as [->|Ha].
  - rewrite Forall_forall in H3. apply H3. apply in_or_app. auto.
  - eapply IH; eauto.
Qed.
Lemma SS_firstn : forall l t r a, StronglySorted lt l -> nth_error l t = Some r -> In a (firstn t l) -> a < r.
Proof.
  intros l t r a HS Ht Ha. rewrite <- (firstn_skipn t l) in HS. eapply SS_app_inv; eauto.
  destruct (nth_error_split l t Ht) as (l1 & l2 & -> & Hl). rewrite <- Hl. rewrite skipn_app, Nat.sub_diag, skipn_all2 by lia. simpl. auto.
Qed.
Lemma SS_bound : forall l a b, StronglySorted lt l -> (forall x, In x l -> a <= x < b) -> length l <= b - a.
Proof.
  induction l as [|x l IH]; simpl; intros a b HS H; [lia|]. inversion HS; subst. rewrite Forall_forall in H3.
  pose proof (H x (or_introl eq_refl)). assert (length l <= b - S a); [|lia]. apply IH; auto. intros y Hy.
  pose proof (H3 y Hy). pose proof (H y (or_intror Hy)). lia.
Qed.
Lemma SS_seq : forall n s, StronglySorted lt (seq s n).
Proof.
  induction n; intro s; simpl; constructor; auto. apply Forall_forall. intros x Hx. apply in_seq in Hx. lia.
Qed.
Lemma SS_filter : forall (f : nat -> bool) l, StronglySorted lt l -> StronglySorted lt (filter f l).
Proof.
  induction l as [|a l IH]; simpl; intro H; auto. inversion H; subst. destruct (f a); auto. constructor; auto.
  apply Forall_forall. intros x Hx. apply filter_In in Hx. rewrite Forall_forall in H3. apply H3. tauto.
Qed.

Section LdlProofs.
  Variable F : Fld.
  Add Field Ff : (fth F).
  Variables n N : nat.
  Hypothesis n_le : n <= N.
  Variable pat : nat -> list nat.
  Hypothesis pat_sorted : forall j, StronglySorted lt (pat j).
  Hypothesis pat_lower : forall j i, In i (pat j) -> j < i < N.
  Hypothesis pat_closed : forall j i k, In i (pat j) -> In k (pat j) -> i < k -> In k (pat i).
  Variable sqr : F -> res F.
  Hypothesis sqr_ok : forall x s, sqr x = Ok s -> nmul s s = x.
  Hypothesis sqr_err : forall x e, sqr x = Err e -> e = Arith.
  (** The matrix: strictly upper rows of each column, then the diagonal entry. *)
  Variable kp : nat -> list nat.
  Hypothesis kp_sorted : forall j, StronglySorted lt (kp j).
  Hypothesis kp_upper : forall j i, In i (kp j) -> i < j.
  Hypothesis kp_blocks : forall j i, In i (kp j) -> n <= j -> i < n.
  Hypothesis kp_pat : forall j i, j < N -> In i (kp j) -> In j (pat i).
  Variable Kv : nat -> nat -> F.
  Local Open Scope num_scope.
  Notation vrep := (vrep F N pat).
  Notation norm := (norm F pat).
  Notation un := (un F).
  Notation fup := (fup F).
  Notation gram := (gram F).
  Notation wplus := (wplus F).

  Definition kpat (j : nat) : list nat := kp j ++ [j].
  Definition Kn (i j : nat) : F := if mem i (kpat j) then Kv i j else n0.
  (** The symmetric matrix stored by its upper part. *)
  Definition Ks (p q : nat) : F := if Nat.leb p q then Kn p q else Kn q p.
  (** The matrix that should be factored. *)
  Definition target (act : nat -> bool) (p q : nat) : F :=
    if act p && act q then Ks p q else if Nat.eqb p q then - n1 else n0.

  (** The errors that may happen: a breakdown only if some matrix that should be factored has one. *)
  Variable Er : exn -> Prop.
  Hypothesis Er_ok : forall act, (forall k, k < n -> act k = true) -> stuck n N sqr (target act) -> Er Arith.

  Lemma kpat_sorted : forall j, StronglySorted lt (kpat j).
  Proof.
    intro j. unfold kpat. assert (H : forall l, StronglySorted lt l -> (forall x, In x l -> x < j) -> StronglySorted lt (l ++ [j])).
    { induction l as [|a l IH]; simpl; intros HS Hx; [repeat constructor|]. inversion HS; subst. constructor; auto.
      apply Forall_app. split; auto. }
    apply H; [apply kp_sorted|]. intros x Hx. apply kp_upper. exact Hx.
  Qed.

  (** *** Small loops *)
  Lemma zeros_ok : forall m l f, arr N l f -> (m <= N)%nat ->
    run Er (zeros F m l) (fun l' => arr N l' (fun i => if Nat.ltb i m then n0 else f i)).
  Proof.
    intros m l f Hl Hm. unfold zeros.
    apply (run_for Er _ (fun k l' => arr N l' (fun i => if Nat.ltb i k then n0 else f i))).
    - eapply arr_ext; eauto.
    - intros k l' Hk Hl'. apply run_put'; [rewrite (proj1 Hl'); lia|].
      eapply arr_ext; [apply arr_upd; [exact Hl'|lia]|]. intros i Hi. unfold fset.
      destruct (Nat.eqb_spec i k), (Nat.ltb_spec i k), (Nat.ltb_spec i (S k)); auto; lia.
  Qed.

  Lemma vinsert : forall L Lv row col keep v, vrep L Lv -> In row (pat col) ->
    run Er (insert N L row col keep v) (fun L' => vrep L' (if keep then Lv else fup Lv row col v)).
  Proof.
    intros L Lv row col keep v HL Hin. pose proof (pat_lower _ _ Hin) as Hlow. assert (Hc : col < N) by lia.
    destruct (In_nth_error _ _ Hin) as (t & Ht).
    assert (Hcc : nth_error (nth col (cols F N pat Lv) []) t = Some (row, Lv row col)).
    { rewrite nth_cols by auto. rewrite nth_error_map, Ht. auto. }
    assert (HS : sorted (nth col (cols F N pat Lv) [])).
    { unfold sorted. rewrite nth_cols by auto. rewrite map_map. simpl. rewrite map_id. auto. }
    pose proof (find_in _ row _ _ HS (nth_error_In _ _ Hcc)) as Hf.
    destruct (insert_ok F N L (cols F N pat Lv) row col keep v HL Hc ltac:(lia) HS) as (L' & E & R & _); [rewrite Hf; discriminate|].
    rewrite E. cbn [run]. rewrite (ins_found F keep row v _ t (Lv row col) HS Hcc) in R. unfold LdlRank1.vrep.
    destruct (vrep_put F N pat pat_sorted L Lv col t row (if keep then Lv row col else v) HL Hc Ht) as [_ Hv].
    assert (Ec : cols F N pat (fup Lv row col (if keep then Lv row col else v))
                 = upd (cols F N pat Lv) col (upd (nth col (cols F N pat Lv) []) t (row, if keep then Lv row col else v))).
    { clear R E Hf HS. assert (Hl : length (cols F N pat Lv) = N) by (unfold cols; rewrite map_length, seq_length; auto).
      symmetry. apply nth_ext_len with (d := []).
      + rewrite upd_length. unfold cols. rewrite !map_length. auto.
      + rewrite upd_length, Hl. intros k Hk. rewrite (nth_cols F N pat (fup _ _ _ _)) by auto.
        destruct (Nat.eq_dec k col) as [->|Hne].
        * rewrite nth_upd_eq by lia. rewrite nth_cols by auto. set (v0 := if keep then Lv row col else v).
          assert (G : forall l t, NoDup l -> nth_error l t = Some row ->
                   upd (map (fun i => (i, Lv i col)) l) t (row, v0) = map (fun i => (i, fup Lv row col v0 i col)) l).
          { induction l as [|a l IH]; intros t0 HN H0; destruct t0; simpl in *; try discriminate.
            - inversion H0; subst. f_equal.
              + unfold LdlRank1.fup. rewrite !Nat.eqb_refl. auto.
              + apply map_ext_in. intros i Hi. unfold LdlRank1.fup. destruct (Nat.eqb_spec i row); auto. subst. inversion HN; contradiction.
            - inversion HN; subst. f_equal; auto. unfold LdlRank1.fup. destruct (Nat.eqb_spec a row); auto. subst.
              apply nth_error_In in H0. contradiction. }
          apply G; auto. apply SS_NoDup. auto.
        * rewrite nth_upd_neq by auto. rewrite nth_cols by auto. apply map_ext. intro i. unfold LdlRank1.fup.
          apply Nat.eqb_neq in Hne. rewrite Hne, andb_false_r. auto. }
    rewrite <- Ec in R. destruct keep; [|exact R]. eapply vrep_ext; [exact R|]. intros j i _ _. unfold LdlRank1.fup.
    destruct (Nat.eqb_spec i row), (Nat.eqb_spec j col); subst; auto.
  Qed.

  (** *** Sums over all columns *)
  Local Notation gram_split := (LdlRank1.gram_split F N).
  Local Notation gram_high := (LdlRank1.gram_high F N pat pat_lower).

  (** The rank-one theorem over the whole matrix. *)
  Lemma rank1_full : forall (act : nat -> bool) sigma off L D Dinv w Lv Df Di wf,
    (off <= N)%nat -> vrep L Lv -> norm Lv -> arr N D Df -> arr N Dinv Di -> arr N w wf -> clique F N pat off wf ->
    (forall k, k < N -> Di k * Df k = n1) ->
    (forall m k, act m = false -> m < N -> (off <= m -> wf m = n0)%nat /\ Lv m k = n0 /\ Lv k m = n0) ->
    (forall j, j < N -> pivot N (fun p q => gram 0 N Lv Df p q + sigma * wplus off wf p * wplus off wf q) j n0 -> Er Arith) ->
    run Er (rank1 F N sigma off L D Dinv w) (fun '(L', D', Dinv', w') => exists Lv' Df' Di',
      vrep L' Lv' /\ norm Lv' /\ arr N D' Df' /\ arr N Dinv' Di' /\ length w' = N
      /\ (forall k, k < N -> Di' k * Df' k = n1)
      /\ (forall p q, p < N -> q < N -> gram 0 N Lv' Df' p q = gram 0 N Lv Df p q + sigma * wplus off wf p * wplus off wf q)
      /\ (forall m k, act m = false -> m < N -> Lv' m k = n0 /\ Lv' k m = n0)).
  Proof.
    intros act sigma off L D Dinv w Lv Df Di wf Hoff HL Hn HD HDi Hw Hcl Hinv Hdead HE.
    pose proof (rank1_ok F N pat pat_sorted pat_lower Er pat_closed (fun m => act m = false) sigma off L D Dinv w Lv Df Di wf
                  Hoff HL Hn HD HDi Hw Hcl Hinv) as R.
    eapply run_imp; [apply R|].
    - intros m k Hm Hr. destruct (Hdead m k Hm ltac:(lia)) as (A & B & C). split; auto. apply A. lia.
    - exact HE.
    - intros [[[L' D'] Dinv'] w'] (Lv' & Df' & Di' & H1 & H2 & H3 & H4 & H5 & H6 & H7 & H8 & H9).
      exists Lv', Df', Di'. do 6 (split; [assumption|]). split.
      + intros p q Hp Hq. rewrite (gram_split off Lv' Df') by auto. rewrite (gram_split off Lv Df) by auto.
        assert (E0 : gram 0 off Lv' Df' p q = gram 0 off Lv Df p q).
        { apply rsum_ext. intros k Hk. apply in_seq in Hk. destruct (H8 k ltac:(lia)) as [A B]. rewrite A. unfold LdlRank1.un. rewrite !B. auto. }
        rewrite E0. unfold LdlRank1.wplus. destruct (Nat.leb_spec off p) as [Hop|Hop].
        * destruct (Nat.leb_spec off q) as [Hoq|Hoq].
          -- rewrite H7 by lia. ring.
          -- rewrite !gram_high by auto. ring.
        * rewrite !gram_high by auto. ring.
      + intros m k Hm Hr. destruct (Hdead m k Hm Hr) as (_ & B & C). destruct (Nat.lt_ge_cases m off) as [Hlt|Hge].
        * split.
          -- destruct (Nat.lt_ge_cases k off) as [Hk|Hk].
             ++ destruct (H8 k Hk) as [_ E]. rewrite E. auto.
             ++ apply (norm_upper F N pat pat_lower Lv' m k H2). lia.
          -- destruct (H8 m Hlt) as [_ E]. rewrite E. auto.
        * destruct (H9 m k Hm ltac:(lia)) as (_ & E1 & E2). split; auto.
          destruct (Nat.lt_ge_cases k off) as [Hk|Hk]; auto. destruct (H8 k Hk) as [_ E]. rewrite E. auto.
  Qed.

  (** *** State *)
  Record good (act : nat -> bool) (g : gws F) (Lv : nat -> nat -> F) (Df Di : nat -> F) : Prop := mkGood
    { g_L : vrep (gL g) Lv;
      g_norm : norm Lv;
      g_D : arr N (gD g) Df;
      g_Di : arr N (gDinv g) Di;
      g_inv : forall k, k < N -> Di k * Df k = n1;
      g_fact : forall p q, p < N -> q < N -> gram 0 N Lv Df p q = target act p q;
      g_dead : forall m k, act m = false -> m < N -> Lv m k = n0 /\ Lv k m = n0;
      g_K : LdlRank1.vrep F N kpat (gK g) Kv;
      g_mask : (2 * length (gMask g) = N * (N - 1))%nat;
      g_lc : length (gc g) = N; g_lw : length (gw g) = N; g_lwi : length (gwi g) = N;
      g_ll : length (gl g) = N; g_lli : length (gli g) = N; g_llx : length (glx g) = N }.
  Definition factored (act : nat -> bool) (g : gws F) : Prop := exists Lv Df Di, good act g Lv Df Di.

  (** *** Deactivation *)
  Definition root (x : F) : F := match sqr x with Ok s => s | Err _ => n0 end.

  Lemma run_sqr : forall B x (g : F -> res B) Q, (forall e, sqr x = Err e -> Er Arith) -> (root x * root x = x -> run Er (g (root x)) Q) -> run Er (bind (sqr x) g) Q.
  Proof.
    intros B x g Q HE H. unfold root in H. destruct (sqr x) as [s|e] eqn:E.
    - simpl. apply H. apply sqr_ok. auto.
    - simpl. rewrite (sqr_err _ _ E). apply (HE e). auto.
  Qed.

  Lemma delete_w_ok : forall m L D w wi Lv Df, vrep L Lv -> norm Lv -> arr N D Df -> length w = N -> length wi = N -> m < N ->
    (forall e, sqr (- Df m) = Err e -> Er Arith) ->
    run Er (delete_w F N sqr m L D w wi) (fun '(wi', w', size) =>
      size = length (pat m) /\ length wi' = N
      /\ (forall t r, nth_error (pat m) t = Some r -> nth_error wi' t = Some (r - m - 1)%nat)
      /\ (pat m = [] \/ root (- Df m) * root (- Df m) = - Df m)
      /\ arr N w' (fun i => Lv i m * root (- Df m))).
  Proof.
    intros m L D w wi Lv Df HL Hn HD Hw Hwi Hm HE. unfold delete_w.
    eapply run_bind; [eapply zeros_ok; [apply (arr_of _ _ _ n0 Hw)|lia]|]. intros w0 Hw0.
    eapply run_get; [eapply vrep_p; eauto; lia|]. eapply run_get; [eapply vrep_p; eauto; lia|].
    rewrite (vrep_end F N pat L Lv m HL Hm). replace (cstart L m + length (pat m) - cstart L m)%nat with (length (pat m)) by lia.
    assert (Hpl : (length (pat m) <= N)%nat).
    { pose proof (SS_bound (pat m) 0 N (pat_sorted m)). rewrite Nat.sub_0_r in H. apply H. intros x Hx. apply pat_lower in Hx. lia. }
    set (I := fun t (st : list nat * list F) => let '(wi', w') := st in
      length wi' = N /\ (forall t' r, (t' < t)%nat -> nth_error (pat m) t' = Some r -> nth_error wi' t' = Some (r - m - 1)%nat)
      /\ (t = 0%nat \/ root (- Df m) * root (- Df m) = - Df m)
      /\ arr N w' (fun i => if mem i (firstn t (pat m)) then Lv i m * root (- Df m) else n0)).
    eapply run_bind with (P := I (length (pat m))).
    - apply run_list.
      + simpl. split; auto. split; [intros; lia|]. split; auto. eapply arr_ext; [exact Hw0|]. intros i Hi. simpl.
        replace (Nat.ltb i N) with true by (symmetry; apply Nat.ltb_lt; auto). auto.
      + intros t r [wi1 w1] Hr (H1 & H2 & H3 & H4). pose proof (nth_error_In _ _ Hr) as Hin. pose proof (pat_lower _ _ Hin) as Hlow.
        pose proof (nth_err_some _ _ _ _ Hr) as Htl.
        destruct (vrep_ent F N pat L Lv m t r HL Hm Hr) as [Hi Hx]. simpl.
        eapply run_get; [exact Hi|]. eapply run_put; [lia|].
        eapply run_get; [rewrite nth_error_upd by lia; rewrite Nat.eqb_refl; reflexivity|].
        eapply run_get; [exact Hx|]. eapply run_get; [apply (proj2 HD); lia|].
        apply run_sqr; [exact HE|]. intro Hs. replace (m + 1 + (r - m - 1))%nat with r by lia. eapply run_put; [rewrite (proj1 H4); lia|].
        cbn [run]. split; [rewrite upd_length; auto|]. split; [|split; auto].
        * intros t' r' Ht' Hr'. rewrite nth_error_upd by lia. destruct (Nat.eqb_spec t' t).
          -- subst. congruence.
          -- apply H2; auto. lia.
        * eapply arr_ext; [apply arr_upd; [exact H4|lia]|]. intros i Hi'. unfold fset. rewrite (mem_firstn_S _ _ _ _ Hr).
          destruct (Nat.eqb_spec i r); [subst; rewrite orb_true_r; auto|rewrite orb_false_r; auto].
    - intros [wi' w'] (H1 & H2 & H3 & H4). cbn [run]. split; auto. split; auto. split; [|split].
      + intros t r Ht. apply H2; auto. eapply nth_err_some; eauto.
      + destruct H3 as [H3|H3]; auto. left. destruct (pat m); auto. discriminate.
      + eapply arr_ext; [exact H4|]. intros i Hi. simpl. rewrite firstn_all. destruct (mem i (pat m)) eqn:E; auto.
        apply mem_nin in E. rewrite (Hn _ _ E). ring.
  Qed.

  Lemma clear_row_ok : forall m L Lv, vrep L Lv -> m < N ->
    run Er (clear_row F m L) (fun L' => vrep L' (fun i k => if Nat.eqb i m && Nat.ltb k m then n0 else Lv i k)).
  Proof.
    intros m L Lv HL Hm. unfold clear_row.
    apply (run_for Er _ (fun j L' => vrep L' (fun i k => if Nat.eqb i m && Nat.ltb k j then n0 else Lv i k))).
    - eapply vrep_ext; [exact HL|]. intros j i _ _. rewrite andb_false_r. auto.
    - intros j L1 Hj HL1. assert (HjN : j < N) by lia.
      eapply run_get; [eapply vrep_p; eauto; lia|]. eapply run_get; [eapply vrep_p; eauto; lia|].
      rewrite (vrep_end F N pat L1 _ j HL1 HjN). replace (cstart L1 j + length (pat j) - cstart L1 j)%nat with (length (pat j)) by lia.
      set (Lj := fun i k => if Nat.eqb i m && Nat.ltb k j then n0 else Lv i k) in *.
      assert (Hext : ~ In m (pat j) -> vrep L1 (fun i k => if Nat.eqb i m && Nat.ltb k (S j) then n0 else Lv i k)).
      { intro Hni. eapply vrep_ext; [exact HL1|]. intros k i Hk Hik. unfold Lj. destruct (Nat.eqb_spec i m); auto. subst. simpl.
        destruct (Nat.ltb_spec k j), (Nat.ltb_spec k (S j)); auto; try lia. assert (k = j) by lia. subst. contradiction. }
      apply (run_list_break Er _ _ (fun t L' => L' = L1 /\ forall a, In a (firstn t (pat j)) -> a < m)).
      + simpl. split; auto. contradiction.
      + intros t r L' Hr (-> & Hlt). destruct (vrep_ent F N pat L1 _ j t r HL1 HjN Hr) as [Hi Hx].
        eapply run_get; [exact Hi|]. destruct (Nat.leb_spec m r) as [Hmr|Hmr].
        * destruct (Nat.eqb_spec r m) as [->|Hne].
          -- destruct (vrep_put F N pat pat_sorted L1 _ j t m n0 HL1 HjN Hr) as [Hl Hv]. eapply run_put; [exact Hl|]. cbn [run fst snd].
             eapply vrep_ext; [exact Hv|]. intros k i Hk Hik. unfold LdlRank1.fup, Lj. destruct (Nat.eqb_spec i m); auto.
             cbn [andb]. destruct (Nat.eqb_spec k j), (Nat.ltb_spec k j), (Nat.ltb_spec k (S j)); auto; lia.
          -- cbn [run fst snd]. apply Hext. intro Hin. rewrite <- (firstn_skipn t (pat j)) in Hin. apply in_app_or in Hin.
             destruct Hin as [Hin|Hin]; [apply Hlt in Hin; lia|].
             assert (Hge : (r <= m)%nat); [|lia].
             { destruct (In_nth_error _ _ Hin) as (u & Hu).
               assert (Hu' : nth_error (pat j) (t + u) = Some m).
               { rewrite <- Hu. clear. revert u. generalize (pat j) as l. induction t; simpl; auto. intros l u. destruct l; [destruct u; auto|]. apply IHt. }
               destruct u; [rewrite Nat.add_0_r in Hu'; assert (r = m) by congruence; lia|].
               assert (r < m); [|lia]. apply (SS_firstn (pat j) (t + S u) m r); auto.
               eapply nth_error_In with (n := t). rewrite <- Hr. clear - Hr.
               assert (G : forall (l : list nat) a b, (a < b)%nat -> nth_error (firstn b l) a = nth_error l a).
               { induction l; intros a0 b Hab; destruct a0, b; simpl; auto; try lia. apply IHl. lia. }
               apply G. lia. }
        * cbn [run fst snd]. split; auto. intros a Ha. rewrite (firstn_S_nth _ _ _ _ Hr) in Ha. apply in_app_or in Ha.
          destruct Ha as [Ha|[Ha|[]]]; [auto|subst; auto].
      + intros L' (-> & Hlt). apply Hext. intro Hin. rewrite firstn_all in Hlt. apply Hlt in Hin. lia.
  Qed.

  Lemma clear_col_ok : forall m L Lv, vrep L Lv -> m < N ->
    run Er (clear_col F m L) (fun L' => vrep L' (fun i k => if Nat.eqb k m then n0 else Lv i k)).
  Proof.
    intros m L Lv HL Hm. unfold clear_col.
    eapply run_get; [eapply vrep_p; eauto; lia|]. eapply run_get; [eapply vrep_p; eauto; lia|].
    rewrite (vrep_end F N pat L Lv m HL Hm). replace (cstart L m + length (pat m) - cstart L m)%nat with (length (pat m)) by lia.
    eapply run_imp with (P := fun L' => c_p L' = c_p L /\ vrep L' (fun i k => if Nat.eqb k m && mem i (firstn (length (pat m)) (pat m)) then n0 else Lv i k)).
    - apply (run_list Er _ _ (fun t L' => c_p L' = c_p L /\ vrep L' (fun i k => if Nat.eqb k m && mem i (firstn t (pat m)) then n0 else Lv i k))).
      + split; auto. eapply vrep_ext; [exact HL|]. intros j i _ _. simpl. rewrite andb_false_r. auto.
      + intros t r L' Hr (Hp & HL'). assert (Hst : cstart L' m = cstart L m) by (unfold cstart; rewrite Hp; auto).
        destruct (vrep_put F N pat pat_sorted L' _ m t r n0 HL' Hm Hr) as [Hl Hv]. rewrite Hst in Hl, Hv.
        eapply run_put; [exact Hl|]. cbn [run]. split; auto. eapply vrep_ext; [exact Hv|].
        intros k i Hk Hik. unfold LdlRank1.fup. rewrite (mem_firstn_S _ _ _ _ Hr).
        destruct (Nat.eqb_spec k m), (Nat.eqb_spec i r); subst; cbn [andb]; rewrite ?orb_true_r, ?orb_false_r; auto.
    - intros L' (_ & H). eapply vrep_ext; [exact H|]. intros k i Hk Hik. rewrite firstn_all. destruct (Nat.eqb_spec k m); auto.
      subst. apply mem_in in Hik. rewrite Hik. auto.
  Qed.

  Lemma mask_bound : forall (l : list bool) col row, (2 * length l = N * (N - 1))%nat -> (col < row)%nat -> row < N ->
    let z := mask_index (Z.of_nat N) (Z.of_nat col) (Z.of_nat row) in (0 <= z)%Z /\ (Z.to_nat z < length l)%nat.
  Proof.
    intros l col row Hl H1 H2 z. pose proof (mask_range (Z.of_nat N) (Z.of_nat col) (Z.of_nat row) ltac:(lia) ltac:(lia)) as H.
    fold z in H. split; [lia|]. apply Nat2Z.inj_lt. rewrite Z2Nat.id by lia.
    assert (E : (Z.of_nat N * (Z.of_nat N - 1) = 2 * Z.of_nat (length l))%Z).
    { replace (Z.of_nat N - 1)%Z with (Z.of_nat (N - 1)) by lia. rewrite <- Nat2Z.inj_mul. lia. }
    rewrite E, Z.mul_comm, Z.div_mul in H by lia. lia.
  Qed.

  Lemma symbolic_ok : forall m L mask wi Lv, vrep L Lv -> (2 * length mask = N * (N - 1))%nat ->
    (forall t r, nth_error (pat m) t = Some r -> nth_error wi t = Some (r - m - 1)%nat) ->
    run Er (symbolic F N L mask wi (length (pat m)) (m + 1)) (fun '(L', mask') => vrep L' Lv /\ (2 * length mask' = N * (N - 1))%nat).
  Proof.
    intros m L mask wi Lv HL Hmask Hwi. unfold symbolic.
    set (I := fun (st : csc F * list bool) => let '(L', mask') := st in vrep L' Lv /\ (2 * length mask' = N * (N - 1))%nat).
    change (run Er (for_ (length (pat m)) 0 (fun k st =>
      ck <- get wi k;;
      for_ (length (pat m) - (k + 1))%nat (k + 1)%nat (fun j '(L, mask) =>
        rj <- get wi j;;
        b <- getz mask (mask_index (Z.of_nat N) (Z.of_nat (ck + (m + 1))) (Z.of_nat (rj + (m + 1))));;
        if (b : bool) then Ok (L, mask)
        else mask' <- putz mask (mask_index (Z.of_nat N) (Z.of_nat (ck + (m + 1))) (Z.of_nat (rj + (m + 1)))) true;;
             L' <- insert N L (rj + (m + 1)) (ck + (m + 1)) true n0;;
             Ok (L', mask')) st) (L, mask)) I).
    apply (run_list Er _ _ (fun _ => I)); [simpl; auto|].
    intros t r st Hr HI. simpl. pose proof (nth_err_some _ _ _ _ Hr) as Htl.
    pose proof (nth_error_In _ _ Hr) as Hrin. pose proof (pat_lower _ _ Hrin) as Hrl.
    eapply run_get; [apply Hwi; eauto|]. replace (r - m - 1 + (m + 1))%nat with r by lia.
    apply (run_for Er _ (fun _ => I)); auto. intros k [L1 mask1] Hk (HL1 & Hm1).
    destruct (nth_err_lt _ (pat m) k ltac:(lia)) as (r' & Hr'). pose proof (nth_error_In _ _ Hr') as Hrin'. pose proof (pat_lower _ _ Hrin') as Hrl'.
    assert (Hlt : r < r').
    { apply (SS_firstn (pat m) k r' r); auto. eapply nth_error_In with (n := t). rewrite <- Hr.
      assert (G : forall (l : list nat) a b, (a < b)%nat -> nth_error (firstn b l) a = nth_error l a).
      { induction l; intros a0 b Hab; destruct a0, b; simpl; auto; try lia. apply IHl. lia. }
      apply G. lia. }
    eapply run_get; [apply Hwi; eauto|]. replace (r' - m - 1 + (m + 1))%nat with r' by lia.
    destruct (mask_bound mask1 r r' Hm1 Hlt ltac:(lia)) as [Hz0 Hz1].
    unfold getz, putz. replace (Z.ltb (mask_index (Z.of_nat N) (Z.of_nat r) (Z.of_nat r')) 0) with false by (symmetry; apply Z.ltb_ge; auto).
    destruct (nth_err_lt _ _ _ Hz1) as (b & Hb). eapply run_get; [exact Hb|]. destruct b; [split; auto|].
    eapply run_put; [exact Hz1|]. eapply run_bind; [apply (vinsert L1 Lv r' r true n0 HL1)|].
    - eapply pat_closed; eauto.
    - intros L2 HL2. cbn [run]. split; auto. rewrite upd_length. auto.
  Qed.

  Lemma gram_except : forall Lv D m p q, m < N ->
    gram 0 N Lv D p q = rsum (map (fun k => if Nat.eqb k m then n0 else un Lv p k * D k * un Lv q k) (seq 0 N)) + un Lv p m * D m * un Lv q m.
  Proof.
    intros Lv D m p q Hm. unfold LdlRank1.gram.
    pose proof (rsum_change F (fun k => un Lv p k * D k * un Lv q k) (fun k => if Nat.eqb k m then n0 else un Lv p k * D k * un Lv q k) m N 0 ltac:(lia)) as C.
    cbn beta in C. rewrite Nat.eqb_refl in C. rewrite <- C; [ring|]. intros k Hk. apply Nat.eqb_neq in Hk. rewrite Hk. auto.
  Qed.
  Lemma un_neq : forall Lv i j, i <> j -> un Lv i j = Lv i j.
  Proof. intros Lv i j H. unfold LdlRank1.un. apply Nat.eqb_neq in H. rewrite H. auto. Qed.
  Lemma un_eq : forall Lv i, un Lv i i = n1.
  Proof. intros Lv i. unfold LdlRank1.un. rewrite Nat.eqb_refl. auto. Qed.

  Lemma clique_col : forall m wf s, (forall i, (m < i)%nat -> i < N -> ~ In i (pat m) -> wf i = n0) -> (m < s)%nat -> clique F N pat s wf.
  Proof.
    intros m wf s H Hs p q Hp Hpq Hq Hn. destruct (in_dec Nat.eq_dec p (pat m)) as [Hpm|Hpm]; [|left; apply H; auto; lia].
    destruct (in_dec Nat.eq_dec q (pat m)) as [Hqm|Hqm]; [|right; apply H; auto; lia]. exfalso. apply Hn. eapply pat_closed; eauto.
  Qed.

  Lemma unit_nz : forall a b : F, a * b = n1 -> b <> n0.
  Proof. intros a b H E. apply (F_1_neq_0 (fth F)). change (n1 = n0 :> F). rewrite <- H, E. ring. Qed.

  Theorem delete_ok : forall act g m, factored act g -> (n <= m)%nat -> m < N -> act m = true -> (forall k, (k < n)%nat -> act k = true) ->
    run Er (ldl_delete F N sqr m g) (factored (fset act m false)).
  Proof.
    intros act g m (Lv & Df & Di & [HL Hn HD HDi Hinv Hfact Hdead HK Hmask Hlc Hlw Hlwi Hll Hlli Hllx]) Hnm Hm Ham Hprim. unfold ldl_delete.
    assert (HEs : forall e, sqr (- Df m) = Err e -> Er Arith).
    { intros e He. apply (Er_ok act Hprim). right. exists m, (Df m), e. split; [lia|]. split; [|auto].
      apply (gram_pivot F N pat pat_lower Lv); auto. intros p q Hp Hq. apply Hfact; lia. }
    eapply run_bind; [apply (delete_w_ok m (gL g) (gD g) (gw g) (gwi g) Lv Df); auto|].
    intros [[wi w] size] (Hsize & Hwil & Hwi & Hs & Hw). rewrite Hsize. set (s := root (- Df m)) in *.
    eapply run_bind; [apply (clear_row_ok m _ _ HL Hm)|]. intros L1 HL1. eapply run_bind; [apply (clear_col_ok m _ _ HL1 Hm)|]. intros L2 HL2.
    eapply run_put; [rewrite (proj1 HD); auto|]. eapply run_put; [rewrite (proj1 HDi); auto|].
    set (Lv2 := fun i k => if Nat.eqb i m || Nat.eqb k m then n0 else Lv i k).
    assert (HL2' : vrep L2 Lv2).
    { eapply vrep_ext; [exact HL2|]. intros k i Hk Hik. unfold Lv2. destruct (Nat.eqb_spec k m), (Nat.eqb_spec i m); subst; cbn [andb orb]; auto.
      apply pat_lower in Hik. replace (Nat.ltb k m) with true by (symmetry; apply Nat.ltb_lt; lia). auto. }
    assert (Hn2 : norm Lv2).
    { intros i k Hik. unfold Lv2. destruct (Nat.eqb i m || Nat.eqb k m); auto. }
    eapply run_bind; [apply (symbolic_ok m L2 (gMask g) wi Lv2 HL2' Hmask Hwi)|]. intros [L3 mask] (HL3 & Hmask3).
    set (Df2 := fset Df m (- n1)). set (Di2 := fset Di m (- n1)).
    assert (HT : forall p q, p < N -> q < N ->
      gram 0 N Lv2 Df2 p q + - n1 * wplus (m + 1) (fun i => Lv i m * s) p * wplus (m + 1) (fun i => Lv i m * s) q = target (fset act m false) p q).
    { intros p q Hp Hq. unfold target.
      rewrite (gram_except Lv2 Df2 m p q Hm).
      assert (Hcol : forall i, i <> m -> un Lv2 i m = n0).
      { intros i Hi. rewrite un_neq by auto. unfold Lv2. rewrite Nat.eqb_refl, orb_true_r. auto. }
      assert (Hrow : forall k, k <> m -> un Lv2 m k = n0).
      { intros k Hk. rewrite un_neq by auto. unfold Lv2. rewrite Nat.eqb_refl. auto. }
      assert (Hsame : forall i k, i <> m -> k <> m -> un Lv2 i k = un Lv i k).
      { intros i k Hi Hk. unfold LdlRank1.un. destruct (Nat.eqb i k); auto. unfold Lv2. apply Nat.eqb_neq in Hi, Hk. rewrite Hi, Hk. auto. }
      destruct (Nat.eq_dec p m) as [->|Hpm]; [|destruct (Nat.eq_dec q m) as [->|Hqm]].
      + rewrite fset_eq. cbn [andb]. rewrite rsum_zero.
        * rewrite un_eq. unfold Df2. rewrite fset_eq. unfold LdlRank1.wplus. replace (Nat.leb (m + 1) m) with false by (symmetry; apply Nat.leb_gt; lia).
          destruct (Nat.eqb_spec m q) as [<-|Hne]; [rewrite un_eq; ring|]. rewrite Hcol by auto. ring.
        * intros k _. destruct (Nat.eqb_spec k m); auto. rewrite Hrow by auto. ring.
      + rewrite fset_eq, andb_false_r. replace (Nat.eqb p m) with false by (symmetry; apply Nat.eqb_neq; auto). rewrite rsum_zero.
        * rewrite Hcol by auto. unfold LdlRank1.wplus. replace (Nat.leb (m + 1) m) with false by (symmetry; apply Nat.leb_gt; lia). ring.
        * intros k _. destruct (Nat.eqb_spec k m); auto. rewrite (Hrow k) by auto. ring.
      + rewrite !fset_neq by auto. fold (target act p q). rewrite <- Hfact by auto. rewrite (gram_except Lv Df m p q Hm).
        rewrite (rsum_ext F _ (fun k => if Nat.eqb k m then n0 else un Lv p k * Df k * un Lv q k)).
        2:{ intros k _. destruct (Nat.eqb_spec k m); auto. unfold Df2. rewrite fset_neq by auto. rewrite !Hsame by auto. auto. }
        rewrite !Hcol by auto. rewrite !un_neq by auto.
        assert (Hwp : forall i, i <> m -> wplus (m + 1) (fun i => Lv i m * s) i = Lv i m * s).
        { intros i Hi. unfold LdlRank1.wplus. destruct (Nat.leb_spec (m + 1) i); auto. rewrite (norm_upper F N pat pat_lower Lv i m Hn) by lia. ring. }
        rewrite !Hwp by auto. destruct Hs as [Hs|Hs].
        * rewrite !(Hn _ m) by (rewrite Hs; auto). ring.
        * transitivity (rsum (map (fun k : nat => if Nat.eqb k m then n0 else un Lv p k * Df k * un Lv q k) (seq 0 N))
                        - Lv p m * Lv q m * (s * s)); [ring|]. rewrite Hs. ring. }
    eapply run_bind; [apply (rank1_full (fset act m false) (- n1) (m + 1) L3 _ _ w Lv2 Df2 Di2 (fun i => Lv i m * s))|].
    - lia.
    - exact HL3.
    - exact Hn2.
    - apply arr_upd; auto.
    - apply arr_upd; auto.
    - exact Hw.
    - apply (clique_col m); [|lia]. intros i Hi Hi' Hni. rewrite (Hn _ _ Hni). ring.
    - intros k Hk. unfold Df2, Di2, fset. destruct (Nat.eqb k m); [ring|auto].
    - intros j k Hj HjN. unfold fset in Hj. unfold Lv2. destruct (Nat.eqb_spec j m) as [->|Hne].
      + split; [lia|]. rewrite orb_true_r. auto.
      + destruct (Hdead j k Hj HjN) as [A B]. destruct (Hdead j m Hj HjN) as [A' _]. split; [intros _; rewrite A'; ring|].
        split; [|rewrite orb_false_r]; destruct (Nat.eqb k m); rewrite ?orb_true_r; auto.
    - intros j Hj HP. apply (Er_ok (fset act m false)).
      + intros k Hk. rewrite fset_neq by lia. auto.
      + left. exists j. split; auto. eapply pivot_ext; [exact Hj| |exact HP]. exact HT.
    - intros [[[L4 D4] Dinv4] w4] (Lv' & Df' & Di' & H1 & H2 & H3 & H4 & H5 & H6 & H7 & H8). cbn [run].
      exists Lv', Df', Di'. constructor; cbn [gL gMask gD gDinv gK gc gw gwi gl gli glx]; auto.
      intros p q Hp Hq. rewrite H7 by auto. apply HT; auto.
  Qed.

  (** *** Activation *)
  Lemma rsum_firstn_S : forall A (f : A -> F) l t r, nth_error l t = Some r ->
    rsum (map f (firstn (S t) l)) = rsum (map f (firstn t l)) + f r.
  Proof. intros A f l t r H. rewrite (firstn_S_nth _ _ _ _ H), map_app, rsum_app. simpl. ring. Qed.
  Lemma rsum_filter : forall (f : nat -> F) (b : nat -> bool) l, (forall x, In x l -> b x = false -> f x = n0) ->
    rsum (map f (filter b l)) = rsum (map f l).
  Proof.
    induction l as [|a l IH]; simpl; intro H; auto. destruct (b a) eqn:E; simpl; rewrite IH by auto; auto.
    rewrite (H a) by auto. ring.
  Qed.

  Lemma kvrep_ent : forall Kx j t r, LdlRank1.vrep F N kpat Kx Kv -> j < N -> nth_error (kpat j) t = Some r ->
    nth_error (c_i Kx) (cstart Kx j + t) = Some r /\ nth_error (c_x Kx) (cstart Kx j + t) = Some (Kn r j).
  Proof.
    intros Kx j t r HK Hj Ht. destruct (vrep_ent F N kpat Kx Kv j t r HK Hj Ht) as [A B]. split; auto. rewrite B. unfold Kn.
    replace (mem r (kpat j)) with true; auto. symmetry. apply mem_in. eapply nth_error_In; eauto.
  Qed.
  Lemma Kn_out : forall i j, ~ In i (kpat j) -> Kn i j = n0.
  Proof. intros i j H. unfold Kn. apply mem_nin in H. rewrite H. auto. Qed.
  Lemma in_kpat : forall i j, In i (kpat j) -> i = j \/ In i (kp j).
  Proof. intros i j H. apply in_app_or in H. destruct H as [H|[H|[]]]; auto. Qed.
  Lemma Kn_lt : forall i j, (i < j)%nat -> ~ In i (kp j) -> Kn i j = n0.
  Proof. intros i j H Hn. apply Kn_out. intro Hi. apply in_kpat in Hi. destruct Hi; [lia|contradiction]. Qed.

  Lemma add_c_ok : forall m Kx c, LdlRank1.vrep F N kpat Kx Kv -> length c = N -> m < N ->
    run Er (add_c F N m Kx c) (fun c' => arr N c' (fun i => if Nat.ltb i m then Kn i m else n0)).
  Proof.
    intros m Kx c HK Hc Hm. unfold add_c.
    eapply run_bind; [eapply zeros_ok; [apply (arr_of _ _ _ n0 Hc)|lia]|]. intros c0 Hc0.
    eapply run_get; [eapply vrep_p; eauto; lia|]. eapply run_get; [eapply vrep_p; eauto; lia|].
    rewrite (vrep_end F N kpat Kx Kv m HK Hm).
    assert (Hlen : length (kpat m) = S (length (kp m))) by (unfold kpat; rewrite app_length; simpl; lia).
    replace (cstart Kx m + length (kpat m) - 1 - cstart Kx m)%nat with (length (kp m)) by lia.
    eapply run_imp with (P := fun c' => arr N c' (fun i => if mem i (firstn (length (kp m)) (kp m)) then Kn i m else n0)).
    - apply (run_list Er _ _ (fun t c' => arr N c' (fun i => if mem i (firstn t (kp m)) then Kn i m else n0))).
      + eapply arr_ext; [exact Hc0|]. intros i Hi. simpl. replace (Nat.ltb i N) with true by (symmetry; apply Nat.ltb_lt; auto). auto.
      + intros t r c1 Hr Hc1. assert (Hr' : nth_error (kpat m) t = Some r).
        { unfold kpat. rewrite nth_error_app1; auto. eapply nth_err_some; eauto. }
        destruct (kvrep_ent Kx m t r HK Hm Hr') as [Hi Hx]. pose proof (kp_upper _ _ (nth_error_In _ _ Hr)) as Hlt.
        eapply run_get; [exact Hi|]. eapply run_get; [exact Hx|]. apply run_put'; [rewrite (proj1 Hc1); lia|].
        eapply arr_ext; [apply arr_upd; [exact Hc1|lia]|]. intros i Hi'. unfold fset. rewrite (mem_firstn_S _ _ _ _ Hr).
        destruct (Nat.eqb_spec i r); [subst; rewrite orb_true_r; auto|rewrite orb_false_r; auto].
    - intros c' Hc'. eapply arr_ext; [exact Hc'|]. intros i Hi. simpl. rewrite firstn_all. destruct (mem i (kp m)) eqn:E.
      + apply mem_in in E. apply kp_upper in E. replace (Nat.ltb i m) with true by (symmetry; apply Nat.ltb_lt; auto). auto.
      + apply mem_nin in E. destruct (Nat.ltb_spec i m); auto. symmetry. apply Kn_lt; auto.
  Qed.

  Lemma add_solve_ok : forall act m L c l Lv cf, vrep L Lv -> norm Lv -> arr N c cf -> length l = N -> m < N -> (n <= m)%nat ->
    (forall i, (i < m)%nat -> cf i = Kn i m) ->
    (forall k, (k < n)%nat -> act k = true) ->
    (forall k i, act k = false -> k < N -> Lv k i = n0 /\ Lv i k = n0) ->
    run Er (add_solve F m L c l) (fun l' => exists y, arr N l' y
      /\ (forall i, (i < m)%nat -> rsum (map (fun k => un Lv i k * y k) (seq 0 m)) = Kn i m)
      /\ (forall k, (k < m)%nat -> ~ In m (pat k) -> y k = n0)
      /\ (forall k, (k < m)%nat -> act k = false -> y k = n0)).
  Proof.
    intros act m L c l Lv cf HL Hn Hc Hl Hm Hnm Hcf Hact Hdead. unfold add_solve.
    eapply run_bind; [eapply zeros_ok; [apply (arr_of _ _ _ n0 Hl)|lia]|]. intros l0 Hl0.
    set (I := fun j l' => exists f, arr N l' f
      /\ (forall i, (i < j)%nat -> rsum (map (fun k => un Lv i k * f k) (seq 0 j)) = Kn i m)
      /\ (forall i, (j <= i < m)%nat -> f i = - rsum (map (fun k => Lv i k * f k) (seq 0 j)))
      /\ (forall k, (k < m)%nat -> ~ In m (pat k) -> f k = n0)
      /\ (forall k, (k < m)%nat -> act k = false -> f k = n0)).
    eapply run_imp with (P := I m).
    2:{ intros l' (f & H1 & H2 & _ & H4 & H5). exists f. auto. }
    apply (run_for Er _ I _ m 0).
    - eexists. split; [exact Hl0|]. split; [intros; lia|].
      assert (Z : forall i, (i < m)%nat -> (if Nat.ltb i m then n0 else nth i l n0) = n0).
      { intros i Hi. replace (Nat.ltb i m) with true by (symmetry; apply Nat.ltb_lt; auto). auto. }
      split; [|split]; intros; rewrite Z by lia; simpl; auto. ring.
    - intros j l1 Hj (f & Hf & H1 & H2 & H3 & H4). assert (HjN : j < N) by lia.
      eapply run_get; [apply (proj2 Hf); lia|]. eapply run_get; [apply (proj2 Hc); lia|]. eapply run_put; [rewrite (proj1 Hf); lia|].
      eapply run_get; [eapply vrep_p; eauto; lia|]. eapply run_get; [eapply vrep_p; eauto; lia|].
      rewrite (vrep_end F N pat L Lv j HL HjN). replace (cstart L j + length (pat j) - cstart L j)%nat with (length (pat j)) by lia.
      set (yj := f j + cf j).
      eapply run_imp with (P := fun l' => arr N l' (fun i => if mem i (firstn (length (pat j)) (pat j)) then f i - Lv i j * yj else fset f j yj i)).
      + apply (run_list Er _ _ (fun t l' => arr N l' (fun i => if mem i (firstn t (pat j)) then f i - Lv i j * yj else fset f j yj i))).
        * simpl. apply arr_upd; auto.
        * intros t r l2 Hr Hl2. pose proof (nth_error_In _ _ Hr) as Hin. pose proof (pat_lower _ _ Hin) as Hlow.
          destruct (vrep_ent F N pat L Lv j t r HL HjN Hr) as [Hi Hx].
          assert (Hnr : mem r (firstn t (pat j)) = false) by (apply NoDup_firstn_nth; auto; apply SS_NoDup; auto).
          assert (Hnj : mem j (firstn t (pat j)) = false).
          { apply mem_nin. intro H. assert (Hin' : In j (pat j)) by (rewrite <- (firstn_skipn t (pat j)); apply in_or_app; auto).
            apply pat_lower in Hin'. lia. }
          eapply run_get; [exact Hi|]. eapply run_get; [apply (proj2 Hl2); lia|]. eapply run_get; [exact Hx|].
          eapply run_get; [apply (proj2 Hl2); lia|]. apply run_put'; [rewrite (proj1 Hl2); lia|].
          eapply arr_ext; [apply arr_upd; [exact Hl2|lia]|]. intros i Hi'. cbn beta. rewrite Hnr, Hnj, fset_eq, (fset_neq _ f j yj r) by lia.
          unfold fset at 1. rewrite (mem_firstn_S _ _ _ _ Hr).
          destruct (Nat.eqb_spec i r); [subst; rewrite orb_true_r; auto|rewrite orb_false_r; auto].
      + intros l' Hl'. rewrite firstn_all in Hl'. set (f' := fun i => if mem i (pat j) then f i - Lv i j * yj else fset f j yj i) in *.
        exists f'. split; [exact Hl'|].
        assert (Hlow : forall k, (k < j)%nat -> f' k = f k).
        { intros k Hk. unfold f'. replace (mem k (pat j)) with false; [apply fset_neq; lia|]. symmetry. apply mem_nin. intro H. apply pat_lower in H. lia. }
        assert (Hfj : f' j = yj).
        { unfold f'. replace (mem j (pat j)) with false; [apply fset_eq|]. symmetry. apply mem_nin. intro H. apply pat_lower in H. lia. }
        assert (Hhigh : forall k, (j < k)%nat -> f' k = f k - Lv k j * yj).
        { intros k Hk. unfold f'. destruct (mem k (pat j)) eqn:E; auto. rewrite fset_neq by lia. apply mem_nin in E. rewrite (Hn _ _ E). ring. }
        assert (Hyj : ~ In m (pat j) -> yj = n0).
        { intro Hni. unfold yj. rewrite H3 by (auto; lia). rewrite Hcf by lia. rewrite Kn_lt; [ring|lia|]. intro Hk. apply Hni. apply kp_pat; auto. }
        split; [|split; [|split]].
        * intros i Hi. rewrite seq_S, map_app, rsum_app. cbn [map]. change (rsum [?a]) with (a + n0). simpl rsum.
          rewrite (rsum_ext F _ (fun k => un Lv i k * f k)) by (intros k Hk; apply in_seq in Hk; rewrite Hlow by lia; auto).
          cbn [Nat.add]. rewrite Hfj. destruct (Nat.eq_dec i j) as [->|Hne].
          -- rewrite un_eq. rewrite (rsum_ext F _ (fun k => Lv j k * f k)) by (intros k Hk; apply in_seq in Hk; rewrite un_neq by lia; auto).
             unfold yj. rewrite (H2 j) by lia. rewrite Hcf by lia. ring.
          -- rewrite H1 by lia. rewrite un_neq by auto. rewrite (norm_upper F N pat pat_lower Lv i j Hn) by lia. ring.
        * intros i Hi. rewrite seq_S, map_app, rsum_app. cbn [map Nat.add]. simpl rsum.
          rewrite (rsum_ext F (fun k => Lv i k * f' k) (fun k => Lv i k * f k)) by (intros k Hk; apply in_seq in Hk; rewrite Hlow by lia; auto).
          rewrite Hfj, Hhigh by lia. rewrite (H2 i) by lia. ring.
        * intros k Hk Hni. destruct (Nat.lt_trichotomy k j) as [Hlt|[->|Hgt]].
          -- rewrite Hlow by auto. auto.
          -- rewrite Hfj. auto.
          -- rewrite Hhigh by auto. rewrite H3 by auto. destruct (in_dec Nat.eq_dec k (pat j)) as [Hkj|Hkj].
             ++ rewrite Hyj; [ring|]. intro Hmj. apply Hni. eapply pat_closed; eauto.
             ++ rewrite (Hn _ _ Hkj). ring.
        * intros k Hk Hdk. destruct (Nat.lt_trichotomy k j) as [Hlt|[->|Hgt]].
          -- rewrite Hlow by auto. auto.
          -- rewrite Hfj. unfold yj. rewrite H4 by auto. rewrite Hcf by lia. rewrite Kn_lt; [ring|lia|]. intro Hkp.
             apply kp_blocks in Hkp; auto. rewrite (Hact j Hkp) in Hdk. discriminate.
          -- rewrite Hhigh by auto. rewrite H4 by auto. destruct (Hdead k j Hdk ltac:(lia)) as [A _]. rewrite A. ring.
  Qed.

  Definition nonz (f : nat -> F) (k : nat) : list nat := filter (fun i => negb (rz (f i))) (seq 0 k).
  Lemma nonz_in : forall f k i, In i (nonz f k) <-> (i < k)%nat /\ f i <> n0.
  Proof.
    intros f k i. unfold nonz. rewrite filter_In, in_seq, negb_true_iff. split; intros [A B]; split; try lia.
    - intro E. apply rz_spec in E. congruence.
    - destruct (rz (f i)) eqn:E; auto. apply rz_spec in E. contradiction.
  Qed.
  Lemma nonz_S : forall f k, nonz f (S k) = nonz f k ++ (if rz (f k) then [] else [k]).
  Proof. intros f k. unfold nonz. rewrite seq_S, filter_app. simpl. destruct (rz (f k)); auto. Qed.
  Lemma nonz_len : forall f k, (length (nonz f k) <= k)%nat.
  Proof.
    intros f k. pose proof (SS_bound (nonz f k) 0 k (SS_filter _ _ (SS_seq k 0))) as H. rewrite Nat.sub_0_r in H. apply H.
    intros x Hx. apply nonz_in in Hx. lia.
  Qed.

  Lemma gather_ok : forall k l f d df lx li, arr N l f -> (k <= N)%nat -> length lx = N -> length li = N ->
    (forall i, (i < k)%nat -> f i <> n0 -> d i = Ok (df i) /\ df i <> n0) ->
    run Er (gather F k l d lx li) (fun '(lx', li', size) =>
      size = length (nonz f k) /\ length lx' = N /\ length li' = N
      /\ forall t i, nth_error (nonz f k) t = Some i -> nth_error li' t = Some i /\ nth_error lx' t = Some (f i / df i) /\ df i <> n0).
  Proof.
    intros k l f d df lx li Hl Hk Hlx Hli Hd. unfold gather.
    apply (run_for Er _ (fun j '(lx', li', size) =>
      size = length (nonz f j) /\ length lx' = N /\ length li' = N
      /\ forall t i, nth_error (nonz f j) t = Some i -> nth_error li' t = Some i /\ nth_error lx' t = Some (f i / df i) /\ df i <> n0)).
    - simpl. split; auto. split; auto. split; auto. intros t i H. destruct t; discriminate.
    - intros j [[lx1 li1] size] Hj (H1 & H2 & H3 & H4). eapply run_get; [apply (proj2 Hl); lia|].
      rewrite nonz_S. destruct (rz (f j)) eqn:E.
      + cbn [run]. rewrite app_nil_r. auto.
      + assert (Hfj : f j <> n0) by (intro E0; apply rz_spec in E0; congruence). destruct (Hd j ltac:(lia) Hfj) as [Edj Hdj]. rewrite Edj. cbn [bind].
        apply run_div; [intro; contradiction|]. intros _. pose proof (nonz_len f j). eapply run_put; [lia|]. eapply run_put; [lia|]. cbn [run].
        rewrite app_length, !upd_length. simpl. split; [lia|]. split; auto. split; auto. intros t i Ht.
        destruct (Nat.lt_ge_cases t (length (nonz f j))) as [Hlt|Hge].
        * rewrite nth_error_app1 in Ht by auto. rewrite !nth_error_upd by lia. replace (Nat.eqb t size) with false by (symmetry; apply Nat.eqb_neq; lia). auto.
        * rewrite nth_error_app2 in Ht by auto. destruct (t - length (nonz f j))%nat eqn:Et; simpl in Ht; [|destruct n0; discriminate].
          inversion Ht; subst i. rewrite !nth_error_upd by lia. replace (Nat.eqb t size) with true by (symmetry; apply Nat.eqb_eq; lia). auto.
  Qed.

  (** Dividing the nonzeros. *)
  Definition quo (f d : nat -> F) (i : nat) : F := if rz (f i) then n0 else f i / d i.
  Lemma quo_mul : forall f d i, (f i <> n0 -> d i <> n0) -> d i * quo f d i = f i.
  Proof.
    intros f d i H. unfold quo. destruct (rz (f i)) eqn:E.
    - apply rz_spec in E. rewrite E. ring.
    - field. apply H. intro E0. apply rz_spec in E0. congruence.
  Qed.
  Lemma quo_zero : forall f d i, f i = n0 -> quo f d i = n0.
  Proof. intros f d i H. unfold quo. apply rz_spec in H. rewrite H. auto. Qed.
  Lemma quo_nonz : forall f d k i, In i (nonz f k) -> quo f d i = f i / d i.
  Proof.
    intros f d k i H. apply nonz_in in H. unfold quo. destruct (rz (f i)) eqn:E; auto. apply rz_spec in E. tauto.
  Qed.

  (** The compressed vector [li], [lx] lists the nonzeros. *)
  Definition listed (sel : list nat) (li : list nat) (lx : list F) (v : nat -> F) : Prop :=
    forall t i, nth_error sel t = Some i -> nth_error li t = Some i /\ nth_error lx t = Some (v i).

  Lemma add_diag_ok : forall m Kx D Dinv lx li sel v Df Di, LdlRank1.vrep F N kpat Kx Kv -> arr N D Df -> arr N Dinv Di -> m < N ->
    listed sel li lx v -> (forall i, In i sel -> (i < m)%nat) ->
    (Kn m m - rsum (map (fun i => v i * v i * Df i) sel) = n0 -> Er Arith) ->
    run Er (add_diag F m Kx D Dinv lx li (length sel)) (fun '(D', Dinv') =>
      let dm := Kn m m - rsum (map (fun i => v i * v i * Df i) sel) in
      dm <> n0 /\ arr N D' (fset Df m dm) /\ arr N Dinv' (fset Di m (n1 / dm))).
  Proof.
    intros m Kx D Dinv lx li sel v Df Di HK HD HDi Hm Hsel Hlt HE. unfold add_diag.
    eapply run_get; [eapply vrep_p; eauto; lia|]. rewrite (vrep_end F N kpat Kx Kv m HK Hm).
    assert (Hlen : length (kpat m) = S (length (kp m))) by (unfold kpat; rewrite app_length; simpl; lia).
    assert (Hlast : nth_error (kpat m) (length (kp m)) = Some m).
    { unfold kpat. rewrite nth_error_app2 by lia. rewrite Nat.sub_diag. auto. }
    destruct (kvrep_ent Kx m _ m HK Hm Hlast) as [_ Hx].
    replace (cstart Kx m + length (kpat m) - 1)%nat with (cstart Kx m + length (kp m))%nat by lia.
    eapply run_get; [exact Hx|]. eapply run_put; [rewrite (proj1 HD); auto|].
    eapply run_bind with (P := fun D' => arr N D' (fset Df m (Kn m m - rsum (map (fun i => v i * v i * Df i) (firstn (length sel) sel))))).
    - apply (run_list Er _ _ (fun t D' => arr N D' (fset Df m (Kn m m - rsum (map (fun i => v i * v i * Df i) (firstn t sel)))))).
      + eapply arr_ext; [apply arr_upd; eauto|]. intros i _. unfold fset. simpl. destruct (Nat.eqb i m); auto. ring.
      + intros t r D1 Hr HD1. destruct (Hsel t r Hr) as [Hli Hlx]. pose proof (Hlt r (nth_error_In _ _ Hr)) as Hrm.
        eapply run_get; [apply (proj2 HD1); lia|]. eapply run_get; [exact Hlx|]. eapply run_get; [exact Hli|].
        eapply run_get; [apply (proj2 HD1); lia|]. apply run_put'; [rewrite (proj1 HD1); lia|].
        eapply arr_ext; [apply arr_upd; [exact HD1|lia]|]. intros i Hi. rewrite fset_eq, (fset_neq _ Df m _ r) by lia.
        unfold fset at 1. rewrite (rsum_firstn_S _ _ _ _ _ Hr). unfold fset. destruct (Nat.eqb i m); auto. simpl. ring.
    - intros D1 HD1. rewrite firstn_all in HD1. set (dm := Kn m m - rsum (map (fun i => v i * v i * Df i) sel)) in *.
      eapply run_get; [apply (proj2 HD1); lia|]. rewrite fset_eq. apply run_div; [exact HE|]. intro Hdm. eapply run_put; [rewrite (proj1 HDi); auto|].
      cbn [run]. split; auto. split; auto. apply arr_upd; auto.
  Qed.

  Lemma add_row_ok : forall m L lx li sel v Lv, vrep L Lv -> listed sel li lx v -> (forall i, In i sel -> In m (pat i)) ->
    run Er (add_row F N m L lx li (length sel)) (fun L' => vrep L' (fun i k => if Nat.eqb i m && mem k sel then v k else Lv i k)).
  Proof.
    intros m L lx li sel v Lv HL Hsel Hin. unfold add_row.
    eapply run_imp with (P := fun L' => vrep L' (fun i k => if Nat.eqb i m && mem k (firstn (length sel) sel) then v k else Lv i k)).
    2:{ intros L'. rewrite firstn_all. auto. }
    apply (run_list Er _ _ (fun t L' => vrep L' (fun i k => if Nat.eqb i m && mem k (firstn t sel) then v k else Lv i k))).
    - eapply vrep_ext; [exact HL|]. intros j i _ _. simpl. rewrite andb_false_r. auto.
    - intros t r L1 Hr HL1. destruct (Hsel t r Hr) as [Hli Hlx]. pose proof (Hin r (nth_error_In _ _ Hr)) as Hp. simpl.
      eapply run_get; [exact Hli|]. eapply run_get; [exact Hlx|].
      eapply run_imp; [apply (vinsert L1 _ m r false (v r) HL1 Hp)|]. intros L2 HL2. eapply vrep_ext; [exact HL2|].
      intros j i Hj Hi. unfold LdlRank1.fup. rewrite (mem_firstn_S _ _ _ _ Hr).
      destruct (Nat.eqb_spec i m), (Nat.eqb_spec j r); subst; cbn [andb]; rewrite ?orb_true_r, ?orb_false_r; auto.
  Qed.
  Lemma add_col_ok : forall m L lx li sel v Lv, vrep L Lv -> listed sel li lx v -> (forall i, In i sel -> In (i + m + 1)%nat (pat m)) ->
    run Er (add_col F N m L lx li (length sel))
      (fun L' => vrep L' (fun i k => if Nat.eqb k m && mem (i - m - 1) sel && Nat.ltb m i then v (i - m - 1)%nat else Lv i k)).
  Proof.
    intros m L lx li sel v Lv HL Hsel Hin. unfold add_col.
    eapply run_imp with (P := fun L' => vrep L' (fun i k => if Nat.eqb k m && mem (i - m - 1) (firstn (length sel) sel) && Nat.ltb m i then v (i - m - 1)%nat else Lv i k)).
    2:{ intros L'. rewrite firstn_all. auto. }
    apply (run_list Er _ _ (fun t L' => vrep L' (fun i k => if Nat.eqb k m && mem (i - m - 1) (firstn t sel) && Nat.ltb m i then v (i - m - 1)%nat else Lv i k))).
    - eapply vrep_ext; [exact HL|]. intros j i _ _. simpl. rewrite andb_false_r. auto.
    - intros t r L1 Hr HL1. destruct (Hsel t r Hr) as [Hli Hlx]. pose proof (Hin r (nth_error_In _ _ Hr)) as Hp. simpl.
      eapply run_get; [exact Hli|]. eapply run_get; [exact Hlx|].
      eapply run_imp; [apply (vinsert L1 _ (r + m + 1) m false (v r) HL1 Hp)|]. intros L2 HL2. eapply vrep_ext; [exact HL2|].
      intros j i Hj Hi. unfold LdlRank1.fup. rewrite (mem_firstn_S _ _ _ _ Hr). pose proof (pat_lower _ _ Hi) as Hlow.
      destruct (Nat.eqb_spec j m) as [->|Hjm]; [|rewrite andb_false_r; auto]. cbn [andb]. rewrite andb_true_r.
      replace (Nat.ltb m i) with true by (symmetry; apply Nat.ltb_lt; lia). rewrite !andb_true_r.
      destruct (Nat.eqb_spec i (r + m + 1)), (Nat.eqb_spec (i - m - 1) r); subst; try lia; rewrite ?orb_true_r, ?orb_false_r; auto.

  Qed.

  Lemma add_l32_ok : forall m Kx L D lx li sel v Df Lv l, LdlRank1.vrep F N kpat Kx Kv -> vrep L Lv -> norm Lv -> arr N D Df ->
    listed sel li lx v -> (forall i, In i sel -> (i < m)%nat) -> length l = N -> m < N ->
    run Er (add_l32 F N m Kx L D lx li (length sel) l) (fun l' => exists z, arr N l' z
       /\ forall i, (i < N - m - 1)%nat -> z i = Kn m (i + m + 1) - rsum (map (fun c => Lv (i + m + 1)%nat c * v c * Df c) sel)).
  Proof.
    intros m Kx L D lx li sel v Df Lv l HK HL Hn HD Hsel Hlt Hl Hm. unfold add_l32.
    eapply run_bind; [eapply zeros_ok; [apply (arr_of _ _ _ n0 Hl)|lia]|]. intros l0 Hl0.
    eapply run_bind with (P := fun l1 => arr N l1 (fun i => if Nat.ltb i (N - m - 1) then Kn m (i + m + 1) else n0)).
    - eapply run_imp with (P := fun l1 => arr N l1 (fun i => if Nat.ltb (i + m + 1) (m + 1 + (N - (m + 1))) then Kn m (i + m + 1) else n0)).
      2:{ intros l1 H. eapply arr_ext; [exact H|]. intros i Hi. simpl.
          destruct (Nat.ltb_spec (i + m + 1) (m + 1 + (N - (m + 1)))), (Nat.ltb_spec i (N - m - 1)); auto; lia. }
      apply (run_for Er _ (fun j l1 => arr N l1 (fun i => if Nat.ltb (i + m + 1) j then Kn m (i + m + 1) else n0))).
      + eapply arr_ext; [exact Hl0|]. intros i Hi. cbn beta. replace (Nat.ltb i N) with true by (symmetry; apply Nat.ltb_lt; auto).
        replace (Nat.ltb (i + m + 1) (m + 1)) with false by (symmetry; apply Nat.ltb_ge; lia). auto.
      + intros j l1 Hj Hl1. assert (HjN : j < N) by lia.
        eapply run_get; [eapply vrep_p; eauto; lia|]. eapply run_get; [eapply vrep_p; eauto; lia|].
        rewrite (vrep_end F N kpat Kx Kv j HK HjN). replace (cstart Kx j + length (kpat j) - cstart Kx j)%nat with (length (kpat j)) by lia.
        assert (Hskip : ~ In m (kpat j) -> arr N l1 (fun i => if Nat.ltb (i + m + 1) (S j) then Kn m (i + m + 1) else n0)).
        { intro Hni. eapply arr_ext; [exact Hl1|]. intros i Hi. cbn beta. destruct (Nat.ltb_spec (i + m + 1) j), (Nat.ltb_spec (i + m + 1) (S j)); auto; try lia.
          assert (i + m + 1 = j)%nat by lia. subst j. symmetry. apply Kn_out. auto. }
        apply (run_list_break Er _ _ (fun t l' => l' = l1 /\ forall a, In a (firstn t (kpat j)) -> a < m)).
        * simpl. split; auto. contradiction.
        * intros t r l' Hr (-> & Hbefore). destruct (kvrep_ent Kx j t r HK HjN Hr) as [Hi Hx].
          eapply run_get; [exact Hi|]. destruct (Nat.leb_spec m r) as [Hmr|Hmr].
          -- destruct (Nat.eqb_spec r m) as [->|Hne].
             ++ eapply run_get; [exact Hx|]. eapply run_put; [rewrite (proj1 Hl1); lia|]. cbn [run fst snd].
                eapply arr_ext; [apply arr_upd; [exact Hl1|lia]|]. intros i Hi'. unfold fset.
                destruct (Nat.eqb_spec i (j - m - 1)), (Nat.ltb_spec (i + m + 1) j), (Nat.ltb_spec (i + m + 1) (S j)); auto; try lia.
                f_equal. lia.
             ++ cbn [run fst snd]. apply Hskip. intro Hin. destruct (In_nth_error _ _ Hin) as (u & Hu).
                assert (G : forall (q : list nat) a b, (a < b)%nat -> nth_error (firstn b q) a = nth_error q a).
                { induction q as [|x q IH]; intros a0 b Hab; destruct a0, b; simpl; auto; try lia. apply IH. lia. }
                destruct (Nat.lt_trichotomy u t) as [Hut|[->|Hut]].
                ** assert (m < m); [|lia]. apply Hbefore. eapply nth_error_In with (n := u). rewrite G; auto.
                ** congruence.
                ** assert (r < m); [|lia]. apply (SS_firstn (kpat j) u m r); auto using kpat_sorted.
                   eapply nth_error_In with (n := t). rewrite G; auto.
          -- cbn [run fst snd]. split; auto. intros a Ha. rewrite (firstn_S_nth _ _ _ _ Hr) in Ha. apply in_app_or in Ha.
             destruct Ha as [Ha|[Ha|[]]]; [auto|subst; auto].
        * intros l' (-> & Hall). apply Hskip. intro Hin. rewrite firstn_all in Hall. apply Hall in Hin. lia.
    - intros l1 Hl1.
      set (g := fun (cs : list nat) i => if Nat.ltb i (N - m - 1) then Kn m (i + m + 1) - rsum (map (fun c => Lv (i + m + 1)%nat c * v c * Df c) cs) else n0).
      eapply run_imp with (P := fun l' => arr N l' (g (firstn (length sel) sel))).
      2:{ intros l' Hl'. rewrite firstn_all in Hl'. eexists. split; [exact Hl'|]. intros i Hi. unfold g.
          replace (Nat.ltb i (N - m - 1)) with true by (symmetry; apply Nat.ltb_lt; auto). auto. }
      apply (run_list Er _ _ (fun t l' => arr N l' (g (firstn t sel)))).
      + eapply arr_ext; [exact Hl1|]. intros i Hi. unfold g. simpl. destruct (Nat.ltb i (N - m - 1)); auto. ring.
      + intros t c l2 Hc Hl2. destruct (Hsel t c Hc) as [Hli Hlx]. pose proof (Hlt c (nth_error_In _ _ Hc)) as Hcm. cbn [Nat.add].
        assert (HcN : c < N) by lia. eapply run_get; [exact Hli|].
        eapply run_get; [eapply vrep_p; eauto; lia|]. eapply run_get; [eapply vrep_p; eauto; lia|].
        rewrite (vrep_end F N pat L Lv c HL HcN). replace (cstart L c + length (pat c) - cstart L c)%nat with (length (pat c)) by lia.
        set (h := fun rows i => if mem (i + m + 1) rows then g (firstn t sel) i - Lv (i + m + 1)%nat c * v c * Df c else g (firstn t sel) i).
        eapply run_imp with (P := fun l' => arr N l' (h (firstn (length (pat c)) (pat c)))).
        * apply (run_list Er _ _ (fun u l' => arr N l' (h (firstn u (pat c))))).
          -- eapply arr_ext; [exact Hl2|]. intros i Hi. reflexivity.
          -- intros u r l3 Hr Hl3. pose proof (nth_error_In _ _ Hr) as Hin. pose proof (pat_lower _ _ Hin) as Hlow.
             destruct (vrep_ent F N pat L Lv c u r HL HcN Hr) as [Hi Hx].
             assert (Hnr : mem r (firstn u (pat c)) = false) by (apply NoDup_firstn_nth; auto; apply SS_NoDup; auto).
             eapply run_get; [exact Hi|]. destruct (Nat.ltb_spec m r) as [Hmr|Hmr].
             ++ eapply run_get; [apply (proj2 Hl3); lia|]. eapply run_get; [exact Hx|]. eapply run_get; [exact Hlx|].
                eapply run_get; [apply (proj2 HD); lia|]. apply run_put'; [rewrite (proj1 Hl3); lia|].
                eapply arr_ext; [apply arr_upd; [exact Hl3|lia]|]. intros i Hi'. unfold fset, h.
                replace (r - m - 1 + m + 1)%nat with r by lia. rewrite Hnr, (mem_firstn_S _ _ _ _ Hr).
                destruct (Nat.eqb_spec i (r - m - 1)), (Nat.eqb_spec (i + m + 1) r); try lia; rewrite ?orb_true_r, ?orb_false_r; auto.
                subst i. replace (r - m - 1 + m + 1)%nat with r by lia. auto.
             ++ cbn [run]. eapply arr_ext; [exact Hl3|]. intros i Hi'. unfold h. rewrite (mem_firstn_S _ _ _ _ Hr).
                replace (Nat.eqb (i + m + 1) r) with false by (symmetry; apply Nat.eqb_neq; lia). rewrite orb_false_r. auto.
        * intros l' Hl'. rewrite firstn_all in Hl'. eapply arr_ext; [exact Hl'|]. intros i Hi. unfold h, g.
          rewrite (rsum_firstn_S _ (fun c => Lv (i + m + 1)%nat c * v c * Df c) _ _ _ Hc).
          destruct (Nat.ltb_spec i (N - m - 1)).
          -- destruct (mem (i + m + 1) (pat c)) eqn:E; [ring|]. apply mem_nin in E. rewrite (Hn _ _ E). ring.
          -- replace (mem (i + m + 1) (pat c)) with false; auto. symmetry. apply mem_nin. intro Hin. apply pat_lower in Hin. lia.
  Qed.

  Lemma add_w_ok : forall m D lx w li wi sel v Df, arr N D Df -> listed sel li lx v -> (forall i, In i sel -> (m + 1 + i < N)%nat) -> NoDup sel ->
    length w = N -> length wi = N -> m < N ->
    (forall e, sqr (- Df m) = Err e -> Er Arith) ->
    run Er (add_w F N sqr m D lx w li wi (length sel)) (fun '(wi', w') => length wi' = N
      /\ (sel = [] \/ root (- Df m) * root (- Df m) = - Df m)
      /\ arr N w' (fun i => if Nat.ltb m i && mem (i - m - 1) sel then v (i - m - 1)%nat * root (- Df m) else n0)).
  Proof.
    intros m D lx w li wi sel v Df HD Hsel Hlt Hnd Hw Hwi Hm HE. unfold add_w.
    eapply run_bind; [eapply zeros_ok; [apply (arr_of _ _ _ n0 Hw)|lia]|]. intros w0 Hw0.
    assert (Hsl : (length sel <= N)%nat).
    { pose proof (NoDup_incl_length Hnd (l' := seq 0 N)) as H. rewrite seq_length in H. apply H. intros x Hx. apply in_seq. pose proof (Hlt x Hx). lia. }
    eapply run_imp with (P := fun '(wi', w') => length wi' = N
      /\ (length sel = 0%nat \/ root (- Df m) * root (- Df m) = - Df m)
      /\ arr N w' (fun i => if Nat.ltb m i && mem (i - m - 1) (firstn (length sel) sel) then v (i - m - 1)%nat * root (- Df m) else n0)).
    2:{ intros [wi' w'] (H1 & H2 & H3). rewrite firstn_all in H3. split; auto. split; auto. destruct H2; auto. left. destruct sel; auto; discriminate. }
    apply (run_list Er _ _ (fun t '(wi', w') => length wi' = N
      /\ (t = 0%nat \/ root (- Df m) * root (- Df m) = - Df m)
      /\ arr N w' (fun i => if Nat.ltb m i && mem (i - m - 1) (firstn t sel) then v (i - m - 1)%nat * root (- Df m) else n0))).
    - simpl. split; auto. split; auto. eapply arr_ext; [exact Hw0|]. intros i Hi. rewrite andb_false_r.
      replace (Nat.ltb i N) with true by (symmetry; apply Nat.ltb_lt; auto). auto.
    - intros t r [wi1 w1] Hr (H1 & H2 & H3). destruct (Hsel t r Hr) as [Hli Hlx]. pose proof (Hlt r (nth_error_In _ _ Hr)) as Hrm.
      pose proof (nth_err_some _ _ _ _ Hr) as Htl. simpl.
      eapply run_get; [exact Hli|]. eapply run_put; [lia|]. eapply run_get; [rewrite nth_error_upd by lia; rewrite Nat.eqb_refl; reflexivity|].
      eapply run_get; [exact Hlx|]. eapply run_get; [apply (proj2 HD); lia|]. apply run_sqr; [exact HE|]. intro Hs.
      eapply run_put; [rewrite (proj1 H3); lia|]. cbn [run]. split; [rewrite upd_length; auto|]. split; auto.
      eapply arr_ext; [apply arr_upd; [exact H3|lia]|]. intros i Hi'. unfold fset. rewrite (mem_firstn_S _ _ _ _ Hr).
      destruct (Nat.eqb_spec i (m + 1 + r)).
      + subst. replace (Nat.ltb m (m + 1 + r)) with true by (symmetry; apply Nat.ltb_lt; lia).
        replace (m + 1 + r - m - 1)%nat with r by lia. rewrite Nat.eqb_refl, orb_true_r. auto.
      + destruct (Nat.ltb_spec m i); auto. replace (Nat.eqb (i - m - 1) r) with false by (symmetry; apply Nat.eqb_neq; lia). rewrite orb_false_r. auto.
  Qed.

  Theorem add_ok : forall act g m, factored act g -> m < N -> act m = false -> (forall k, (k < n)%nat -> act k = true) ->
    run Er (ldl_add F N sqr m g) (factored (fset act m true)).
  Proof.
    intros act g m (Lv & Df & Di & [HL Hn HD HDi Hinv Hfact Hdead HK Hmask Hlc Hlw Hlwi Hll Hlli Hllx]) Hm Ham Hprim.
    assert (Hnm : (n <= m)%nat) by (destruct (Nat.le_gt_cases n m); auto; rewrite Hprim in Ham by auto; discriminate).
    unfold ldl_add.
    eapply run_bind; [apply (add_c_ok m (gK g) (gc g) HK Hlc Hm)|]. intros c Hc.
    eapply run_bind; [apply (add_solve_ok act m (gL g) c (gl g) Lv _ HL Hn Hc Hll Hm Hnm); auto|].
    { intros i Hi. replace (Nat.ltb i m) with true by (symmetry; apply Nat.ltb_lt; auto). auto. }
    intros l (y & Hl & Hy & Hysup & Hydead).
    eapply run_bind; [apply (gather_ok m l y (fun i => get (gD g) i) Df (glx g) (gli g) Hl ltac:(lia) Hllx Hlli)|].
    { intros i Hi _. split; [apply get_nth; apply (proj2 HD); lia|]. apply (unit_nz (Di i)). apply Hinv. lia. }
    intros [[lx li] size] (Hsize & Hlx & Hli & Hsel0). rewrite Hsize. clear Hsize size.
    set (sel := nonz y m) in *. set (l12 := quo y Df).
    assert (Hsel : listed sel li lx l12).
    { intros t i Ht. destruct (Hsel0 t i Ht) as (A & B & _). split; auto. rewrite B. f_equal. unfold l12. symmetry. apply (quo_nonz y Df m i). eapply nth_error_In; eauto. }
    assert (Hl12 : forall i, (i < m)%nat -> Df i * l12 i = y i).
    { intros i Hi. apply quo_mul. intro Hy0. assert (Hin : In i sel) by (apply nonz_in; auto). destruct (In_nth_error _ _ Hin) as (t & Ht). apply (Hsel0 t i Ht). }
    assert (Hsellt : forall i, In i sel -> (i < m)%nat) by (intros i Hi; apply nonz_in in Hi; tauto).
    assert (Hl12z : forall i, (i < m)%nat -> y i = n0 -> l12 i = n0) by (intros; apply quo_zero; auto).
    assert (Hnsel : forall i, In i (seq 0 m) -> negb (rz (y i)) = false -> l12 i = n0).
    { intros i Hi Hb. apply in_seq in Hi. apply negb_false_iff in Hb. apply rz_spec in Hb. apply Hl12z; auto. lia. }
    assert (Hpin : forall i, In i sel -> In m (pat i)).
    { intros i Hi. apply nonz_in in Hi. destruct (in_dec Nat.eq_dec m (pat i)) as [|Hni]; auto. exfalso. apply Hi. apply Hysup; tauto. }
    set (dm := Kn m m - rsum (map (fun i => l12 i * l12 i * Df i) sel)).
    assert (Hprim' : forall k, (k < n)%nat -> fset act m true k = true) by (intros k Hk; rewrite fset_neq by lia; auto).
    assert (Hpiv : pivot N (target (fset act m true)) m dm).
    { set (Lx := fun i k => if Nat.eqb i m then (if mem k sel then l12 k else n0) else Lv i k).
      assert (HnX : norm Lx).
      { intros i k Hik. unfold Lx. destruct (Nat.eqb_spec i m) as [->|Him]; [|apply Hn; auto].
        destruct (mem k sel) eqn:E; auto. apply mem_in in E. apply Hpin in E. contradiction. }
      replace dm with (fset Df m dm m) by apply fset_eq. apply (gram_pivot F N pat pat_lower Lx); auto.
      assert (Hrow : forall k, (k < m)%nat -> un Lx m k = l12 k).
      { intros k Hk. rewrite un_neq by lia. unfold Lx. rewrite Nat.eqb_refl. destruct (mem k sel) eqn:E; auto.
        apply mem_nin in E. destruct (f_dec F (y k)) as [Hyk|Hyk]; [symmetry; apply Hl12z; auto|]. exfalso. apply E. apply nonz_in. auto. }
      assert (Hsame : forall i k, i <> m -> un Lx i k = un Lv i k).
      { intros i k Hi. unfold LdlRank1.un. destruct (Nat.eqb i k); auto. unfold Lx. apply Nat.eqb_neq in Hi. rewrite Hi. auto. }
      assert (Hsym : forall p q, gram 0 N Lx (fset Df m dm) p q = gram 0 N Lx (fset Df m dm) q p) by (intros p q; apply rsum_ext; intros; ring).
      assert (Hrm : forall q, (q <= m)%nat -> gram 0 N Lx (fset Df m dm) m q = target (fset act m true) m q).
      { intros q Hq. rewrite (gram_split m Lx (fset Df m dm) m q) by lia.
        assert (Hhi : gram m (N - m) Lx (fset Df m dm) m q = dm * un Lx q m).
        { unfold LdlRank1.gram. rewrite (rsum_single F _ (N - m) (s:=m) (k:=m)); [|lia|].
          - rewrite un_eq, fset_eq. ring.
          - intros k Hk Hne. rewrite (un_neq Lx m k) by lia. rewrite (norm_upper F N pat pat_lower Lx m k HnX) by lia. ring. }
        rewrite Hhi.
        assert (Hlo : gram 0 m Lx (fset Df m dm) m q = rsum (map (fun k => un Lx q k * y k) (seq 0 m))).
        { apply rsum_ext. intros k Hk. apply in_seq in Hk. rewrite Hrow, fset_neq by lia. rewrite <- (Hl12 k) by lia. ring. }
        rewrite Hlo. unfold target. rewrite fset_eq. cbn [andb]. destruct (Nat.eq_dec q m) as [->|Hne].
        - rewrite un_eq, fset_eq. unfold Ks. rewrite Nat.leb_refl. unfold dm.
          replace (rsum (map (fun i => l12 i * l12 i * Df i) sel)) with (rsum (map (fun i => l12 i * l12 i * Df i) (seq 0 m))).
          2:{ symmetry. apply rsum_filter. intros x Hx Hb. rewrite (Hnsel x Hx Hb). ring. }
          rewrite (rsum_ext F (fun k => un Lx m k * y k) (fun i => l12 i * l12 i * Df i)); [ring|].
          intros k Hk. apply in_seq in Hk. rewrite Hrow by lia. rewrite <- (Hl12 k) by lia. ring.
        - rewrite (un_neq Lx q m) by auto. rewrite (norm_upper F N pat pat_lower Lx q m HnX) by lia.
          assert (E1 : rsum (map (fun k => un Lx q k * y k) (seq 0 m)) = Kn q m).
          { rewrite <- (Hy q) by lia. apply rsum_ext. intros k Hk. rewrite Hsame by auto. auto. }
          rewrite E1, fset_neq by auto. destruct (act q) eqn:Eq.
          + unfold Ks. replace (Nat.leb m q) with false by (symmetry; apply Nat.leb_gt; lia). ring.
          + replace (Nat.eqb m q) with false by (symmetry; apply Nat.eqb_neq; auto). rewrite Kn_lt; [ring|lia|].
            intro Hkp. apply kp_blocks in Hkp; auto. rewrite Hprim in Eq by auto. discriminate. }
      intros p q Hp Hq. destruct (Nat.eq_dec p m) as [->|Hpm]; [apply Hrm; auto|]. destruct (Nat.eq_dec q m) as [->|Hqm].
      - rewrite Hsym, Hrm by auto. unfold target. rewrite andb_comm, (Nat.eqb_sym m p). unfold Ks.
        destruct (fset act m true p && fset act m true m); auto. destruct (Nat.leb_spec m p), (Nat.leb_spec p m); auto; lia.
      - transitivity (target act p q); [|unfold target; rewrite !fset_neq by auto; auto]. rewrite <- (Hfact p q) by lia.
        apply rsum_ext. intros k _. rewrite !Hsame by auto. destruct (Nat.eq_dec k m) as [->|Hkm]; [|rewrite fset_neq by auto; auto].
        rewrite (un_neq Lv p m) by auto. rewrite (norm_upper F N pat pat_lower Lv p m Hn) by lia. ring. }
    eapply run_bind; [apply (add_diag_ok m (gK g) (gD g) (gDinv g) lx li sel l12 Df Di HK HD HDi Hm Hsel Hsellt)|].
    { fold dm. intro E0. apply (Er_ok _ Hprim'). left. exists m. split; auto. rewrite <- E0. exact Hpiv. }
    intros [D1 Dinv1]. cbn zeta. fold dm. intros (Hdm & HD1 & HDi1).
    eapply run_bind; [apply (add_row_ok m (gL g) lx li sel l12 Lv HL Hsel Hpin)|]. intros L1 HL1.
    set (Lv1 := fun i k => if Nat.eqb i m && mem k sel then l12 k else Lv i k) in *.
    assert (Hn1 : norm Lv1).
    { intros i k Hik. unfold Lv1. destruct (Nat.eqb_spec i m); cbn [andb]; [|apply Hn; auto]. subst.
      destruct (mem k sel) eqn:E; [|apply Hn; auto]. apply mem_in in E. apply Hpin in E. contradiction. }
    eapply run_bind; [apply (add_l32_ok m (gK g) L1 D1 lx li sel l12 (fset Df m dm) Lv1 l HK HL1 Hn1 HD1 Hsel Hsellt); auto; apply (proj1 Hl)|].
    intros l' (z & Hl' & Hz).
    assert (Hz' : forall j, (m < j < N)%nat -> z (j - m - 1)%nat = Kn m j - rsum (map (fun k => Lv j k * l12 k * Df k) (seq 0 m))).
    { intros j Hj. rewrite Hz by lia. replace (j - m - 1 + m + 1)%nat with j by lia. f_equal.
      rewrite (rsum_ext F _ (fun k => Lv j k * l12 k * Df k)).
      - apply rsum_filter. intros x Hx Hb. rewrite (Hnsel x Hx Hb). ring.
      - intros x Hx. apply Hsellt in Hx. rewrite fset_neq by lia. unfold Lv1. replace (Nat.eqb j m) with false by (symmetry; apply Nat.eqb_neq; lia). auto. }
    assert (Hzsup : forall j, (m < j < N)%nat -> ~ In j (pat m) -> z (j - m - 1)%nat = n0).
    { intros j Hj Hni. rewrite Hz' by auto. rewrite Kn_lt; [|lia|]. 2:{ intro Hkp. apply Hni. apply kp_pat; auto; lia. }
      rewrite rsum_zero; [ring|]. intros k Hk. apply in_seq in Hk. destruct (in_dec Nat.eq_dec j (pat k)) as [Hjk|Hjk].
      - assert (Hyk : y k = n0).
        { apply Hysup; [lia|]. intro Hmk. apply Hni. apply (pat_closed k m j); auto. lia. }
        rewrite (Hl12z k) by (auto; lia). ring.
      - rewrite (Hn _ _ Hjk). ring. }
    assert (Hzdead : forall j, (m < j < N)%nat -> act j = false -> z (j - m - 1)%nat = n0).
    { intros j Hj Hdj. rewrite Hz' by auto. rewrite Kn_lt; [|lia|].
      2:{ intro Hkp. assert (Hjn : (n <= j)%nat) by lia. apply kp_blocks in Hkp; auto. lia. }
      rewrite rsum_zero; [ring|]. intros k Hk. destruct (Hdead j k Hdj ltac:(lia)) as [A _]. rewrite A. ring. }
    eapply run_bind; [apply (gather_ok (N - m - 1) l' z (fun _ => get D1 m) (fun _ => dm) lx li Hl' ltac:(lia) Hlx Hli)|].
    { intros i Hi _. split; [|exact Hdm]. rewrite (get_nth _ D1 m dm); auto. rewrite (proj2 HD1 m Hm), fset_eq. auto. }
    intros [[lx2 li2] size2] (Hsize & Hlx2 & Hli2 & Hsel2'). rewrite Hsize. clear Hsize size2.
    set (sel2 := nonz z (N - m - 1)) in *. set (l32 := quo z (fun _ => dm)).
    assert (Hsel2 : listed sel2 li2 lx2 l32).
    { intros t i Ht. destruct (Hsel2' t i Ht) as (A & B & _). split; auto. rewrite B. f_equal. unfold l32. symmetry. apply (quo_nonz z (fun _ => dm) (N - m - 1) i). eapply nth_error_In; eauto. }
    assert (Hl32 : forall i, dm * l32 i = z i) by (intro i; apply (quo_mul z (fun _ => dm) i); auto).
    assert (Hsel2p : forall i, In i sel2 -> In (i + m + 1)%nat (pat m)).
    { intros i Hi. apply nonz_in in Hi. destruct (in_dec Nat.eq_dec (i + m + 1)%nat (pat m)) as [|Hni]; auto. exfalso. apply (proj2 Hi).
      replace i with (i + m + 1 - m - 1)%nat by lia. apply Hzsup; auto. lia. }
    eapply run_bind; [apply (add_col_ok m L1 lx2 li2 sel2 l32 Lv1 HL1 Hsel2 Hsel2p)|]. intros L2 HL2.
    set (lam := fun i => if Nat.ltb m i && mem (i - m - 1) sel2 then l32 (i - m - 1)%nat else n0).
    eapply run_bind; [apply (add_w_ok m D1 lx2 (gw g) li2 (gwi g) sel2 l32 (fset Df m dm) HD1 Hsel2); auto|].
    { intros i Hi. apply nonz_in in Hi. lia. }
    { apply SS_NoDup. apply SS_filter. apply SS_seq. }
    { rewrite fset_eq. intros e He. apply (Er_ok _ Hprim'). right. exists m, dm, e. split; [lia|auto]. }
    rewrite fset_eq. set (s := root (- dm)). intros [wi w] (Hwi & Hs & Hw).
    assert (Hlam : forall j, (m < j < N)%nat -> dm * lam j = z (j - m - 1)%nat).
    { intros j Hj. unfold lam. replace (Nat.ltb m j) with true by (symmetry; apply Nat.ltb_lt; lia). cbn [andb].
      destruct (mem (j - m - 1) sel2) eqn:E; auto. apply mem_nin in E. 
      destruct (f_dec F (z (j - m - 1)%nat)) as [->|Hnz]; [ring|]. exfalso. apply E. apply nonz_in. split; [lia|auto]. }
    assert (Hlam0 : forall j, (j <= m)%nat -> lam j = n0).
    { intros j Hj. unfold lam. replace (Nat.ltb m j) with false by (symmetry; apply Nat.ltb_ge; lia). auto. }
    assert (Hlamz : forall j, (m < j < N)%nat -> z (j - m - 1)%nat = n0 -> lam j = n0).
    { intros j Hj Hz0. unfold lam. destruct (Nat.ltb m j && mem (j - m - 1) sel2); auto. apply quo_zero. auto. }
    assert (Hw' : arr N w (fun i => lam i * s)).
    { eapply arr_ext; [exact Hw|]. intros i Hi. unfold lam. destruct (Nat.ltb m i && mem (i - m - 1) sel2); auto. ring. }
    set (Lv2 := fun i k => if Nat.eqb i m then (if mem k sel then l12 k else n0) else if Nat.eqb k m then lam i else Lv i k).
    assert (Hmcol : forall k, Lv m k = n0 /\ Lv k m = n0) by (intro k; apply Hdead; auto).
    assert (HL2' : vrep L2 Lv2).
    { eapply vrep_ext; [exact HL2|]. intros k i Hk Hik. pose proof (pat_lower _ _ Hik) as Hlow. unfold Lv2, Lv1, lam.
      destruct (Nat.eqb_spec k m) as [->|Hkm].
      - replace (Nat.eqb i m) with false by (symmetry; apply Nat.eqb_neq; lia). cbn [andb].
        replace (Nat.ltb m i) with true by (symmetry; apply Nat.ltb_lt; lia). rewrite andb_true_r. cbn [andb].
        destruct (mem (i - m - 1) sel2); auto. apply Hmcol.
      - cbn [andb]. destruct (Nat.eqb_spec i m); cbn [andb]; auto. subst. destruct (mem k sel); auto. apply Hmcol. }
    assert (Hn2 : norm Lv2).
    { intros i k Hik. unfold Lv2. destruct (Nat.eqb_spec i m) as [->|Him].
      - destruct (mem k sel) eqn:E; auto. apply mem_in in E. apply Hpin in E. contradiction.
      - destruct (Nat.eqb_spec k m) as [->|Hkm]; [|apply Hn; auto].
        destruct (Nat.lt_ge_cases m i) as [Hlt|Hge]; [|apply Hlam0; auto].
        destruct (Nat.lt_ge_cases i N) as [HiN|HiN].
        + apply Hlamz; [lia|]. apply Hzsup; auto. 
        + unfold lam. replace (mem (i - m - 1) sel2) with false; [rewrite andb_false_r; auto|]. symmetry. apply mem_nin. intro Hin. apply nonz_in in Hin. lia. }
    set (Df1 := fset Df m dm) in *. set (Di1 := fset Di m (n1 / dm)) in *.
    assert (HT : forall p q, p < N -> q < N ->
      gram 0 N Lv2 Df1 p q + n1 * wplus (m + 1) (fun i => lam i * s) p * wplus (m + 1) (fun i => lam i * s) q = target (fset act m true) p q).
    { assert (Hsel_all : forall f : nat -> F, (forall k, (k < m)%nat -> l12 k = n0 -> f k = n0) -> rsum (map f sel) = rsum (map f (seq 0 m))).
      { intros f Hf. apply rsum_filter. intros x Hx Hb. apply Hf; [apply in_seq in Hx; lia|apply Hnsel; auto]. }
      assert (Hrow : forall k, (k < m)%nat -> un Lv2 m k = l12 k).
      { intros k Hk. rewrite un_neq by lia. unfold Lv2. rewrite Nat.eqb_refl. destruct (mem k sel) eqn:E; auto.
        apply mem_nin in E. destruct (f_dec F (y k)) as [Hyk|Hyk]; [symmetry; apply Hl12z; auto|]. exfalso. apply E. apply nonz_in. auto. }
      assert (Hrow' : forall k, (m < k)%nat -> un Lv2 m k = n0).
      { intros k Hk. rewrite un_neq by lia. apply (norm_upper F N pat pat_lower Lv2 m k Hn2). lia. }
      assert (Hcol : forall i, i <> m -> un Lv2 i m = lam i).
      { intros i Hi. rewrite un_neq by auto. unfold Lv2. apply Nat.eqb_neq in Hi. rewrite Hi, Nat.eqb_refl. auto. }
      assert (Hsame : forall i k, i <> m -> k <> m -> un Lv2 i k = un Lv i k).
      { intros i k Hi Hk. unfold LdlRank1.un. destruct (Nat.eqb i k); auto. unfold Lv2. apply Nat.eqb_neq in Hi, Hk. rewrite Hi, Hk. auto. }
      (* entries of row m *)
      assert (Hm_entry : forall q, q < N -> gram 0 N Lv2 Df1 m q = if Nat.leb m q then Kn m q else Kn q m).
      { intros q Hq. rewrite (gram_split m Lv2 Df1 m q) by lia.
        assert (Hhi : gram m (N - m) Lv2 Df1 m q = dm * un Lv2 q m).
        { unfold LdlRank1.gram. rewrite (rsum_single F _ (N - m) (s:=m) (k:=m)); [|lia|].
          - rewrite un_eq. unfold Df1. rewrite fset_eq. ring.
          - intros k Hk Hne. rewrite Hrow' by lia. ring. }
        rewrite Hhi.
        assert (Hlo : gram 0 m Lv2 Df1 m q = rsum (map (fun k => un Lv2 q k * y k) (seq 0 m))).
        { apply rsum_ext. intros k Hk. apply in_seq in Hk. rewrite Hrow by lia. unfold Df1. rewrite fset_neq by lia. rewrite <- (Hl12 k) by lia. ring. }
        rewrite Hlo. destruct (Nat.leb_spec m q) as [Hmq|Hmq].
        - destruct (Nat.eq_dec q m) as [->|Hne].
          + rewrite un_eq. unfold dm. rewrite (Hsel_all (fun i => l12 i * l12 i * Df i)) by (intros k Hk E; rewrite E; ring).
            rewrite (rsum_ext F (fun k => un Lv2 m k * y k) (fun i => l12 i * l12 i * Df i)); [ring|].
            intros k Hk. apply in_seq in Hk. rewrite Hrow by lia. rewrite <- (Hl12 k) by lia. ring.
          + rewrite Hcol by auto. rewrite (Hlam q) by lia. rewrite Hz' by lia.
            rewrite (rsum_ext F (fun k => un Lv2 q k * y k) (fun k => Lv q k * l12 k * Df k)); [ring|].
            intros k Hk. apply in_seq in Hk. rewrite Hsame by lia. rewrite un_neq by lia. rewrite <- (Hl12 k) by lia. ring.
        - rewrite Hcol by lia. rewrite Hlam0 by lia. rewrite <- (Hy q Hmq).
          rewrite (rsum_ext F (fun k => un Lv2 q k * y k) (fun k => un Lv q k * y k)); [ring|].
          intros k Hk. apply in_seq in Hk. rewrite Hsame by lia. auto. }
      assert (Hm_target : forall q, q < N -> q <> m -> act q = false -> (if Nat.leb m q then Kn m q else Kn q m) = n0).
      { intros q Hq Hqm Hdq. assert (Hqn : (n <= q)%nat) by (destruct (Nat.le_gt_cases n q); auto; rewrite Hprim in Hdq by auto; discriminate).
        destruct (Nat.leb_spec m q); apply Kn_lt; try lia; intro Hkp; apply kp_blocks in Hkp; lia. }
      assert (Hsym : forall p q, gram 0 N Lv2 Df1 p q = gram 0 N Lv2 Df1 q p) by (intros p q; apply rsum_ext; intros; ring).
      assert (Hwm : wplus (m + 1) (fun i => lam i * s) m = n0).
      { unfold LdlRank1.wplus. replace (Nat.leb (m + 1) m) with false by (symmetry; apply Nat.leb_gt; lia). auto. }
      intros p q Hp Hq. unfold target.
      destruct (Nat.eq_dec p m) as [->|Hpm]; [|destruct (Nat.eq_dec q m) as [->|Hqm]].
      + rewrite Hwm, fset_eq. cbn [andb]. rewrite Hm_entry by auto. destruct (Nat.eq_dec q m) as [->|Hqm].
        * rewrite fset_eq. unfold Ks. rewrite Nat.leb_refl. ring.
        * rewrite fset_neq by auto. destruct (act q) eqn:Eq; [unfold Ks; ring|]. rewrite Hm_target by auto.
          replace (Nat.eqb m q) with false by (symmetry; apply Nat.eqb_neq; auto). ring.
      + rewrite Hwm, fset_eq, andb_true_r. rewrite Hsym, Hm_entry by auto. rewrite fset_neq by auto. destruct (act p) eqn:Ep.
        * unfold Ks. destruct (Nat.leb_spec m p), (Nat.leb_spec p m); try lia; ring.
        * rewrite Hm_target by auto. replace (Nat.eqb p m) with false by (symmetry; apply Nat.eqb_neq; auto). ring.
      + rewrite !fset_neq by auto. fold (target act p q). rewrite <- Hfact by auto.
        rewrite (gram_except Lv2 Df1 m p q Hm), (gram_except Lv Df m p q Hm).
        rewrite (rsum_ext F _ (fun k => if Nat.eqb k m then n0 else un Lv p k * Df k * un Lv q k)).
        2:{ intros k _. destruct (Nat.eqb_spec k m); auto. unfold Df1. rewrite fset_neq by auto. rewrite !Hsame by auto. auto. }
        rewrite !Hcol by auto. rewrite (un_neq Lv p m), (un_neq Lv q m) by auto. rewrite (proj2 (Hmcol p)), (proj2 (Hmcol q)).
        assert (Hwp : forall i, i <> m -> wplus (m + 1) (fun i => lam i * s) i = lam i * s).
        { intros i Hi. unfold LdlRank1.wplus. destruct (Nat.leb_spec (m + 1) i); auto. rewrite Hlam0 by lia. ring. }
        rewrite !Hwp by auto. unfold Df1. rewrite fset_eq. destruct Hs as [Hs|Hs].
        * assert (Hz0 : forall i, lam i = n0) by (intro i; unfold lam; rewrite Hs; simpl; rewrite andb_false_r; auto). rewrite !Hz0. ring.
        * transitivity (rsum (map (fun k : nat => if Nat.eqb k m then n0 else un Lv p k * Df k * un Lv q k) (seq 0 N))
                        + lam p * dm * lam q + lam p * lam q * (s * s)); [ring|]. fold s in Hs. rewrite Hs. ring. }
    eapply run_bind; [apply (rank1_full (fset act m true) n1 (m + 1) L2 D1 Dinv1 w Lv2 Df1 Di1 (fun i => lam i * s))|].
    - lia.
    - exact HL2'.
    - exact Hn2.
    - exact HD1.
    - exact HDi1.
    - exact Hw'.
    - apply (clique_col m); [|lia]. intros i Hi Hi' Hni. rewrite Hlamz; [ring|lia|]. apply Hzsup; auto.
    - intros k Hk. unfold Df1, Di1, fset. destruct (Nat.eqb k m); [field; auto|auto].
    - intros j k Hj HjN. unfold fset in Hj. destruct (Nat.eqb_spec j m) as [->|Hne]; [discriminate|].
      destruct (Hdead j k Hj HjN) as [A B]. apply Nat.eqb_neq in Hne as Hne'.
      assert (Hlj : (m < j)%nat -> lam j = n0) by (intro Hlt; apply Hlamz; [lia|apply Hzdead; auto]).
      split; [intro Hmj; rewrite Hlj by lia; ring|]. unfold Lv2. rewrite Hne'. split.
      + destruct (Nat.eqb k m); auto. destruct (Nat.lt_ge_cases m j) as [Hlt|Hge]; auto.
      + destruct (Nat.eqb k m); auto. destruct (mem j sel) eqn:E; auto. apply mem_in in E. apply Hsellt in E as Hjm.
        apply Hl12z; auto.
    - intros j Hj HP. apply (Er_ok _ Hprim'). left. exists j. split; auto. eapply pivot_ext; [exact Hj| |exact HP]. exact HT.
    - intros [[[L4 D4] Dinv4] w4] (Lv' & Df' & Di' & H1 & H2 & H3 & H4 & H5 & H6 & H7 & H8). cbn [run].
      exists Lv', Df', Di'. constructor; cbn [gL gMask gD gDinv gK gc gw gwi gl gli glx]; auto; [|apply (proj1 Hc)|apply (proj1 Hl')].
      intros p q Hp Hq. rewrite H7 by auto. apply HT; auto.
  Qed.
End LdlProofs.
