(** The canonical blocks mean what the specification says, for every flat parameter
    vector; the generated code is well formed. *)

From Coq Require Import String Arith Bool Lia List Permutation Ring.
From Verif Require Import Base Pus Machine PusParse PusCheck PusLift Runtime RuntimeSpec
     RuntimeProofs Canon CanonSpec CanonProofs.
Import ListNotations.

Lemma nth_removelast : forall (l : list nat) k, S k < length l -> nth k (removelast l) 0 = nth k l 0.
Proof.
  induction l as [|a l]; intros k Hk; simpl in Hk. lia.
  destruct l as [|b l]; [simpl in Hk; lia|]. destruct k; [reflexivity|].
  change (nth k (removelast (b :: l)) 0 = nth k (b :: l) 0). apply IHl. simpl in *. lia.
Qed.

Lemma last_nth : forall A (l : list A) d, last l d = nth (length l - 1) l d.
Proof.
  induction l as [|a l]; intros; auto. destruct l as [|b l]; auto.
  change (last (b :: l) d = nth (length (a :: b :: l) - 1) (a :: b :: l) d). rewrite IHl.
  simpl. rewrite Nat.sub_0_r. reflexivity.
Qed.

Lemma removelast_length : forall A (l : list A), length (removelast l) = length l - 1.
Proof.
  induction l as [|a l]; auto. destruct l as [|b l]; auto.
  change (S (length (removelast (b :: l))) = length (a :: b :: l) - 1). rewrite IHl. simpl. lia.
Qed.

Lemma removelast_nth : forall A (l : list A) k d, S k < length l -> nth k (removelast l) d = nth k l d.
Proof.
  induction l as [|a l]; intros k d Hk; simpl in Hk. lia.
  destruct l as [|b l]; [simpl in Hk; lia|]. destruct k; [reflexivity|].
  change (nth k (removelast (b :: l)) d = nth k (b :: l) d). apply IHl. simpl in *. lia.
Qed.

Lemma removelast_In : forall A (l : list A) a, In a (removelast l) -> In a l.
Proof.
  induction l as [|b l]; intros a H; auto. destruct l as [|c l]; [destruct H|].
  change (In a (b :: removelast (c :: l))) in H. destruct H; [left; auto|right; auto].
Qed.

Lemma filter_filter : forall A (f g : A -> bool) l,
    filter f (filter g l) = filter (fun a => g a && f a) l.
Proof.
  induction l; simpl; auto. destruct (g a); simpl; [destruct (f a); [f_equal; auto|auto]|auto].
Qed.

Lemma filter_all : forall A (f : A -> bool) l, (forall a, In a l -> f a = true) -> filter f l = l.
Proof. induction l; simpl; intros; auto. rewrite H by auto. f_equal. auto. Qed.

Lemma filter_none : forall A (f : A -> bool) l, (forall a, In a l -> f a = false) -> filter f l = [].
Proof. induction l; simpl; intros; auto. rewrite H by auto. auto. Qed.

Lemma filter_ge_seq : forall (f : nat -> bool) m n, m <= n ->
    filter (fun k => Nat.leb m k) (np_where f n) = filter f (seq m (n - m)).
Proof.
  intros. rewrite (np_where_split f m n H), filter_app.
  rewrite filter_none, filter_all; auto.
  - intros a Ha. apply filter_In in Ha. destruct Ha as [Ha _]. apply in_seq in Ha.
    apply Nat.leb_le. lia.
  - intros a Ha. apply np_where_In in Ha. apply Nat.leb_gt. lia.
Qed.

Lemma nth_skipn : forall A (l : list A) m k d, nth k (skipn m l) d = nth (m + k) l d.
Proof.
  induction l; intros; destruct m; simpl; auto.
  - destruct k; auto.
Qed.

Lemma map_nth_skipn : forall (l : list nat) m, m <= length l ->
    map (fun k => nth k l 0) (seq m (length l - m)) = skipn m l.
Proof.
  intros. apply nth_ext with (d := 0) (d' := 0).
  - rewrite map_length, seq_length, skipn_length. auto.
  - intros k Hk. rewrite map_length, seq_length in Hk. rewrite nth_map_seq' by auto.
    rewrite nth_skipn. reflexivity.
Qed.

Lemma NoDup_map_filter : forall A B (h : A -> B) f l, NoDup (map h l) -> NoDup (map h (filter f l)).
Proof.
  induction l; simpl; intros; auto. inversion H; subst. destruct (f a); simpl; auto.
  constructor; auto. intro HI. apply H2. apply in_map_iff in HI. destruct HI as [y [E Hy]].
  apply filter_In in Hy. apply in_map_iff. exists y. tauto.
Qed.

Section Main.
  Variable K : Ring.
  Add Ring Kring : (rth K).
  Local Open Scope num_scope.
  Variable big : K.
  Variable x : cvx K.
  Variable th0 : pvals K.
  Hypothesis W : wf_cvx x th0.
  Notation n := (x_n x).
  Notation M := (nth (x_n x) (x_Ap x) 0%nat).
  Notation ip0 := (removelast (x_Ap x)).

  Lemma Ap_facts : length (x_Ap x) = S (S n) /\ nth (S n) (x_Ap x) 0%nat = length (x_Ai x)
                   /\ (M <= length (x_Ai x))%nat.
  Proof.
    pose proof (wx_Ap _ _ _ W) as H. pose proof H as (H1 & H2 & H3 & H4).
    split; auto. split; auto. rewrite <- H3. apply H4. lia.
  Qed.

  Lemma n_mat_eq : n_mat x = M.
  Proof.
    destruct Ap_facts as (H1 & H2 & H3). unfold n_mat, n_data, n_data_vec.
    rewrite !last_nth, removelast_length, H1. simpl Nat.sub.
    replace (n - 0)%nat with n by lia. rewrite nth_removelast by lia.
    rewrite H2. lia.
  Qed.

  Lemma ip0_nth : forall c, (c <= n)%nat -> nth c ip0 0%nat = nth c (x_Ap x) 0%nat.
  Proof. intros. apply nth_removelast. destruct Ap_facts as (H1 & _). lia. Qed.

  Lemma ip0_wf : ip_wf ip0 n M.
  Proof.
    pose proof (wx_Ap _ _ _ W) as (H1 & H2 & H3 & H4).
    split; [rewrite removelast_length; lia|]. split; [|split].
    - rewrite ip0_nth by lia. auto.
    - apply ip0_nth. lia.
    - intros c Hc. rewrite !ip0_nth by lia. apply H4. lia.
  Qed.

  Lemma csc_ext : forall (val val' : nat -> K) idx ip i j,
      (forall k, (nth j ip 0 <= k < nth (S j) ip 0)%nat -> val k = val' k) ->
      csc_entry val idx ip i j = csc_entry val' idx ip i j.
  Proof.
    intros. unfold csc_entry. apply rsum_ext. intros k Hk. apply in_seq in Hk.
    rewrite H by lia. reflexivity.
  Qed.

  Lemma csc_ext_ip : forall (val val' : nat -> K) idx ip ip' i j,
      nth j ip 0%nat = nth j ip' 0%nat -> nth (S j) ip 0%nat = nth (S j) ip' 0%nat ->
      (forall k, (nth j ip 0 <= k < nth (S j) ip 0)%nat -> val k = val' k) ->
      csc_entry val idx ip i j = csc_entry val' idx ip' i j.
  Proof.
    intros. unfold csc_entry. rewrite <- H, <- H0. apply rsum_ext. intros k Hk. apply in_seq in Hk.
    rewrite H1 by lia. reflexivity.
  Qed.

  Lemma dot_nil : forall v : list K, dot v [] = n0.
  Proof. reflexivity. Qed.

  (** Dropping structurally zero rows keeps the matrix (canonicalizer.py 450-452, 471-482). *)
  Lemma mat_block : forall (a : amap K) ip v ncols i j,
      ip_wf ip (am_nc a) (length (am_map a)) -> cols_lt K ncols (am_map a) -> (j < am_nc a)%nat ->
      let map2 := resparse ncols a (am_map a) in
      let nz := np_where (fun k => negb (Nat.eqb (length (nth k map2 [])) 0)) (length map2) in
      csc_entry (fun k => nth k (map (dot v) (take [] map2 nz)) n0) (take 0%nat (am_idx a) nz)
                (recount (am_nc a) ip nz) i j
      = csc_entry (fun k => sign_of (am_neg a k) * dot v (nth k (am_map a) [])) (am_idx a) ip i j.
  Proof.
    intros a ip v ncols i j Hip Hc Hj map2 nz.
    assert (length map2 = length (am_map a)) as HL by apply resparse_length.
    set (f := fun k => negb (Nat.eqb (length (nth k map2 [])) 0)) in *.
    unfold nz. rewrite HL.
    pose proof (recount_wf _ _ _ f Hip) as Hw.
    rewrite (csc_ext _ (fun k => (fun r => dot v (nth r map2 [])) (nth k (np_where f (length (am_map a))) 0%nat))).
    - rewrite (sel_entry K (am_nc a) (length (am_map a)) ip (am_idx a)
                 (fun r => dot v (nth r map2 [])) f Hip i j Hj).
      rewrite rsum_filter.
      + unfold csc_entry. apply rsum_ext. intros k Hk. apply in_seq in Hk.
        destruct (Nat.eqb (nth k (am_idx a) 0%nat) i); auto.
        apply resparse_dot; auto.
        pose proof Hip as (H1 & H2 & H3 & H4). pose proof (ip_mono _ _ _ Hip (S j) (am_nc a)).
        pose proof (H4 j Hj). lia.
      + intros k _ Hf. unfold f in Hf. apply negb_false_iff, Nat.eqb_eq in Hf.
        destruct (nth k map2 []); [|discriminate]. rewrite dot_nil. destruct (Nat.eqb _ _); auto.
    - intros k Hk. pose proof (ip_mono _ _ _ Hw (S j) (am_nc a)) as Hm.
      pose proof Hw as (H1 & H2 & H3 & H4).
      assert (k < length (np_where f (length (am_map a))))%nat by (unfold cnt in *; lia).
      rewrite nth_indep with (d' := dot v []) by (rewrite map_length, take_length; auto).
      rewrite map_nth. rewrite take_nth by auto. reflexivity.
  Qed.

  Definition bval (s : solver) (p : pid) (v : list K) : list K := map (dot v) (pr_rows (proc big x s p)).
  Definition bentry (s : solver) (p : pid) (v : list K) (i j : nat) : K :=
    csc_entry (fun k => nth k (bval s p v) n0) (pr_idx (proc big x s p)) (pr_ip (proc big x s p)) i j.

  Lemma sg_false : forall a : K, sign_of false * a = a.
  Proof. intro. unfold sign_of. ring. Qed.
  Lemma sg_true : forall a : K, sign_of true * a = - a.
  Proof. intro. unfold sign_of. ring. Qed.

  Lemma colsA : cols_lt K (length (x_flat x)) (x_A x).
  Proof. intros r c w. apply (wx_colsA _ _ _ W). Qed.

  Lemma cols_take : forall rows idx m, cols_lt K m rows -> cols_lt K m (take [] rows idx).
  Proof.
    intros rows idx m H r c w Hr Hc. apply take_In in Hr. destruct Hr as [Hr|Hr].
    - eapply H; eauto.
    - subst. destruct Hc.
  Qed.

  (** *** P *)
  Lemma P_ok : forall s v i j, In pP (solver_pids s) -> (j < n)%nat -> bentry s pP v i j = cP x v i j.
  Proof.
    intros s v i j Hs Hj.
    assert (process big x (is_qp s) (is_split s) pP
            = (match map_P x with
               | None => Ok (mkPr [] [] [] [] [] false)
               | Some a => process big x (is_qp s) (is_split s) pP end)) as E0.
    { unfold process. destruct (is_qp s); simpl; destruct (map_P x); reflexivity. }
    unfold bentry, bval, proc, cP. unfold map_P in E0.
    destruct (x_P x) as [[[rows idx] ip]|] eqn:EP.
    - pose proof (wx_P _ _ _ W _ _ _ EP) as (H1 & H2 & H3).
      assert (forall b : bool, (if b then qp_map x pP else conic_map x pP)
                        = Ok (Some (mkAm [] rows (no_sign) idx n n))) as E.
      { intro b. destruct b; simpl; unfold map_P; rewrite EP; reflexivity. }
      unfold process. rewrite E. unfold bind, pid_upper, constr_vec, indptr_for. rewrite EP.
      cbv beta iota zeta.
      unfold pr_rows, pr_idx, pr_ip.
      match goal with |- context [mkAm ?a ?b ?c ?d ?e ?f] => set (a0 := mkAm a b c d e f) end.
      pose proof (mat_block a0 ip v (length (x_flat x)) i j) as MB.
      change (am_nc a0) with n in *. change (am_map a0) with rows in *. change (am_idx a0) with idx in *.
      cbv zeta in MB. rewrite MB; auto.
      + apply csc_ext. intros k _. apply sg_false.
      + rewrite H2. auto.
    - rewrite E0. simpl. unfold csc_entry. simpl. destruct j; reflexivity.
  Qed.

  (** *** q, c, d *)
  Lemma q_block : forall s p v, p = pq \/ p = pc -> (p = pc -> is_qp s = false) ->
      length (bval s p v) = n /\ forall j, (j < n)%nat -> nth j (bval s p v) n0 = cq x v j.
  Proof.
    intros s p v Hp Hs. unfold bval, proc.
    assert (process big x (is_qp s) (is_split s) p
            = Ok (let map2 := resparse (length (x_flat x)) (map_q x) (removelast (x_q x)) in
                  mkPr (removelast (x_q x)) map2 (mapv map2 (x_flat x)) [] []
                       (touches map2 0 (length (x_flat x) - 1)))) as E.
    { destruct Hp; subst p.
      - destruct (is_qp s), (is_split s); reflexivity.
      - rewrite (Hs eq_refl). destruct (is_split s); reflexivity. }
    rewrite E. cbv zeta. unfold pr_rows.
    pose proof (wx_q _ _ _ W) as Hq.
    rewrite map_length, resparse_length, removelast_length. split; [lia|].
    intros j Hj. rewrite nth_indep with (d' := dot v [])
      by (rewrite map_length, resparse_length, removelast_length; lia).
    rewrite map_nth, resparse_dot.
    - simpl. rewrite sg_false. unfold cq. rewrite removelast_nth by lia. reflexivity.
    - intros r c w Hr. apply removelast_In in Hr. apply (wx_colsq _ _ _ W); auto.
    - rewrite removelast_length. lia.
  Qed.

  Lemma d_rows : forall s, pr_rows (proc big x s pd)
      = resparse (length (x_flat x)) (map_d x) [nth n (x_q x) []]
      /\ pr_map1 (proc big x s pd) = [nth n (x_q x) []].
  Proof.
    intro s. unfold proc.
    assert (last (x_q x) [] = nth n (x_q x) []) as EL.
    { rewrite last_nth, (wx_q _ _ _ W). simpl. f_equal. lia. }
    unfold process, qp_map, conic_map.
    replace (if is_qp s then Ok (Some (map_d x)) else Ok (Some (map_d x))) with (Ok (Some (map_d x)))
      by (destruct (is_qp s); reflexivity).
    unfold bind, pid_upper, constr_vec. cbv iota zeta. unfold pr_rows, pr_map1.
    unfold map_d. unfold am_map. rewrite EL. auto.
  Qed.

  Lemma d_ok : forall s v, bval s pd v = [cd x v].
  Proof.
    intros s v. unfold bval. destruct (d_rows s) as [E _]. rewrite E.
    apply nth_ext with (d := dot v []) (d' := n0).
    - rewrite map_length, resparse_length. reflexivity.
    - intros k Hk. rewrite map_length, resparse_length in Hk. simpl in Hk.
      assert (k = 0%nat) by lia. subst k. rewrite map_nth, resparse_dot.
      + simpl. rewrite sg_false. reflexivity.
      + intros r c w Hr Hc. destruct Hr as [Hr|[]]. subst r.
        destruct (nth_In_or K (x_q x) n) as [HI|HI].
        * apply (wx_colsq _ _ _ W _ _ _ HI Hc).
        * rewrite HI in Hc. destruct Hc.
      + auto.
  Qed.

  (** *** OSQP: A *)
  Lemma osqp_A : forall v i j, (j < n)%nat ->
      bentry OSQP pA v i j = if Nat.ltb i (x_neq x) then cA x v i j else - cA x v i j.
  Proof.
    intros v i j Hj. unfold bentry, bval, proc, process. simpl is_qp. simpl is_split.
    unfold qp_map. rewrite n_mat_eq. unfold bind, pid_upper, constr_vec, indptr_for.
    cbv iota zeta. unfold pr_rows, pr_idx, pr_ip.
    match goal with |- context [mkAm ?a ?b ?c ?d ?e ?f] => set (a0 := mkAm a b c d e f) end.
    destruct Ap_facts as (HA1 & HA2 & HA3).
    assert (length (firstn M (x_A x)) = M) as HF.
    { rewrite firstn_length, (wx_A _ _ _ W). lia. }
    assert (length (am_map a0) = M) as HL by (simpl; rewrite map_length, seq_length; auto).
    assert (forall k, (k < M)%nat -> nth k (am_map a0) []
             = let r := nth k (x_A x) [] in
               if Nat.leb (x_neq x) (nth k (x_Ai x) 0%nat) then neg_row r else r) as Hnth.
    { intros k Hk. simpl. rewrite nth_map_seq by lia.
      assert (nth k (firstn M (x_Ai x)) 0%nat = nth k (x_Ai x) 0%nat) as Hf.
      { rewrite <- (firstn_skipn M (x_Ai x)) at 2. rewrite app_nth1; auto.
        rewrite firstn_length. lia. }
      rewrite Hf. reflexivity. }
    assert (cols_lt K (length (x_flat x)) (am_map a0)) as Hcols.
    { intros r c w Hr Hc. apply In_nth with (d := []) in Hr. destruct Hr as [k [Hk E]].
      rewrite HL in Hk. rewrite Hnth in E by auto. cbv zeta in E.
      assert (exists w', In (c, w') (nth k (x_A x) [])) as [w' Hw].
      { destruct (Nat.leb (x_neq x) (nth k (x_Ai x) 0%nat)); subst r; [|eauto].
        unfold neg_row in Hc. apply in_map_iff in Hc. destruct Hc as [[c' w'] [E Hin]].
        inversion E; subst. eauto. }
      destruct (nth_In_or K (x_A x) k) as [HI|HI]; [apply (colsA _ _ _ HI Hw)|].
      rewrite HI in Hw. destruct Hw. }
    pose proof (mat_block a0 ip0 v (length (x_flat x)) i j) as MB.
    rewrite HL in MB. specialize (MB ip0_wf Hcols Hj). cbv zeta in MB.
    change (am_nc a0) with n in *.
    change (am_map a0) with (am_map a0) in MB. rewrite MB. unfold cA.
    unfold csc_entry. rewrite !ip0_nth by lia.
    assert (nth (S j) (x_Ap x) 0 <= M)%nat as HjM.
    { apply (ip_mono _ _ _ (wx_Ap _ _ _ W)); lia. }
    assert (forall b : bool, (if b then rsum (map (fun k => if Nat.eqb (nth k (x_Ai x) 0%nat) i
                then dot v (nth k (x_A x) []) else n0) (seq (nth j (x_Ap x) 0%nat) (nth (S j) (x_Ap x) 0 - nth j (x_Ap x) 0)%nat))
              else - rsum (map (fun k => if Nat.eqb (nth k (x_Ai x) 0%nat) i
                then dot v (nth k (x_A x) []) else n0) (seq (nth j (x_Ap x) 0%nat) (nth (S j) (x_Ap x) 0 - nth j (x_Ap x) 0)%nat)))
            = rsum (map (fun k => if Nat.eqb (nth k (x_Ai x) 0%nat) i
                then (if b then dot v (nth k (x_A x) []) else - dot v (nth k (x_A x) [])) else n0) (seq (nth j (x_Ap x) 0%nat) (nth (S j) (x_Ap x) 0 - nth j (x_Ap x) 0)%nat))) as HB.
    { intros [|]; auto. rewrite <- rsum_map_opp. apply rsum_ext. intros k _.
      destruct (Nat.eqb _ _); auto. ring. }
    rewrite HB. apply rsum_ext. intros k Hk. apply in_seq in Hk.
    assert (nth k (am_idx a0) 0%nat = nth k (x_Ai x) 0%nat) as Hi.
    { simpl. rewrite <- (firstn_skipn M (x_Ai x)) at 2. rewrite app_nth1; auto.
      rewrite firstn_length. lia. }
    rewrite Hi. destruct (Nat.eqb (nth k (x_Ai x) 0%nat) i) eqn:E; auto.
    apply Nat.eqb_eq in E. simpl am_neg. unfold no_sign. rewrite sg_false.
    rewrite Hnth by lia. rewrite E. cbv zeta.
    destruct (Nat.ltb i (x_neq x)) eqn:E2.
    - apply Nat.ltb_lt in E2. assert (Nat.leb (x_neq x) i = false) as -> by (apply Nat.leb_gt; auto). auto.
    - apply Nat.ltb_ge in E2. assert (Nat.leb (x_neq x) i = true) as -> by (apply Nat.leb_le; auto).
      rewrite !dot_rsum. unfold neg_row. rewrite map_map. rewrite <- rsum_map_opp.
      apply rsum_ext. intros cv _. simpl. ring.
  Qed.
  (** *** Vectors *)
  Lemma rsum_nth_list : forall (F : nat -> K) l,
      rsum (map (fun k => F (nth k l 0%nat)) (seq 0 (length l))) = rsum (map F l).
  Proof.
    intros. f_equal. apply nth_ext with (d := F 0%nat) (d' := F 0%nat).
    - rewrite !map_length, seq_length. auto.
    - intros k Hk. rewrite map_length, seq_length in Hk. rewrite nth_map_seq by auto.
      rewrite map_nth. reflexivity.
  Qed.

  Lemma vec_block : forall mr g neg nr v i, (i < nr)%nat ->
      NoDup (map (fun k => g (nth k (x_Ai x) 0%nat)) mr) ->
      let a := mkAm mr [] neg (map g (take 0%nat (x_Ai x) mr)) nr 1 in
      dot v (nth i (resparse (length (x_flat x)) a (to_dense x a)) [])
      = sign_of (neg i) * rsum (map (fun k => if Nat.eqb (g (nth k (x_Ai x) 0%nat)) i
                                             then dot v (nth k (x_A x) []) else n0) mr).
  Proof.
    intros mr g neg nr v i Hi Hn a.
    assert (cols_lt K (length (x_flat x)) (to_dense x a)) as Hc.
    { intros r c w Hr Hc. apply to_dense_In in Hr. destruct Hr as [Hr|Hr].
      - apply (colsA _ _ _ Hr Hc).
      - subst. destruct Hc. }
    rewrite resparse_dot; auto. 2:{ rewrite to_dense_length. auto. }
    change (am_neg a i) with (neg i). f_equal. rewrite to_dense_dot; auto.
    - change (am_idx a) with (map g (take 0%nat (x_Ai x) mr)). change (am_mrows a) with mr.
      rewrite <- (rsum_nth_list (fun k => if Nat.eqb (g (nth k (x_Ai x) 0%nat)) i
                                             then dot v (nth k (x_A x) []) else n0)).
      apply rsum_ext. intros k Hk. apply in_seq in Hk.
      rewrite nth_indep with (d' := g 0%nat) by (rewrite map_length, take_length; lia).
      rewrite map_nth, take_nth by lia. reflexivity.
    - change (am_idx a) with (map g (take 0%nat (x_Ai x) mr)). unfold take. rewrite map_map. auto.
    - simpl. rewrite map_length, take_length. reflexivity.
  Qed.

  Lemma vec_block_id : forall mr neg nr v i, (i < nr)%nat ->
      NoDup (map (fun k => nth k (x_Ai x) 0%nat) mr) ->
      let a := mkAm mr [] neg (take 0%nat (x_Ai x) mr) nr 1 in
      dot v (nth i (resparse (length (x_flat x)) a (to_dense x a)) [])
      = sign_of (neg i) * rsum (map (fun k => if Nat.eqb (nth k (x_Ai x) 0%nat) i
                                             then dot v (nth k (x_A x) []) else n0) mr).
  Proof.
    intros. pose proof (vec_block mr (fun i => i) neg nr v i H H0) as E. rewrite map_id in E. exact E.
  Qed.

  Lemma cb_sum : forall v i, cb x v i
      = rsum (map (fun k => if Nat.eqb (nth k (x_Ai x) 0%nat) i then dot v (nth k (x_A x) []) else n0)
                  (seq M (length (x_Ai x) - M))).
  Proof. intros. destruct Ap_facts as (H1 & H2 & H3). unfold cb, cA, csc_entry. rewrite H2. reflexivity. Qed.

  Lemma last_nodup : NoDup (map (fun k => nth k (x_Ai x) 0%nat) (seq M (length (x_Ai x) - M))).
  Proof.
    destruct Ap_facts as (H1 & H2 & H3). rewrite map_nth_skipn by auto. apply (wx_b _ _ _ W).
  Qed.

  Lemma mrows_eq_vec : filter (fun k => Nat.leb (n_mat x) k) (rows_eq x)
      = filter (fun k => Nat.ltb (nth k (x_Ai x) 0%nat) (x_neq x)) (seq M (length (x_Ai x) - M)).
  Proof.
    destruct Ap_facts as (H1 & H2 & H3). unfold rows_eq. rewrite n_mat_eq. unfold n_data.
    rewrite filter_ge_seq by auto. reflexivity.
  Qed.

  Lemma mrows_ineq_vec : filter (fun k => Nat.leb (n_mat x) k) (rows_ineq x)
      = filter (fun k => Nat.leb (x_neq x) (nth k (x_Ai x) 0%nat)) (seq M (length (x_Ai x) - M)).
  Proof.
    destruct Ap_facts as (H1 & H2 & H3). unfold rows_ineq. rewrite n_mat_eq. unfold n_data.
    rewrite filter_ge_seq by auto. reflexivity.
  Qed.

  Lemma bval_nth : forall s p v i, (i < length (pr_rows (proc big x s p)))%nat ->
      nth i (bval s p v) n0 = dot v (nth i (pr_rows (proc big x s p)) []).
  Proof.
    intros. unfold bval. rewrite nth_indep with (d' := dot v []) by (rewrite map_length; auto).
    apply map_nth.
  Qed.

  Lemma bval_length : forall s p v, length (bval s p v) = length (pr_rows (proc big x s p)).
  Proof. intros. apply map_length. Qed.

  Lemma eq_sum : forall v i, (i < x_neq x)%nat ->
      rsum (map (fun k => if Nat.eqb (nth k (x_Ai x) 0%nat) i then dot v (nth k (x_A x) []) else n0)
        (filter (fun k => Nat.ltb (nth k (x_Ai x) 0%nat) (x_neq x)) (seq M (length (x_Ai x) - M))))
      = cb x v i.
  Proof.
    intros v i Hi. rewrite cb_sum. apply rsum_filter. intros k _ Hk. apply Nat.ltb_ge in Hk.
    destruct (Nat.eqb (nth k (x_Ai x) 0%nat) i) eqn:E; auto. apply Nat.eqb_eq in E. lia.
  Qed.

  Lemma ineq_sum : forall v i,
      rsum (map (fun k => if Nat.eqb (nth k (x_Ai x) 0%nat - x_neq x) i then dot v (nth k (x_A x) []) else n0)
        (filter (fun k => Nat.leb (x_neq x) (nth k (x_Ai x) 0%nat)) (seq M (length (x_Ai x) - M))))
      = cb x v (x_neq x + i)%nat.
  Proof.
    intros v i. rewrite cb_sum.
    rewrite <- (rsum_filter K nat (fun k => Nat.leb (x_neq x) (nth k (x_Ai x) 0%nat))
        (fun k => if Nat.eqb (nth k (x_Ai x) 0%nat) (x_neq x + i) then dot v (nth k (x_A x) []) else n0)
        (seq M (length (x_Ai x) - M))).
    - apply rsum_ext. intros k Hk. apply filter_In in Hk. destruct Hk as [_ Hk].
      apply Nat.leb_le in Hk.
      destruct (Nat.eqb (nth k (x_Ai x) 0%nat - x_neq x) i) eqn:E1;
        destruct (Nat.eqb (nth k (x_Ai x) 0%nat) (x_neq x + i)) eqn:E2; auto.
      + apply Nat.eqb_eq in E1. apply Nat.eqb_neq in E2. lia.
      + apply Nat.eqb_neq in E1. apply Nat.eqb_eq in E2. lia.
    - intros k _ Hk. apply Nat.leb_gt in Hk.
      destruct (Nat.eqb (nth k (x_Ai x) 0%nat) (x_neq x + i)) eqn:E2; auto.
      apply Nat.eqb_eq in E2. lia.
  Qed.

  Lemma ineq_nodup : NoDup (map (fun k => (nth k (x_Ai x) 0 - x_neq x)%nat)
      (filter (fun k => Nat.leb (x_neq x) (nth k (x_Ai x) 0%nat)) (seq M (length (x_Ai x) - M)))).
  Proof.
    pose proof last_nodup as H.
    apply NoDup_map_filter with (f := fun k => Nat.leb (x_neq x) (nth k (x_Ai x) 0%nat)) in H.
    set (l := filter (fun k => Nat.leb (x_neq x) (nth k (x_Ai x) 0%nat)) (seq M (length (x_Ai x) - M))) in *.
    assert (forall k, In k l -> (x_neq x <= nth k (x_Ai x) 0)%nat) as Hge.
    { intros k Hk. apply filter_In in Hk. apply Nat.leb_le. tauto. }
    clearbody l. induction l; simpl; [constructor|]. inversion H; subst. constructor.
    - intro HI. apply H2. apply in_map_iff in HI. destruct HI as [y [E Hy]].
      apply in_map_iff. exists y. split; auto.
      pose proof (Hge y (or_intror Hy)). pose proof (Hge a (or_introl eq_refl)). lia.
    - apply IHl; auto. intros. apply Hge. right. auto.
  Qed.

  Lemma osqp_l : forall v, length (bval OSQP pl v) = x_neq x
      /\ forall i, (i < x_neq x)%nat -> nth i (bval OSQP pl v) n0 = - cb x v i.
  Proof.
    intro v. rewrite bval_length.
    assert (length (pr_rows (proc big x OSQP pl)) = x_neq x) as HL.
    { unfold proc, process, qp_map, bind, is_qp, pid_upper, constr_vec. cbv iota zeta.
      unfold pr_rows. rewrite resparse_length, to_dense_length. reflexivity. }
    split; auto. intros i Hi. rewrite bval_nth by lia.
    unfold proc, process, qp_map, bind, is_qp, pid_upper, constr_vec. cbv iota zeta.
    unfold pr_rows. rewrite mrows_eq_vec. rewrite vec_block_id; auto.
    - rewrite eq_sum by auto. apply sg_true.
    - apply NoDup_map_filter. apply last_nodup.
  Qed.

  Lemma osqp_u : forall v, length (bval OSQP pu v) = (x_neq x + x_nineq x)%nat
      /\ forall i, (i < x_neq x + x_nineq x)%nat ->
           nth i (bval OSQP pu v) n0 = if Nat.ltb i (x_neq x) then - cb x v i else cb x v i.
  Proof.
    intro v. rewrite bval_length.
    assert (length (pr_rows (proc big x OSQP pu)) = x_neq x + x_nineq x)%nat as HL.
    { unfold proc, process, qp_map, bind, is_qp, pid_upper, constr_vec. cbv iota zeta.
      unfold pr_rows. rewrite resparse_length, to_dense_length. reflexivity. }
    split; auto. intros i Hi. rewrite bval_nth by lia.
    unfold proc, process, qp_map, bind, is_qp, pid_upper, constr_vec. cbv iota zeta.
    unfold pr_rows. rewrite n_mat_eq. unfold n_data. rewrite vec_block_id; auto.
    - rewrite <- cb_sum. destruct (Nat.ltb i (x_neq x)); [apply sg_true | apply sg_false].
    - apply last_nodup.
  Qed.

  Lemma conic_b : forall s v, is_qp s = false -> length (bval s pb v) = x_neq x
      /\ forall i, (i < x_neq x)%nat -> nth i (bval s pb v) n0 = cb x v i.
  Proof.
    intros s v Hs. rewrite bval_length.
    assert (length (pr_rows (proc big x s pb)) = x_neq x) as HL.
    { unfold proc, process, conic_map, bind. rewrite Hs. unfold pid_upper, constr_vec. cbv iota zeta.
      unfold pr_rows. rewrite resparse_length, to_dense_length. reflexivity. }
    split; auto. intros i Hi. rewrite bval_nth by lia.
    unfold proc, process, conic_map, bind. rewrite Hs. unfold pid_upper, constr_vec. cbv iota zeta.
    unfold pr_rows. rewrite mrows_eq_vec. rewrite vec_block_id; auto.
    - rewrite eq_sum by auto. apply sg_false.
    - apply NoDup_map_filter. apply last_nodup.
  Qed.

  Lemma conic_h : forall s v, is_qp s = false -> length (bval s ph v) = x_nineq x
      /\ forall i, (i < x_nineq x)%nat -> nth i (bval s ph v) n0 = cb x v (x_neq x + i)%nat.
  Proof.
    intros s v Hs. rewrite bval_length.
    assert (length (pr_rows (proc big x s ph)) = x_nineq x) as HL.
    { unfold proc, process, conic_map, bind. rewrite Hs. unfold pid_upper, constr_vec. cbv iota zeta.
      unfold pr_rows. rewrite resparse_length, to_dense_length. reflexivity. }
    split; auto. intros i Hi. rewrite bval_nth by lia.
    unfold proc, process, conic_map, bind. rewrite Hs. unfold pid_upper, constr_vec. cbv iota zeta.
    unfold pr_rows. rewrite mrows_ineq_vec.
    rewrite (vec_block _ (fun i => (i - x_neq x)%nat)); auto.
    - rewrite ineq_sum. apply sg_false.
    - apply ineq_nodup.
  Qed.

  (** *** Conic A and G *)
  Lemma mrows_mat : forall f, filter (fun k => Nat.ltb k (n_mat x)) (np_where f (n_data x)) = np_where f M.
  Proof.
    intro f. rewrite n_mat_eq. apply filter_seq_lt. apply Ap_facts.
  Qed.

  (** Selecting positions by [f] from the matrix part, with row indices mapped by [g]. *)
  Lemma conic_mat : forall f g nr v i i' j ip, (j < n)%nat ->
      ip_wf ip n (cnt f M) ->
      (forall c, (c <= n)%nat -> nth c ip 0%nat = nth c (recount n ip0 (np_where f M)) 0%nat) ->
      (forall k, (k < M)%nat -> f k = true -> (g (nth k (x_Ai x) 0%nat) = i <-> nth k (x_Ai x) 0%nat = i')) ->
      (forall k, (k < M)%nat -> f k = false -> nth k (x_Ai x) 0%nat <> i') ->
      let a := mkAm (np_where f M) (take [] (x_A x) (np_where f M)) (fun _ => true)
                    (map g (take 0%nat (x_Ai x) (np_where f M))) nr n in
      let map2 := resparse (length (x_flat x)) a (am_map a) in
      let nz := np_where (fun k => negb (Nat.eqb (length (nth k map2 [])) 0)) (length map2) in
      csc_entry (fun k => nth k (map (dot v) (take [] map2 nz)) n0) (take 0%nat (am_idx a) nz)
                (recount (am_nc a) ip nz) i j = - cA x v i' j.
  Proof.
    intros f g nr v i i' j ip Hj Hip Hipe Hg Hf a map2 nz.
    assert (length (am_map a) = cnt f M) as HL by (simpl; apply take_length).
    pose proof (mat_block a ip v (length (x_flat x)) i j) as MB. rewrite HL in MB.
    specialize (MB Hip (cols_take _ _ _ colsA) Hj). cbv zeta in MB. unfold nz, map2. rewrite MB. clear MB.
    assert (nth (S j) (x_Ap x) 0 <= M)%nat as HjM by (apply (ip_mono _ _ _ (wx_Ap _ _ _ W)); lia).
    transitivity (csc_entry (fun k => (fun r => - dot v (nth r (x_A x) [])) (nth k (np_where f M) 0%nat))
                    (take 0%nat (map g (x_Ai x)) (np_where f M)) (recount n ip0 (np_where f M)) i j).
    - unfold csc_entry. rewrite !Hipe by lia. apply rsum_ext. intros k Hk. apply in_seq in Hk.
      assert (k < length (np_where f M))%nat as HkL.
      { pose proof (recount_wf _ _ _ f ip0_wf) as Hw. pose proof (ip_mono _ _ _ Hw (S j) n).
        pose proof Hw as (_ & _ & Hw3 & _). unfold cnt in *. lia. }
      assert (nth k (np_where f M) 0 < M)%nat as HkM.
      { apply (np_where_In f M). apply nth_In. auto. }
      assert (nth k (am_idx a) 0%nat = nth k (take 0%nat (map g (x_Ai x)) (np_where f M)) 0%nat) as ->.
      { simpl. rewrite (take_nth _ 0%nat (map g (x_Ai x))) by auto.
        rewrite nth_indep with (d' := g 0%nat) by (rewrite map_length, take_length; auto).
        rewrite map_nth, take_nth by auto.
        destruct Ap_facts as (_ & _ & HA).
        rewrite nth_indep with (d := 0%nat) (d' := g 0%nat) (l := map g (x_Ai x)) by (rewrite map_length; lia).
        rewrite map_nth. reflexivity. }
      destruct (Nat.eqb _ _); auto. simpl am_neg. rewrite sg_true. simpl am_map. rewrite take_nth by auto.
      reflexivity.
    - rewrite (sel_entry K n M ip0 (map g (x_Ai x)) (fun r => - dot v (nth r (x_A x) [])) f ip0_wf i j Hj).
      unfold cA, csc_entry. rewrite !ip0_nth by lia. rewrite <- rsum_map_opp.
      rewrite <- (rsum_filter K nat f (fun k => - (if Nat.eqb (nth k (x_Ai x) 0%nat) i'
                       then dot v (nth k (x_A x) []) else n0))).
      + apply rsum_ext. intros k Hk. apply filter_In in Hk. destruct Hk as [Hk Hfk]. apply in_seq in Hk.
        destruct Ap_facts as (_ & _ & HA).
        rewrite nth_indep with (d := 0%nat) (d' := g 0%nat) (l := map g (x_Ai x)) by (rewrite map_length; lia).
        rewrite map_nth. specialize (Hg k ltac:(lia) Hfk).
        destruct (Nat.eqb (g (nth k (x_Ai x) 0%nat)) i) eqn:E1; destruct (Nat.eqb (nth k (x_Ai x) 0%nat) i') eqn:E2; auto.
        * apply Nat.eqb_eq in E1. apply Nat.eqb_neq in E2. tauto.
        * apply Nat.eqb_neq in E1. apply Nat.eqb_eq in E2. tauto.
        * ring.
      + intros k Hk Hfk. apply in_seq in Hk. specialize (Hf k ltac:(lia) Hfk).
        apply Nat.eqb_neq in Hf. rewrite Hf. ring.
  Qed.

  Lemma conic_A : forall s v i j, is_qp s = false -> wf_for x s -> (i < x_neq x)%nat -> (j < n)%nat ->
      bentry s pA v i j = - cA x v i j.
  Proof.
    intros s v i j Hs Hw Hi Hj. unfold bentry, bval, proc, process. rewrite Hs. unfold conic_map, bind.
    unfold pid_upper, constr_vec. cbv iota zeta. unfold pr_rows, pr_idx, pr_ip.
    unfold rows_eq. rewrite mrows_mat.
    set (f := fun k => Nat.ltb (nth k (x_Ai x) 0%nat) (x_neq x)).
    rewrite <- (map_id (take 0%nat (x_Ai x) (np_where f M))).
    destruct Ap_facts as (HA1 & HA2 & HA3).
    assert (forall k, (k < M)%nat -> nth k (x_Ai x) 0 < x_neq x + x_nineq x)%nat as Hlt.
    { intros k Hk. apply (wx_Ai _ _ _ W). apply nth_In. lia. }
    apply (conic_mat f (fun i => i)); auto.
    - unfold indptr_for. cbn [pid_upper am_mrows am_nc]. destruct (is_split s) eqn:Esp.
      + apply recount_wf. apply ip0_wf.
      + assert (x_nineq x = 0%nat) as H0 by (destruct s; simpl in *; try discriminate; tauto).
        assert (np_where f M = seq 0 M) as EN.
        { unfold np_where. apply filter_all. intros k Hk. apply in_seq in Hk. unfold f.
          apply Nat.ltb_lt. specialize (Hlt k ltac:(lia)). lia. }
        unfold cnt. rewrite EN, seq_length. apply ip0_wf.
    - intros c Hc. unfold indptr_for. cbn [pid_upper am_mrows am_nc]. destruct (is_split s) eqn:Esp; auto.
      assert (x_nineq x = 0%nat) as H0 by (destruct s; simpl in *; try discriminate; tauto).
      rewrite (recount_where n M ip0 f ip0_wf c Hc). unfold cnt.
      assert (np_where f (nth c ip0 0%nat) = seq 0 (nth c ip0 0%nat)) as EN.
      { unfold np_where. apply filter_all. intros k Hk. apply in_seq in Hk. unfold f.
        assert (nth c ip0 0 <= M)%nat. { rewrite ip0_nth by auto. apply (ip_mono _ _ _ (wx_Ap _ _ _ W)); lia. }
        apply Nat.ltb_lt. specialize (Hlt k ltac:(lia)). lia. }
      rewrite EN, seq_length. auto.
    - intros; tauto.
    - intros k Hk Hf. unfold f in Hf. apply Nat.ltb_ge in Hf. lia.
  Qed.

  Lemma conic_G : forall s v i j, is_split s = true -> (i < x_nineq x)%nat -> (j < n)%nat ->
      bentry s pG v i j = - cA x v (x_neq x + i)%nat j.
  Proof.
    intros s v i j Hs Hi Hj. unfold bentry, bval, proc, process.
    assert (is_qp s = false) as -> by (destruct s; auto; discriminate). unfold conic_map, bind.
    unfold pid_upper, constr_vec. cbv iota zeta. unfold pr_rows, pr_idx, pr_ip.
    unfold rows_ineq. rewrite mrows_mat.
    set (f := fun k => Nat.leb (x_neq x) (nth k (x_Ai x) 0%nat)).
    apply (conic_mat f (fun i => (i - x_neq x)%nat)); auto.
    - unfold indptr_for. cbn [pid_upper am_mrows am_nc]. rewrite Hs. apply recount_wf. apply ip0_wf.
    - intros c Hc. unfold indptr_for. cbn [pid_upper am_mrows am_nc]. rewrite Hs. reflexivity.
    - intros k Hk Hf. unfold f in Hf. apply Nat.leb_le in Hf. lia.
    - intros k Hk Hf. unfold f in Hf. apply Nat.leb_gt in Hf. lia.
  Qed.
End Main.
