(** One call of cpg_gradient: from a state whose KKT matrices belong to known P and A, the
    result is determined by the matrices, the duals and the variable derivatives alone. *)

From Coq Require Import Arith Bool ZArith Lia List Sorted Field.
From Verif Require Import Base Machine Runtime RuntimeSpec RuntimeProofs Retrieve RetrieveProofs Sparse SparseProofs Ldl LdlRank1 LdlProofs GradSpec LdlMain FactorProofs Gradient GradKkt Qdldl GradSolve GradKktSolve GradMain.
Import ListNotations.

(** Specification of the parameter gradient. *)
Section Spec.
  Variable F : Fld.
  Variables n N : nat.
  Variables eps half : F.
  Variables below above : F -> bool.
  Local Open Scope num_scope.
  Notation sum f k := (rsum (map f (seq 0 k))).

  (** Constraint [i] is active; index [k] of the KKT system takes part. *)
  Definition active_at (sy : list F) (i : nat) : bool := binds F below above (nth i sy n0).
  Definition takes_part (sy : list F) : nat -> bool := part n (active_at sy).
  Definition sym (M : nat -> nat -> F) (p q : nat) : F := if Nat.leb p q then M p q else M q p.

  (** The solution [r] of the KKT system, after three refinements. *)
  Definition kkt_solution (P A : csc F) (sy dx r : list F) : Prop :=
    refined N (takes_part sy) (masked (takes_part sy) (sym (kkt_reg F n eps P A))) (kkt_true F n P A) (rhs_of F n N dx) 3 r.

  (** Gradients with respect to the canonical data, given [r]. *)
  Definition d_q (r : list F) (j : nat) : F := - nth j r n0.
  Definition d_bound (sy r : list F) (i : nat) : F := if active_at sy i then nth (n + i) r n0 else n0.
  Definition d_P (sx r : list F) (i j : nat) : F := - half * (nth i r n0 * nth j sx n0 + nth i sx n0 * nth j r n0).
  Definition d_A (sx sy r : list F) (i j : nat) : F :=
    if active_at sy i then - (nth (n + i) r n0 * nth j sx n0 + nth i sy n0 * nth j r n0) else n0.

  (** Their inner product with the data's change in parameter direction [delta]; the bounds l
      (equality rows) and u change together, with u's map. *)
  Definition slope (c : gcfg F) (P A : csc F) (sx sy r delta : list F) : F :=
    sum (fun j => d_q r j * mapd F (gc_q c) delta j) n
    + sum (fun i => d_bound sy r i * mapd F (gc_u c) delta i) (N - n)
    + sum (fun k => nth k (pat_vals (d_P sx r) P n) n0 * mapd F (gc_P c) delta k) (length (pat_vals (d_P sx r) P n))
    + sum (fun k => nth k (pat_vals (d_A sx sy r) A n) n0 * mapd F (gc_A c) delta k) (length (pat_vals (d_A sx sy r) A n)).
End Spec.

Section Call.
  Variable F : Fld.
  Add Field Fgc : (fth F).
  Variables n N : nat.
  Variable sqr : F -> res F.
  Variables eps half : F.
  Variables below above : F -> bool.
  Variable qfactor : csc F -> csc F -> res (list nat * list nat * list F * list F * list F).
  Variable qsolve : csc F -> list F -> list F -> res (list F).
  Hypothesis n_le : (n <= N)%nat.
  Hypothesis sqr_ok : forall x s, sqr x = Ok s -> (s * s = x)%num.
  Hypothesis sqr_err : forall x e, sqr x = Err e -> e = Arith.
  Hypothesis qf_ok : factor_contract F n N qfactor.
  Hypothesis qs_ok : solve_contract F N qsolve.
  (** The errors that may happen. *)
  Variable Er : exn -> Prop.
  Local Open Scope num_scope.
  Notation sum f k := (rsum (map f (seq 0 k))).

  (** P and A as Canon_Params holds them: arrays of exactly the needed length. *)
  Definition mat_ok (P A : csc F) : Prop :=
    P_ok F n P /\ A_ok F n N A /\ length (c_x P) = c_n P /\ length (c_x A) = c_n A.
  (** Changes of parameters that leave the constant alone. *)
  Definition no_const (c : gcfg F) (delta : list F) : Prop := nth (gc_np c - 1) delta n0 = n0.
  (** Maps that fit the matrices; l's map is that of u's first rows. *)
  Record cfg_ok (c : gcfg F) (P A : csc F) : Prop := mkCfgOk
    { cf_nl : (gc_nl c <= N - n)%nat;
      cf_q : map_fits F (gc_np c) n (gc_q c);
      cf_l : map_fits F (gc_np c) (gc_nl c) (gc_l c);
      cf_u : map_fits F (gc_np c) (N - n) (gc_u c);
      cf_P : map_fits F (gc_np c) (c_n P) (gc_P c);
      cf_A : map_fits F (gc_np c) (c_n A) (gc_A c);
      cf_lu : forall delta i, no_const c delta -> (i < gc_nl c)%nat -> mapd F (gc_l c) delta i = mapd F (gc_u c) delta i }.

  Definition chP (c : gcfg F) : bool := match gc_P c with Some _ => true | None => false end.
  Definition chA (c : gcfg F) : bool := match gc_A c with Some _ => true | None => false end.

  (** The factorisation: not yet there, or that of K with inactive constraints masked. *)
  Definition sizes (g : gws F) : Prop :=
    (2 * length (gMask g) = N * (N - 1))%nat /\ length (gc g) = N /\ length (gw g) = N /\ length (gwi g) = N
    /\ length (gl g) = N /\ length (gli g) = N /\ length (glx g) = N.
  Definition nnz_ok (g : gws F) : Prop :=
    exists K0 L0 p i x D E, qfactor K0 L0 = Ok (p, i, x, D, E) /\ (forall j, j < N -> rows K0 j = rows (gK g) j) /\ c_n (gL g) = nth N p 0%nat.
  (** Marks: -1, 0 or 1, and -1 for equality rows only. *)
  Definition marks_ok (nl : nat) (a : list Z) : Prop :=
    length a = (N - n)%nat /\ forall i, (i < N - n)%nat -> (nth i a 0 = 0 \/ nth i a 0 = 1 \/ (nth i a 0 = -1 /\ (i < nl)%nat))%Z.

  (** K and K_true belong to [Pk], [Ak]; patterns are those of [P], [A]. *)
  Record ginv (c : gcfg F) (P A Pk Ak : csc F) (s : gst F) : Prop := mkGinv
    { gi_shape : kkt_shape F n N eps P A (gK (s_ws s)) (s_Kt s);
      gi_kkt : holds_kkt F n N eps Pk Ak (gK (s_ws s)) (s_Kt s);
      gi_P : same_pat F P Pk; gi_A : same_pat F A Ak;
      gi_dP : same_pat F P (s_dP s); gi_dA : same_pat F A (s_dA s);
      gi_dx : length (s_dx s) = n;
      gi_a : marks_ok (gc_nl c) (s_a s);
      gi_sz : sizes (s_ws s);
      gi_init : s_init s = true -> forall i, (i < N - n)%nat -> nth i (s_a s) 0%Z = 1%Z;
      gi_ws : s_init s = false -> good_ws F n N (part n (supp (s_a s))) (s_ws s) /\ nnz_ok (s_ws s) }.

  (** Stored solutions have the right length; inequality rows have no negative dual. *)
  Definition sol_ok (c : gcfg F) (sx sy : list F) : Prop :=
    length sx = n /\ length sy = (N - n)%nat /\ forall i, (gc_nl c <= i < N - n)%nat -> below (nth i sy n0) = false.

  (** The matrices used by the call. *)
  Definition used (flag : bool) (M Mk : csc F) : csc F := if flag then M else Mk.

  Lemma refresh_ok : forall c P A Pk Ak s, mat_ok P A -> ginv c P A Pk Ak s ->
    let P1 := used (s_fP s && chP c) P Pk in let A1 := used (s_fA s && chA c) A Ak in
    exists g1 Kt1, refresh F n eps c P A s = Ok (g1, Kt1)
      /\ kkt_shape F n N eps P A (gK g1) Kt1 /\ holds_kkt F n N eps P1 A1 (gK g1) Kt1
      /\ same_pat F P P1 /\ same_pat F A A1
      /\ same_pat F (gK (s_ws s)) (gK g1) /\ g1 = set_K F (s_ws s) (gK g1)
      /\ (stale F c s = false -> g1 = s_ws s /\ Kt1 = s_Kt s).
  Proof.
    intros c P A Pk Ak s (HP & HA & _ & _) G P1 A1. destruct G as [SH [HK HT] SP SA _ _ _ _ _ _ _]. unfold refresh.
    fold (chP c). fold (chA c).
    assert (Step1 : exists K1 Kt1, (if s_fP s && chP c then P_to_K F n eps P (gK (s_ws s)) (s_Kt s) else Ok (gK (s_ws s), s_Kt s)) = Ok (K1, Kt1)
       /\ kkt_shape F n N eps P A K1 Kt1 /\ holds_kkt F n N eps P1 Ak K1 Kt1 /\ same_pat F P P1 /\ same_pat F (gK (s_ws s)) K1
       /\ (s_fP s && chP c = false -> K1 = gK (s_ws s) /\ Kt1 = s_Kt s)).
    { unfold P1, used. destruct (s_fP s && chP c).
      - destruct (P_refresh F n N eps n_le P A _ _ HP SH) as (K1 & Kt1 & E1 & SH1 & S1 & S2 & B1 & B2 & B3 & B4).
        exists K1, Kt1. split; auto. split; auto. split; [|split; [apply same_pat_refl|split; [auto|discriminate]]]. split.
        + intros p q Hq. destruct (Nat.lt_ge_cases q n) as [Hqn|Hqn].
          * rewrite B1 by auto. unfold kkt_reg. rewrite ltb_t by auto. auto.
          * rewrite B2, HK by auto. unfold kkt_reg. rewrite ltb_f by auto. auto.
        + intros p q Hp. destruct (Nat.lt_ge_cases p n) as [Hpn|Hpn]; [destruct (Nat.lt_ge_cases q n) as [Hqn|Hqn]|].
          * rewrite B3 by auto. unfold kkt_true. rewrite !ltb_t by auto. auto.
          * rewrite B4, HT by auto. unfold kkt_true. rewrite ltb_t, ltb_f by auto. auto.
          * rewrite B4, HT by auto. unfold kkt_true. rewrite ltb_f by auto. auto.
      - exists (gK (s_ws s)), (s_Kt s). split; auto. split; auto. split; [split; auto|]. split; auto. split; [apply same_pat_refl|auto]. }
    destruct Step1 as (K1 & Kt1 & E1 & SH1 & [HK1 HT1] & SP1 & S1 & N1). rewrite E1. cbn [bind].
    assert (Step2 : exists K2 Kt2, (if s_fA s && chA c then A_to_K F n A K1 Kt1 else Ok (K1, Kt1)) = Ok (K2, Kt2)
       /\ kkt_shape F n N eps P A K2 Kt2 /\ holds_kkt F n N eps P1 A1 K2 Kt2 /\ same_pat F A A1 /\ same_pat F K1 K2
       /\ (s_fA s && chA c = false -> K2 = K1 /\ Kt2 = Kt1)).
    { unfold A1, used. destruct (s_fA s && chA c).
      - destruct (A_refresh F n N eps n_le P A _ _ HP HA SH1) as (K2 & Kt2 & E2 & SH2 & S2 & S3 & B1 & B2 & B3 & B4).
        exists K2, Kt2. split; auto. split; auto. split; [|split; [apply same_pat_refl|split; [auto|discriminate]]]. split.
        + intros p q Hq. destruct (Nat.lt_ge_cases q n) as [Hqn|Hqn].
          * rewrite B2, HK1 by auto. unfold kkt_reg. rewrite ltb_t by auto. auto.
          * rewrite B1 by auto. unfold kkt_reg. rewrite ltb_f by auto. auto.
        + intros p q Hp. destruct (Nat.lt_ge_cases p n) as [Hpn|Hpn]; [destruct (Nat.lt_ge_cases q n) as [Hqn|Hqn]|].
          * rewrite B4, HT1 by auto. unfold kkt_true. rewrite !ltb_t by auto. auto.
          * rewrite B3 by auto. unfold kkt_true. rewrite ltb_t, ltb_f by auto. auto.
          * rewrite B3 by auto. unfold kkt_true. rewrite ltb_f by auto. auto.
      - exists K1, Kt1. split; auto. split; auto. split; [split; auto|]. split; auto. split; [apply same_pat_refl|auto]. }
    destruct Step2 as (K2 & Kt2 & E2 & SH2 & HH2 & SA1 & S2 & N2). rewrite E2. cbn [bind].
    exists (set_K F (s_ws s) K2), Kt2. cbn [set_K gK]. split; auto. split; auto. split; auto. split; auto. split; auto.
    split; [eapply same_pat_trans; eauto|]. split; auto. intro Hst. unfold stale in Hst. fold (chP c) in Hst. fold (chA c) in Hst.
    apply orb_false_iff in Hst. destruct Hst as [H1 H2]. destruct (N1 H1) as [-> ->]. destruct (N2 H2) as [-> ->]. split; auto. destruct (s_ws s); auto.
  Qed.

  Lemma set_mask_ok : forall (L : csc F) mask, csc_ok N L -> lower_pat F N L -> (2 * length mask = N * (N - 1))%nat ->
    exists mask', set_mask F N L mask = Ok mask' /\ length mask' = length mask.
  Proof.
    intros L mask OL HL Hm.
    assert (R : run none (set_mask F N L mask) (fun m' => length m' = length mask)).
    2:{ destruct (run_none _ _ _ R) as (m' & E & H). eauto. }
    unfold set_mask. apply (run_for none _ (fun _ m' => length m' = length mask)); auto.
    intros j m1 Hj H1. assert (HjN : j < N) by lia.
    assert (Hp : forall k, (k <= N)%nat -> nth_error (c_p L) k = Some (cptr L k)).
    { intros k Hk. unfold cptr. apply nth_error_nth'. rewrite (o_p N L OL). lia. }
    apply run_get with (a := cptr L j); [apply Hp; lia|]. apply run_get with (a := cptr L (S j)); [rewrite Nat.add_1_r; apply Hp; lia|].
    apply (run_for none _ (fun _ m' => length m' = length mask)); auto.
    intros k m2 Hk H2. destruct (rows_len F N L j OL HjN) as [LR _].
    destruct (nth_err_lt _ (rows L j) (k - cptr L j) ltac:(lia)) as (i & Ei). pose proof (rows_nth F N L j _ i OL HjN Ei) as Ei'.
    replace (cptr L j + (k - cptr L j))%nat with k in Ei' by lia. apply run_get with (a := i); auto.
    pose proof (HL j i HjN (nth_error_In _ _ Ei)) as Hi.
    destruct (mask_bound n N n_le m2 j i ltac:(lia) ltac:(lia) ltac:(lia)) as [Hz Hb]. unfold putz.
    replace (Z.ltb _ 0) with false by (symmetry; apply Z.ltb_ge; auto). rewrite put_ok by auto. cbn [run]. rewrite upd_length. auto.
  Qed.

  Lemma ones_part : forall a k, (forall i, (i < N - n)%nat -> nth i a 0%Z = 1%Z) -> k < N -> part n (supp a) k = true.
  Proof.
    intros a k H Hk. unfold part, supp. destruct (Nat.ltb_spec k n); auto. rewrite H by lia. auto.
  Qed.
  Lemma ones_marks : forall nl, marks_ok nl (repeat 1%Z (N - n)).
  Proof. intro nl. split; [apply repeat_length|]. intros i Hi. rewrite (nth_indep _ 0%Z 1%Z) by (rewrite repeat_length; auto). rewrite nth_repeat. auto. Qed.

  Lemma refactor_ok : forall c P A Pk Ak s g1 Kt1, mat_ok P A -> ginv c P A Pk Ak s ->
    kkt_shape F n N eps P A (gK g1) Kt1 -> same_pat F (gK (s_ws s)) (gK g1) -> g1 = set_K F (s_ws s) (gK g1) ->
    (stale F c s = false -> g1 = s_ws s) -> admits n N sqr Er (sym_entry (gK g1)) ->
    run Er (refactor F n N qfactor c s g1) (fun '(g2, a1) =>
      good_ws F n N (part n (supp a1)) g2 /\ gK g2 = gK g1 /\ nnz_ok g2 /\ marks_ok (gc_nl c) a1).
  Proof.
    intros c P A Pk Ak s g1 Kt1 (HP & HA & _ & _) G SH Hpat Hg1 Hst HE.
    pose proof (shape_pattern F n N eps n_le P A _ _ HP HA SH) as HKp. pose proof (sh_K _ _ _ _ _ _ _ _ SH) as OK.
    destruct (gi_sz _ _ _ _ _ _ G) as (Zm & Zc & Zw & Zwi & Zl & Zli & Zlx).
    assert (Hfac : forall L' mask D Dinv a, csc_ok N L' -> factor_pattern F N (gK g1) L' -> length D = N -> length Dinv = N ->
      (forall k, k < N -> nth k Dinv n0 * nth k D n0 = n1) -> (forall p q, p < N -> q < N -> ldlt N L' D p q = sym_entry (gK g1) p q) ->
      length mask = length (gMask (s_ws s)) -> (forall i, (i < N - n)%nat -> nth i a 0%Z = 1%Z) ->
      good_ws F n N (part n (supp a)) (set_factor F g1 L' mask D Dinv)).
    { intros L' mask D Dinv a OL HF LD LDi Hinv Heq Hmask Ha. split.
      - rewrite Hg1. constructor; cbn [set_factor set_K gL gK gMask gD gDinv gc gw gwi gl gli glx]; auto. lia.
      - cbn [set_factor gL gK]. split; auto. cbn [set_factor gL gD gDinv]. intros p q Hp Hq. rewrite Heq by auto. unfold masked. rewrite !ones_part by auto. auto. }
    assert (HEq : forall e, e = Arith /\ (exists j, j < N /\ pivot N (sym_entry (gK g1)) j n0) -> Er e).
    { intros e (-> & j & Hj & HPv). apply (HE (fun _ => true)); auto. left. exists j. split; auto. }
    unfold refactor. destruct (s_init s) eqn:Ei.
    - pose proof (fc_ok _ _ _ _ qf_ok (gK g1) (gL g1) OK HKp) as HC. destruct (qfactor (gK g1) (gL g1)) as [[[[[p i] x] D] Dinv]|e] eqn:Eq; [|apply HEq; exact HC].
      cbn [run] in HC. destruct HC as (OL & HF & LD & LDi & Hinv & Heq). cbn [bind].
      destruct (set_mask_ok (mkCsc p i x (nth N p 0%nat)) (gMask g1) OL (proj1 HF)) as (mask' & Em & Lm); [rewrite Hg1; auto|]. rewrite Em. cbn [bind run].
      split; [|split; [auto|split]].
      + apply Hfac; auto. { rewrite Lm, Hg1. auto. } apply (gi_init _ _ _ _ _ _ G). auto.
      + exists (gK g1), (gL g1), p, i, x, D, Dinv. cbn [set_factor gL gK c_n]. auto.
      + apply (gi_a _ _ _ _ _ _ G).
    - destruct (gi_ws _ _ _ _ _ _ G Ei) as [HG HN]. destruct (stale F c s) eqn:Es.
      + pose proof (fc_ok _ _ _ _ qf_ok (gK g1) (gL g1) OK HKp) as HC. destruct (qfactor (gK g1) (gL g1)) as [[[[[p i] x] D] Dinv]|e] eqn:Eq; [|apply HEq; exact HC].
        cbn [run] in HC. destruct HC as (OL & HF & LD & LDi & Hinv & Heq). cbn [bind run].
        assert (Hn : c_n (gL g1) = nth N p 0%nat).
        { destruct HN as (K0 & L0 & p0 & i0 & x0 & D0 & E0 & Eq0 & HR & Hn). rewrite Hg1. cbn [set_K gL]. rewrite Hn.
          apply (fc_nnz _ _ _ _ qf_ok K0 L0 (gK g1) (gL g1) p0 i0 x0 D0 E0 p i x D Dinv); auto.
          intros j Hj. rewrite HR by auto. symmetry. apply (same_pat_rows F). auto. }
        rewrite Hn. split; [|split; [auto|split]].
        * apply Hfac; auto; [rewrite Hg1; auto|]. intros k Hk. rewrite (nth_indep _ 0%Z 1%Z) by (rewrite repeat_length; auto). apply nth_repeat.
        * exists (gK g1), (gL g1), p, i, x, D, Dinv. cbn [set_factor gL gK c_n]. auto.
        * apply ones_marks.
      + rewrite (Hst eq_refl). cbn [run]. split; auto. split; [auto|]. split; auto. apply (gi_a _ _ _ _ _ _ G).
  Qed.

  Lemma mark_cases : forall y m, (m = 0 \/ m = 1 \/ m = -1)%Z -> (mark F below above y m = 0 \/ mark F below above y m = 1 \/ mark F below above y m = -1)%Z
    /\ (below y = false -> m <> (-1)%Z -> mark F below above y m <> (-1)%Z).
  Proof.
    intros y m H. unfold mark. destruct (below y), (above y), (Z.eqb m 0) eqn:E; split; auto; try (intros; discriminate); intros; try lia.
  Qed.

  Lemma part_ext : forall (f f' : nat -> bool) k, (forall i, (i < N - n)%nat -> f i = f' i) -> k < N -> part n f k = part n f' k.
  Proof. intros f f' k H Hk. unfold part. destruct (Nat.ltb_spec k n); auto. rewrite H by lia. auto. Qed.

  Lemma same_pat_cptr : forall (M M' : csc F) k, same_pat F M M' -> cptr M' k = cptr M k.
  Proof. intros M M' k (H & _). unfold cptr. rewrite H. auto. Qed.
  Lemma pat_vals_ext : forall (v v' : nat -> nat -> F) (M M' : csc F) k, (forall j, rows M' j = rows M j) ->
    (forall i j, (j < k)%nat -> In i (rows M j) -> v i j = v' i j) -> pat_vals v M k = pat_vals v' M' k.
  Proof.
    intros v v' M M' k Hr Hv. unfold pat_vals. rewrite !flat_map_concat_map. f_equal. apply map_ext_in. intros j Hj. apply in_seq in Hj.
    rewrite Hr. apply map_ext_in. intros i Hi. apply Hv; auto; lia.
  Qed.
  Lemma same_pat_sym : forall M M' : csc F, same_pat F M M' -> same_pat F M' M.
  Proof. intros M M' (A & B & C & D). repeat split; auto. Qed.

  Lemma cptr_of_rows : forall (M M' : csc F), csc_ok N M -> csc_ok N M' -> (forall j, j < N -> rows M' j = rows M j) -> forall k, (k <= N)%nat -> cptr M' k = cptr M k.
  Proof.
    intros M M' H H' Hr. induction k as [|k IH]; intro Hk.
    - rewrite (o_0 N M H), (o_0 N M' H'). auto.
    - destruct (rows_len F N M k H ltac:(lia)) as [A _]. destruct (rows_len F N M' k H' ltac:(lia)) as [A' _]. rewrite Hr in A' by lia.
      pose proof (o_mono N M H k ltac:(lia)). pose proof (o_mono N M' H' k ltac:(lia)). specialize (IH ltac:(lia)). lia.
  Qed.

  (** fill_dq, fill_bound, fill_dP, fill_dA *)
  Lemma fill_dq_ok : forall r, length r = N -> fill_dq F n r = Ok (map (d_q F r) (seq 0 n)).
  Proof. intros r Hr. apply mapM_all. intros i Hi. apply in_seq in Hi. rewrite (get_nth _ r i n0) by lia. auto. Qed.
  Lemma fill_bound_ok : forall low a r, length r = N -> length a = (N - n)%nat ->
    fill_bound F n N low a r = Ok (map (fun i => if Z.eqb (nth i a 0%Z) (if low then (-1)%Z else 1%Z) then nth (n + i) r n0 else n0) (seq 0 (N - n))).
  Proof.
    intros low a r Hr Ha. apply mapM_all. intros i Hi. apply in_seq in Hi. rewrite (get_nth _ a i 0%Z) by lia. cbn [bind].
    rewrite (get_nth _ r (n + i) n0) by lia. destruct (Z.eqb_spec (nth i a 0%Z) (-1)) as [->|H1]; [destruct low; auto|].
    destruct (Z.eqb_spec (nth i a 0%Z) 1) as [->|H2]; destruct low; auto.
    - destruct (Z.eqb_spec (nth i a 0%Z) (-1)); auto. contradiction.
    - destruct (Z.eqb_spec (nth i a 0%Z) 1); auto. contradiction.
  Qed.
  Lemma fill_dP_ok : forall (dP : csc F) r sx, csc_ok n dP -> length (c_x dP) = c_n dP -> (forall j i, j < n -> In i (rows dP j) -> (i < n)%nat) ->
    length r = N -> length sx = n ->
    exists dP', fill_dP F n half r sx dP = Ok dP' /\ c_p dP' = c_p dP /\ c_i dP' = c_i dP /\ c_n dP' = c_n dP /\ c_x dP' = pat_vals (d_P F half sx r) dP n.
  Proof.
    intros dP r sx HO HX Hr Lr Ls.
    destruct (fill_ok F n (d_P F half sx r) dP (fun j k dP =>
        i <- get (c_i dP) k;;
        ri <- get r i;; xj <- get sx j;; xi <- get sx i;; rj <- get r j;;
        xs <- put (c_x dP) k (- half * (ri * xj + xi * rj));;
        Ok (set_x dP xs)) HO HX) as (M' & E & H).
    - intros j k i M' Hj Hi Hk Hlt Ec. unfold get at 1. rewrite Ec, Hk. cbn [bind]. pose proof (Hr j i Hj Hi).
      rewrite (get_nth _ r i n0), (get_nth _ sx j n0), (get_nth _ sx i n0), (get_nth _ r j n0) by lia. cbn [bind]. rewrite put_ok by auto. auto.
    - exists M'. split; auto.
  Qed.
  Lemma fill_dA_ok : forall (dA : csc F) a r sx sy, csc_ok n dA -> length (c_x dA) = c_n dA -> (forall j i, j < n -> In i (rows dA j) -> (i < N - n)%nat) ->
    length r = N -> length sx = n -> length sy = (N - n)%nat -> length a = (N - n)%nat -> (forall i, (i < N - n)%nat -> supp a i = active_at F below above sy i) ->
    exists dA', fill_dA F n a r sx sy dA = Ok dA' /\ c_p dA' = c_p dA /\ c_i dA' = c_i dA /\ c_n dA' = c_n dA /\ c_x dA' = pat_vals (d_A F n below above sx sy r) dA n.
  Proof.
    intros dA a r sx sy HO HX Hr Lr Ls Ly La Hs.
    destruct (fill_ok F n (d_A F n below above sx sy r) dA (fun j k dA =>
        i <- get (c_i dA) k;;
        ai <- get a i;;
        if Z.eqb ai 0 then xs <- put (c_x dA) k n0;; Ok (set_x dA xs)
        else
          ri <- get r (n + i);; xj <- get sx j;; yi <- get sy i;; rj <- get r j;;
          xs <- put (c_x dA) k (- (ri * xj + yi * rj));;
          Ok (set_x dA xs)) HO HX) as (M' & E & H).
    - intros j k i M' Hj Hi Hk Hlt Ec. unfold get at 1. rewrite Ec, Hk. cbn [bind]. pose proof (Hr j i Hj Hi) as Hi'.
      rewrite (get_nth _ a i 0%Z) by lia. cbn [bind]. unfold d_A. rewrite <- Hs by auto. unfold supp. destruct (Z.eqb (nth i a 0%Z) 0); cbn [negb].
      + rewrite put_ok by auto. auto.
      + rewrite (get_nth _ r (n + i) n0), (get_nth _ sx j n0), (get_nth _ sy i n0), (get_nth _ r j n0) by lia. cbn [bind]. rewrite put_ok by auto. auto.
    - exists M'. split; auto.
  Qed.

  (** The two bound gradients act together like one on u's map. *)
  Lemma bound_sum : forall c P A a sy r delta, cfg_ok c P A -> marks_ok (gc_nl c) a -> (forall i, (i < N - n)%nat -> supp a i = active_at F below above sy i) ->
    no_const c delta ->
    sum (fun j => nth j (map (fun i => if Z.eqb (nth i a 0%Z) (-1)%Z then nth (n + i) r n0 else n0) (seq 0 (N - n))) n0 * mapd F (gc_l c) delta j) (gc_nl c)
    + sum (fun j => nth j (map (fun i => if Z.eqb (nth i a 0%Z) 1%Z then nth (n + i) r n0 else n0) (seq 0 (N - n))) n0 * mapd F (gc_u c) delta j) (N - n)
    = sum (fun i => d_bound F n below above sy r i * mapd F (gc_u c) delta i) (N - n).
  Proof.
    intros c P A a sy r delta C [La Hm] Hs Hd. pose proof (cf_nl _ _ _ C) as Hnl.
    assert (E1 : sum (fun j => nth j (map (fun i => if Z.eqb (nth i a 0%Z) (-1)%Z then nth (n + i) r n0 else n0) (seq 0 (N - n))) n0 * mapd F (gc_l c) delta j) (gc_nl c)
                 = sum (fun j => (if Z.eqb (nth j a 0%Z) (-1)%Z then nth (n + j) r n0 else n0) * mapd F (gc_u c) delta j) (N - n)).
    { rewrite (r_split F _ (gc_nl c) (N - n)) by auto. rewrite (@rsum_zero F _ _ (seq (gc_nl c) (N - n - gc_nl c))).
      - match goal with |- ?x = ?y + n0 => transitivity y; [|ring] end. apply rsum_ext. intros j Hj. apply in_seq in Hj. rewrite nth_ms by lia.
        rewrite (cf_lu _ _ _ C delta j Hd) by lia. auto.
      - intros j Hj. apply in_seq in Hj. destruct (Hm j ltac:(lia)) as [->|[->|[_ H]]]; [cbn; ring|cbn; ring|lia]. }
    rewrite E1, <- rsum_map_add. apply rsum_ext. intros j Hj. apply in_seq in Hj. rewrite nth_ms by lia. unfold d_bound. rewrite <- Hs by lia. unfold supp.
    destruct (Hm j ltac:(lia)) as [->|[->|[-> _]]]; cbn; ring.
  Qed.

  Theorem gradient_ok : forall c P A Pk Ak s sx sy, mat_ok P A -> cfg_ok c P A -> ginv c P A Pk Ak s -> sol_ok c sx sy ->
    let P1 := used (s_fP s && chP c) P Pk in let A1 := used (s_fA s && chA c) A Ak in
    admits n N sqr Er (sym F (kkt_reg F n eps P1 A1)) ->
    run Er (gradient F n N sqr eps half below above qfactor qsolve c P A sx sy s) (fun '(dp, s') =>
      ginv c P A P1 A1 s' /\ s_init s' = false
      /\ s_fP s' = (if chP c then false else s_fP s) /\ s_fA s' = (if chA c then false else s_fA s)
      /\ s_dx s' = repeat n0 n
      /\ (forall i, (i < N - n)%nat -> supp (s_a s') i = active_at F below above sy i)
      /\ length dp = gc_np c
      /\ exists r, kkt_solution F n N eps below above P1 A1 sy (s_dx s) r
           /\ (forall r', kkt_solution F n N eps below above P1 A1 sy (s_dx s) r' -> r' = r)
           /\ forall delta, no_const c delta -> ip (gc_np c) dp delta = slope F n N half below above c P A sx sy r delta).
  Proof.
    intros c P A Pk Ak s sx sy HM HC HG (Ls & Ly & Hb) P1 A1 HE.
    destruct (refresh_ok c P A Pk Ak s HM HG) as (g1 & Kt1 & E1 & SH1 & HK1 & SP1 & SA1 & SK1 & Hg1 & Hst). fold P1 in HK1, SP1. fold A1 in HK1, SA1.
    assert (HE1 : admits n N sqr Er (sym_entry (gK g1))).
    { eapply (admits_ext F n N sqr n_le); [|exact HE]. intros p q Hp Hq. unfold sym_entry, sym. rewrite !(proj1 HK1) by auto. auto. }
    unfold gradient. rewrite E1. cbn [bind].
    eapply run_bind; [apply (refactor_ok c P A Pk Ak s g1 Kt1 HM HG SH1 SK1 Hg1); [intro H; apply (proj1 (Hst H))|exact HE1]|].
    intros [g2 a1] (HG2 & EK2 & HN2 & [La1 Ma1]).
    eapply run_bind; [apply (active_good F n N sqr below above n_le sqr_ok sqr_err Er sy g2 a1 HG2 La1 Ly); rewrite EK2; exact HE1|].
    intros [g3 a2] (La2 & Ma2 & HG3 & HK3 & HR3).
    assert (Hsupp : forall i, (i < N - n)%nat -> supp a2 i = active_at F below above sy i).
    { intros i Hi. unfold supp, active_at. rewrite Ma2, mark_zero, negb_involutive by auto. auto. }
    assert (Hmarks : marks_ok (gc_nl c) a2).
    { split; auto. intros i Hi. rewrite Ma2 by auto.
      destruct (mark_cases (nth i sy n0) (nth i a1 0%Z)) as [H1 H2]; [destruct (Ma1 i Hi) as [H|[H|[H _]]]; auto|].
      destruct H1 as [H1|[H1|H1]]; auto. right. right. split; auto. destruct (Nat.lt_ge_cases i (gc_nl c)) as [Hlt|Hge]; auto. exfalso. apply H2; auto.
      intro Hm. destruct (Ma1 i Hi) as [H|[H|[_ H]]]; lia. }
    destruct HM as (HP & HA & XP & XA). destruct HG3 as [HW3 HF3].
    pose proof (gi_dx _ _ _ _ _ _ HG) as Ldx.
    assert (HKtN : forall j k, j < N -> In k (rows Kt1 j) -> (k < N)%nat).
    { intros j k Hj Hin. destruct (Nat.lt_ge_cases j n) as [Hjn|Hjn].
      - apply (sh_tu _ _ _ _ _ _ _ _ SH1 j k Hjn) in Hin. destruct Hin as [[H _]|[H1 H2]]; [lia|]. pose proof (proj2 HA j _ Hjn H2). lia.
      - apply (sh_tl _ _ _ _ _ _ _ _ SH1 j k (conj Hjn Hj)) in Hin. lia. }
    set (actA := part n (supp a2)) in *.
    assert (Hact : forall p, p < N -> actA p = takes_part F n below above sy p).
    { intros p Hp. unfold actA, takes_part. apply part_ext; auto. }
    assert (HMM : forall p q, p < N -> q < N -> masked actA (sym_entry (gK g3)) p q = masked (takes_part F n below above sy) (sym F (kkt_reg F n eps P1 A1)) p q).
    { intros p q Hp Hq. unfold masked. rewrite !Hact by auto. destruct (takes_part F n below above sy p && takes_part F n below above sy q); auto.
      unfold sym_entry, sym. rewrite !(proj2 HK3), EK2 by auto. rewrite !(proj1 HK1) by auto. auto. }
    destruct (kkt_solve_ok F n N n_le qsolve qs_ok (masked actA (sym_entry (gK g3))) (kkt_true F n P1 A1) g3 Kt1 a2 (s_dx s)
      (k_L _ _ _ _ HW3) (proj1 (k_fp _ _ _ _ HW3)) (k_D _ _ _ _ HW3) (k_Di _ _ _ _ HW3) HF3 (sh_Kt _ _ _ _ _ _ _ _ SH1) HKtN) as (r & Err0 & Rr); auto.
    { intros p q Hp Hq. apply (proj2 HK1). auto. }
    rewrite Err0. cbn [bind]. pose proof (refined_length F N _ _ _ _ _ _ Rr) as Lr.
    rewrite fill_dq_ok by auto. cbn [bind]. rewrite (fill_bound_ok true), (fill_bound_ok false) by auto. cbn [bind].
    destruct (gi_dP _ _ _ _ _ _ HG) as (P_1 & P_2 & P_3 & P_4). destruct (gi_dA _ _ _ _ _ _ HG) as (A_1 & A_2 & A_3 & A_4).
    pose proof (same_pat_ok F n P (s_dP s) (gi_dP _ _ _ _ _ _ HG) (proj1 HP)) as OdP. pose proof (same_pat_ok F n A (s_dA s) (gi_dA _ _ _ _ _ _ HG) (proj1 HA)) as OdA.
    destruct (fill_dP_ok (s_dP s) r sx OdP) as (dP' & EdP & Q1 & Q2 & Q3 & Q4); auto; [lia|..].
    { intros j i Hj Hi. rewrite (same_pat_rows F P _ j (gi_dP _ _ _ _ _ _ HG)) in Hi. pose proof (proj2 HP j i Hj Hi). lia. }
    rewrite EdP. cbn [bind].
    destruct (fill_dA_ok (s_dA s) a2 r sx sy OdA) as (dA' & EdA & B1 & B2 & B3 & B4); auto; [lia|..].
    { intros j i Hj Hi. rewrite (same_pat_rows F A _ j (gi_dA _ _ _ _ _ _ HG)) in Hi. pose proof (proj2 HA j i Hj Hi). lia. }
    rewrite EdA. cbn [bind].
    assert (EQ : c_x dP' = pat_vals (d_P F half sx r) P n).
    { rewrite Q4. symmetry. apply pat_vals_ext; auto. intro j. apply (same_pat_rows F). apply (gi_dP _ _ _ _ _ _ HG). }
    assert (EB : c_x dA' = pat_vals (d_A F n below above sx sy r) A n).
    { rewrite B4. symmetry. apply pat_vals_ext; auto. intro j. apply (same_pat_rows F). apply (gi_dA _ _ _ _ _ _ HG). }
    assert (LP : length (pat_vals (d_P F half sx r) P n) = c_n P).
    { rewrite (pat_vals_length F n _ P n (proj1 HP) (le_n _)). symmetry. apply (o_n n P (proj1 HP)). }
    assert (LA : length (pat_vals (d_A F n below above sx sy r) A n) = c_n A).
    { rewrite (pat_vals_length F n _ A n (proj1 HA) (le_n _)). symmetry. apply (o_n n A (proj1 HA)). }
    rewrite EQ, EB.
    destruct (uncanon_adj F n N c (map (d_q F r) (seq 0 n))
       (map (fun i => if Z.eqb (nth i a2 0%Z) (-1)%Z then nth (n + i) r n0 else n0) (seq 0 (N - n)))
       (map (fun i => if Z.eqb (nth i a2 0%Z) 1%Z then nth (n + i) r n0 else n0) (seq 0 (N - n)))
       (pat_vals (d_P F half sx r) P n) (pat_vals (d_A F n below above sx sy r) A n)) as (dp & Edp & Ldp & Hdp);
      try (rewrite ?map_length, ?seq_length, ?LP, ?LA; first [apply HC|lia]).
    rewrite Edp. cbn [bind run]. fold (chP c). fold (chA c).
    split; [|split; [auto|split; [|split; [|split; [auto|split; [exact Hsupp|split; [auto|]]]]]]].
    - constructor; cbn [s_ws s_Kt s_dP s_dA s_dx s_a s_init]; auto.
      + destruct SH1 as [h1 h2 h3 h4 h5 h6 h7 h8]. constructor; auto.
        * apply (k_K _ _ _ _ HW3).
        * intros p q Hq. rewrite (proj1 HK3), EK2 by lia. auto.
        * intros p q Hq. rewrite (proj1 HK3), EK2 by lia. auto.
        * intros q Hq H. rewrite (proj2 HK3), EK2 by lia. auto.
        * intros q Hq. rewrite (proj2 HK3), EK2 by lia. auto.
      + split; [|apply HK1]. intros p q Hq. rewrite (proj2 HK3), EK2 by lia. apply HK1. auto.
      + repeat split; cbn [c_p c_i c_n c_x]; congruence.
      + repeat split; cbn [c_p c_i c_n c_x]; congruence.
      + apply repeat_length.
      + destruct HW3. repeat split; auto.
      + discriminate.
      + intros _. split; [split; auto|]. destruct HN2 as (K0 & L0 & p0 & i0 & x0 & D0 & E0 & Eq0 & HR0 & Hn0).
        exists K0, L0, p0, i0, x0, D0, E0. split; auto. split; [intros j Hj; rewrite HR0 by auto; symmetry; apply (proj1 HK3); auto|].
        rewrite <- Hn0. pose proof (k_L _ _ _ _ (proj1 HG2)) as O2. pose proof (k_L _ _ _ _ HW3) as O3.
        rewrite (o_n N _ O3), (o_n N _ O2). apply cptr_of_rows; auto.
    - cbn [s_fP]. unfold chP. destruct (gc_P c); auto.
    - cbn [s_fA]. unfold chA. destruct (gc_A c); auto.
    - exists r. split; [|split].
      + unfold kkt_solution. eapply (refined_ext F n N n_le); [exact Hact|exact HMM|reflexivity|exact Rr].
      + intros r' H'. symmetry. destruct HF3 as [Hinv Heq]. eapply (refined_unique F N actA _ _ _ (gL g3) (gD g3) (gDinv g3)); [exact (proj1 (k_fp _ _ _ _ HW3))|exact Hinv|exact Heq|exact Rr|].
        eapply (refined_ext F n N n_le); [| | |exact H'].
        * intros p Hp. symmetry. apply Hact. auto.
        * intros p q Hp Hq. symmetry. apply HMM; auto.
        * reflexivity.
      + intros delta Hd. rewrite Hdp. unfold slope. rewrite <- (bound_sum c P A a2 sy r delta HC Hmarks Hsupp Hd).
        rewrite (rsum_ext) with (f := fun j => nth j (map (d_q F r) (seq 0 n)) n0 * mapd F (gc_q c) delta j) (g := fun j => d_q F r j * mapd F (gc_q c) delta j).
        * ring.
        * intros j Hj. apply in_seq in Hj. rewrite nth_ms by lia. auto.
  Qed.
End Call.
