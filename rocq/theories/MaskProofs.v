(** What the flags of Lmask mean: the first marking (writer.py 249-256) and the fill-in pass
    (cpg_osqp_grad_compute.c.jinja2 131-143). *)

From Coq Require Import Arith Bool ZArith Lia List Sorted.
From Verif Require Import Base Machine Runtime RuntimeProofs Sparse SparseProofs Ldl LdlRank1 LdlProofs GradSpec LdlMain FactorProofs Gradient.
Import ListNotations.
Local Open Scope nat_scope.

(** The flag of a place. *)
Definition flag (N : nat) (mask : list bool) (col row : nat) : bool :=
  nth (Z.to_nat (mask_index (Z.of_nat N) (Z.of_nat col) (Z.of_nat row))) mask false.

Section Mask.
  Variable F : Fld.
  Variable N : nat.

  Lemma place : forall (mask : list bool) c r, 2 * length mask = N * (N - 1) -> c < r < N ->
    let z := mask_index (Z.of_nat N) (Z.of_nat c) (Z.of_nat r) in
    (0 <= z)%Z /\ Z.to_nat z < length mask.
  Proof.
    intros mask c r Hl H z. pose proof (mask_range (Z.of_nat N) (Z.of_nat c) (Z.of_nat r) ltac:(lia) ltac:(lia)) as R.
    fold z in R. split; [lia|]. apply Nat2Z.inj_lt. rewrite Z2Nat.id by lia.
    assert (E : (Z.of_nat N * (Z.of_nat N - 1) = 2 * Z.of_nat (length mask))%Z).
    { replace (Z.of_nat N - 1)%Z with (Z.of_nat (N - 1)) by lia. rewrite <- Nat2Z.inj_mul. lia. }
    rewrite E, Z.mul_comm, Z.div_mul in R by lia. lia.
  Qed.
  Lemma flag_upd : forall mask c r c' r', 2 * length mask = N * (N - 1) -> c < r < N -> c' < r' < N ->
    flag N (upd mask (Z.to_nat (mask_index (Z.of_nat N) (Z.of_nat c) (Z.of_nat r))) true) c' r' = true
    <-> flag N mask c' r' = true \/ c' = c /\ r' = r.
  Proof.
    intros mask c r c' r' Hl H H'. unfold flag.
    destruct (place mask c r Hl H) as [P1 P2]. destruct (place mask c' r' Hl H') as [P1' P2'].
    destruct (Nat.eq_dec (Z.to_nat (mask_index (Z.of_nat N) (Z.of_nat c') (Z.of_nat r'))) (Z.to_nat (mask_index (Z.of_nat N) (Z.of_nat c) (Z.of_nat r)))) as [E|E].
    - rewrite E, nth_upd_eq by auto. split; auto. intros _. right. apply Z2Nat.inj in E; auto.
      apply mask_inj in E; try lia.
    - rewrite nth_upd_neq by auto. split; auto. intros [A|[-> ->]]; [auto|congruence].
  Qed.

  Theorem first_flags : forall (L : csc F) mask, csc_ok N L -> lower_pat F N L -> 2 * length mask = N * (N - 1) ->
    exists mask', set_mask F N L mask = Ok mask' /\ length mask' = length mask
      /\ forall c r, c < r < N -> (flag N mask' c r = true <-> flag N mask c r = true \/ In r (rows L c)).
  Proof.
    intros L mask OL HL Hm.
    set (Q := fun (j t : nat) (m' : list bool) => length m' = length mask /\
      forall c r, c < r < N -> (flag N m' c r = true <-> flag N mask c r = true \/ (c < j /\ In r (rows L c)) \/ (c = j /\ In r (firstn t (rows L c))))).
    assert (R : run none (set_mask F N L mask) (Q (N - 1) 0)).
    2:{ destruct (run_none _ _ _ R) as (m' & E & Hl & H). exists m'. split; auto. split; auto. intros c r Hc. rewrite (H c r Hc). cbn [firstn In].
        split; [intros [A|[[_ A]|[_ []]]]; auto|]. intros [A|A]; auto. right. left. split; auto. lia. }
    unfold set_mask. replace (Q (N - 1) 0) with (Q (0 + (N - 1)) 0) by auto.
    apply (run_for none _ (fun j m' => Q j 0 m')).
    { split; auto. intros c r _. cbn [firstn In]. split; auto. intros [A|[[A _]|[_ []]]]; auto. lia. }
    intros j m1 Hj H1. assert (HjN : j < N) by lia.
    assert (Hp : forall k, (k <= N)%nat -> nth_error (c_p L) k = Some (cptr L k)).
    { intros k Hk. unfold cptr. apply nth_error_nth'. rewrite (o_p N L OL). lia. }
    apply run_get with (a := cptr L j); [apply Hp; lia|]. apply run_get with (a := cptr L (S j)); [rewrite Nat.add_1_r; apply Hp; lia|].
    pose proof (o_mono N L OL j HjN) as Hmono.
    destruct (rows_len F N L j OL HjN) as [LR _].
    eapply run_imp.
    - apply (run_for none _ (fun k m' => Q j (k - cptr L j) m')).
      + rewrite Nat.sub_diag. auto.
      + intros k m2 Hk [L2 H2].
        destruct (nth_err_lt _ (rows L j) (k - cptr L j) ltac:(lia)) as (i & Ei). pose proof (rows_nth F N L j _ i OL HjN Ei) as Ei'.
        replace (cptr L j + (k - cptr L j))%nat with k in Ei' by lia. apply run_get with (a := i); auto.
        pose proof (HL j i HjN (nth_error_In _ _ Ei)) as Hi.
        destruct (place m2 j i ltac:(lia) ltac:(lia)) as [Hz Hb]. unfold putz.
        replace (Z.ltb _ 0) with false by (symmetry; apply Z.ltb_ge; auto). rewrite put_ok by auto. cbn [run].
        split; [rewrite upd_length; auto|]. intros c r Hc. rewrite flag_upd by (auto; lia). rewrite (H2 c r Hc).
        replace (S k - cptr L j) with (S (k - cptr L j)) by lia.
        split.
        * intros [[A|[A|[A B]]]|[-> ->]]; auto.
          -- right. right. split; auto. subst c. rewrite (firstn_S_nth _ (rows L j) _ i) by auto. apply in_or_app. auto.
          -- right. right. split; auto. rewrite (firstn_S_nth _ (rows L j) _ i) by auto. apply in_or_app. right. left. auto.
        * intros [A|[A|[-> B]]]; auto. rewrite (firstn_S_nth _ (rows L j) _ i) in B by auto. apply in_app_or in B.
          destruct B as [B|[->|[]]]; auto.
    - intros m2 [L2 H2]. split; auto. intros c r Hc. rewrite (H2 c r Hc).
      replace (cptr L j + (cptr L (S j) - cptr L j) - cptr L j) with (length (rows L j)) by lia.
      split.
      + intros [A|[[A B]|[A B]]]; [auto| |]; right; left; [split; auto|]. subst c. rewrite firstn_all in B. auto.
      + intros [A|[[A B]|[_ []]]]; auto. destruct (Nat.eq_dec c j) as [->|]; [rewrite firstn_all; auto|]. right. left. split; auto. lia.
  Qed.

  (** Two of the rows [ws], shifted by [off]: a place where a column with these rows fills in. *)
  Definition pair (ws : list nat) (off c r : nat) : Prop :=
    exists a b, In a ws /\ In b ws /\ a < b /\ c = a + off /\ r = b + off.
  Definition before (ws : list nat) (off k j c r : nat) : Prop :=
    exists a b ta tb, nth_error ws ta = Some a /\ nth_error ws tb = Some b /\ ta < tb /\ (ta < k \/ ta = k /\ tb < j) /\ c = a + off /\ r = b + off.

  Lemma sorted_nth : forall (l : list nat) a b x y, StronglySorted lt l -> nth_error l a = Some x -> nth_error l b = Some y -> (a < b <-> x < y).
  Proof.
    induction l as [|z l IH]; intros a b x y H Ha Hb; [destruct a; discriminate|]. apply StronglySorted_inv in H. destruct H as [H1 H2].
    rewrite Forall_forall in H2. destruct a as [|a], b as [|b]; cbn [nth_error] in *.
    - inversion Ha; inversion Hb; subst. lia.
    - inversion Ha; subst. apply nth_error_In in Hb. pose proof (H2 _ Hb). lia.
    - inversion Hb; subst. apply nth_error_In in Ha. pose proof (H2 _ Ha). lia.
    - pose proof (IH a b x y H1 Ha Hb). lia.
  Qed.
  Lemma before_all : forall ws off c r, StronglySorted lt ws -> (before ws off (length ws) 0 c r <-> pair ws off c r).
  Proof.
    intros ws off c r HS. split.
    - intros (a & b & ta & tb & Ha & Hb & Hlt & _ & -> & ->). exists a, b. pose proof (nth_error_In _ _ Ha). pose proof (nth_error_In _ _ Hb).
      repeat (split; auto). apply (sorted_nth ws ta tb a b); auto.
    - intros (a & b & Ha & Hb & Hlt & -> & ->). apply In_nth_error in Ha. apply In_nth_error in Hb. destruct Ha as [ta Ha], Hb as [tb Hb].
      exists a, b, ta, tb. repeat (split; auto). { apply (sorted_nth ws ta tb a b); auto. }
      left. eapply nth_err_some; eauto.
  Qed.

  Theorem fill_in : forall (L : csc F) mask wi size off,
    csc_ok N L -> lower_pat F N L -> 2 * length (c_i L) = N * (N - 1) -> 2 * length mask = N * (N - 1) ->
    size <= length wi -> StronglySorted lt (firstn size wi) -> (forall a, In a (firstn size wi) -> a + off < N) ->
    exists L' mask', symbolic F N L mask wi size off = Ok (L', mask') /\ csc_ok N L' /\ lower_pat F N L'
      /\ length (c_i L') = length (c_i L) /\ length mask' = length mask
      /\ (forall c r, c < r < N -> (flag N mask' c r = true <-> flag N mask c r = true \/ pair (firstn size wi) off c r))
      /\ (forall c r, c < r < N -> (In r (rows L' c) <-> In r (rows L c) \/ pair (firstn size wi) off c r /\ flag N mask c r = false))
      /\ (forall c r, c < N -> entry L' r c = entry L r c).
  Proof.
    intros L mask wi size off OL HL HR Hm Hsz HS Hb. set (ws := firstn size wi) in *.
    assert (Lws : length ws = size) by (unfold ws; rewrite firstn_length; lia).
    assert (Hws : forall t a, nth_error ws t = Some a -> nth_error wi t = Some a).
    { intros t a Ht. pose proof (nth_err_some _ _ _ _ Ht). unfold ws in Ht. rewrite nth_error_firstn' in Ht by lia. auto. }
    set (I := fun (k j : nat) (st : csc F * list bool) => csc_ok N (fst st) /\ lower_pat F N (fst st) /\ length (c_i (fst st)) = length (c_i L)
      /\ length (snd st) = length mask
      /\ (forall c r, c < r < N -> (flag N (snd st) c r = true <-> flag N mask c r = true \/ before ws off k j c r))
      /\ (forall c r, c < r < N -> (In r (rows (fst st) c) <-> In r (rows L c) \/ before ws off k j c r /\ flag N mask c r = false))
      /\ (forall c r, c < N -> entry (fst st) r c = entry L r c)).
    assert (Iext : forall k j k' j' st, (forall c r, before ws off k j c r <-> before ws off k' j' c r) -> I k j st -> I k' j' st).
    { intros k j k' j' st E (I1 & I2 & I3 & I4 & I5 & I6 & I7). split; auto. split; auto. split; auto. split; auto. split; [|split; auto].
      - intros c r Hc. rewrite <- E. auto.
      - intros c r Hc. rewrite <- E. auto. }
    assert (R : run none (symbolic F N L mask wi size off) (I size 0)).
    2:{ destruct (run_none _ _ _ R) as ([L' mask'] & E & I1 & I2 & I3 & I4 & I5 & I6 & I7). cbn [fst snd] in *. exists L', mask'.
        rewrite <- Lws in I5, I6. split; auto. split; auto. split; auto. split; auto. split; auto. split; [|split; auto].
        - intros c r Hc. rewrite (I5 c r Hc), before_all by auto. reflexivity.
        - intros c r Hc. rewrite (I6 c r Hc), before_all by auto. reflexivity. }
    unfold symbolic. change (I size 0) with (I (0 + size) 0).
    apply (run_for none _ (fun k st => I k 0 st)).
    { cbn [fst snd]. assert (Nb : forall c r, ~ before ws off 0 0 c r).
      { intros c r (a & b & ta & tb & _ & _ & _ & H & _). lia. }
      unfold I. cbn [fst snd]. split; auto. split; auto. split; auto. split; auto. split; [|split; auto]; intros c r Hc; pose proof (Nb c r); tauto. }
    intros k st Hk HI. destruct (nth_err_lt _ ws k ltac:(lia)) as (a & Ha). eapply run_get; [apply Hws; exact Ha|].
    eapply run_imp.
    - apply (run_for none _ (fun j st => I k j st)).
      + eapply Iext; [|exact HI]. intros c r. split; intros (a' & b' & ta & tb & H1 & H2 & H3 & H4 & H5 & H6); exists a', b', ta, tb; repeat (split; auto); lia.
      + intros j [L1 mask1] Hj (I1 & I2 & I3 & I4 & I5 & I6 & I7). cbn [fst snd] in *.
        destruct (nth_err_lt _ ws j ltac:(lia)) as (b & Hbj). eapply run_get; [apply Hws; exact Hbj|]. cbv zeta.
        assert (Hab : a < b) by (apply (sorted_nth ws k j a b); auto; lia).
        pose proof (Hb b (nth_error_In _ _ Hbj)) as HbN. set (c := a + off) in *. set (r := b + off) in *.
        assert (Hcr : c < r < N) by (unfold c, r; lia).
        assert (Step : forall c' r', before ws off k (S j) c' r' <-> before ws off k j c' r' \/ c' = c /\ r' = r).
        { intros c' r'. split.
          - intros (a' & b' & ta & tb & H1 & H2 & H3 & H4 & -> & ->). destruct (Nat.eq_dec ta k) as [->|]; [destruct (Nat.eq_dec tb j) as [->|]|].
            + right. rewrite Ha in H1. rewrite Hbj in H2. injection H1 as <-. injection H2 as <-. auto.
            + left. exists a', b', k, tb. repeat (split; auto). lia.
            + left. exists a', b', ta, tb. repeat (split; auto). lia.
          - intros [(a' & b' & ta & tb & H1 & H2 & H3 & H4 & H5 & H6)|[-> ->]]; [exists a', b', ta, tb; repeat (split; auto); lia|].
            exists a, b, k, j. repeat (split; auto); lia. }
        destruct (place mask1 c r ltac:(lia) Hcr) as [Hz0 Hz1].
        unfold getz, putz. replace (Z.ltb (mask_index (Z.of_nat N) (Z.of_nat c) (Z.of_nat r)) 0) with false by (symmetry; apply Z.ltb_ge; auto).
        destruct (nth_err_lt _ _ _ Hz1) as (bb & Hbb). eapply run_get; [exact Hbb|].
        assert (Fb : flag N mask1 c r = bb) by (unfold flag; apply nth_error_nth; auto).
        destruct bb.
        * cbn [run]. unfold I. cbn [fst snd]. split; auto. split; auto. split; auto. split; auto. split; [|split; auto].
          -- intros c' r' Hc. rewrite (I5 c' r' Hc), Step. apply (I5 c r Hcr) in Fb. split; [tauto|]. intros [H|[H|[-> ->]]]; tauto.
          -- intros c' r' Hc. rewrite (I6 c' r' Hc), Step. apply (I5 c r Hcr) in Fb. split; [tauto|]. intros [H|[[H|[-> ->]] G]]; auto.
             destruct Fb as [Fb|Fb]; [congruence|auto].
        * assert (Fo : flag N mask c r = false).
          { destruct (flag N mask c r) eqn:E; auto. rewrite (proj2 (I5 c r Hcr)) in Fb; [discriminate|auto]. }
          assert (Nb : ~ before ws off k j c r). { intro H. rewrite (proj2 (I5 c r Hcr)) in Fb; [discriminate|auto]. }
          eapply run_put; [exact Hz1|].
          destruct (insert_array F N L1 r c true n0 I1 ltac:(lia) ltac:(lia)) as (L2 & E2 & O2 & Hl2 & Hin2 & Hen2 & Hnew & Hold).
          { intro Hn. assert (Hf : find r (nth c (acols F N L1) []) = None).
            { apply find_rows. rewrite nth_acols by lia. rewrite (a_fst F N) by (auto; lia). auto. }
            pose proof (lower_room F N L1 (acols F N L1) r c (to_rep F N L1 I1) (lower_acols F N L1 I1 I2) (acols_sorted F N L1 I1) Hcr Hf). lia. }
          rewrite E2. cbn [bind run]. unfold I. cbn [fst snd]. split; auto. split; [|split; [lia|split; [rewrite upd_length; auto|]]].
          { intros j0 i0 Hj0 Hi0. apply Hin2 in Hi0; auto. destruct Hi0 as [Hi0|[-> ->]]; [apply (I2 j0 i0 Hj0 Hi0)|auto]. }
          split; [|split].
          -- intros c' r' Hc. rewrite flag_upd by (auto; lia). rewrite (I5 c' r' Hc), Step. tauto.
          -- intros c' r' Hc. rewrite Hin2 by lia. rewrite (I6 c' r' Hc), Step. split; [|intros [H|[[H|H] G]]; tauto].
             intros [[H|[H G]]|[-> ->]]; auto.
          -- intros c' r' Hc. rewrite <- I7 by auto. destruct (Nat.eq_dec c' c) as [->|Hnc]; [destruct (Nat.eq_dec r' r) as [->|Hnr]|].
             ++ destruct (in_dec Nat.eq_dec r (rows L1 c)) as [Hi|Hi]; [apply Hold; auto|]. rewrite Hnew by auto. symmetry. apply entry_out; auto.
             ++ apply Hen2; auto. congruence.
             ++ apply Hen2; auto. congruence.
    - intros st' H. eapply Iext; [|exact H]. intros c r. replace (k + 1 + (size - (k + 1))) with size by lia.
      split; intros (a' & b' & ta & tb & H1 & H2 & H3 & H4 & H5 & H6); exists a', b', ta, tb; repeat (split; auto); [lia|].
      apply nth_err_some in H2. lia.
  Qed.
End Mask.
