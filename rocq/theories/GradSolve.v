(** The active set, and the linear systems solved by the gradient. *)

From Coq Require Import Arith Bool ZArith Lia List Sorted Field.
From Verif Require Import Base Machine Runtime RuntimeProofs Retrieve RetrieveProofs Sparse SparseProofs Ldl LdlRank1 LdlProofs GradSpec LdlMain FactorProofs Gradient GradKkt.
From Verif Require Import ExplicitProofs ExplicitVars.
Import ListNotations.

(** Marked constraints. *)
Definition supp (a : list Z) (i : nat) : bool := negb (Z.eqb (nth i a 0%Z) 0).

Section Active.
  Variable F : Fld.
  Variables n N : nat.
  Variable sqr : F -> res F.
  Variables below above : F -> bool.
  Hypothesis n_le : (n <= N)%nat.
  Hypothesis sqr_ok : forall x s, sqr x = Ok s -> (s * s = x)%num.
  Hypothesis sqr_err : forall x e, sqr x = Err e -> e = Arith.

  Variable Er : exn -> Prop.

  (** The mark of a constraint with dual [y] marked [m] before. *)
  Definition mark (y : F) (m : Z) : Z :=
    if below y then (if Z.eqb m 0 then -1 else m)%Z
    else if above y then (if Z.eqb m 0 then 1 else m)%Z
    else 0%Z.
  Definition binds (y : F) : bool := below y || above y.
  Lemma mark_zero : forall y m, Z.eqb (mark y m) 0 = negb (binds y).
  Proof. intros y m. unfold mark, binds. destruct (below y), (above y), (Z.eqb m 0) eqn:E; auto. Qed.

  Lemma supp_upd : forall a i v k, i < length a -> supp (upd a i v) k = fset (supp a) i (negb (Z.eqb v 0)) k.
  Proof.
    intros a i v k Hi. unfold supp, fset. destruct (Nat.eqb_spec k i) as [->|Hne]; [rewrite nth_upd_eq by auto|rewrite nth_upd_neq by auto]; auto.
  Qed.

  Theorem active_good : forall sy g a, good_ws F n N (part n (supp a)) g -> length a = N - n -> length sy = N - n ->
    admits n N sqr Er (sym_entry (gK g)) ->
    run Er (active F n N sqr below above sy g a) (fun '(g', a') =>
      length a' = N - n /\ (forall i, i < N - n -> nth i a' 0%Z = mark (nth i sy n0) (nth i a 0%Z))
      /\ good_ws F n N (part n (supp a')) g' /\ same_mat F N (gK g) (gK g') /\ (forall j, j < N -> rows (gL g') j = rows (gL g) j)).
  Proof.
    intros sy g a HG Ha Hs HE. unfold active.
    pose (I := fun i (st : gws F * list Z) => length (snd st) = N - n
      /\ (forall k, k < N - n -> nth k (snd st) 0%Z = if Nat.ltb k i then mark (nth k sy n0) (nth k a 0%Z) else nth k a 0%Z)
      /\ good_ws F n N (part n (supp (snd st))) (fst st) /\ same_mat F N (gK g) (gK (fst st)) /\ (forall j, j < N -> rows (gL (fst st)) j = rows (gL g) j)).
    eapply run_imp; [apply (run_for Er _ I (active_step F n N sqr below above sy) (N - n) 0 (g, a))|].
    - unfold I. cbn [fst snd]. split; auto. split; [intros k Hk; auto|]. split; auto. split; auto. apply same_refl.
    - intros i [g1 a1] Hi (L1 & M1 & G1 & S1 & R1). cbn [fst snd] in *. unfold active_step.
      destruct (nth_err_lt _ sy i ltac:(lia)) as (y & Ey). destruct (nth_err_lt _ a1 i ltac:(lia)) as (ai & Ea).
      apply run_get with (a := y); auto. apply run_get with (a := ai); auto.
      pose proof (nth_error_nth _ _ n0 Ey) as Ey'. pose proof (nth_error_nth _ _ 0%Z Ea) as Ea'.
      assert (Eai : ai = nth i a 0%Z).
      { rewrite <- Ea', M1 by lia. replace (Nat.ltb i i) with false by (symmetry; apply Nat.ltb_irrefl). auto. }
      assert (HX : forall v g2, v = mark y ai -> good_ws F n N (part n (fset (supp a1) i (negb (Z.eqb v 0)))) g2 ->
          same_mat F N (gK g1) (gK g2) -> (forall j, j < N -> rows (gL g2) j = rows (gL g1) j) -> I (S i) (g2, upd a1 i v)).
      { intros v g2 Hv Hg Hsm Hr. unfold I. cbn [fst snd]. rewrite upd_length. split; auto. split; [|split; [|split]].
        - intros k Hk. destruct (Nat.eq_dec k i) as [->|Hne].
          + rewrite nth_upd_eq by lia. replace (Nat.ltb i (S i)) with true by (symmetry; apply Nat.ltb_lt; lia). rewrite Hv, Ey', Eai. auto.
          + rewrite nth_upd_neq, M1 by auto. destruct (Nat.ltb_spec k i), (Nat.ltb_spec k (S i)); auto; lia.
        - eapply good_ext; [|exact Hg]. intro k. unfold part. f_equal. symmetry. apply supp_upd. lia.
        - eapply same_trans; eauto.
        - intros j Hj. rewrite Hr, R1; auto. }
      assert (Hsame : forall k, fset (supp a1) i (negb (Z.eqb ai 0)) k = supp a1 k).
      { intro k. unfold fset. destruct (Nat.eqb_spec k i) as [->|]; auto. unfold supp. rewrite Ea'. auto. }
      assert (HK : forall v, v = mark y ai -> v = ai -> I (S i) (g1, a1)).
      { intros v Hv Hva. assert (Eu : upd a1 i v = a1).
        { clear -Ea Hva. subst v. revert i Ea. induction a1; destruct i; simpl; intro H; auto; [inversion H; auto|f_equal; auto]. }
        rewrite <- Eu. apply HX; auto using same_refl. subst v. eapply good_ext; [|exact G1]. intro k. unfold part. f_equal. rewrite Hva. symmetry. apply Hsame. }
      assert (HE1 : admits n N sqr Er (sym_entry (gK g1))).
      { eapply (admits_ext F n N sqr n_le); [|exact HE]. intros p q Hp Hq. unfold sym_entry. rewrite !(proj2 S1) by auto. auto. }
      assert (Hcur : supp a1 i = negb (Z.eqb ai 0)) by (unfold supp; rewrite Ea'; auto).
      assert (Hp : part n (supp a1) (n + i) = supp a1 i).
      { unfold part. replace (Nat.ltb (n + i) n) with false by (symmetry; apply Nat.ltb_ge; lia). cbn [orb]. f_equal. lia. }
      assert (Hadd : forall v, v = mark y ai -> Z.eqb v 0 = false -> Z.eqb ai 0 = true ->
        run Er (g' <- ldl_add F N sqr (n + i) g1;; a' <- put a1 i v;; Ok (g', a')) (I (S i))).
      { intros v Hv Hv0 Hz. eapply run_bind; [apply (add_good F n N sqr n_le sqr_ok sqr_err Er _ g1 (n + i) G1)|].
        - exact HE1.
        - lia.
        - rewrite Hp, Hcur, Hz. auto.
        - intros k Hk. unfold part. apply Nat.ltb_lt in Hk. rewrite Hk. auto.
        - intros g2 (A & B & C). apply run_put; [lia|]. apply HX; auto. rewrite Hv0. cbn [negb]. eapply good_ext; [|exact A]. intro k. symmetry. apply (part_fset n N n_le). }
      destruct (below y) eqn:Eb; [|destruct (above y) eqn:Eab].
      + destruct (Z.eqb ai 0) eqn:Ez.
        * apply Hadd; auto. unfold mark. rewrite Eb, Ez. auto.
        * apply (HK ai); auto. unfold mark. rewrite Eb, Ez. auto.
      + destruct (Z.eqb ai 0) eqn:Ez.
        * apply Hadd; auto. unfold mark. rewrite Eb, Eab, Ez. auto.
        * apply (HK ai); auto. unfold mark. rewrite Eb, Eab, Ez. auto.
      + destruct (Z.eqb ai 0) eqn:Ez.
        * apply (HK ai); auto. unfold mark. rewrite Eb, Eab. apply Z.eqb_eq in Ez. auto.
        * eapply run_bind; [apply (delete_good F n N sqr n_le sqr_ok sqr_err Er _ g1 (n + i) G1)|].
          -- exact HE1.
          -- lia.
          -- lia.
          -- rewrite Hp, Hcur. auto.
          -- intros k Hk. unfold part. apply Nat.ltb_lt in Hk. rewrite Hk. auto.
          -- intros g2 (A & B & C). apply run_put; [lia|]. apply HX; auto.
             ++ unfold mark. rewrite Eb, Eab. auto.
             ++ eapply good_ext; [|exact A]. intro k. symmetry. apply (part_fset n N n_le).
    - intros [g' a'] (L1 & M1 & G1 & S1 & R1). cbn [fst snd] in *. split; auto. split; [|auto].
      intros i Hi. rewrite M1 by auto. replace (Nat.ltb i (0 + (N - n))) with true by (symmetry; apply Nat.ltb_lt; lia). auto.
  Qed.

  (** The marked set does not depend on the previous marks (nor on the factorisation). *)
  Lemma active_marks : forall sy g a g' a', active F n N sqr below above sy g a = Ok (g', a') ->
    forall i, i < N - n -> exists y m, nth_error sy i = Some y /\ nth_error a i = Some m /\ nth_error a' i = Some (mark y m).
  Proof.
    intros sy g a g' a' H.
    assert (G : forall k s g a g' a', for_ k s (active_step F n N sqr below above sy) (g, a) = Ok (g', a') ->
      length a' = length a /\
      forall i, (s <= i < s + k -> exists y m, nth_error sy i = Some y /\ nth_error a i = Some m /\ nth_error a' i = Some (mark y m))
                /\ (i < s \/ s + k <= i -> nth_error a' i = nth_error a i)).
    { clear. induction k as [|k IH]; intros s g a g' a' H; cbn [for_] in H.
      - inversion H; subst. split; auto. intro i. split; [lia|auto].
      - destruct (active_step F n N sqr below above sy s (g, a)) as [[g1 a1]|] eqn:E; [|discriminate]. cbn [bind] in H.
        destruct (IH _ _ _ _ _ H) as (L & IHi). clear IH H.
        assert (St : length a1 = length a /\ exists y m, nth_error sy s = Some y /\ nth_error a s = Some m /\ nth_error a1 s = Some (mark y m)
                     /\ forall i, i <> s -> nth_error a1 i = nth_error a i).
        { unfold active_step in E. unfold get in E. destruct (nth_error sy s) as [y|] eqn:Ey; [|discriminate]. cbn [bind] in E.
          destruct (nth_error a s) as [m|] eqn:Em; [|discriminate]. cbn [bind] in E. pose proof (nth_err_some _ _ _ _ Em) as Hlt.
          assert (HP : forall v r, (a' <- put a s v;; Ok (r : gws F, a')) = Ok (g1, a1) -> v = mark y m -> length a1 = length a
               /\ nth_error a1 s = Some (mark y m) /\ forall i, i <> s -> nth_error a1 i = nth_error a i).
          { intros v r HH Hv. rewrite put_ok in HH by auto. inversion HH; subst. rewrite upd_length. split; auto. split.
            - rewrite nth_error_upd by auto. rewrite Nat.eqb_refl. auto.
            - intros i Hi. rewrite nth_error_upd by auto. apply Nat.eqb_neq in Hi. rewrite Hi. auto. }
          assert (HQ : forall r, Ok (r : gws F, a) = Ok (g1, a1) -> m = mark y m -> length a1 = length a
               /\ nth_error a1 s = Some (mark y m) /\ forall i, i <> s -> nth_error a1 i = nth_error a i).
          { intros r HH Hv. inversion HH; subst. split; auto. split; auto. congruence. }
          assert (HR : length a1 = length a /\ nth_error a1 s = Some (mark y m) /\ forall i, i <> s -> nth_error a1 i = nth_error a i).
          { unfold mark in *. destruct (below y); [|destruct (above y)]; destruct (Z.eqb m 0) eqn:Ez.
            - destruct (ldl_add F N sqr (n + s) g) as [g2|]; [|discriminate]. eapply HP; eauto.
            - eapply HQ; eauto.
            - destruct (ldl_add F N sqr (n + s) g) as [g2|]; [|discriminate]. eapply HP; eauto.
            - eapply HQ; eauto.
            - apply Z.eqb_eq in Ez. eapply HQ; eauto.
            - destruct (ldl_delete F N sqr (n + s) g) as [g2|]; [|discriminate]. eapply HP; eauto. }
          destruct HR as (R1 & R2 & R3). split; auto. exists y, m. auto. }
        destruct St as (L1 & y & m & Sy & Sm & Sa & So). split; [congruence|]. intro i. split.
        + intro Hi. destruct (Nat.eq_dec i s) as [->|Hne].
          * exists y, m. split; auto. split; auto. rewrite (proj2 (IHi s)) by lia. auto.
          * destruct (proj1 (IHi i) ltac:(lia)) as (y' & m' & A & B & C). exists y', m'. rewrite So in B by auto. auto.
        + intro Hi. rewrite (proj2 (IHi i)) by lia. apply So. lia. }
    intros i Hi. apply (proj1 (proj2 (G _ _ _ _ _ _ H) i)). lia.
  Qed.
End Active.
