(** C53 and C56: cone descriptions. *)

From Coq Require Import String Arith Bool ZArith QArith Lia List.
From Verif Require Import Base Pus Machine Config Cones.
Import ListNotations.

Definition rows (l : list cone) : nat := list_sum (map cone_rows l).

Lemma block_len : forall mk n, length (block mk n) = one n.
Proof. intros mk n. unfold block, one. destruct (Nat.ltb 0 n); auto. Qed.
Lemma clar_len : forall d, length (clar_cones d) = clar_n d + (d_exp d - 1).
Proof.
  intro d. unfold clar_cones, clar_n. rewrite !app_length, !block_len, repeat_length, !map_length. unfold one. destruct (Nat.ltb_spec 0 (d_exp d)); lia.
Qed.

(** The declared number of cones is the number of listed cones exactly when there is at most
    one exponential cone; otherwise it is smaller. *)
Theorem C53_count : forall d, length (clar_cones d) = clar_n d <-> d_exp d <= 1.
Proof. intro d. rewrite clar_len. lia. Qed.
Print Assumptions C53_count.
Theorem C53_seen : forall d, d_exp d <= 1 -> clar_seen d = clar_cones d.
Proof. intros d H. unfold clar_seen. rewrite <- (proj2 (C53_count d) H). apply firstn_all. Qed.
Print Assumptions C53_seen.

(** CVXPY's order exactly when there is no exponential cone beside second-order or
    semidefinite ones. *)
Lemma repeat_cons_app : forall (c : cone) k l, repeat c k ++ c :: l = c :: repeat c k ++ l.
Proof. induction k as [|k IH]; intros l; cbn [repeat app]; auto. rewrite IH. auto. Qed.
Theorem C53_order : forall d, clar_cones d = cv_cones d <-> d_exp d = 0 \/ (d_soc d = [] /\ d_psd d = []).
Proof.
  intro d. unfold clar_cones, cv_cones. split.
  - intro H. do 2 apply app_inv_head in H. destruct (d_exp d) as [|k]; auto. right. destruct (d_soc d) as [|s ss]; [|discriminate]. destruct (d_psd d) as [|p ps]; [auto|discriminate].
  - intros [H|[H1 H2]].
    + rewrite H. reflexivity.
    + rewrite H1, H2. reflexivity.
Qed.
Print Assumptions C53_order.

(** Together: the cones the solver sees are those of CVXPY's rows. *)
Theorem C53_rows : forall d, d_exp d <= 1 -> d_exp d = 0 \/ (d_soc d = [] /\ d_psd d = []) ->
  row_cones (clar_seen d) = row_cones (cv_cones d) /\ rows (clar_seen d) = rows (cv_cones d).
Proof. intros d H1 H2. rewrite C53_seen by auto. rewrite (proj2 (C53_order d) H2). auto. Qed.
Print Assumptions C53_rows.
Example C53_example : let d := mkDims 2 3 1 [] [] [(1 # 2)%Q]%Q in
  d_exp d <= 1 /\ d_soc d = [] /\ d_psd d = [] /\ clar_seen d = [Zero 2; Nonneg 3; Exp; Pow (1 # 2)]
  /\ clar_seen (mkDims 0 3 0 [3; 4] [2] []) = [Nonneg 3; Soc 3; Soc 4; Psd 2].
Proof. cbn. repeat split; auto. Qed.

(** Two exponential cones or more: at least one cone is cut off, for every other dimension. *)
Theorem C53_cut_refuted : forall d, 2 <= d_exp d -> length (clar_seen d) < length (cv_cones d).
Proof.
  intros d H. unfold clar_seen. rewrite firstn_length, clar_len.
  unfold cv_cones. rewrite !app_length, !block_len, repeat_length, !map_length. unfold clar_n, one. destruct (Nat.ltb_spec 0 (d_exp d)); lia.
Qed.
Print Assumptions C53_cut_refuted.
Theorem C53_cut_rows_refuted : let d := mkDims 1 0 2 [] [] [] in
  clar_seen d = [Zero 1; Exp] /\ cv_cones d = [Zero 1; Exp; Exp] /\ rows (clar_seen d) = 4 /\ rows (cv_cones d) = 7.
Proof. cbn. auto. Qed.

(** An exponential cone beside a second-order cone: the row after the nonnegative ones belongs
    to different cones. *)
Theorem C53_order_refuted : forall d s ss, 1 <= d_exp d -> d_soc d = s :: ss -> 1 <= s ->
  let i := d_zero d + d_nonneg d in
  nth_error (row_cones (clar_cones d)) i = Some Exp /\ nth_error (row_cones (cv_cones d)) i = Some (Soc s).
Proof.
  intros d s ss He Hs H1 i.
  assert (B : forall mk n, (forall k, cone_rows (mk k) = k) -> length (row_cones (block mk n)) = n).
  { intros mk n E. unfold block, row_cones. destruct (Nat.ltb_spec 0 n); cbn [flat_map app length]; [|lia]. rewrite app_nil_r, repeat_length, E. auto. }
  assert (L : forall rest, nth_error (row_cones (block Zero (d_zero d) ++ block Nonneg (d_nonneg d) ++ rest)) i = nth_error (row_cones rest) 0).
  { intro rest. unfold row_cones. rewrite !flat_map_app. fold row_cones. pose proof (B Zero (d_zero d) (fun _ => eq_refl)) as B1. pose proof (B Nonneg (d_nonneg d) (fun _ => eq_refl)) as B2.
    unfold row_cones in *. rewrite nth_error_app2 by lia. rewrite nth_error_app2 by lia. f_equal. lia. }
  unfold clar_cones, cv_cones. rewrite !L. rewrite Hs. destruct (d_exp d) as [|k]; [lia|]. destruct s as [|s]; [lia|]. cbn. auto.
Qed.
Print Assumptions C53_order_refuted.
Theorem C53_order_witness_refuted : let d := mkDims 0 0 1 [3] [] [] in
  clar_seen d = [Exp; Soc 3] /\ cv_cones d = [Soc 3; Exp] /\ clar_n d = 2.
Proof. cbn. auto. Qed.

(** ** C56 *)

(** SCS accepts exactly the cones its description can express, and the description then covers
    CVXPY's rows in order. *)
Theorem C56_scs : forall q d, check_cones (SCS q) d = Ok tt -> zlq_cones d = cv_cones d.
Proof.
  intros q d H. unfold check_cones in H. destruct (Nat.ltb_spec 0 (d_exp d)); [discriminate|]. destruct (d_psd d) eqn:E1; [|discriminate]. destruct (d_p3d d) eqn:E2; [|discriminate].
  unfold zlq_cones, cv_cones. rewrite E1, E2. replace (d_exp d) with 0 by lia. cbn. rewrite app_nil_r. auto.
Qed.
Print Assumptions C56_scs.
Theorem C56_scs_rejects : forall q d, check_cones (SCS q) d = Err ValueError <-> zlq_cones d <> cv_cones d.
Proof.
  intros q d. split.
  - intros H E. unfold check_cones in H. assert (T : d_exp d = 0 /\ d_psd d = [] /\ d_p3d d = []).
    { unfold zlq_cones, cv_cones in E. do 2 apply app_inv_head in E. rewrite <- (app_nil_r (map Soc (d_soc d))) in E at 1. apply app_inv_head in E. symmetry in E. apply app_eq_nil in E. destruct E as [E1 E].
      apply app_eq_nil in E. destruct E as [E2 E3]. split; [destruct (d_exp d); auto; discriminate|]. split; [destruct (d_psd d); auto; discriminate|destruct (d_p3d d); auto; discriminate]. }
    destruct T as (T1 & T2 & T3). rewrite T1, T2, T3 in H. cbn in H. discriminate.
  - intro H. destruct (check_cones (SCS q) d) as [[]|e] eqn:E; [exfalso; apply H; apply (C56_scs q); auto|].
    unfold check_cones in E. destruct (_ || _); [congruence|discriminate].
Qed.
Print Assumptions C56_scs_rejects.
(** ECOS, QOCO, QOCOGEN: given that CVXPY offers them no semidefinite or power cones. *)
Theorem C56_others : forall s d, (s = ECOS \/ (exists q, s = QOCO q) \/ (exists q, s = QOCOGEN q)) ->
  d_psd d = [] -> d_p3d d = [] -> check_cones s d = Ok tt -> zlq_cones d = cv_cones d.
Proof.
  intros s d Hs H1 H2 H.
  assert (E : d_exp d = 0).
  { destruct Hs as [->|[[q ->]|[q ->]]]; unfold check_cones in H; destruct (Nat.ltb_spec 0 (d_exp d)); try discriminate; lia. }
  unfold zlq_cones, cv_cones. rewrite H1, H2, E. cbn. rewrite app_nil_r. auto.
Qed.
Print Assumptions C56_others.
(** Their own check does not look at semidefinite or power cones. *)
Theorem C56_unchecked_refuted : let d := mkDims 1 2 0 [3] [2] [] in
  check_cones ECOS d = Ok tt /\ rows (zlq_cones d) = 6 /\ rows (cv_cones d) = 9.
Proof. cbn. auto. Qed.
Example C56_example : let d := mkDims 1 2 0 [3; 4] [] [] in
  check_cones (SCS true) d = Ok tt /\ check_cones ECOS d = Ok tt /\ zlq_cones d = [Zero 1; Nonneg 2; Soc 3; Soc 4]
  /\ check_cones (SCS true) (mkDims 1 2 1 [] [] []) = Err ValueError.
Proof. cbn. auto. Qed.
Print Assumptions C56_unchecked_refuted.

(** The check is part of generation: whenever one-stage code generation for SCS (ECOS, QOCO,
    QOCOGEN) writes files, the cones of the problem are those the description expresses. *)
Definition counts (d : dims) : nat * nat * nat := (d_exp d, length (d_psd d), length (d_p3d d)).
Theorem C56_generated :
  forall windows data data2 mg bs lk name i pd d,
  get_interface windows (Some name) = Ok i -> data i = Ok pd -> d_cones pd = Some (counts d) ->
  i = ISCS \/ (In i [IECOS; IQOCO; IQOCOGEN] /\ d_psd d = [] /\ d_p3d d = []) ->
  fst (generate_code windows data data2 mg bs lk (Some name) false false) = Written ->
  zlq_cones d = cv_cones d.
Proof.
  intros windows data data2 mg bs lk name i pd d Hi Hd Hc Hs Hg. unfold generate_code, resolve in Hg.
  destruct (String.eqb (lower name) "explicit") eqn:Ee.
  - exfalso. apply String.eqb_eq in Ee. unfold get_interface in Hi. destruct (windows && _); [discriminate|].
    destruct (assoc (upper name) mapping) as [i'|] eqn:Ea; [|discriminate]. injection Hi as ->.
    assert (Hx : In (upper name, i) mapping).
    { revert Ea. generalize mapping. induction l as [|[k v] l IH]; cbn; [discriminate|]. destruct (String.eqb_spec (upper name) k); [intros [= ->]; subst; auto|auto]. }
    assert (Hl : lower (upper name) = "explicit"%string).
    { rewrite <- Ee. clear. induction name as [|c name IH]; auto. unfold lower, upper in *. cbn [smap]. rewrite IH. f_equal.
      destruct c as [[] [] [] [] [] [] [] []]; reflexivity. }
    cbn in Hx. decompose [or] Hx; try tauto; match goal with H : (_, _) = (upper name, i) |- _ => injection H as H1 H2; rewrite <- H1 in Hl; discriminate end.
  - unfold canonicalization in Hg. cbn [is_two_stage andb] in Hg. unfold extract in Hg. rewrite Hi in Hg. cbn [bind] in Hg. rewrite Hd in Hg. cbn [bind] in Hg.
    destruct (Nat.eqb (d_params pd) 0); [discriminate|]. rewrite Hc in Hg. unfold counts in Hg.
    destruct Hs as [->|(Hin & E1 & E2)].
    + apply (C56_scs true). unfold check_cones, Config.check_cones in *. destruct (_ || _ || _); auto. discriminate.
    + apply (C56_others ECOS); auto. unfold check_cones. destruct (Nat.ltb 0 (d_exp d)) eqn:El; auto. exfalso.
      unfold Config.check_cones in Hg. rewrite El in Hg. cbn in Hin. decompose [or] Hin; subst; try discriminate; tauto.
Qed.
Print Assumptions C56_generated.
Definition gen_cones (d : dims) (name : string) :=
  generate_code false (fun _ => Ok (mkPD 1 (Some (counts d)) (Ok tt) false false)) (fun _ => Err TypeError) (Ok tt) true (Ok tt) (Some name) false false.
Example C56_generated_example :
  gen_cones (mkDims 1 2 0 [3; 4] [] []) "scs" = (Written, Ok tt) /\ gen_cones (mkDims 1 2 0 [] [] [(1 # 2)%Q]) "SCS" = (Old, Err ValueError)
  /\ gen_cones (mkDims 1 2 1 [] [] []) "QOCO" = (Old, Err ValueError).
Proof. vm_compute. auto. Qed.
