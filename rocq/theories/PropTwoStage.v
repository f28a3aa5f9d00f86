(** Property C61: what the variables and duals of a two-stage program are. *)

From Coq Require Import String Arith Bool Lia List ZArith Reals Lra.
From Verif Require Import Base Pus Retrieve RetrieveProofs PropRetrieve TwoStage TwoStageProofs Canon CanonSpec CanonMore ExplicitProofs RuntimeSpec GradTotal PropTotal GradDeriv PropSens.
Import ListNotations.
Open Scope list_scope.
Local Open Scope nat_scope.

(** ** Optimality conditions of the two problems *)

Section Kkt.
  Variable K : ORing.
  Add Ring Kring61 : (rth K).
  Local Open Scope num_scope.
  Notation sum f k := (rsum (map f (seq 0 k))).
  Variables (n neq m : nat) (s P q : nat -> K) (A : nat -> nat -> K) (l u : nat -> K).
  Definition row (x : nat -> K) (i : nat) : K := sum (fun j => A i j * x j) n.

  (** The problem given to the solver (canonicalizer.py 353-360): minimise
      1/2 sum (x_j s_j)^2 + q^T x subject to l <= A[:neq] x (multipliers lam), A x <= u (mu). *)
  Record second_kkt (x lam mu : nat -> K) : Prop := mkSecond
    { sk_st : forall j, (j < n)%nat ->
        s j * (s j * x j) + q j - sum (fun i => A i j * lam i) neq + sum (fun i => A i j * mu i) m = n0;
      sk_l : forall i, (i < neq)%nat -> ole (l i) (row x i) /\ ole n0 (lam i) /\ lam i * (row x i - l i) = n0;
      sk_u : forall i, (i < m)%nat -> ole (row x i) (u i) /\ ole n0 (mu i) /\ mu i * (u i - row x i) = n0 }.

  (** OSQP's conditions for minimising 1/2 x^T diag(P) x + q^T x subject to l <= A x <= u on the
      first neq rows and A x <= u on the others: the multiplier is the one of the upper bound where it
      is positive, minus the one of the lower bound where it is negative. *)
  Record osqp_kkt (x y : nat -> K) : Prop := mkOsqpKkt
    { ok_st : forall j, (j < n)%nat -> P j * x j + q j + sum (fun i => A i j * y i) m = n0;
      ok_two : forall i, (i < neq)%nat -> ole (l i) (row x i) /\ ole (row x i) (u i)
        /\ (ole n0 (y i) -> y i * (u i - row x i) = n0) /\ (ole (y i) n0 -> y i * (row x i - l i) = n0);
      ok_one : forall i, (neq <= i < m)%nat -> ole (row x i) (u i) /\ ole n0 (y i) /\ y i * (u i - row x i) = n0 }.

  Hypothesis Hnm : (neq <= m)%nat.
  Hypothesis HP : forall j, (j < n)%nat -> P j = s j * s j.

  Lemma sum_split : forall (f g : nat -> K), sum (fun i => if Nat.ltb i neq then f i - g i else f i) m = sum f m - sum g neq.
  Proof.
    intros f g. replace m with (neq + (m - neq))%nat by lia. rewrite seq_app, !map_app, !rsum_app. cbn [plus].
    assert (E1 : rsum (map (fun i => if Nat.ltb i neq then f i - g i else f i) (seq 0 neq)) = sum f neq - sum g neq).
    { transitivity (sum (fun i => f i + - g i) neq).
      - apply rsum_ext. intros i Hi. apply in_seq in Hi. replace (Nat.ltb i neq) with true by (symmetry; apply Nat.ltb_lt; lia). ring.
      - rewrite rsum_map_add, rsum_map_opp. ring. }
    rewrite E1. rewrite (rsum_ext K (fun i => if Nat.ltb i neq then f i - g i else f i) f (seq neq (m - neq))); [ring|].
    intros i Hi. apply in_seq in Hi. replace (Nat.ltb i neq) with false by (symmetry; apply Nat.ltb_ge; lia). auto.
  Qed.

  Lemma second_osqp : forall x lam mu, second_kkt x lam mu -> osqp_kkt x (fun i => if Nat.ltb i neq then mu i - lam i else mu i).
  Proof.
    intros x lam mu [S1 S2 S3]. constructor.
    - intros j Hj. rewrite <- (S1 j Hj), (HP j Hj).
      rewrite (rsum_ext K (fun i => A i j * (if Nat.ltb i neq then mu i - lam i else mu i))
                 (fun i => if Nat.ltb i neq then A i j * mu i - A i j * lam i else A i j * mu i) (seq 0 m)).
      + rewrite (sum_split (fun i => A i j * mu i) (fun i => A i j * lam i)). ring.
      + intros i _. destruct (Nat.ltb i neq); ring.
    - intros i Hi. cbv beta. replace (Nat.ltb i neq) with true by (symmetry; apply Nat.ltb_lt; auto).
      destruct (S2 i Hi) as (A1 & A2 & A3). destruct (S3 i ltac:(lia)) as (B1 & B2 & B3).
      split; auto. split; auto.
      assert (U0 : ole n0 (u i - row x i)) by (apply (proj1 (ole_sub K _ _)); auto).
      assert (L0 : ole n0 (row x i - l i)) by (apply (proj1 (ole_sub K _ _)); auto).
      split; intro Hs.
      + apply (ole_antisym K).
        * replace ((mu i - lam i) * (u i - row x i)) with (mu i * (u i - row x i) - lam i * (u i - row x i)) by ring. rewrite B3.
          apply (proj2 (ole_sub K _ _)). replace (n0 - (n0 - lam i * (u i - row x i))) with (lam i * (u i - row x i)) by ring.
          apply ole_mul; auto.
        * apply ole_mul; auto.
      + apply (ole_antisym K).
        * apply (proj2 (ole_sub K _ _)). replace (n0 - (mu i - lam i) * (row x i - l i)) with ((n0 - (mu i - lam i)) * (row x i - l i)) by ring.
          apply ole_mul; auto. apply (proj1 (ole_sub K _ _)); auto.
        * replace ((mu i - lam i) * (row x i - l i)) with (mu i * (row x i - l i) - lam i * (row x i - l i)) by ring. rewrite A3.
          replace (mu i * (row x i - l i) - n0) with (mu i * (row x i - l i)) by ring. apply ole_mul; auto.
    - intros i Hi. cbv beta. replace (Nat.ltb i neq) with false by (symmetry; apply Nat.ltb_ge; lia). apply S3. lia.
  Qed.

  (** Positive and negative part. *)
  Definition pos (a : K) : K := if oleb n0 a then a else n0.

  Lemma osqp_second : forall x y, osqp_kkt x y ->
    second_kkt x (fun i => pos (n0 - y i)) (fun i => if Nat.ltb i neq then pos (y i) else y i)
    /\ forall i, (i < m)%nat -> y i = if Nat.ltb i neq then pos (y i) - pos (n0 - y i) else y i.
  Proof.
    intros x y [O1 O2 O3].
    assert (Hsign : forall a : K, (ole n0 a /\ pos a = a /\ pos (n0 - a) = n0) \/ (ole a n0 /\ pos a = n0 /\ pos (n0 - a) = n0 - a)).
    { intro a. unfold pos. destruct (oleb n0 a) eqn:E1.
      - left. apply (proj1 (oleb_spec K _ _)) in E1. split; auto. split; auto. destruct (oleb n0 (n0 - a)) eqn:E2; auto.
        apply (proj1 (oleb_spec K _ _)) in E2. apply (proj2 (ole_sub K _ _)) in E2.
        assert (a = n0) by (apply (ole_antisym K); auto). subst. ring.
      - assert (L : ole a n0). { destruct (ole_total K n0 a) as [H|H]; auto. apply (proj2 (oleb_spec K _ _)) in H. congruence. }
        right. split; auto. split; auto. assert (E2 : oleb n0 (n0 - a) = true) by (apply (proj2 (oleb_spec K _ _)), (proj1 (ole_sub K _ _)); auto).
        rewrite E2. auto. }
    assert (Hd : forall a : K, a = pos a - pos (n0 - a)).
    { intro a. destruct (Hsign a) as [(_ & -> & ->)|(_ & -> & ->)]; ring. }
    assert (Hp : forall a : K, ole n0 (pos a)).
    { intro a. unfold pos. destruct (oleb n0 a) eqn:E; [apply (proj1 (oleb_spec K _ _)); auto|apply ole_refl]. }
    split.
    - constructor.
      + intros j Hj. etransitivity; [|exact (O1 j Hj)]. rewrite (HP j Hj).
        rewrite (rsum_ext K (fun i => A i j * y i)
                   (fun i => if Nat.ltb i neq then A i j * (if Nat.ltb i neq then pos (y i) else y i) - A i j * pos (n0 - y i)
                             else A i j * (if Nat.ltb i neq then pos (y i) else y i)) (seq 0 m)).
        * rewrite (sum_split (fun i => A i j * (if Nat.ltb i neq then pos (y i) else y i)) (fun i => A i j * pos (n0 - y i))). ring.
        * intros i _. destruct (Nat.ltb i neq); [rewrite (Hd (y i)) at 1; ring|reflexivity].
      + intros i Hi. destruct (O2 i Hi) as (A1 & A2 & A3 & A4). split; auto. split; [apply Hp|].
        destruct (Hsign (y i)) as [(_ & _ & ->)|(Hn & _ & ->)]; [ring|].
        replace ((n0 - y i) * (row x i - l i)) with (n0 - y i * (row x i - l i)) by ring. rewrite (A4 Hn). ring.
      + intros i Hi. destruct (Nat.ltb i neq) eqn:E.
        * apply Nat.ltb_lt in E. destruct (O2 i E) as (A1 & A2 & A3 & A4). split; auto. split; [apply Hp|].
          destruct (Hsign (y i)) as [(Hn & -> & _)|(_ & -> & _)]; [apply A3; auto|ring].
        * apply Nat.ltb_ge in E. apply O3. lia.
    - intros i Hi. destruct (Nat.ltb i neq); auto.
  Qed.
End Kkt.

(** The intermediate solution is a KKT point of the OSQP problem whenever the solver's answer is one of
    the problem it was given. *)
Theorem C61_multipliers : forall (K : ORing) n neq m (s P q : nat -> K) A l u x lam mu,
  neq <= m -> (forall j, j < n -> P j = nmul (s j) (s j)) ->
  second_kkt K n neq m s q A l u x lam mu ->
  osqp_kkt K n neq m P q A l u x (fun i => if Nat.ltb i neq then rsub (mu i) (lam i) else mu i).
Proof. intros K n neq m s P q A l u x lam mu H1 H2 H3. apply (second_osqp K n neq m s P q A l u H1 H2); auto. Qed.
Print Assumptions C61_multipliers.

(** Conversely every KKT point of the OSQP problem arises in this way. *)
Theorem C61_multipliers_onto : forall (K : ORing) n neq m (s P q : nat -> K) A l u x y,
  neq <= m -> (forall j, j < n -> P j = nmul (s j) (s j)) -> osqp_kkt K n neq m P q A l u x y ->
  exists lam mu, second_kkt K n neq m s q A l u x lam mu
    /\ forall i, i < m -> y i = if Nat.ltb i neq then rsub (mu i) (lam i) else mu i.
Proof.
  intros K n neq m s P q A l u x y H1 H2 H3. destruct (osqp_second K n neq m s P q A l u H1 H2 x y H3) as [E1 E2].
  eexists _, _. split; [exact E1|]. intros i Hi. rewrite (E2 i Hi) at 1. destruct (Nat.ltb i neq); auto.
Qed.
Print Assumptions C61_multipliers_onto.

(** Over the reals, with the OSQP data of a problem (C10, C14), this is the optimality of C58. *)
Definition ROrd : ORing.
Proof.
  refine (@mkORing RRing Rle (fun a b => if Rle_dec a b then true else false) _ _ _ _ _ _ _); cbn; intros.
  - destruct (Rle_dec x y); split; intro; auto; discriminate.
  - apply Rle_refl.
  - eapply Rle_trans; eauto.
  - apply Rle_antisym; auto.
  - lra.
  - lra.
  - apply Rmult_le_pos; auto.
Defined.

Section Optimal.
  Variable x : cvx RFld.
  Variable v : list RFld.
  Definition oA (i j : nat) : RFld := if Nat.ltb i (x_neq x) then cA x v i j else ropp (cA x v i j).
  Definition ou (i : nat) : RFld := if Nat.ltb i (x_neq x) then ropp (cb x v i) else cb x v i.
  Definition ol (i : nat) : RFld := ropp (cb x v i).
End Optimal.

(** Facts about real numbers used below, up to conversion of the carriers. *)
Lemma r_1 : forall a b : R, a = (a + b - b)%R. Proof. intros; ring. Qed.
Lemma r_2 : forall a b : R, (- a)%R = (- (a + b - b))%R. Proof. intros; ring. Qed.
Lemma r_3 : forall a b : R, (- a * b)%R = (- (a * b))%R. Proof. intros; ring. Qed.
Lemma r_4 : forall a b : R, (- a * b)%R = (b * - a)%R. Proof. intros; ring. Qed.
Lemma r_5 : forall a b : R, (a * b)%R = (b * a)%R. Proof. intros; ring. Qed.
Lemma r_6 : forall a b : R, (- b <= a - b)%R -> (a - b <= - b)%R -> a = 0%R. Proof. intros; lra. Qed.
Lemma r_7 : forall a b : R, (- (a - b) <= b)%R -> (0 <= a)%R. Proof. intros; lra. Qed.
Lemma r_8 : forall y a b : R, (y * (b - - (a - b)))%R = 0%R -> (y * a)%R = 0%R. Proof. intros y a b H. rewrite <- H. ring. Qed.
Lemma r_9 : forall a : R, (a + 0)%R = a. Proof. intros; ring. Qed.
Lemma r_10 : forall a : R, (0 + a)%R = a. Proof. intros; ring. Qed.
Lemma r_11 : forall a : R, (0 * a)%R = 0%R. Proof. intros; ring. Qed.

Lemma diag_sum : forall (f : nat -> RFld) j l a, a <= j ->
  rsum (K := RFld) (map (fun k => if Nat.eqb k j then f k else n0) (seq a l)) = if Nat.ltb j (a + l) then f j else n0.
Proof.
  intros f j. induction l as [|l IH]; intros a Ha; cbn [seq map rsum].
  - replace (Nat.ltb j (a + 0)) with false by (symmetry; apply Nat.ltb_ge; lia). auto.
  - destruct (Nat.eqb a j) eqn:E.
    + apply Nat.eqb_eq in E. subst a. replace (Nat.ltb j (j + S l)) with true by (symmetry; apply Nat.ltb_lt; lia).
      rewrite (rsum_zero RFld); [exact (r_9 (f j))|].
      intros k Hk. apply in_seq in Hk. replace (Nat.eqb k j) with false by (symmetry; apply Nat.eqb_neq; lia). auto.
    + apply Nat.eqb_neq in E. rewrite IH by lia. replace (S a + l) with (a + S l) by lia. exact (r_10 _).
Qed.

Theorem C61_optimal : forall (x : cvx RFld) (v : list RFld) (P : nat -> RFld) (z y : nat -> RFld),
  (forall j k, j < x_n x -> k < x_n x -> fullP RFld x v j k = if Nat.eqb j k then P j else n0) ->
  osqp_kkt ROrd (x_n x) (x_neq x) (x_neq x + x_nineq x) P (cq x v) (oA x v) (ol x v) (ou x v) z y ->
  optimal x v z y.
Proof.
  intros x v P z y HPd [O1 O2 O3].
  assert (Hrow : forall i, row ROrd (x_n x) (oA x v) z i
                 = if Nat.ltb i (x_neq x) then (CanonSpec.resid x v z i - cb x v i)%R else (- (CanonSpec.resid x v z i - cb x v i))%R).
  { intro i. unfold row, oA, CanonSpec.resid. destruct (Nat.ltb i (x_neq x)).
    - exact (r_1 (rsum (K := RFld) (map (fun j => nmul (cA x v i j) (z j)) (seq 0 (x_n x)))) (cb x v i)).
    - etransitivity; [|exact (r_2 (rsum (K := RFld) (map (fun j => nmul (cA x v i j) (z j)) (seq 0 (x_n x)))) (cb x v i))].
      etransitivity; [|exact (rsum_map_opp RFld (fun j => nmul (cA x v i j) (z j)) (seq 0 (x_n x)))].
      apply (rsum_ext RFld). intros j _. exact (r_3 (cA x v i j) (z j)). }
  constructor.
  - intros j Hj. specialize (O1 j Hj). etransitivity; [|exact O1]. f_equal; [f_equal|].
    + rewrite (rsum_ext RFld (fun k => nmul (fullP RFld x v j k) (z k)) (fun k => if Nat.eqb k j then nmul (P k) (z k) else n0) (seq 0 (x_n x))).
      * rewrite (diag_sum (fun k => nmul (P k) (z k))) by lia.
        replace (Nat.ltb j (0 + x_n x)) with true by (symmetry; apply Nat.ltb_lt; lia). reflexivity.
      * intros k Hk. apply in_seq in Hk. rewrite HPd by lia. rewrite Nat.eqb_sym. destruct (Nat.eqb k j) eqn:E.
        -- apply Nat.eqb_eq in E. subst. auto.
        -- exact (r_11 (z k)).
    + apply (rsum_ext RFld). intros i _. unfold oA. destruct (Nat.ltb i (x_neq x)); [exact (r_5 (y i) (cA x v i j))|].
      symmetry. etransitivity; [exact (r_4 (cA x v i j) (y i))|]. exact (eq_trans (r_5 (y i) (- cA x v i j)%R) (eq_trans (r_3 (cA x v i j) (y i)) (eq_trans (f_equal Ropp (r_5 (cA x v i j) (y i))) (eq_sym (r_3 (y i) (cA x v i j)))))).
  - intros i Hi. destruct (O2 i Hi) as (A1 & A2 & _). rewrite Hrow in A1, A2. unfold ol, ou in *.
    replace (Nat.ltb i (x_neq x)) with true in * by (symmetry; apply Nat.ltb_lt; auto).
    exact (r_6 (CanonSpec.resid x v z i) (cb x v i) A1 A2).
  - intros i Hi. destruct (O3 i Hi) as (A1 & A2 & A3). rewrite Hrow in A1, A3. unfold ou in *.
    replace (Nat.ltb i (x_neq x)) with false in * by (symmetry; apply Nat.ltb_ge; lia).
    split; [exact (r_7 (CanonSpec.resid x v z i) (cb x v i) A1)|]. split; [exact A2|].
    exact (r_8 (y i) (CanonSpec.resid x v z i) (cb x v i) A3).
Qed.
Print Assumptions C61_optimal.

(** ** The user's variables *)

(** Solvers whose solution vectors are static arrays; a result field is then a pointer unless the
    variable is a scalar or symmetric. *)
Definition static_solver (s : solver) : bool :=
  match s with OSQP | SCS _ | QOCOGEN _ => true | ECOS | CLARABEL _ | QOCO _ => false end.
Definition by_pointer (s : solver) (u : uvar) : bool :=
  if static_solver s then if uv_sym u then false else negb (Nat.eqb (fsize (uv_shape u)) 1) else false.
Definition blocks {K : Type} (f : nat -> list K) (red : list (nat * nat)) : list K := concat (map (fun e => f (fst e)) red).
Definition stored_as {K : Type} (k0 : K) (f : uvar -> list K) (us : list uvar) (rs : list (string * (list nat -> K))) : Prop :=
  Forall2 (fun u r => fst r = uv_name u /\ var_value k0 u (f u) (snd r)) us rs.

(** [red2], [blk2]: variables and answer of the second stage; its variable osqp_x (id [ix], n entries)
    holds the first stage's variables [red], [blk].  [raw] is what one reads at the first stage's
    positions in the solver's vector.
    - No retrieval function in either stage: every variable is right.
    - Second stage has none but the merged information needs one (a scalar or symmetric variable of the
      user): the code calls a function that is not defined.
    - Otherwise fields stored by pointer are right, copied ones hold [raw]. *)
Theorem C61_variables :
  forall (K : Ring) (k0 : K) (s : solver) (red : list (nat * nat)) (us : list uvar) (blk raw : nat -> list K)
         (red2 : list (nat * nat)) (ix : nat) (blk2 : nat -> list K) (st : rstate K),
  let n := length (blocks blk red) in
  let osqp_x := mkUV "osqp_x" ix [n] false in
  vars_ok red us -> (forall i z, In (i, z) red -> length (blk i) = z /\ length (raw i) = z) ->
  vars_ok red2 [osqp_x] -> (forall i z, In (i, z) red2 -> length (blk2 i) = z) ->
  r_vecs st "x" = blocks blk2 red2 -> blk2 ix = blocks blk red -> length (r_vecs st "gx") = n ->
  firstn n (blocks blk2 red2) = blocks raw red ->
  exists p2 ps, prim_info red2 [osqp_x] = Ok [p2] /\ prim_info red us = Ok ps
    /\ let ret2 := ret_prim s [p2] in
       let merged := merged_infos ret2 (pi_off p2) ps in
       let res := ts_primal k0 s ret2 (pi_off p2) n merged st in
       (ret2 = false -> ret_prim s merged = false -> exists rs, res = Ok rs /\ stored_as k0 (fun u => blk (uv_id u)) us rs)
       /\ (ret2 = false -> ret_prim s merged = true -> res = Err TypeError)
       /\ (ret2 = true -> ret_prim s merged = true ->
           exists rs, res = Ok rs /\ stored_as k0 (fun u => if by_pointer s u then blk (uv_id u) else raw (uv_id u)) us rs)
       /\ (pi_off p2 = 0 -> blocks raw red = blocks blk red).
Proof.
  intros K k0 s red us blk raw red2 ix blk2 st n osqp_x HV HBR HV2 HB2 Hx Hix Hgx Hraw.
  assert (HB : forall i z, In (i, z) red -> length (blk i) = z) by (intros i z H; apply HBR; auto).
  assert (HR : forall i z, In (i, z) red -> length (raw i) = z) by (intros i z H; apply HBR; auto).
  destruct (prim_info_ok K k0 red us blk HV HB) as (ps & Eps & _).
  pose proof (vo_size _ _ HV2 osqp_x (or_introl eq_refl)) as Hsz. cbn [uv_id osqp_x] in Hsz.
  destruct (split_block K blk2 red2 0 ix _ HB2 Hsz) as (a & b & Ho & Hab). cbn [plus] in Ho.
  exists (mkPI "osqp_x" (length a) (seq (length a) (fsize [n])) (fsize [n]) [n] false), ps.
  split. { unfold prim_info. cbn [mapM]. cbn [uv_id osqp_x]. rewrite Ho. reflexivity. }
  split; [exact Eps|].
  set (p2 := mkPI _ _ _ _ _ _). set (ret2 := ret_prim s [p2]). cbv zeta. change (pi_off p2) with (length a).
  unfold blocks in Hx, Hab, Hix, Hraw, Hgx |- *. rewrite Hab, Hix in Hx.
  assert (HxA : forall j, j < n -> nth_error (r_vecs st "x") (length a + j) = nth_error (blocks blk red) j).
  { intros j Hj. rewrite Hx, nth_error_app2 by lia. replace (length a + j - length a) with j by lia.
    rewrite nth_error_app1; auto. }
  split; [|split; [|split]].
  - intros E2 E1. rewrite E2 in *. cbn [merged_infos] in *. unfold ts_primal. rewrite E1. cbn [ts_prim_fields bind].
    destruct (shifted_ok K k0 s red us blk HV HB a b st ps) as (rs & R1 & R2); auto.
    exists rs. split; [|exact R2]. unfold primal_results in R1. rewrite E1 in R1. exact R1.
  - intros E2 E1. rewrite E2 in *. cbn [merged_infos] in *. unfold ts_primal. rewrite E1. reflexivity.
  - intros E2 E1. rewrite E2 in *. cbn [merged_infos] in *. unfold ts_primal. rewrite E1.
    unfold n at 1. rewrite inter_primal_ok; [|exact HxA|exact Hgx]. cbn [bind].
    destruct (two_vectors_ok K k0 s red us blk raw HV HB HR (with_vec st "gx" (blocks blk red)) ps (skipn n (r_vecs st "x")))
      as (st' & rs & R1 & R2 & R3).
    + exact Eps.
    + cbn [with_vec r_vecs String.eqb]. change (concat (map (fun e : nat * nat => raw (fst e)) red)) with (blocks raw red) in *.
      unfold blocks at 1. rewrite <- Hraw, Hab, Hix, <- Hx, firstn_skipn. reflexivity.
    + reflexivity.
    + exists rs. rewrite R1. cbn [bind]. split; [exact R2|].
      unfold stored_as. clear - R3. induction R3 as [|u r us rs [H1 H2] R3 IH]; constructor; auto. split; auto.
      replace (by_pointer s u) with (pointed s u); [destruct (pointed s u); exact H2|].
      unfold by_pointer, pointed. change (sol_static s) with (static_solver s).
      destruct (static_solver s), (uv_sym u); auto.
  - intro Ea. destruct a as [|]; [|discriminate]. cbn [app] in Hab. rewrite <- Hraw, Hab, Hix, firstn_app.
    replace (n - length (concat (map (fun e : nat * nat => blk (fst e)) red))) with 0 by (unfold n, blocks; lia).
    rewrite firstn_O, app_nil_r. apply firstn_all2. unfold n, blocks. lia.
Qed.
Print Assumptions C61_variables.

(** ** The user's duals *)

(** [eqs2], [neqs2], [dl2]: canonical constraints of the second stage and the solver's multipliers; [c0]
    and [c1]: its two constraints, with multipliers lam and mu.  [eqs], [neqs], [dl]: the first stage's
    (OSQP) constraints, whose multipliers are the combination of lam and mu.  Fields stored by pointer are
    right; copied ones (scalars, and everything for ECOS, Clarabel and QOCO) hold what is found at the
    first stage's positions in the solver's vector y, and reading beyond that vector is never successful. *)
Definition dual_by_pointer (s : solver) (z : nat) : bool := if static_solver s then negb (Nat.eqb z 1) else false.

Theorem C61_duals :
  forall (K : Ring) (s : solver) (eqs neqs m : list (nat * nat)) (rest : list (list (nat * nat))) (dl : nat -> list K)
         (eqs2 neqs2 : list (nat * nat)) (c0 c1 e0 e1 k0 k1 : nat) (rest2 : list (list (nat * nat))) (dl2 : nat -> list K) (st : rstate K),
  let lam := dl2 k0 in let mu := dl2 k1 in
  (* second stage *)
  NoDup (map fst (eqs2 ++ neqs2)) -> chase rest2 c0 = Ok k0 -> chase rest2 c1 = Ok k1 ->
  In k0 (map fst (eqs2 ++ neqs2)) -> In k1 (map fst (eqs2 ++ neqs2)) ->
  (forall i z, In (i, z) (eqs2 ++ neqs2) -> length (dl2 i) = z) -> (split_api s -> neqs2 <> []) ->
  answered s eqs2 neqs2 dl2 (r_vecs st) ->
  length lam <= length mu -> length (r_vecs st "gy") = length mu ->
  (* first stage *)
  NoDup (map fst (eqs ++ neqs)) -> (forall u, In u (map fst m) -> exists c, chase rest u = Ok c /\ In c (map fst (eqs ++ neqs))) ->
  (forall i z, In (i, z) (eqs ++ neqs) -> length (dl i) = z) ->
  (forall i, i < length mu -> nth i (blocks dl (eqs ++ neqs)) n0
                              = if Nat.ltb i (length lam) then rsub (nth i mu n0) (nth i lam n0) else nth i mu n0) ->
  length (blocks dl (eqs ++ neqs)) = length mu ->
  exists d0 d1 cs ds,
    dual_info (dual_split s) (dual_vec0 s) (dual_vec1 s) eqs2 neqs2 ([(c0, e0); (c1, e1)] :: rest2) = Ok [d0; d1]
    /\ mapM (chase rest) (map fst m) = Ok cs /\ dual_info false "y" "z" eqs neqs (m :: rest) = Ok ds
    /\ inter_dual st d0 d1 (r_vecs st "gy") = Ok (blocks dl (eqs ++ neqs))
    /\ ((forall c, In c cs -> dual_by_pointer s (length (dl c)) = true) -> ts_dual s d0 d1 ds st = Ok (map dl cs))
    /\ (forall raw, (forall i z, In (i, z) (eqs ++ neqs) -> length (raw i) = z) ->
          firstn (length mu) (r_vecs st "y") = blocks raw (eqs ++ neqs) ->
          ts_dual s d0 d1 ds st = Ok (map (fun c => if dual_by_pointer s (length (dl c)) then dl c else raw c) cs))
    /\ (forall d, In d ds -> dual_by_pointer s (di_size d) = false -> 0 < di_size d ->
          length (r_vecs st "y") < di_off d + di_size d -> forall r, ts_dual s d0 d1 ds st <> Ok r).
Proof.
  intros K s eqs neqs m rest dl eqs2 neqs2 c0 c1 e0 e1 k0 k1 rest2 dl2 st lam mu N2 C0 C1 I0 I1 L2 S2 A2 Hle Hgy N1 HC L1 Hcomb Hlen.
  assert (Hcomb' : blocks dl (eqs ++ neqs) = combined lam mu).
  { apply nth_ext_len with (d := (n0 : K)); [unfold combined; rewrite map_length, seq_length; auto|].
    intros i Hi. rewrite Hcomb by lia. unfold combined. erewrite (nth_indep (map _ _)) by (rewrite map_length, seq_length; lia).
    rewrite (map_nth (fun i => if Nat.ltb i (length lam) then rsub (nth i mu n0) (nth i lam n0) else nth i mu n0) _ 0).
    rewrite seq_nth by lia. reflexivity. }
  destruct (dual_info_ok K s eqs2 neqs2 [(c0, e0); (c1, e1)] rest2 dl2) as (cs2 & ds2 & Ec2 & Ed2 & F2 & _ & _); auto.
  { intros u [<-|[<-|[]]]; eauto. }
  { intro E. left. apply S2, split_iff, E. }
  cbn [map fst mapM] in Ec2. rewrite C0, C1 in Ec2. cbn [bind] in Ec2. injection Ec2 as <-.
  inversion F2 as [|? d0 ? t P0 F2' Ea Eb]; subst. inversion F2' as [|? d1 ? t' P1 F2'' Ea Eb]; subst. inversion F2''; subst.
  destruct (dual_info_ok K OSQP eqs neqs m rest dl N1 HC L1) as (cs & ds & Ec & Ed & F & Hnm & _). { intro; discriminate. }
  cbn [dual_split dual_vec0] in Ed. unfold dual_vec1 in Ed.
  apply answered_in in A2.
  assert (HI : inter_dual st d0 d1 (r_vecs st "gy") = Ok (blocks dl (eqs ++ neqs))).
  { rewrite Hcomb'.
    destruct (placed_reads K s eqs2 neqs2 dl2 L2 (r_vecs st) k0 _ _ _ A2 P0) as [_ R0].
    destruct (placed_reads K s eqs2 neqs2 dl2 L2 (r_vecs st) k1 _ _ _ A2 P1) as [_ R1].
    destruct P0 as [Z0 _], P1 as [Z1 _]. apply inter_dual_ok; auto.
    - unfold lam. intros j Hj. apply R0. congruence.
    - unfold mu. intros j Hj. apply R1. congruence. }
  assert (Hdp : forall z, dual_by_pointer s z = dpointed s z).
  { intro z. unfold dual_by_pointer, dpointed. change (sol_static s) with (static_solver s). destruct (static_solver s); auto. }
  assert (Hraw : forall (st0 : rstate K) raw, (forall i z, In (i, z) (eqs ++ neqs) -> length (raw i) = z) ->
          firstn (length mu) (r_vecs st0 "y") = blocks raw (eqs ++ neqs) ->
          exists st', exec (ts_dual_fields s ds) (dual_arrays s ds) (with_vec st0 "gy" (blocks dl (eqs ++ neqs))) (retrieve_dual s ds) = Ok st'
          /\ mapM (fun d => read_field (ts_dual_fields s ds) (dual_arrays s ds) st' (dname (di_name d)) (di_size d)) ds
             = Ok (map (fun c => if dual_by_pointer s (length (dl c)) then dl c else raw c) cs)).
  { intros st0 raw HR Hy.
    destruct (two_duals_ok K s eqs neqs m rest dl raw N1 HC L1 HR (with_vec st0 "gy" (blocks dl (eqs ++ neqs)))
                (skipn (length mu) (r_vecs st0 "y")) cs ds Ec Ed) as (st' & R1 & R2).
    - cbn [with_vec r_vecs String.eqb Ascii.eqb Bool.eqb]. change (concat (map (fun e : nat * nat => raw (fst e)) (eqs ++ neqs))) with (blocks raw (eqs ++ neqs)).
      rewrite <- Hy, firstn_skipn. reflexivity.
    - reflexivity.
    - exists st'. split; [exact R1|]. etransitivity; [exact R2|]. reflexivity. }
  exists d0, d1, cs, ds. split; [exact Ed2|]. split; [exact Ec|]. split; [exact Ed|]. split; [exact HI|].
  split; [|split].
  - intro Hall.
    assert (Hp : forall d, In d ds -> dpointed s (di_size d) = true).
    { intros d Hd. apply In_nth_error in Hd. destruct Hd as (i & Hi). destruct (nth_error cs i) as [c|] eqn:Eci.
      - destruct (Forall2_nth _ _ _ _ _ i c F Eci) as (d' & H1 & [H2 _]). rewrite Hi in H1. injection H1 as <-.
        rewrite <- H2, <- Hdp. apply Hall. eapply nth_error_In; eauto.
      - apply nth_error_None in Eci. rewrite (Forall2_length F) in Eci. assert (i < length ds) by (apply nth_error_Some; congruence). lia. }
    assert (Hf : forall d, In d ds -> tdfld s d = FSol "gy" (di_off d) /\ Nat.eqb (di_size d) 1 = false).
    { intros d Hd. specialize (Hp d Hd). unfold dpointed in Hp. unfold tdfld. apply andb_prop in Hp. destruct Hp as [-> Hz].
      destruct (Nat.eqb (di_size d) 1); [discriminate|auto]. }
    assert (Hnil : retrieve_dual s ds = []).
    { rewrite retrieve_dual_items. clear - Hf. induction ds as [|d ds IH]; auto. cbn [map flat_map].
      rewrite IH by (intros; apply Hf; right; auto). destruct (Hf d (or_introl eq_refl)) as [Ht Hz].
      unfold item_stmts, tditem. cbn [it_idx it_fld]. rewrite Ht. unfold di_idx. rewrite seq_length, Hz. auto. }
    destruct (Hraw (with_vec st "y" (blocks dl (eqs ++ neqs))) dl L1) as (st' & R1 & R2).
    { cbn [with_vec r_vecs String.eqb Ascii.eqb Bool.eqb]. apply firstn_all2. lia. }
    unfold ts_dual. rewrite HI. cbn [bind]. rewrite Hnil in R1 |- *. cbn [exec bind] in R1 |- *. injection R1 as <-.
    etransitivity; [|etransitivity; [exact R2|]].
    + assert (Hn : NoDup (map (fun d => dname (di_name d)) ds)).
      { rewrite <- (map_map di_name dname), Hnm. apply FinFun.Injective_map_NoDup. intros p q; apply dname_inj. apply seq_NoDup. }
      assert (G : forall l, (forall d, In d l -> In d ds) ->
         mapM (fun d => read_field (ts_dual_fields s ds) (dual_arrays s ds) (with_vec st "gy" (blocks dl (eqs ++ neqs))) (dname (di_name d)) (di_size d)) l
         = mapM (fun d => read_field (ts_dual_fields s ds) (dual_arrays s ds)
             (with_vec (with_vec st "y" (blocks dl (eqs ++ neqs))) "gy" (blocks dl (eqs ++ neqs))) (dname (di_name d)) (di_size d)) l).
      { induction l as [|d l IH]; intro Hs; auto. cbn [mapM]. rewrite IH by (intros; apply Hs; right; auto). f_equal.
        unfold read_field. destruct (Hf d (Hs d (or_introl eq_refl))) as [Ht Hz]. rewrite Hz, ts_dual_fields_eq.
        rewrite (assoc_map _ _ (fun d => dname (di_name d)) (tdfld s) ds d Hn (Hs d (or_introl eq_refl))), Ht. reflexivity. }
      apply G; auto.
    + f_equal. apply map_ext_in. intros c _. destruct (dual_by_pointer s (length (dl c))); auto.
  - intros raw HR Hy. destruct (Hraw st raw HR Hy) as (st' & R1 & R2).
    unfold ts_dual. rewrite HI. cbn [bind]. rewrite R1. exact R2.
  - intros d Hd Hnp Hpos Hlt r Hr. unfold ts_dual in Hr. rewrite HI in Hr. cbn [bind] in Hr.
    destruct (exec _ _ _ (retrieve_dual s ds)) as [st'|] eqn:Ex; [|discriminate].
    assert (Hv : di_vec d = "y").
    { apply In_nth_error in Hd. destruct Hd as (i & Hi). destruct (nth_error cs i) as [c|] eqn:Eci.
      - destruct (Forall2_nth _ _ _ _ _ i c F Eci) as (d' & H1 & [_ (H2 & _)]). rewrite Hi in H1. injection H1 as <-. exact H2.
      - apply nth_error_None in Eci. rewrite (Forall2_length F) in Eci. assert (i < length ds) by (apply nth_error_Some; congruence). lia. }
    assert (Hc : exists c, In c (retrieve_dual s ds) /\ src c = ("y", di_off d + (di_size d - 1))).
    { rewrite Hdp in Hnp. unfold retrieve_dual. unfold dpointed in Hnp.
      destruct (Nat.eqb (di_size d) 1) eqn:Ez.
      - apply Nat.eqb_eq in Ez. exists (SScalar (dname (di_name d)) "y" (di_off d)). split.
        + apply in_flat_map. exists d. split; auto. unfold di_idx. rewrite seq_length, Ez, Hv. left. reflexivity.
        + rewrite Ez. cbn. f_equal. lia.
      - rewrite andb_true_r in Hnp. exists (SElem (dname (di_name d)) (di_size d - 1) "y" (di_off d + (di_size d - 1))). split; auto.
        apply in_flat_map. exists d. split; auto. unfold di_idx. rewrite seq_length, Ez, Hnp, Hv. cbn [negb].
        apply in_map_iff. exists (di_size d - 1, di_off d + (di_size d - 1)). split; auto.
        apply nth_error_In with (n := di_size d - 1).
        rewrite <- (seq_length (di_size d) (di_off d)) at 1. rewrite (combine_seq_nth _ _ (di_size d - 1) (di_off d + (di_size d - 1)) 0); auto.
        rewrite (nth_error_nth' _ 0) by (rewrite seq_length; lia). rewrite seq_nth by lia. auto. }
    destruct Hc as (c & Hc1 & Hc2). pose proof (exec_reads K _ _ _ _ _ Ex c Hc1) as Hb. rewrite Hc2 in Hb.
    cbn [fst snd with_vec r_vecs String.eqb Ascii.eqb Bool.eqb] in Hb. lia.
Qed.
Print Assumptions C61_duals.

(** ** A problem: minimise 1/2 x^2 - x subject to x = 3, x <= 5.  The solver is given lam and mu with
    3 <= x, x <= 3, x <= 5: lam = 2, mu = (0, 0); the OSQP multipliers are (-2, 0). *)
Definition t_A (i j : nat) : ZORing := 1%Z.
Definition t_l (i : nat) : ZORing := 3%Z.
Definition t_u (i : nat) : ZORing := match i with 0 => (3)%Z | _ => (5)%Z end.
Lemma t_second : second_kkt ZORing 1 1 2 (fun _ => 1%Z) (fun _ => (-1)%Z) t_A t_l t_u (fun _ => 3%Z) (fun _ => 2%Z) (fun _ => 0%Z).
Proof.
  constructor.
  - intros j Hj. reflexivity.
  - intros i Hi. replace i with 0 by lia. cbn. repeat split; discriminate.
  - intros [|[|i]] Hi; try lia; cbn; repeat split; discriminate.
Qed.
Example C61_multipliers_example :
  second_kkt ZORing 1 1 2 (fun _ => 1%Z) (fun _ => (-1)%Z) t_A t_l t_u (fun _ => 3%Z) (fun _ => 2%Z) (fun _ => 0%Z)
  /\ osqp_kkt ZORing 1 1 2 (fun _ => 1%Z) (fun _ => (-1)%Z) t_A t_l t_u (fun _ => 3%Z) (fun i => match i with 0 => (-2)%Z | _ => (0)%Z end).
Proof.
  split; [exact t_second|].
  assert (H := C61_multipliers ZORing 1 1 2 (fun _ => 1%Z) (fun _ => 1%Z) (fun _ => (-1)%Z) t_A t_l t_u _ _ _ ltac:(lia) ltac:(reflexivity) t_second).
  destruct H as [H1 H2 H3]. constructor.
  - intros j Hj. reflexivity.
  - intros i Hi. specialize (H2 i Hi). replace i with 0 in * by lia. exact H2.
  - intros i Hi. specialize (H3 i Hi). replace i with 1 in * by lia. exact H3.
Qed.

(** The problem with a second, unused variable w of two entries; the second
    stage's vector is (t, osqp_x) as for ECOS, where sum_squares adds a variable t, or (osqp_x). *)
Definition t_us : list uvar := [mkUV "x" 1 [] false; mkUV "w" 2 [2] false].
Definition t_red : list (nat * nat) := [(1, 1); (2, 2)].
Definition t_blk (i : nat) : list Z := match i with 1 => ([3])%Z | _ => ([7; 8])%Z end.
Definition t_red2 (t : bool) : list (nat * nat) := if t then [(9, 1); (5, 3)] else [(5, 3)].
Definition t_blk2 (i : nat) : list Z := match i with 9 => ([9])%Z | _ => ([3; 7; 8])%Z end.
Definition t_raw (t : bool) (i : nat) : list Z := if t then match i with 1 => ([9])%Z | _ => ([3; 7])%Z end else t_blk i.
Definition t_vecs (s : solver) (t : bool) (v : string) : list Z :=
  if String.eqb v "x" then blocks t_blk2 (t_red2 t)
  else if String.eqb v "gx" then [0; 0; 0]%Z else if String.eqb v "gy" then [0; 0]%Z
  else if String.eqb v (match s with SCS _ => "y" | _ => "z" end) then [2; 0; 0]%Z else [].
Definition t_st (s : solver) (t : bool) : rstate ZRing := mkRS (fun _ _ => 77%Z : ZRing) (t_vecs s t).
Definition show_arrays (r : res (list (string * (list nat -> Z)))) : res (list (string * list Z)) :=
  match r with Ok l => Ok (map (fun e => (fst e, if String.eqb (fst e) "x" then [snd e []] else flattenF [2] (snd e))) l) | Err e => Err e end.
Definition t_primal (s : solver) (t : bool) : res (list (string * list Z)) :=
  show_arrays (ps2 <- prim_info (t_red2 t) [mkUV "osqp_x" 5 [3] false];; ps <- prim_info t_red t_us;;
    let off := match ps2 with p :: _ => pi_off p | [] => 0 end in
    ts_primal (K := ZRing) 0%Z s (ret_prim s ps2) off 3 (merged_infos (ret_prim s ps2) off ps) (t_st s t)).

Example C61_variables_example : forall t,
  vars_ok t_red t_us /\ (forall i z, In (i, z) t_red -> length (t_blk i) = z /\ length (t_raw t i) = z)
  /\ vars_ok (t_red2 t) [mkUV "osqp_x" 5 [3] false] /\ (forall i z, In (i, z) (t_red2 t) -> length (t_blk2 i) = z)
  /\ t_blk2 5 = blocks t_blk t_red /\ firstn 3 (blocks t_blk2 (t_red2 t)) = blocks (t_raw t) t_red
  /\ t_primal ECOS false = Ok [("x", [3]); ("w", [7; 8])]%Z           (* osqp_x comes first: right *)
  /\ t_primal (QOCOGEN false) false = Ok [("x", [3]); ("w", [7; 8])]%Z
  /\ t_primal (QOCOGEN false) true = Ok [("x", [9]); ("w", [7; 8])]%Z.  (* x is copied, w is a pointer *)
Proof.
  intro t.
  split. { constructor; [repeat constructor; simpl; intuition discriminate| |]; intros u [<-|[<-|[]]]; try reflexivity; discriminate. }
  split. { intros i z [E|[E|[]]]; injection E as <- <-; destruct t; auto. }
  split. { constructor; [repeat constructor; simpl; intuition discriminate| |]; intros u [<-|[]]; try discriminate. destruct t; reflexivity. }
  split. { intros i z H. destruct t; cbn in H; repeat destruct H as [H|H]; try tauto; injection H as <- <-; reflexivity. }
  split; [reflexivity|]. split; [destruct t; reflexivity|]. vm_compute. auto.
Qed.

(** With ECOS and a quadratic objective every variable is stored wrongly: x = 3, w = (7, 8) in the
    solution, x = 9, w = (3, 7) in the result. *)
Theorem C61_variables_refuted : exists s t, t_blk2 5 = blocks t_blk t_red
  /\ t_primal s t = Ok [("x", [9]); ("w", [3; 7])]%Z /\ nth 0 (t_blk 1) 0%Z <> 9%Z /\ t_blk 2 <> [3; 7]%Z.
Proof. exists ECOS, true. repeat split; try (vm_compute; reflexivity); discriminate. Qed.
Print Assumptions C61_variables_refuted.

(** With SCS a scalar variable makes the program call a function that does not exist. *)
Theorem C61_undefined_refuted : exists s t, t_primal s t = Err TypeError.
Proof. exists (SCS true), false. vm_compute. reflexivity. Qed.
Print Assumptions C61_undefined_refuted.

(** Duals: second-stage constraints 20 and 21 (not equalities), first-stage constraints 30 (x = 3) and 31
    (x <= 5). *)
Definition t_dl (i : nat) : list Z := match i with 30 => ([-2])%Z | _ => ([0])%Z end.
Definition t_dl2 (i : nat) : list Z := match i with 20 => ([2])%Z | _ => ([0; 0])%Z end.
Definition t_dual (s : solver) : res (list (list Z)) :=
  ds2 <- dual_info (dual_split s) (dual_vec0 s) (dual_vec1 s) [] [(20, 1); (21, 2)] [[(20, 20); (21, 21)]];;
  ds <- dual_info false "y" "z" [(30, 1)] [(31, 1)] [[(30, 30); (31, 31)]];;
  match ds2 with [d0; d1] => ts_dual (K := ZRing) s d0 d1 ds (t_st s false) | _ => Err IndexError end.

Lemma t_duals_hyps : forall s, match s with SCS _ | ECOS => True | _ => False end ->
  answered s [] [(20, 1); (21, 2)] t_dl2 (t_vecs s false)
  /\ (forall i z, In (i, z) [(20, 1); (21, 2)] -> length (t_dl2 i) = z)
  /\ (forall i z, In (i, z) [(30, 1); (31, 1)] -> length (t_dl i) = z)
  /\ (forall i, i < 2 -> nth i (blocks t_dl [(30, 1); (31, 1)]) 0%Z
        = if Nat.ltb i 1 then (nth i (t_dl2 21) 0 - nth i (t_dl2 20) 0)%Z else nth i (t_dl2 21) 0%Z).
Proof.
  intros s Hs. split; [destruct s; try destruct Hs; cbn; auto|].
  split. { intros i z H. cbn in H. repeat destruct H as [H|H]; try tauto; injection H as <- <-; reflexivity. }
  split. { intros i z H. cbn in H. repeat destruct H as [H|H]; try tauto; injection H as <- <-; reflexivity. }
  intros [|[|i]] Hi; try lia; reflexivity.
Qed.

(** The multiplier of x = 3 is -2; a program for SCS stores 2, one for ECOS reads beyond its vector y. *)
Theorem C61_duals_refuted :
  osqp_kkt ZORing 1 1 2 (fun _ => 1%Z) (fun _ => (-1)%Z) t_A t_l t_u (fun _ => 3%Z) (fun i => nth i (blocks t_dl [(30, 1); (31, 1)]) 0%Z)
  /\ (forall s, match s with SCS _ | ECOS => True | _ => False end -> answered s [] [(20, 1); (21, 2)] t_dl2 (t_vecs s false))
  /\ (exists b, t_dual (SCS b) = Ok [[2]; [0]]%Z) /\ t_dual ECOS = Err OutOfBounds.
Proof.
  split.
  { destruct C61_multipliers_example as [_ [H1 H2 H3]]. constructor.
    - intros j Hj. reflexivity.
    - intros i Hi. specialize (H2 i Hi). replace i with 0 in * by lia. exact H2.
    - intros i Hi. specialize (H3 i Hi). replace i with 1 in * by lia. exact H3. }
  split; [intros s Hs; apply (t_duals_hyps s Hs)|]. split; [exists true|]; vm_compute; reflexivity.
Qed.
Print Assumptions C61_duals_refuted.

(** The hypotheses of C61_duals hold here, and with vector-valued duals the pointers give the right values. *)
Definition v_dl (i : nat) : list Z := match i with 30 => ([-2; 4])%Z | _ => ([0; 6; 0])%Z end.
Definition v_dl2 (i : nat) : list Z := match i with 20 => ([2; 0])%Z | _ => ([0; 4; 0; 6; 0])%Z end.
Definition v_st : rstate ZRing := mkRS (fun _ _ => 77%Z : ZRing)
  (fun v => if String.eqb v "y" then [2; 0; 0; 4; 0; 6; 0] else if String.eqb v "gy" then [0; 0; 0; 0; 0] else [])%Z.
Example C61_duals_example :
  (exists d0 d1 ds, dual_info false "y" "z" [] [(20, 2); (21, 5)] [[(20, 20); (21, 21)]] = Ok [d0; d1]
     /\ dual_info false "y" "z" [(30, 2)] [(31, 3)] [[(31, 31); (30, 30)]] = Ok ds
     /\ ts_dual (K := ZRing) (SCS true) d0 d1 ds v_st = Ok [v_dl 31; v_dl 30])
  /\ answered (SCS true) [] [(20, 2); (21, 5)] v_dl2 (r_vecs v_st)
  /\ (forall i, i < 5 -> nth i (blocks v_dl [(30, 2); (31, 3)]) 0%Z
        = if Nat.ltb i 2 then (nth i (v_dl2 21) 0 - nth i (v_dl2 20) 0)%Z else nth i (v_dl2 21) 0%Z)
  /\ dual_by_pointer (SCS true) 2 = true /\ dual_by_pointer (SCS true) 3 = true.
Proof.
  split. { exists (mkDI 0 "y" 0 2), (mkDI 1 "y" 2 5), [mkDI 0 "y" 2 3; mkDI 1 "y" 0 2]. vm_compute. auto. }
  split; [reflexivity|]. split; [|auto]. intros [|[|[|[|[|i]]]]] Hi; try lia; reflexivity.
Qed.

(** C61_optimal on the problem of C58_example: minimise z^2 + 2 b z subject to a z <= b at a = 4, b = -2. *)
Example C61_optimal_example : let v := flat (x_params s_x) s_th in
  osqp_kkt ROrd 1 0 1 (fun _ => 2%R) (cq s_x v) (oA s_x v) (ol s_x v) (ou s_x v) (fun _ => (- / 2)%R) (fun _ => (5 / 4)%R)
  /\ (forall j k, j < 1 -> k < 1 -> fullP RFld s_x v j k = if Nat.eqb j k then 2%R else n0)
  /\ optimal s_x v (fun _ => (- / 2)%R) (fun _ => (5 / 4)%R).
Proof.
  cbv zeta.
  assert (H1 : osqp_kkt ROrd 1 0 1 (fun _ => 2%R) (cq s_x (flat (x_params s_x) s_th)) (oA s_x (flat (x_params s_x) s_th)) (ol s_x (flat (x_params s_x) s_th))
                 (ou s_x (flat (x_params s_x) s_th)) (fun _ => (- / 2)%R) (fun _ => (5 / 4)%R)).
  { constructor.
    - intros j Hj. replace j with 0 by lia. cbn. field.
    - intros i Hi. lia.
    - intros i Hi. replace i with 0 by lia. cbn. repeat split; try lra. }
  assert (H2 : forall j k, j < 1 -> k < 1 -> fullP RFld s_x (flat (x_params s_x) s_th) j k = if Nat.eqb j k then 2%R else n0).
  { intros j k Hj Hk. replace j with 0 by lia. replace k with 0 by lia. cbn. lra. }
  split; [exact H1|]. split; [exact H2|]. apply (C61_optimal s_x _ (fun _ => 2%R)); auto.
Qed.
