(** Derivatives of solutions over the real numbers: a differentiable family of optimal points of
    the problems with parameters [th + t * dth] moves as [GradSens.moves] says. *)

From Coq Require Import String Arith Bool ZArith Lia List Reals Lra Field.
From Verif Require Import Base Pus Machine Runtime RuntimeSpec Canon CanonSpec.
From Verif Require Import Retrieve Sparse Gradient GradSpec GradSolve GradKktSolve GradMain GradCall GradSession GradSessionProofs GradGen GradTotal GradSens PropTotal.
Import ListNotations.

(** Parameters moving along a line, and the direction of the flat parameter vector. *)
Section Line.
  Variable F : Fld.
  Add Field Fli : (fth F).
  Local Open Scope num_scope.
  Definition along (th dth : pvals F) (t : F) : pvals F := fun nm i => th nm i + t * dth nm i.
  Definition dir (ps : list (string * nat)) (dth : pvals F) : list F :=
    flat_map (fun ns => map (dth (fst ns)) (seq 0 (snd ns))) ps ++ [n0].

  Lemma dir_length : forall ps (dth th : pvals F), length (dir ps dth) = length (flat ps th).
  Proof.
    intros ps dth th. unfold dir, flat. rewrite !app_length. f_equal. induction ps as [|[nm s] ps IH]; cbn [flat_map]; auto.
    rewrite !app_length, !map_length, IH. auto.
  Qed.
  Lemma dir_last : forall ps dth, nth (length (dir ps dth) - 1) (dir ps dth) n0 = n0.
  Proof.
    intros ps dth. unfold dir. rewrite app_length. cbn [length]. rewrite Nat.add_sub. rewrite app_nth2 by lia. rewrite Nat.sub_diag. auto.
  Qed.
  Lemma along_nth : forall ps th dth t c, nth c (flat ps (along th dth t)) n0 = nth c (flat ps th) n0 + t * nth c (dir ps dth) n0.
  Proof.
    intros ps th dth t. unfold flat, dir. induction ps as [|[nm s] ps IH]; intro c.
    - cbn [flat_map app]. destruct c as [|[|c]]; cbn [nth]; ring.
    - cbn [flat_map fst snd]. rewrite <- !app_assoc.
      destruct (Nat.lt_ge_cases c s) as [H|H].
      + rewrite (app_nth1 (map (along th dth t nm) (seq 0 s))), (app_nth1 (map (th nm) (seq 0 s))), (app_nth1 (map (dth nm) (seq 0 s))) by (rewrite map_length, seq_length; auto). rewrite !(nth_map_seq F) by auto. auto.
      + rewrite (app_nth2 (map (along th dth t nm) (seq 0 s))), (app_nth2 (map (th nm) (seq 0 s))), (app_nth2 (map (dth nm) (seq 0 s))) by (rewrite map_length, seq_length; auto). rewrite !map_length, seq_length. apply IH.
  Qed.
  Lemma dot_along : forall v d w t (r : row F), (forall c, nth c w n0 = nth c v n0 + t * nth c d n0) -> dot w r = dot v r + t * dot d r.
  Proof.
    intros v d w t r H. unfold dot.
    assert (G : forall a b, fold_left (fun acc cv => acc + snd cv * nth (fst cv) w n0) r (a + t * b)
      = fold_left (fun acc cv => acc + snd cv * nth (fst cv) v n0) r a + t * fold_left (fun acc cv => acc + snd cv * nth (fst cv) d n0) r b).
    { induction r as [|[c k] r IH]; intros a b; cbn [fold_left fst snd]; auto. rewrite H. rewrite <- IH. f_equal. ring. }
    specialize (G n0 n0). replace (n0 + t * n0) with (@n0 F) in G by ring. auto.
  Qed.
  Lemma entry_along : forall (rows : list (row F)) idx ip v d w t i j, (forall c, nth c w n0 = nth c v n0 + t * nth c d n0) ->
    csc_entry (fun k => dot w (nth k rows [])) idx ip i j = csc_entry (fun k => dot v (nth k rows [])) idx ip i j + t * csc_entry (fun k => dot d (nth k rows [])) idx ip i j.
  Proof.
    intros rows idx ip v d w t i j H. unfold csc_entry. rewrite <- rsum_map_mul, <- rsum_map_add. apply rsum_ext. intros k _.
    destruct (Nat.eqb _ i); [apply dot_along; auto|ring].
  Qed.
  Variable x : cvx F.
  Variables th dth : pvals F.
  Notation v := (flat (x_params x) th).
  Notation d := (dir (x_params x) dth).
  Notation vt t := (flat (x_params x) (along th dth t)).
  Lemma cA_along : forall t i j, cA x (vt t) i j = cA x v i j + t * cA x d i j.
  Proof. intros. apply entry_along. intro c. apply along_nth. Qed.
  Lemma cb_along : forall t i, cb x (vt t) i = cb x v i + t * cb x d i.
  Proof. intros. apply cA_along. Qed.
  Lemma cP_along : forall t i j, cP x (vt t) i j = cP x v i j + t * cP x d i j.
  Proof. intros. unfold cP. destruct (x_P x) as [[[rows idx] ip]|]; [|ring]. apply entry_along. intro c. apply along_nth. Qed.
  Lemma cq_along : forall t j, cq x (vt t) j = cq x v j + t * cq x d j.
  Proof. intros. apply dot_along. intro c. apply along_nth. Qed.
  Lemma fullP_along : forall t i j, fullP F x (vt t) i j = fullP F x v i j + t * fullP F x d i j.
  Proof. intros. unfold fullP. destruct (Nat.leb i j); apply cP_along. Qed.
  Lemma qA_along : forall t i j, qA F x (vt t) i j = qA F x v i j + t * qA F x d i j.
  Proof. intros. unfold qA. destruct (Nat.ltb i (x_neq x)); rewrite cA_along; ring. Qed.
End Line.

(** ** Derivatives at 0 of real functions written with the operations of [RFld]. *)
Section Diff.
  Local Open Scope num_scope.
  Notation sum f k := (rsum (map f (seq 0 k))).
  Add Field Rdf : (fth RFld).
  Definition D (f : RFld -> RFld) (a : RFld) : Prop := derivable_pt_lim f 0%R a.
  Lemma D_add : forall f g a b, D f a -> D g b -> D (fun t => f t + g t) (a + b).
  Proof. intros f g a b. exact (derivable_pt_lim_plus f g 0%R a b). Qed.
  Lemma D_mul : forall f g a b, D f a -> D g b -> D (fun t => f t * g t) (a * g n0 + f n0 * b).
  Proof. intros f g a b. exact (derivable_pt_lim_mult f g 0%R a b). Qed.
  Lemma D_const : forall c : RFld, D (fun _ => c) n0.
  Proof. intro c. exact (derivable_pt_lim_const c 0%R). Qed.
  Lemma D_id : D (fun t => t) n1.
  Proof. exact (derivable_pt_lim_id 0%R). Qed.
  Lemma D_ext : forall f g a, (forall t, f t = g t) -> D f a -> D g a.
  Proof. intros f g a E H e He. destruct (H e He) as [dl Hd]. exists dl. intros h H1 H2. specialize (Hd h H1 H2). rewrite !E in Hd. exact Hd. Qed.
  Lemma D_eq : forall f a b, a = b -> D f a -> D f b.
  Proof. intros f a b ->. auto. Qed.
  Lemma D_lin : forall c d : RFld, D (fun t => c + t * d) d.
  Proof.
    intros c d. eapply D_eq; [|apply (D_add (fun _ => c) (fun t => t * d)); [apply D_const|apply (D_mul (fun t => t) (fun _ => d)); [apply D_id|apply D_const]]]. cbv beta. ring.
  Qed.
  Lemma D_sum_list : forall l (f : RFld -> nat -> RFld) a, (forall i, In i l -> D (fun t => f t i) (a i)) -> D (fun t => rsum (map (f t) l)) (rsum (map a l)).
  Proof.
    induction l as [|i l IH]; intros f a H; cbn [map rsum]; [apply D_const|].
    apply (D_add (fun t => f t i) (fun t => rsum (map (f t) l))); [apply H; left; auto|apply IH; intros; apply H; right; auto].
  Qed.
  Lemma D_sum : forall k (f : RFld -> nat -> RFld) a, (forall i, (i < k)%nat -> D (fun t => f t i) (a i)) -> D (fun t => sum (f t) k) (sum a k).
  Proof. intros k f a H. apply D_sum_list. intros i Hi. apply in_seq in Hi. apply H. lia. Qed.

  Definition near (P : R -> Prop) : Prop := exists eta, (0 < eta)%R /\ forall t, (Rabs t < eta)%R -> P t.
  Lemma near_and : forall P Q, near P -> near Q -> near (fun t => P t /\ Q t).
  Proof.
    intros P Q (e1 & H1 & P1) (e2 & H2 & P2). exists (Rmin e1 e2). split; [apply Rmin_glb_lt; auto|].
    intros t Ht. split; [apply P1|apply P2]; eapply Rlt_le_trans; eauto; [apply Rmin_l|apply Rmin_r].
  Qed.
  Lemma near_imp : forall P Q : R -> Prop, (forall t, P t -> Q t) -> near P -> near Q.
  Proof. intros P Q H (e & He & HP). exists e. split; auto. Qed.
  Lemma near_at : forall P, near P -> P 0%R.
  Proof. intros P (e & He & HP). apply HP. rewrite Rabs_R0. auto. Qed.
  (** A function that vanishes near 0 has derivative 0. *)
  Lemma D_zero : forall f a, near (fun t => f t = 0%R) -> D f a -> a = n0.
  Proof.
    intros f a (e & He & Hf) H. apply (uniqueness_limite f 0%R); auto.
    intros eps Heps. exists (mkposreal e He). intros h Hh1 Hh2. cbn in Hh2.
    assert (E1 : f (0 + h)%R = 0%R) by (apply Hf; rewrite Rplus_0_l; auto).
    assert (E2 : f 0%R = 0%R) by (apply Hf; rewrite Rabs_R0; auto).
    rewrite E1, E2. change (@n0 RFld) with 0%R. replace ((0 - 0) / h - 0)%R with 0%R by (field; auto). rewrite Rabs_R0. auto.
  Qed.
  (** A differentiable function that is not 0 at 0 is not 0 near 0. *)
  Lemma D_nonzero : forall f a, D f a -> f 0%R <> 0%R -> near (fun t => f t <> 0%R).
  Proof.
    intros f a H Hf. assert (C : continuity_pt f 0%R) by (apply derivable_continuous_pt; exists a; exact H).
    destruct (C (Rabs (f 0%R)) (Rabs_pos_lt _ Hf)) as (e & He & Hc). exists e. split; auto. intros t Ht E.
    destruct (Req_dec t 0) as [->|Hne]; [auto|].
    specialize (Hc t). unfold D_x, no_cond, dist in Hc. cbn in Hc. unfold R_dist in Hc.
    assert (Hlt : (Rabs (f t - f 0) < Rabs (f 0))%R) by (apply Hc; split; [split; auto|rewrite Rminus_0_r; auto]).
    rewrite E in Hlt. replace (0 - f 0%R)%R with (- f 0%R)%R in Hlt by ring. rewrite Rabs_Ropp in Hlt. lra.
  Qed.
  Lemma near_forall : forall k (P : nat -> R -> Prop), (forall i, (i < k)%nat -> near (P i)) -> near (fun t => forall i, (i < k)%nat -> P i t).
  Proof.
    induction k as [|k IH]; intros P H.
    - exists 1%R. split; [lra|]. intros. lia.
    - apply (near_imp (fun t => (forall i, (i < k)%nat -> P i t) /\ P k t)).
      + intros t [H1 H2] i Hi. destruct (Nat.eq_dec i k) as [->|Hne]; auto. apply H1. lia.
      + apply near_and; [apply IH; intros; apply H; lia|apply H; lia].
  Qed.
End Diff.

Section Family.
  Local Open Scope num_scope.
  Notation sum f k := (rsum (map f (seq 0 k))).
  Add Field Rfa : (fth RFld).
  Variable x : cvx RFld.
  Notation n := (x_n x).
  Notation m := (x_neq x + x_nineq x)%nat.

  (** Optimality (KKT) conditions of: minimise 1/2 z^T P z + q^T z subject to A z + b = 0 for the
      first x_neq rows and A z + b >= 0 for the others, with multipliers y; the Lagrangian is
      1/2 z^T P z + q^T z + sum over equalities of y_i (A z + b)_i - sum over inequalities. *)
  Record optimal (v : list RFld) (z y : nat -> RFld) : Prop := mkOptimal
    { op_st : forall j, (j < n)%nat ->
        sum (fun k => fullP RFld x v j k * z k) n + cq x v j
        + sum (fun i => (if Nat.ltb i (x_neq x) then y i else - y i) * cA x v i j) m = n0;
      op_eq : forall i, (i < x_neq x)%nat -> CanonSpec.resid x v z i = n0;
      op_in : forall i, (x_neq x <= i < m)%nat -> (0 <= CanonSpec.resid x v z i)%R /\ (0 <= y i)%R /\ y i * CanonSpec.resid x v z i = n0 }.

  Variables th dth : pvals RFld.
  Notation v := (flat (x_params x) th).
  Notation d := (dir RFld (x_params x) dth).
  Notation vt t := (flat (x_params x) (along RFld th dth t)).
  Variables (zs ys : RFld -> nat -> RFld) (xd yd : nat -> RFld).

  (** A differentiable family of optimal points for the parameters [th + t * dth], t near 0. *)
  Definition family : Prop :=
    near (fun t => optimal (vt t) (zs t) (ys t))
    /\ (forall j, (j < n)%nat -> D (fun t => zs t j) (xd j))
    /\ (forall i, (i < m)%nat -> D (fun t => ys t i) (yd i)).
  (** Strict complementarity, also required of the equalities. *)
  Definition strict : Prop :=
    forall i, (i < m)%nat -> ys 0%R i = n0 -> (x_neq x <= i)%nat /\ CanonSpec.resid x (vt 0%R) (zs 0%R) i <> n0.

  Hypothesis HF : family.
  Hypothesis HS : strict.

  Lemma vt_0 : forall c, nth c (vt n0) n0 = nth c v n0.
  Proof. intro c. rewrite along_nth. ring. Qed.

  Lemma D_resid : forall i, (i < m)%nat ->
    D (fun t => CanonSpec.resid x (vt t) (zs t) i) (sum (fun j => cA x d i j * zs 0%R j + cA x v i j * xd j) n + cb x d i).
  Proof.
    intros i Hi. unfold CanonSpec.resid. apply D_add.
    - apply D_sum. intros j Hj. eapply D_eq; [|apply (D_mul (fun t => cA x (vt t) i j) (fun t => zs t j))].
      + cbv beta. change (zs n0 j) with (zs 0%R j). f_equal. instantiate (1 := xd j). rewrite cA_along. ring.
      + apply (D_ext (fun t => cA x v i j + t * cA x d i j)); [intro t; symmetry; apply cA_along|apply D_lin].
      + apply (proj1 (proj2 HF) j Hj).
    - apply (D_ext (fun t => cb x v i + t * cb x d i)); [intro t; symmetry; apply cb_along|apply D_lin].
  Qed.

  (** The set of tight rows stays the same near 0. *)
  Lemma stays : forall i, (i < m)%nat ->
    if Req_EM_T (ys 0%R i) 0 then near (fun t => ys t i = 0%R) else near (fun t => CanonSpec.resid x (vt t) (zs t) i = 0%R).
  Proof.
    intros i Hi. destruct HF as (HO & Hz & Hy). destruct (Req_EM_T (ys 0%R i) 0) as [E|E].
    - destruct (HS i Hi E) as [Hin Hr].
      assert (Hn : near (fun t => CanonSpec.resid x (vt t) (zs t) i <> 0%R)) by (eapply (D_nonzero (fun t => CanonSpec.resid x (vt t) (zs t) i)); [apply D_resid; auto|exact Hr]).
      apply (near_imp (fun t => optimal (vt t) (zs t) (ys t) /\ CanonSpec.resid x (vt t) (zs t) i <> 0%R)); [|apply near_and; auto].
      intros t [H1 H2]. destruct (op_in _ _ _ H1 i (conj Hin Hi)) as (_ & _ & H3). cbn in H3. destruct (Rmult_integral _ _ H3); [auto|contradiction].
    - destruct (Nat.lt_ge_cases i (x_neq x)) as [Hlt|Hge].
      + apply (near_imp (fun t => optimal (vt t) (zs t) (ys t))); auto. intros t H1. apply (op_eq _ _ _ H1 i Hlt).
      + apply (near_imp (fun t => optimal (vt t) (zs t) (ys t) /\ ys t i <> 0%R)).
        * intros t [H1 H2]. destruct (op_in _ _ _ H1 i (conj Hge Hi)) as (_ & _ & H3). cbn in H3. destruct (Rmult_integral _ _ H3); [contradiction|auto].
        * apply near_and; auto. eapply (D_nonzero (fun t => ys t i)); [apply Hy; auto|auto].
  Qed.

  Theorem family_moves : forall sx sy (act : nat -> bool),
    (forall j, (j < n)%nat -> nth j sx n0 = zs 0%R j) -> (forall i, (i < m)%nat -> nth i sy n0 = ys 0%R i) ->
    (forall i, (i < m)%nat -> act i = true <-> ys 0%R i <> n0) ->
    moves RFld x act v d sx sy xd yd.
  Proof.
    intros sx sy act Hsx Hsy Hact. destruct HF as (HO & Hz & Hy). constructor.
    - intros j Hj.
      set (f := fun t : RFld => sum (fun k => fullP RFld x (vt t) j k * zs t k) n + cq x (vt t) j + sum (fun i => (if Nat.ltb i (x_neq x) then ys t i else - ys t i) * cA x (vt t) i j) m).
      assert (Hf : near (fun t => f t = 0%R)) by (apply (near_imp (fun t => optimal (vt t) (zs t) (ys t))); auto; intros t H; exact (op_st _ _ _ H j Hj)).
      assert (Hd : D f (sum (fun k => fullP RFld x d j k * zs 0%R k + fullP RFld x v j k * xd k) n + cq x d j
        + sum (fun i => (if Nat.ltb i (x_neq x) then yd i else - yd i) * cA x v i j + (if Nat.ltb i (x_neq x) then ys 0%R i else - ys 0%R i) * cA x d i j) m)).
      { unfold f. apply D_add; [apply D_add|].
        - apply D_sum. intros k Hk. eapply D_eq; [|apply (D_mul (fun t => fullP RFld x (vt t) j k) (fun t => zs t k))].
          + cbv beta. change (zs n0 k) with (zs 0%R k). f_equal. instantiate (1 := xd k). rewrite fullP_along. ring.
          + apply (D_ext (fun t => fullP RFld x v j k + t * fullP RFld x d j k)); [intro t; symmetry; apply fullP_along|apply D_lin].
          + apply Hz; auto.
        - apply (D_ext (fun t => cq x v j + t * cq x d j)); [intro t; symmetry; apply cq_along|apply D_lin].
        - apply D_sum. intros i Hi. eapply D_eq; [|apply (D_mul (fun t => if Nat.ltb i (x_neq x) then ys t i else - ys t i) (fun t => cA x (vt t) i j))].
          + cbv beta. change (ys n0 i) with (ys 0%R i). rewrite cA_along. instantiate (1 := cA x d i j). instantiate (1 := if Nat.ltb i (x_neq x) then yd i else - yd i). ring.
          + destruct (Nat.ltb i (x_neq x)); [apply Hy; auto|].
            apply (D_ext (fun t => (- n1) * ys t i)); [intro t; ring|]. eapply D_eq; [|apply (D_mul (fun _ => - n1) (fun t => ys t i)); [apply D_const|apply Hy; auto]]. cbv beta. ring.
          + apply (D_ext (fun t => cA x v i j + t * cA x d i j)); [intro t; symmetry; apply cA_along|apply D_lin]. }
      pose proof (D_zero f _ Hf Hd) as E. refine (eq_trans _ E). rewrite !(sum_add RFld).
      assert (E1 : sum (fun k => fullP RFld x d j k * nth k sx n0) n = sum (fun k => fullP RFld x d j k * zs 0%R k) n) by (apply sum_ext; intros k Hk; rewrite Hsx by auto; auto).
      assert (E2 : sum (fun i => qA RFld x v i j * yd i) m = sum (fun i => (if Nat.ltb i (x_neq x) then yd i else - yd i) * cA x v i j) m)
        by (apply sum_ext; intros i Hi; unfold qA; destruct (Nat.ltb i (x_neq x)); ring).
      assert (E3 : sum (fun i => qA RFld x d i j * nth i sy n0) m = sum (fun i => (if Nat.ltb i (x_neq x) then ys 0%R i else - ys 0%R i) * cA x d i j) m)
        by (apply sum_ext; intros i Hi; rewrite Hsy by auto; unfold qA; destruct (Nat.ltb i (x_neq x)); ring).
      rewrite E1, E2, E3. ring.
    - intros i Hi Ha. apply Hact in Ha; auto. pose proof (stays i Hi) as Hst. destruct (Req_EM_T (ys 0%R i) 0) as [E|E]; [contradiction|].
      pose proof (D_zero _ _ Hst (D_resid i Hi)) as H. rewrite (sum_add RFld) in H.
      assert (E1 : sum (fun j => qA RFld x d i j * nth j sx n0) n = (if Nat.ltb i (x_neq x) then n1 else - n1) * sum (fun j => cA x d i j * zs 0%R j) n)
        by (rewrite <- (sum_mul RFld); apply sum_ext; intros j Hj; rewrite Hsx by auto; unfold qA; destruct (Nat.ltb i (x_neq x)); ring).
      assert (E2 : sum (fun j => qA RFld x v i j * xd j) n = (if Nat.ltb i (x_neq x) then n1 else - n1) * sum (fun j => cA x v i j * xd j) n)
        by (rewrite <- (sum_mul RFld); apply sum_ext; intros j Hj; unfold qA; destruct (Nat.ltb i (x_neq x)); ring).
      rewrite E1, E2. unfold qb. 
      assert (E3 : sum (fun j => cA x v i j * xd j) n = - (sum (fun j => cA x d i j * zs 0%R j) n + cb x d i)).
      { match type of H with ?a + ?b + ?c = n0 => transitivity (a + b + c - (a + c)); [ring|rewrite H; ring] end. }
      rewrite E3. destruct (Nat.ltb i (x_neq x)); ring.
    - intros i Hi Ha. assert (E : ys 0%R i = 0%R).
      { destruct (Req_EM_T (ys 0%R i) 0) as [E|E]; auto. apply Hact in E; auto. congruence. }
      split; [|rewrite Hsy by auto; exact E]. pose proof (stays i Hi) as Hst. destruct (Req_EM_T (ys 0%R i) 0) as [_|H]; [|contradiction].
      apply (D_zero _ _ Hst (Hy i Hi)).
  Qed.
End Family.
