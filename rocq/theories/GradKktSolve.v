(** The refined solution of the KKT system, and the arrays computed from it. *)

From Coq Require Import Arith Bool ZArith Lia List Sorted Field.
From Verif Require Import Base Machine Runtime RuntimeSpec RuntimeProofs Retrieve RetrieveProofs Sparse SparseProofs Ldl LdlRank1 LdlProofs GradSpec LdlMain FactorProofs Gradient GradKkt Qdldl GradSolve.
Import ListNotations.

(** Specification: three steps of iterative refinement. *)
Section Spec.
  Variable F : Ring.
  Variable N : nat.
  Local Open Scope num_scope.
  (** Residual of the true matrix [T] over the indices taking part. *)
  Definition resid (act : nat -> bool) (T : nat -> nat -> F) (rhs r : list F) : list F :=
    map (fun p => if act p then nth p rhs n0 - rsum (map (fun q => if act q then T p q * nth q r n0 else n0) (seq 0 N)) else n0) (seq 0 N).
  Definition vadd (x y : list F) : list F := map (fun i => nth i x n0 + nth i y n0) (seq 0 N).
  (** [k] refinements of a solution with the approximate matrix [M]. *)
  Inductive refined (act : nat -> bool) (M T : nat -> nat -> F) (rhs : list F) : nat -> list F -> Prop :=
  | rf_0 : forall r, solves N M r rhs -> refined act M T rhs 0 r
  | rf_S : forall k r d, refined act M T rhs k r -> solves N M d (resid act T rhs r) -> refined act M T rhs (S k) (vadd r d).
End Spec.
Arguments resid {F}. Arguments vadd {F}. Arguments refined {F}.

Lemma mapM_all : forall A B (f : A -> res B) (h : A -> B) l, (forall a, In a l -> f a = Ok (h a)) -> mapM f l = Ok (map h l).
Proof.
  induction l as [|a l IH]; intro H; simpl; auto. rewrite H by (simpl; auto). cbn [bind]. rewrite IH by (intros; apply H; simpl; auto). auto.
Qed.
Lemma get_nth : forall A (l : list A) k d, k < length l -> get l k = Ok (nth k l d).
Proof. intros A l k d H. unfold get. rewrite nth_error_nth' with (d := d) by auto. auto. Qed.

Section KktSolve.
  Variable F : Fld.
  Variables n N : nat.
  Add Field Fks : (fth F).
  Hypothesis n_le : (n <= N)%nat.
  Local Open Scope num_scope.
  Notation sum f k := (rsum (map f (seq 0 k))).

  (** The stored entries of a line, summed with weights, are all of the line. *)
  Lemma line_sum : forall (M : csc F) j (f : nat -> F), (forall i, In i (rows M j) -> (i < N)%nat) -> length (rows M j) = length (vals M j) ->
    rsum (map (fun e => snd e * f (fst e)) (combine (rows M j) (vals M j))) = sum (fun q => entry M q j * f q) N.
  Proof.
    intros M j f H HL. unfold entry. revert HL H. generalize (rows M j) as ri, (vals M j) as vx. induction ri as [|i ri IH]; intros vx HL H.
    - simpl. symmetry. apply rsum_zero. intros q _. ring.
    - destruct vx as [|v vx]; [discriminate|]. cbn [combine map fst snd filter]. unfold rsum at 1. cbn [fold_right].
      change (fold_right _ _ ?l) with (rsum l). rewrite IH by (auto; intros; apply H; simpl; auto).
      assert (Hi : (i < N)%nat) by (apply H; simpl; auto).
      assert (Hs : v * f i = sum (fun q => if Nat.eqb i q then v * f q else n0) N).
      { rewrite (@rsum_single F _ N 0%nat i); [rewrite Nat.eqb_refl; auto|lia|]. intros q _ Hq. destruct (Nat.eqb_spec i q); auto. congruence. }
      rewrite Hs. rewrite <- rsum_map_add. apply rsum_ext. intros q _. destruct (Nat.eqb i q); cbn [map snd]; unfold rsum; cbn [fold_right]; ring.
  Qed.

  Lemma live_ok : forall a j, length a = (N - n)%nat -> j < N -> live n a j = Ok (part n (supp a) j).
  Proof.
    intros a j Ha Hj. unfold live, part. destruct (Nat.leb_spec n j) as [H|H].
    - rewrite (get_nth _ a (j - n) 0%Z) by lia. cbn [bind]. rewrite ltb_f by auto. auto.
    - rewrite ltb_t by auto. auto.
  Qed.

  Lemma residual_at_ok : forall (Kt : csc F) a rhs r i, csc_ok N Kt -> (forall j k, j < N -> In k (rows Kt j) -> (k < N)%nat) ->
    length a = (N - n)%nat -> length rhs = N -> length r = N -> i < N ->
    residual_at F n Kt a rhs r i = Ok (if part n (supp a) i
      then nth i rhs n0 - sum (fun q => if part n (supp a) q then entry Kt q i * nth q r n0 else n0) N else n0).
  Proof.
    intros Kt a rhs r i OK Hr Ha Hrhs Hrl Hi. unfold residual_at. rewrite live_ok by auto. cbn [bind].
    destruct (part n (supp a) i) eqn:Ep; cbn [negb]; auto.
    assert (R : run none (d0 <- get rhs i;;
      s <- get (c_p Kt) i;;
      e <- get (c_p Kt) (i + 1);;
      for_ (e - s)%nat s (fun k d =>
        j <- get (c_i Kt) k;;
        b <- live n a j;;
        if negb b then Ok d
        else x <- get (c_x Kt) k;; rj <- get r j;; Ok (d - x * rj)) d0)
      (fun d => d = nth i rhs n0 - sum (fun q => if part n (supp a) q then entry Kt q i * nth q r n0 else n0) N)).
    2:{ destruct (run_none _ _ _ R) as (d & E & H). rewrite E, H. auto. }
    assert (Hp : forall k, (k <= N)%nat -> nth_error (c_p Kt) k = Some (cptr Kt k)).
    { intros k Hk. unfold cptr. apply nth_error_nth'. rewrite (o_p N Kt OK). lia. }
    apply run_get with (a := nth i rhs n0); [apply nth_error_nth'; lia|].
    apply run_get with (a := cptr Kt i); [apply Hp; lia|]. apply run_get with (a := cptr Kt (S i)); [rewrite Nat.add_1_r; apply Hp; lia|].
    pose (g := fun q => if part n (supp a) q then nth q r n0 else n0).
    destruct (rows_len F N Kt i OK Hi) as [LR LV].
    eapply run_imp; [apply (run_for none _ (fun k d => exists t, k = (cptr Kt i + t)%nat /\
       d = nth i rhs n0 - rsum (map (fun e => snd e * g (fst e)) (firstn t (combine (rows Kt i) (vals Kt i))))))|].
    - exists 0%nat. split; [lia|]. cbn [firstn map]. unfold rsum. cbn [fold_right]. ring.
    - intros k d Hk (t & -> & ->). assert (Ht : (t < length (rows Kt i))%nat) by lia.
      destruct (nth_err_lt _ (rows Kt i) t Ht) as (j & Ej). destruct (nth_err_lt _ (vals Kt i) t ltac:(lia)) as (x & Ex).
      pose proof (rows_nth F N Kt i t j OK Hi Ej) as Ej'. pose proof (vals_nth F N Kt i t x OK Hi Ex) as Ex'.
      apply run_get with (a := j); auto. pose proof (Hr i j Hi (nth_error_In _ _ Ej)) as Hj. rewrite live_ok by auto. cbn [bind].
      pose proof (nth_error_combine _ _ _ _ _ _ _ Ej Ex) as Ec.
      assert (Hstep : rsum (map (fun e => snd e * g (fst e)) (firstn (S t) (combine (rows Kt i) (vals Kt i))))
                = rsum (map (fun e => snd e * g (fst e)) (firstn t (combine (rows Kt i) (vals Kt i)))) + x * g j).
      { rewrite (firstn_S_nth _ _ t _ Ec), map_app, rsum_app. cbn [map fst snd]. unfold rsum at 2. cbn [fold_right]. ring. }
      destruct (part n (supp a) j) eqn:Epj; cbn [negb].
      + apply run_get with (a := x); auto. apply run_get with (a := nth j r n0); [apply nth_error_nth'; lia|]. cbn [run].
        exists (S t). split; [lia|]. rewrite Hstep. unfold g at 3. rewrite Epj. ring.
      + cbn [run]. exists (S t). split; [lia|]. rewrite Hstep. unfold g at 3. rewrite Epj. ring.
    - intros d (t & Et & ->). assert (Ht : t = length (rows Kt i)) by lia. rewrite firstn_all2 by (rewrite combine_length; lia).
      rewrite line_sum; [|intros k Hk; apply (Hr i k Hi Hk)|lia]. f_equal. apply rsum_ext. intros q _. unfold g. destruct (part n (supp a) q); auto. ring.
  Qed.

  Variable qsolve : csc F -> list F -> list F -> res (list F).
  Hypothesis qs_ok : solve_contract F N qsolve.

  Definition rhs_of (dx : list F) : list F := firstn n dx ++ repeat n0 (N - n).

  Lemma resid_length : forall act (T : nat -> nat -> F) rhs r, length (resid N act T rhs r) = N.
  Proof. intros. unfold resid. rewrite map_length, seq_length. auto. Qed.
  Lemma vadd_length : forall (x y : list F), length (vadd N x y) = N.
  Proof. intros. unfold vadd. rewrite map_length, seq_length. auto. Qed.

  Theorem kkt_solve_ok : forall M T g (Kt : csc F) a dx,
    csc_ok N (gL g) -> lower_pat F N (gL g) -> length (gD g) = N -> length (gDinv g) = N -> holds F N M g ->
    csc_ok N Kt -> (forall j k, j < N -> In k (rows Kt j) -> (k < N)%nat) -> (forall p q, p < N -> q < N -> entry Kt q p = T p q) ->
    length a = (N - n)%nat -> length dx = n ->
    exists r, kkt_solve F n N qsolve g Kt a dx = Ok r /\ refined N (part n (supp a)) M T (rhs_of dx) 3 r.
  Proof.
    intros M T g Kt a dx OL HL LD LDi [Hinv HM] OK Hr HT Ha Hdx. unfold kkt_solve.
    rewrite (mapM_all _ _ (get dx) (fun k => nth k dx n0)) by (intros k Hk; apply in_seq in Hk; apply get_nth; lia). cbn [bind].
    rewrite map_nth_seq by lia. cbn [skipn].
    assert (Lr : length (rhs_of dx) = N) by (unfold rhs_of; rewrite app_length, firstn_length, repeat_length; lia).
    fold (rhs_of dx). destruct (qs_ok (gL g) (gD g) (gDinv g) (rhs_of dx) OL HL LD LDi Hinv Lr) as (r0 & E0 & S0).
    assert (HS : forall x b, solves N (ldlt N (gL g) (gD g)) x b -> solves N M x b).
    { intros x b [A B]. split; auto. intros p Hp. rewrite <- B by auto. apply mulv_ext. intros. symmetry. auto. }
    assert (Step : forall k r, length r = N -> refined N (part n (supp a)) M T (rhs_of dx) k r ->
      exists r', refine_step F n N qsolve (gL g) (gDinv g) Kt a (rhs_of dx) r = Ok r' /\ length r' = N /\ refined N (part n (supp a)) M T (rhs_of dx) (S k) r').
    { intros k r Hl HR. unfold refine_step, residual.
      rewrite (mapM_all _ _ (residual_at F n Kt a (rhs_of dx) r) (fun p => if part n (supp a) p then nth p (rhs_of dx) n0 - sum (fun q => if part n (supp a) q then T p q * nth q r n0 else n0) N else n0)).
      2:{ intros p Hp. apply in_seq in Hp. rewrite residual_at_ok by (auto; lia). f_equal. destruct (part n (supp a) p); auto. f_equal. apply rsum_ext. intros q Hq. apply in_seq in Hq. destruct (part n (supp a) q); auto. rewrite HT by lia. auto. }
      cbn [bind]. fold (resid N (part n (supp a)) T (rhs_of dx) r).
      destruct (qs_ok (gL g) (gD g) (gDinv g) (resid N (part n (supp a)) T (rhs_of dx) r) OL HL LD LDi Hinv (resid_length _ _ _ _)) as (d & Ed & Sd).
      rewrite Ed. cbn [bind]. rewrite (mapM_all _ _ _ (fun i => nth i r n0 + nth i d n0)).
      2:{ intros i Hi. apply in_seq in Hi. rewrite (get_nth _ r i n0) by lia. cbn [bind]. rewrite (get_nth _ d i n0) by (destruct Sd; lia). auto. }
      exists (vadd N r d). split; auto. split; [apply vadd_length|]. constructor; auto. }
    rewrite E0. cbn [bind]. destruct (Step 0%nat r0 (proj1 S0) (rf_0 _ _ _ _ _ _ _ (HS _ _ S0))) as (r1 & E1 & L1 & R1). rewrite E1. cbn [bind].
    destruct (Step 1%nat r1 L1 R1) as (r2 & E2 & L2 & R2). rewrite E2. cbn [bind].
    destruct (Step 2%nat r2 L2 R2) as (r3 & E3 & L3 & R3). rewrite E3. exists r3. auto.
  Qed.

  (** The refined solution is determined by the matrices. *)
  Lemma refined_unique : forall act (M T : nat -> nat -> F) rhs L D Dinv k r r', lower_pat F N L -> (forall k, k < N -> nth k Dinv n0 * nth k D n0 = n1) ->
    (forall p q, p < N -> q < N -> ldlt N L D p q = M p q) -> refined N act M T rhs k r -> refined N act M T rhs k r' -> r = r'.
  Proof.
    intros act M T rhs L D Dinv k r r' HL Hinv HM H. revert r'. induction H as [r H|k r d H IH Hd]; intros r' H'.
    - inversion H'; subst. eapply (solves_unique F N M L D Dinv); eauto.
    - inversion H'; subst. assert (r0 = r) by (symmetry; apply IH; auto). subst r0. f_equal. eapply (solves_unique F N M L D Dinv); eauto.
  Qed.
  Lemma refined_ext : forall act act' (M M' T T' : nat -> nat -> F) rhs k r, (forall p, p < N -> act p = act' p) ->
    (forall p q, p < N -> q < N -> M p q = M' p q) -> (forall p q, p < N -> q < N -> T p q = T' p q) ->
    refined N act M T rhs k r -> refined N act' M' T' rhs k r.
  Proof.
    intros act act' M M' T T' rhs k r Ha HM HT H.
    assert (HS : forall x b, solves N M x b -> solves N M' x b).
    { intros x b [A B]. split; auto. intros p Hp. rewrite <- B by auto. apply mulv_ext. intros. symmetry. auto. }
    induction H as [r H|k r d H IH Hd]; constructor; auto. apply HS.
    replace (resid N act' T' rhs r) with (resid N act T rhs r); auto. unfold resid. apply map_ext_in. intros p Hp. apply in_seq in Hp.
    rewrite Ha by lia. destruct (act' p); auto. f_equal. apply rsum_ext. intros q Hq. apply in_seq in Hq. rewrite Ha, HT by lia. auto.
  Qed.
  Lemma refined_length : forall act (M T : nat -> nat -> F) rhs k r, refined N act M T rhs k r -> length r = N.
  Proof. intros act M T rhs k r H. destruct H; [apply H|apply vadd_length]. Qed.
End KktSolve.
