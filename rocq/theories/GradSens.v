(** What the gradients mean: the first-order change of a solution when the parameters change,
    and its relation to the vector computed by cpg_osqp_gradient (specification [grad_of]). *)

From Coq Require Import String Arith Bool ZArith Lia List Field.
From Verif Require Import Base Pus Machine Runtime RuntimeSpec Canon CanonSpec.
From Verif Require Import Retrieve Sparse Gradient GradSpec GradSolve GradKktSolve GradMain GradCall GradSession GradSessionProofs GradGen GradTotal.
Import ListNotations.

Section Sens.
  Variable F : Fld.
  Add Field Fse : (fth F).
  Variable x : cvx F.
  Local Open Scope num_scope.
  Notation sum f k := (rsum (map f (seq 0 k))).
  Notation n := (x_n x).
  Notation m := (x_neq x + x_nineq x)%nat.
  Notation qA := (GradGen.qA F x).
  Notation fullP := (GradTotal.fullP F x).

  (** Right-hand sides of the QP's constraints: A x = -b and -A x <= b. *)
  Definition qb (v : list F) (i : nat) : F := if Nat.ltb i (x_neq x) then - cb x v i else cb x v i.

  (** First-order change (xd, yd) of a primal-dual solution (sx, sy) when the data change from
      those of [v] in direction [delta] and the constraints selected by [act] stay tight, the
      others keeping a zero dual: derivative of P x + q + A^T y = 0 and of the tight rows. *)
  Record moves (act : nat -> bool) (v delta : list F) (sx sy : list F) (xd yd : nat -> F) : Prop := mkMoves
    { mv_st : forall j, (j < n)%nat ->
        sum (fun k => fullP v j k * xd k) n + sum (fun i => qA v i j * yd i) m
        + (sum (fun k => fullP delta j k * nth k sx n0) n + cq x delta j + sum (fun i => qA delta i j * nth i sy n0) m) = n0;
      mv_on : forall i, (i < m)%nat -> act i = true ->
        sum (fun j => qA v i j * xd j) n + sum (fun j => qA delta i j * nth j sx n0) n = qb delta i;
      mv_off : forall i, (i < m)%nat -> act i = false -> yd i = n0 /\ nth i sy n0 = n0 }.

  (** No products of different variables in the objective. *)
  Definition diagonal (v : list F) : Prop := forall i j, i <> j -> cP x v i j = n0.

  (** The regularisation's signs, and the vectors whose last one measures the error left by three
      refinements. *)
  Definition sgn (p : nat) : F := if Nat.ltb p n then n1 else - n1.
  Definition flip (s : list F) : list F := map (fun p => sgn p * nth p s n0) (seq 0 (n + m)).
  Inductive powers (M : nat -> nat -> F) (rhs : list F) : nat -> list F -> Prop :=
  | pw_0 : forall s, solves (n + m) M s rhs -> powers M rhs 0 s
  | pw_S : forall k s s', powers M rhs k s -> solves (n + m) M s' (flip s) -> powers M rhs (S k) s'.
  Fixpoint fpow (e : F) (k : nat) : F := match k with O => n1 | S k => e * fpow e k end.
  (** (xd, yd) as one vector. *)
  Definition joint (xd yd : nat -> F) (p : nat) : F := if Nat.ltb p n then xd p else yd (p - n)%nat.

  Lemma sum_split : forall (f : nat -> F) a b, sum f (a + b) = sum f a + sum (fun i => f (a + i)%nat) b.
  Proof.
    intros f a b. rewrite seq_app, map_app, rsum_app. f_equal. rewrite Nat.add_0_l.
    assert (G : forall k s, map f (seq (a + s) k) = map (fun i => f (a + i)%nat) (seq s k)).
    { induction k as [|k IH]; intro s; cbn [seq map]; auto. rewrite <- IH. do 2 f_equal. replace (S (a + s)) with (a + S s)%nat by lia. auto. }
    rewrite <- (G b 0%nat). rewrite Nat.add_0_r. auto.
  Qed.
  Lemma sum_ext : forall (f h : nat -> F) k, (forall i, (i < k)%nat -> f i = h i) -> sum f k = sum h k.
  Proof. intros f h k H. apply rsum_ext. intros i Hi. apply in_seq in Hi. apply H. lia. Qed.
  Lemma sum_add : forall (f h : nat -> F) k, sum (fun i => f i + h i) k = sum f k + sum h k.
  Proof. intros. apply rsum_map_add. Qed.
  Lemma sum_mul : forall c (f : nat -> F) k, sum (fun i => c * f i) k = c * sum f k.
  Proof. intros. apply rsum_map_mul. Qed.
  Lemma sum_zero : forall (f : nat -> F) k, (forall i, (i < k)%nat -> f i = n0) -> sum f k = n0.
  Proof. intros f k H. apply rsum_zero. intros i Hi. apply in_seq in Hi. apply H. lia. Qed.
  Lemma sum_one : forall (f : nat -> F) k i, (i < k)%nat -> (forall j, (j < k)%nat -> j <> i -> f j = n0) -> sum f k = f i.
  Proof.
    intros f k i Hi H. transitivity (sum (fun j => if Nat.eqb j i then f j else n0) k).
    - apply sum_ext. intros j Hj. destruct (Nat.eqb_spec j i); auto.
    - rewrite (@rsum_single F (fun j => if Nat.eqb j i then f j else n0) k 0%nat i); [cbv beta; rewrite Nat.eqb_refl; auto|lia|].
      intros q _ Hq. destruct (Nat.eqb_spec q i); [congruence|auto].
  Qed.

  Section Fixed.
    Variables (v : list F).
    Hypothesis DP : diagonal v.
    Notation T := (kkt_exact F x v).
    Notation N := (n + m)%nat.

    Lemma full_diag : forall w i j, diagonal w -> fullP w i j = if Nat.eqb i j then cP x w i i else n0.
    Proof.
      intros w i j H. unfold GradTotal.fullP. destruct (Nat.eqb_spec i j) as [->|Hne]; [rewrite Nat.leb_refl; auto|].
      destruct (Nat.leb i j); apply H; auto.
    Qed.
    Lemma T_sym : forall p q, T p q = T q p.
    Proof.
      intros p q. unfold kkt_exact. destruct (Nat.ltb p n) eqn:Ep, (Nat.ltb q n) eqn:Eq; auto.
      destruct (Nat.eq_dec p q) as [->|H]; auto. rewrite !DP; auto.
    Qed.
    (** The factorised matrix is the exact one plus the regularisation. *)
    Lemma symm_T : forall eps p q, (p < N)%nat -> (q < N)%nat -> kkt_symm F x eps v p q = T p q + (if Nat.eqb p q then eps * sgn p else n0).
    Proof.
      intros eps p q Hp Hq. unfold kkt_symm, kkt_upper, kkt_exact, sgn.
      destruct (Nat.leb_spec p q); destruct (Nat.eqb_spec p q) as [->|Hne]; try rewrite Nat.eqb_refl;
        try replace (Nat.eqb q p) with false by (symmetry; apply Nat.eqb_neq; auto);
        repeat match goal with |- context [Nat.ltb ?a ?b] => destruct (Nat.ltb_spec a b) end; try lia; try ring.
      rewrite (DP q p), (DP p q) by auto. ring.
    Qed.
  End Fixed.

  Section Error.
    Variables (v : list F) (eps : F) (act : nat -> bool) (rhs : list F).
    Hypothesis DP : diagonal v.
    Hypothesis eps_nz : eps <> n0.
    Notation N := (n + m)%nat.
    Hypothesis rhs_off : forall p, (p < N)%nat -> act p = false -> nth p rhs n0 = n0.
    Notation T := (kkt_exact F x v).
    Notation M := (masked act (kkt_symm F x eps v)).

    (** Solving with the regularised matrix leaves the residual eps times the flipped solution. *)
    Lemma mul_T : forall d p, (p < N)%nat -> (forall q, (q < N)%nat -> act q = false -> nth q d n0 = n0) ->
      mulv N M d p = if act p then sum (fun q => if act q then T p q * nth q d n0 else n0) N + eps * (sgn p * nth p d n0) else n0.
    Proof.
      intros d p Hp Hd. unfold mulv, masked. destruct (act p) eqn:Ea; cbn [andb].
      - transitivity (sum (fun q => (if act q then T p q * nth q d n0 else n0) + (if Nat.eqb q p then eps * (sgn p * nth p d n0) else n0)) N).
        + apply sum_ext. intros q Hq. destruct (act q) eqn:Eq.
          * rewrite symm_T by auto. rewrite (Nat.eqb_sym q p). destruct (Nat.eqb_spec p q) as [->|Hne]; ring.
          * rewrite (Hd q) by auto. destruct (Nat.eqb_spec q p) as [->|Hne]; [congruence|]. ring.
        + rewrite sum_add. f_equal. rewrite (sum_one _ N p); [rewrite Nat.eqb_refl; auto|auto|].
          intros j Hj Hne. destruct (Nat.eqb_spec j p); [congruence|auto].
      - apply sum_zero. intros q Hq. destruct (Nat.eqb_spec p q) as [<-|Hne]; [rewrite Hd by auto; ring|ring].
    Qed.
    Lemma mul_off : forall d p, (p < N)%nat -> act p = false -> mulv N M d p = - nth p d n0.
    Proof.
      intros d p Hp Ea. unfold mulv, masked. rewrite Ea. cbn [andb]. rewrite (sum_one _ N p Hp).
      - rewrite Nat.eqb_refl. ring.
      - intros j Hj Hne. destruct (Nat.eqb_spec p j); [congruence|ring].
    Qed.
    Lemma solves_off : forall d b, solves N M d b -> (forall p, (p < N)%nat -> act p = false -> nth p b n0 = n0) ->
      forall p, (p < N)%nat -> act p = false -> nth p d n0 = n0.
    Proof.
      intros d b [Hl Hs] Hb p Hp Ea. pose proof (Hs p Hp) as H. rewrite (mul_off d p Hp Ea), (Hb p Hp Ea) in H.
      replace (nth p d n0) with (- - nth p d n0) by ring. rewrite H. ring.
    Qed.
    Lemma nth_map_seq : forall (f : nat -> F) k p, (p < k)%nat -> nth p (map f (seq 0 k)) n0 = f p.
    Proof.
      intros f k p H. rewrite (nth_indep _ n0 (f 0%nat)) by (rewrite map_length, seq_length; auto). rewrite map_nth, seq_nth by auto. auto.
    Qed.
    Lemma nth_flip : forall s p, (p < N)%nat -> nth p (flip s) n0 = sgn p * nth p s n0.
    Proof. intros s p H. unfold flip. apply (nth_map_seq (fun p => sgn p * nth p s n0)); auto. Qed.
    Lemma nth_resid : forall r p, (p < N)%nat -> nth p (resid N act T rhs r) n0
      = if act p then nth p rhs n0 - sum (fun q => if act q then T p q * nth q r n0 else n0) N else n0.
    Proof. intros r p H. unfold resid. apply (nth_map_seq (fun p => if act p then nth p rhs n0 - sum (fun q => if act q then T p q * nth q r n0 else n0) N else n0)); auto. Qed.

    Lemma fpow_nz : forall k, fpow eps k <> n0.
    Proof.
      induction k as [|k IH]; cbn [fpow]; [apply (F_1_neq_0 (fth F))|]. intro H. apply IH.
      replace (fpow eps k) with (finv eps * (eps * fpow eps k)) by (field; auto). rewrite H. ring.
    Qed.

    (** After [k] refinements the residual is [eps^(k+1)] times a flipped power. *)
    Theorem refined_error : forall k r, refined N act M T rhs k r ->
      (forall p, (p < N)%nat -> act p = false -> nth p r n0 = n0)
      /\ exists s, powers M rhs k s /\ (forall p, (p < N)%nat -> act p = false -> nth p s n0 = n0)
         /\ forall p, (p < N)%nat -> nth p (resid N act T rhs r) n0 = fpow eps (S k) * (sgn p * nth p s n0).
    Proof.
      intros k r H. induction H as [r Hr|k r d Hr IH Hd].
      - pose proof (solves_off r rhs Hr rhs_off) as Ho. split; auto. exists r. split; [constructor; auto|]. split; auto.
        intros p Hp. rewrite nth_resid by auto. destruct Hr as [_ Hr]. specialize (Hr p Hp). rewrite (mul_T r p Hp Ho) in Hr. cbn [fpow].
        destruct (act p) eqn:Ea; [rewrite <- Hr; ring|]. rewrite (Ho p Hp Ea). ring.
      - destruct IH as (Ho & s & Hs & Hso & Hres).
        assert (Hb : forall p, (p < N)%nat -> act p = false -> nth p (resid N act T rhs r) n0 = n0) by (intros p Hp Ea; rewrite nth_resid by auto; rewrite Ea; auto).
        pose proof (solves_off d _ Hd Hb) as Hdo.
        assert (Hv : forall p, (p < N)%nat -> nth p (vadd N r d) n0 = nth p r n0 + nth p d n0) by (intros p Hp; unfold vadd; apply (nth_map_seq (fun i => nth i r n0 + nth i d n0)); auto).
        split; [intros p Hp Ea; rewrite Hv by auto; rewrite Ho, Hdo by auto; ring|].
        set (c := fpow eps (S k)) in *. assert (Hc : c <> n0) by apply fpow_nz.
        exists (map (fun p => finv c * nth p d n0) (seq 0 N)).
        assert (Hn : forall p, (p < N)%nat -> nth p (map (fun p => finv c * nth p d n0) (seq 0 N)) n0 = finv c * nth p d n0) by (intros p Hp; apply (nth_map_seq (fun p => finv c * nth p d n0)); auto).
        split; [|split].
        + apply (pw_S _ _ k s); auto. split; [rewrite map_length, seq_length; auto|]. intros p Hp. rewrite nth_flip by auto.
          transitivity (finv c * mulv N M d p).
          * unfold mulv. rewrite <- sum_mul. apply sum_ext. intros q Hq. rewrite Hn by auto. ring.
          * rewrite (proj2 Hd p Hp), Hres by auto. field. auto.
        + intros p Hp Ea. rewrite Hn, Hdo by auto. ring.
        + intros p Hp. rewrite Hn by auto. cbn [fpow]. fold (fpow eps (S k)). change (eps * fpow eps k) with c.
          transitivity (eps * (sgn p * nth p d n0)); [|field; auto].
          rewrite nth_resid by auto. destruct (act p) eqn:Ea; [|rewrite Hdo by auto; ring].
          pose proof (proj2 Hd p Hp) as H1. rewrite (mul_T d p Hp Hdo), Ea, nth_resid, Ea in H1 by auto.
          transitivity (nth p rhs n0 - sum (fun q => if act q then T p q * nth q r n0 else n0) N - sum (fun q => if act q then T p q * nth q d n0 else n0) N); [|rewrite <- H1; ring].
          assert (E : sum (fun q => if act q then T p q * nth q (vadd N r d) n0 else n0) N
            = sum (fun q => if act q then T p q * nth q r n0 else n0) N + sum (fun q => if act q then T p q * nth q d n0 else n0) N); [|rewrite E; ring].
          rewrite <- sum_add. apply sum_ext. intros q Hq. rewrite Hv by auto. destruct (act q); ring.
    Qed.
  End Error.

  (** The adjoint identity: for every vector [r], the inner product of the derivatives with the
      change of the solution is the data slope of [r] plus the inner product of [r]'s residual
      with the change. *)
  Section Adjoint.
    Variables (v delta : list F) (half : F) (below above : F -> bool) (sx sy dx r : list F) (xd yd : nat -> F).
    Hypothesis DP : diagonal v.
    Hypothesis DD : diagonal delta.
    Hypothesis Hhalf : half + half = n1.
    Hypothesis Hdx : length dx = n.
    Notation on := (active_at F below above sy).
    Notation act := (fun k => Nat.ltb k n || on (k - n)).
    Hypothesis HM : moves on v delta sx sy xd yd.
    Notation N := (n + m)%nat.
    Notation T := (kkt_exact F x v).
    Notation rhs := (dx ++ repeat n0 m).
    Notation w := (joint xd yd).

    Lemma lt_true : forall a b, (a < b)%nat -> Nat.ltb a b = true. Proof. intros. apply Nat.ltb_lt. auto. Qed.
    Lemma lt_false : forall a, Nat.ltb (n + a) n = false. Proof. intros. apply Nat.ltb_ge. lia. Qed.

    (** The exact matrix times the change, on the rows taking part. *)
    Lemma Tw_top : forall j, (j < n)%nat -> sum (fun p => if act p then T p j * w p else n0) N
      = - (sum (fun k => fullP delta j k * nth k sx n0) n + cq x delta j + sum (fun i => qA delta i j * nth i sy n0) m).
    Proof.
      intros j Hj. rewrite sum_split. transitivity (sum (fun k => fullP v j k * xd k) n + sum (fun i => qA v i j * yd i) m).
      - f_equal; apply sum_ext; intros k Hk; unfold joint, kkt_exact.
        + rewrite (lt_true k n Hk), (lt_true j n Hj). cbn [orb]. rewrite (full_diag v) by auto. destruct (Nat.eqb_spec j k) as [<-|Hne]; auto. rewrite DP by auto. auto.
        + rewrite lt_false, (lt_true j n Hj). cbn [orb]. replace (n + k - n)%nat with k by lia. destruct (on k) eqn:Eo; auto. rewrite (proj1 (mv_off _ _ _ _ _ _ _ HM k Hk Eo)). ring.
      - pose proof (mv_st _ _ _ _ _ _ _ HM j Hj) as H.
        match goal with H : ?a + ?b = n0 |- ?a = - ?b => transitivity (a + b - b); [ring|rewrite H; ring] end.
    Qed.
    Lemma Tw_bot : forall i, (i < m)%nat -> on i = true -> sum (fun p => if act p then T p (n + i)%nat * w p else n0) N
      = qb delta i - sum (fun j => qA delta i j * nth j sx n0) n.
    Proof.
      intros i Hi Eo. rewrite sum_split. transitivity (sum (fun j => qA v i j * xd j) n + n0).
      - f_equal.
        + apply sum_ext. intros k Hk. unfold joint, kkt_exact. rewrite (lt_true k n Hk), lt_false. cbn [orb]. replace (n + i - n)%nat with i by lia. auto.
        + apply sum_zero. intros k Hk. unfold kkt_exact. rewrite !lt_false. cbn [orb]. destruct (on (n + k - n)); [ring|auto].
      - rewrite <- (mv_on _ _ _ _ _ _ _ HM i Hi Eo). ring.
    Qed.

    Lemma nth_rhs : forall p, nth p rhs n0 = if Nat.ltb p n then nth p dx n0 else n0.
    Proof.
      intro p. destruct (Nat.ltb_spec p n); [rewrite app_nth1 by lia; auto|]. rewrite app_nth2 by lia. apply nth_repeat.
    Qed.

    Theorem adjoint : sum (fun j => nth j dx n0 * xd j) n
      = data_slope F x half below above sx sy r delta + sum (fun p => nth p (resid N act T rhs r) n0 * w p) N.
    Proof.
      assert (E1 : sum (fun p => nth p (resid N act T rhs r) n0 * w p) N
        = sum (fun j => nth j dx n0 * xd j) n - sum (fun q => if act q then nth q r n0 * sum (fun p => if act p then T p q * w p else n0) N else n0) N).
      { transitivity (sum (fun p => nth p rhs n0 * w p) N - sum (fun p => if act p then sum (fun q => if act q then T p q * nth q r n0 else n0) N * w p else n0) N).
        - transitivity (sum (fun p => nth p rhs n0 * w p + (- n1) * (if act p then sum (fun q => if act q then T p q * nth q r n0 else n0) N * w p else n0)) N).
          + apply sum_ext. intros p Hp. rewrite nth_resid by auto. destruct (act p) eqn:Ea; [ring|]. rewrite nth_rhs. apply orb_false_iff in Ea. rewrite (proj1 Ea). ring.
          + rewrite sum_add, sum_mul. ring.
        - f_equal.
          + rewrite sum_split. transitivity (sum (fun j => nth j dx n0 * xd j) n + n0); [|ring]. f_equal.
            * apply sum_ext. intros j Hj. rewrite nth_rhs, (lt_true j n Hj). unfold joint. rewrite (lt_true j n Hj). auto.
            * apply sum_zero. intros i Hi. rewrite nth_rhs, lt_false. ring.
          + transitivity (sum (fun p => sum (fun q => if act p then (if act q then T p q * nth q r n0 * w p else n0) else n0) N) N).
            * apply sum_ext. intros p Hp. destruct (act p) eqn:Ea; [|symmetry; apply sum_zero; auto]. rewrite <- rsum_map_mul_r. apply sum_ext. intros q Hq. destruct (act q); ring.
            * rewrite rsum_swap. apply sum_ext. intros q Hq. destruct (act q) eqn:Ea.
              -- rewrite <- sum_mul. apply sum_ext. intros p Hp. destruct (act p); ring.
              -- apply sum_zero. intros p Hp. destruct (act p); auto. }
      rewrite E1.
      assert (E2 : sum (fun q => if act q then nth q r n0 * sum (fun p => if act p then T p q * w p else n0) N else n0) N = data_slope F x half below above sx sy r delta); [|rewrite E2; ring].
      rewrite sum_split. unfold data_slope.
      assert (ET : sum (fun q => if act q then nth q r n0 * sum (fun p => if act p then T p q * w p else n0) N else n0) n
        = sum (fun j => d_q F r j * cq x delta j) n + sum (fun j => sum (fun i => d_P F half sx r i j * cP x delta i j) n) n
          + sum (fun j => sum (fun i => if on i then - (nth i sy n0 * nth j r n0) * qA delta i j else n0) m) n).
      { rewrite <- !sum_add. apply sum_ext. intros j Hj. rewrite (lt_true j n Hj). cbn [orb]. rewrite (Tw_top j Hj).
        assert (A1 : sum (fun i => d_P F half sx r i j * cP x delta i j) n = - (nth j r n0 * (cP x delta j j * nth j sx n0))).
        { rewrite (sum_one _ n j Hj); [|intros i Hi Hne; rewrite DD by auto; ring]. unfold d_P.
          transitivity (- ((half + half) * (nth j r n0 * (cP x delta j j * nth j sx n0)))); [ring|rewrite Hhalf; ring]. }
        assert (A2 : sum (fun k => fullP delta j k * nth k sx n0) n = cP x delta j j * nth j sx n0).
        { rewrite (sum_one _ n j Hj); [rewrite full_diag, Nat.eqb_refl by auto; auto|]. intros i Hi Hne. rewrite full_diag by auto. destruct (Nat.eqb_spec j i); [congruence|ring]. }
        assert (A3 : sum (fun i => if on i then - (nth i sy n0 * nth j r n0) * qA delta i j else n0) m = - (nth j r n0 * sum (fun i => qA delta i j * nth i sy n0) m)).
        { transitivity ((- nth j r n0) * sum (fun i => qA delta i j * nth i sy n0) m); [|ring]. rewrite <- sum_mul. apply sum_ext. intros i Hi.
          destruct (on i) eqn:Eo; [ring|]. rewrite (proj2 (mv_off _ _ _ _ _ _ _ HM i Hi Eo)). ring. }
        rewrite A1, A2, A3. unfold d_q. ring. }
      assert (EB : sum (fun i => if act (n + i)%nat then nth (n + i)%nat r n0 * sum (fun p => if act p then T p (n + i)%nat * w p else n0) N else n0) m
        = sum (fun i => d_bound F n below above sy r i * (if Nat.ltb i (x_neq x) then - cb x delta i else cb x delta i)) m
          + sum (fun j => sum (fun i => if on i then - (nth (n + i) r n0 * nth j sx n0) * qA delta i j else n0) m) n).
      { rewrite rsum_swap, <- sum_add. apply sum_ext. intros i Hi. rewrite lt_false. cbn [orb]. replace (n + i - n)%nat with i by lia. unfold d_bound.
        destruct (on i) eqn:Eo; [|rewrite sum_zero by auto; ring]. rewrite (Tw_bot i Hi Eo). unfold qb.
        assert (A : sum (fun j => - (nth (n + i) r n0 * nth j sx n0) * qA delta i j) n = - nth (n + i) r n0 * sum (fun j => qA delta i j * nth j sx n0) n)
          by (rewrite <- sum_mul; apply sum_ext; intros; ring).
        rewrite A. ring. }
      match goal with |- ?a + ?b = _ => transitivity (a + b); auto end.
      rewrite ET. rewrite EB.
      assert (EA : sum (fun j => sum (fun i => d_A F n below above sx sy r i j * (if Nat.ltb i (x_neq x) then cA x delta i j else - cA x delta i j)) m) n
        = sum (fun j => sum (fun i => if on i then - (nth i sy n0 * nth j r n0) * qA delta i j else n0) m) n
          + sum (fun j => sum (fun i => if on i then - (nth (n + i) r n0 * nth j sx n0) * qA delta i j else n0) m) n); [|rewrite EA; ring].
      rewrite <- sum_add. apply sum_ext. intros j Hj. rewrite <- sum_add. apply sum_ext. intros i Hi. unfold d_A, GradGen.qA. destruct (on i); ring.
    Qed.
  End Adjoint.

  (** The gradient of the specification against the change of the solution. *)
  Theorem grad_moves : forall eps half below above th sx sy dx dp delta xd yd,
    let v := flat (x_params x) th in
    let on := active_at F below above sy in
    let act k := Nat.ltb k n || on (k - n)%nat in
    grad_of F x half below above eps (th, sx, sy, dx) dp ->
    eps <> n0 -> half + half = n1 -> length dx = n -> diagonal v -> diagonal delta -> nth (length v - 1) delta n0 = n0 ->
    moves on v delta sx sy xd yd ->
    exists s, powers (masked act (kkt_symm F x eps v)) (dx ++ repeat n0 m) 3 s
      /\ sum (fun j => nth j dx n0 * xd j) n
         = ip (length v) dp delta + fpow eps 4 * sum (fun p => sgn p * nth p s n0 * joint xd yd p) (n + m).
  Proof.
    intros eps half below above th sx sy dx dp delta xd yd v on act (HL & r & Hr & Hd) He Hh Hdx DP DD Hl HM.
    assert (Hoff : forall p, (p < n + m)%nat -> act p = false -> nth p (dx ++ repeat n0 m) n0 = n0).
    { intros p Hp Ea. rewrite (nth_rhs dx Hdx). apply orb_false_iff in Ea. rewrite (proj1 Ea). auto. }
    destruct (refined_error v eps act (dx ++ repeat n0 m) DP He Hoff 3 r (proj2 (Hr r) eq_refl)) as (_ & s & Hs & _ & Hres).
    exists s. split; auto. rewrite (adjoint v delta half below above sx sy dx r xd yd DP DD Hh Hdx HM). pose proof (Hd delta Hl) as H1. fold v in H1. rewrite H1. f_equal.
    rewrite <- sum_mul. apply sum_ext. intros p Hp. transitivity (nth p (resid (n + m) act (kkt_exact F x v) (dx ++ repeat n0 m) r) n0 * joint xd yd p); [reflexivity|]. rewrite (Hres p Hp). ring.
  Qed.
End Sens.
