(** The gradient never breaks down on convex problems: the regularised KKT matrix is
    quasidefinite, so every pivot of every matrix the updates go through is nonzero and has
    the sign the square roots need. *)

From Coq Require Import String Arith Bool ZArith Lia List Sorted Permutation Field.
From Verif Require Import Base Machine Runtime RuntimeSpec RuntimeProofs Canon CanonSpec Sparse SparseProofs Ldl LdlRank1 GradSpec LdlMain GradKkt Qdldl GradCall GradSession GradSessionProofs GradGen.
Import ListNotations.
Local Open Scope nat_scope.

(** An ordered field, by its positive elements. *)
Record ordered (F : Fld) (pos : F -> Prop) : Prop := mkPos
  { pos_add : forall x y, pos x -> pos y -> pos (x + y)%num;
    pos_mul : forall x y, pos x -> pos y -> pos (x * y)%num;
    pos_tri : forall x, pos x \/ x = n0 \/ pos (- x)%num;
    pos_0 : ~ pos n0 }.

Section Quasi.
  Variable F : Fld.
  Add Field Fqd : (fth F).
  Variable pos : F -> Prop.
  Hypothesis O : ordered F pos.
  Local Open Scope num_scope.
  Notation sum f k := (rsum (map f (seq 0 k))).
  Notation nonneg z := (z = n0 \/ pos z).

  Lemma pos_1 : pos n1.
  Proof.
    destruct (pos_tri F pos O n1) as [H|[H|H]]; auto.
    - exfalso. apply (F_1_neq_0 (fth F)). exact H.
    - pose proof (pos_mul F pos O _ _ H H) as H2. replace (- n1 * - n1) with (n1 : F) in H2 by ring. auto.
  Qed.
  Lemma nonneg_add : forall x y : F, nonneg x -> nonneg y -> nonneg (x + y).
  Proof.
    intros x y [->|Hx] [->|Hy]; [left; ring|right|right|right; apply (pos_add F pos O); auto].
    - replace (n0 + y) with y by ring. auto.
    - replace (x + n0) with x by ring. auto.
  Qed.
  Lemma pos_nonneg : forall x y : F, pos x -> nonneg y -> pos (x + y).
  Proof. intros x y Hx [->|Hy]; [replace (x + n0) with x by ring; auto|apply (pos_add F pos O); auto]. Qed.
  Lemma sq_nonneg : forall c x : F, pos c -> nonneg (c * (x * x)).
  Proof.
    intros c x Hc. destruct (pos_tri F pos O x) as [H|[->|H]]; [right|left; ring|right]; apply (pos_mul F pos O); auto.
    - apply (pos_mul F pos O); auto.
    - replace (x * x) with (- x * - x) by ring. apply (pos_mul F pos O); auto.
  Qed.
  Lemma sum_nonneg : forall (f : nat -> F) s k, (forall i, (s <= i < s + k)%nat -> nonneg (f i)) -> nonneg (rsum (map f (seq s k))).
  Proof.
    intros f s k. revert s. induction k as [|k IH]; intros s H; [left; auto|]. cbn [seq map]. change (rsum (?a :: ?l)) with (a + rsum l).
    apply nonneg_add; [apply H; lia|]. apply IH. intros i Hi. apply H. lia.
  Qed.
  Lemma sum_pos : forall (f : nat -> F) j s k, (s <= j < s + k)%nat -> (forall i, (s <= i < s + k)%nat -> nonneg (f i)) -> pos (f j) -> pos (rsum (map f (seq s k))).
  Proof.
    intros f j s k. revert s. induction k as [|k IH]; intros s Hj H Hp; [lia|]. cbn [seq map]. change (rsum (?a :: ?l)) with (a + rsum l).
    destruct (Nat.eq_dec j s) as [->|Hne].
    - apply pos_nonneg; auto. apply sum_nonneg. intros i Hi. apply H. lia.
    - replace (f s + rsum (map f (seq (S s) k))) with (rsum (map f (seq (S s) k)) + f s) by ring.
      apply pos_nonneg; [apply IH; auto; [lia|]|apply H; lia]. intros i Hi. apply H. lia.
  Qed.

  Variables n N : nat.
  Hypothesis n_le : (n <= N)%nat.

  (** Symmetric, positive definite on the first [n] coordinates, diagonal and negative on the others. *)
  Record quasi (M : nat -> nat -> F) : Prop := mkQuasi
    { q_sym : forall p q, (p < N)%nat -> (q < N)%nat -> M p q = M q p;
      q_psd : forall v : nat -> F, nonneg (sum (fun i => v i * sum (fun q => M i q * v q) n) n);
      q_pd : forall (v : nat -> F) j, (j < n)%nat -> v j = n1 -> pos (sum (fun i => v i * sum (fun q => M i q * v q) n) n);
      q_diag : exists c : nat -> F, (forall i, pos (c i)) /\ forall p q, (n <= p < N)%nat -> (n <= q < N)%nat -> M p q = if Nat.eqb p q then - c p else n0 }.

  Lemma q_split : forall (f : nat -> F) a m, (a <= m)%nat -> sum f m = sum f a + rsum (map f (seq a (m - a))).
  Proof. intros f a m H. rewrite <- rsum_app, <- map_app, <- seq_app. do 3 f_equal. lia. Qed.

  Theorem quasi_pivot : forall M j d, quasi M -> (j < N)%nat -> pivot N M j d -> if Nat.ltb j n then pos d else pos (- d).
  Proof.
    intros M j d [HS HP HPD (c & Hc & HD)] Hj (v & Vj & Vz & HM).
    assert (E : d = sum (fun i => v i * sum (fun q => M i q * v q) N) N).
    { symmetry. rewrite (@rsum_single F _ N 0%nat j); [rewrite HM, Nat.eqb_refl, Vj by lia; ring|lia|].
      intros i _ Hi. destruct (Nat.lt_ge_cases j i); [rewrite Vz by lia; ring|]. rewrite HM by lia.
      replace (Nat.eqb i j) with false by (symmetry; apply Nat.eqb_neq; auto). ring. }
    set (Q := sum (fun i => v i * sum (fun q => M i q * v q) n) n) in *.
    destruct (Nat.ltb_spec j n) as [Hjn|Hjn].
    - replace d with Q; [apply (HPD v j Hjn Vj)|]. rewrite E. unfold Q. rewrite (q_split _ n N) by auto.
      rewrite (@rsum_zero F _ _ (seq n (N - n))) by (intros i Hi; apply in_seq in Hi; rewrite Vz by lia; ring).
      match goal with |- ?a = ?b + n0 => transitivity b; [|ring] end.
      apply rsum_ext. intros i _. f_equal. symmetry. rewrite (q_split _ n N) by auto.
      rewrite (@rsum_zero F _ _ (seq n (N - n))) by (intros q Hq; apply in_seq in Hq; rewrite Vz by lia; ring). ring.
    - (* below the first block *)
      assert (Z : sum (fun i => v i * sum (fun q => M i q * v q) N) n = n0).
      { apply rsum_zero. intros i Hi. apply in_seq in Hi. rewrite HM by lia. replace (Nat.eqb i j) with false by (symmetry; apply Nat.eqb_neq; lia). ring. }
      set (C := rsum (map (fun i => v i * rsum (map (fun q => M i q * v q) (seq n (N - n)))) (seq 0 n))).
      assert (EQ : Q + C = n0).
      { rewrite <- Z. unfold Q, C. rewrite <- rsum_map_add. apply rsum_ext. intros i _. rewrite (q_split (fun q => M i q * v q) n N) by auto. ring. }
      assert (EC : rsum (map (fun i => v i * sum (fun q => M i q * v q) n) (seq n (N - n))) = C).
      { unfold C.
        rewrite (@rsum_ext F _ _ (fun i => rsum (map (fun q => v i * (M i q * v q)) (seq 0 n)))) by (intros; rewrite rsum_map_mul; auto).
        rewrite rsum_swap. apply rsum_ext. intros q Hq. apply in_seq in Hq. rewrite <- rsum_map_mul. apply rsum_ext. intros i Hi. apply in_seq in Hi.
        rewrite (HS i q) by lia. ring. }
      set (Y := rsum (map (fun i => c i * (v i * v i)) (seq n (N - n)))).
      assert (EY : rsum (map (fun i => v i * rsum (map (fun q => M i q * v q) (seq n (N - n)))) (seq n (N - n))) = - Y).
      { unfold Y. rewrite <- rsum_map_opp. apply rsum_ext. intros i Hi. apply in_seq in Hi.
        rewrite (@rsum_single F _ (N - n) n i); [rewrite HD, Nat.eqb_refl by lia; ring|lia|].
        intros q Hq Hne. rewrite HD by lia. replace (Nat.eqb i q) with false by (symmetry; apply Nat.eqb_neq; auto). ring. }
      assert (Ed : d = C - Y).
      { rewrite E. rewrite (q_split (fun i => v i * sum (fun q => M i q * v q) N) n N) by auto. rewrite Z.
        rewrite (@rsum_ext F _ _ (fun i => v i * sum (fun q => M i q * v q) n + v i * rsum (map (fun q => M i q * v q) (seq n (N - n))))) by
          (intros i _; rewrite (q_split (fun q => M i q * v q) n N) by auto; ring).
        rewrite rsum_map_add, EC, EY. ring. }
      replace (- d) with (Y + Q) by (rewrite Ed; transitivity (Y - C + (Q + C)); [ring|rewrite EQ; ring]).
      apply pos_nonneg; [|apply HP]. apply (sum_pos _ j); [lia| |].
      + intros i _. apply sq_nonneg. auto.
      + rewrite Vj. replace (c j * (n1 * n1)) with (c j) by ring. auto.
  Qed.

  Variable sqr : F -> res F.
  Hypothesis sqr_pos : forall z, pos z -> exists s, sqr z = Ok s.

  Theorem quasi_not_stuck : forall M, quasi M -> ~ stuck n N sqr M.
  Proof.
    intros M HQ [(j & Hj & HP)|(j & d & e & Hj & HP & He)].
    - pose proof (quasi_pivot M j n0 HQ Hj HP) as H. destruct (Nat.ltb j n); apply (pos_0 F pos O); auto.
      replace n0 with (- n0 : F) by ring. auto.
    - pose proof (quasi_pivot M j d HQ (proj2 Hj) HP) as H. replace (Nat.ltb j n) with false in H by (symmetry; apply Nat.ltb_ge; lia).
      destruct (sqr_pos _ H) as [s Es]. congruence.
  Qed.
End Quasi.

(** ** The KKT matrix of a convex problem *)
Section Convex.
  Variable F : Fld.
  Add Field Fcv : (fth F).
  Variable pos : F -> Prop.
  Hypothesis O : ordered F pos.
  Local Open Scope num_scope.
  Variable x : cvx F.
  Notation n := (x_n x).
  Notation m := (x_neq x + x_nineq x)%nat.
  Notation sum f k := (rsum (map f (seq 0 k))).

  (** CVXPY stores the upper triangle of the symmetric matrix P. *)
  Definition fullP (v : list F) (i j : nat) : F := if Nat.leb i j then cP x v i j else cP x v j i.
  (** The quadratic form z^T P z is never negative: the objective is convex at the parameter
      values [v]. *)
  Definition convex_at (v : list F) : Prop := forall z : nat -> F,
    let s := sum (fun i => z i * sum (fun j => fullP v i j * z j) n) n in s = n0 \/ pos s.

  Variable eps : F.
  Hypothesis eps_pos : pos eps.

  Lemma symm_sym : forall v p q, kkt_symm F x eps v p q = kkt_symm F x eps v q p.
  Proof.
    intros v p q. unfold kkt_symm. destruct (Nat.leb_spec p q), (Nat.leb_spec q p); auto; [|lia]. replace q with p by lia. auto.
  Qed.
  Lemma symm_P : forall v p q, (p < n)%nat -> (q < n)%nat -> kkt_symm F x eps v p q = fullP v p q + (if Nat.eqb p q then eps else n0).
  Proof.
    intros v p q Hp Hq. unfold kkt_symm, kkt_upper, fullP. destruct (Nat.leb_spec p q).
    - destruct (Nat.ltb_spec q n); [auto|lia].
    - destruct (Nat.ltb_spec p n); [|lia]. rewrite (Nat.eqb_sym q p). auto.
  Qed.

  Theorem kkt_quasi : forall v act, convex_at v -> (forall k, (k < n)%nat -> act k = true) ->
    quasi F pos n (n + m) (masked act (kkt_symm F x eps v)).
  Proof.
    intros v act HC Ha.
    assert (E : forall z : nat -> F, sum (fun i => z i * sum (fun q => masked act (kkt_symm F x eps v) i q * z q) n) n
      = sum (fun i => z i * sum (fun j => fullP v i j * z j) n) n + sum (fun i => eps * (z i * z i)) n).
    { intro z. rewrite <- rsum_map_add. apply rsum_ext. intros i Hi. apply in_seq in Hi.
      transitivity (z i * (sum (fun j => fullP v i j * z j) n + sum (fun j => (if Nat.eqb i j then eps else n0) * z j) n)).
      - f_equal. rewrite <- rsum_map_add. apply rsum_ext. intros q Hq. apply in_seq in Hq. unfold masked. rewrite !Ha by lia. cbn [andb].
        rewrite symm_P by lia. ring.
      - rewrite (@rsum_single F (fun j => (if Nat.eqb i j then eps else n0) * z j) n 0%nat i); [cbv beta; rewrite ?Nat.eqb_refl; ring|lia|]. intros q _ Hq.
        replace (Nat.eqb i q) with false by (symmetry; apply Nat.eqb_neq; auto). ring. }
    assert (HS : forall (z : nat -> F) i, eps * (z i * z i) = n0 \/ pos (eps * (z i * z i))) by (intros; apply (sq_nonneg F pos O); auto).
    constructor.
    - intros p q _ _. unfold masked. rewrite (andb_comm (act q)). destruct (act p && act q); [apply symm_sym|]. rewrite Nat.eqb_sym. auto.
    - intro z. rewrite E. apply (nonneg_add F pos O); [apply HC|]. apply (sum_nonneg F pos O). intros i _. apply HS.
    - intros z j Hj Hz. rewrite E.
      replace (_ + _) with (sum (fun i => eps * (z i * z i)) n + sum (fun i => z i * sum (fun j0 => fullP v i j0 * z j0) n) n) by ring.
      apply (pos_nonneg F pos O); [|apply HC]. apply (sum_pos F pos O _ j); [lia|intros i _; apply HS|].
      rewrite Hz. replace (eps * (n1 * n1)) with eps by ring. auto.
    - exists (fun i => if act i then eps else n1). split; [intro i; destruct (act i); auto using (pos_1 F pos O)|].
      intros p q Hp Hq. unfold masked, kkt_symm, kkt_upper. destruct (Nat.eqb_spec p q) as [<-|Hne].
      + rewrite andb_diag. destruct (act p); auto. rewrite Nat.leb_refl. destruct (Nat.ltb_spec p n); [lia|]. rewrite ?Nat.eqb_refl. auto.
      + destruct (act p && act q); auto. destruct (Nat.leb p q).
        * destruct (Nat.ltb_spec q n); [lia|]. destruct (Nat.ltb_spec p n); [lia|]. auto.
        * destruct (Nat.ltb_spec p n); [lia|]. destruct (Nat.ltb_spec q n); [lia|]. replace (Nat.eqb q p) with false by (symmetry; apply Nat.eqb_neq; auto). auto.
  Qed.

  Variable sqr : F -> res F.
  Hypothesis sqr_pos : forall z, pos z -> exists s, sqr z = Ok s.

  Theorem convex_admits : forall v, convex_at v -> admits n (n + m) sqr none (kkt_symm F x eps v).
  Proof.
    intros v HC act Ha HS. exfalso. apply (quasi_not_stuck F pos O n (n + m) ltac:(lia) sqr sqr_pos _ (kkt_quasi v act HC Ha) HS).
  Qed.
End Convex.
