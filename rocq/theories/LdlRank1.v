(** Exactness of the rank-one modification. *)

From Coq Require Import Arith Bool ZArith Lia List Sorted Field.
From Verif Require Import Base Machine Runtime RuntimeProofs Sparse SparseProofs Ldl GradSpec.
Import ListNotations.

Definition arith (e : exn) : Prop := e = Arith.

Lemma run_get : forall E A B (l : list A) k a (g : A -> res B) Q,
  nth_error l k = Some a -> run E (g a) Q -> run E (bind (get l k) g) Q.
Proof. intros. rewrite (get_nth _ _ _ _ H). auto. Qed.
Lemma run_put : forall E A B (l : list A) k v (g : list A -> res B) Q,
  k < length l -> run E (g (upd l k v)) Q -> run E (bind (put l k v) g) Q.
Proof. intros. rewrite put_ok by auto. auto. Qed.
Lemma run_put' : forall E A (l : list A) k v (Q : list A -> Prop), k < length l -> Q (upd l k v) -> run E (put l k v) Q.
Proof. intros. rewrite put_ok by auto. auto. Qed.

(** Arrays seen as functions. *)
Definition arr {A} (N : nat) (l : list A) (f : nat -> A) : Prop :=
  length l = N /\ forall i, i < N -> nth_error l i = Some (f i).
Definition fset {A} (f : nat -> A) (k : nat) (v : A) : nat -> A := fun i => if Nat.eqb i k then v else f i.

Lemma fset_eq : forall A (f : nat -> A) k v, fset f k v k = v.
Proof. intros. unfold fset. rewrite Nat.eqb_refl. auto. Qed.
Lemma fset_neq : forall A (f : nat -> A) k v i, i <> k -> fset f k v i = f i.
Proof. intros. unfold fset. apply Nat.eqb_neq in H. rewrite H. auto. Qed.
Lemma arr_upd : forall A N (l : list A) f k v, arr N l f -> k < N -> arr N (upd l k v) (fset f k v).
Proof.
  intros A N l f k v [H1 H2] Hk. split; [rewrite upd_length; auto|]. intros i Hi. rewrite nth_error_upd by lia.
  unfold fset. destruct (Nat.eqb i k); auto.
Qed.
Lemma arr_ext : forall A N (l : list A) f g, arr N l f -> (forall i, i < N -> f i = g i) -> arr N l g.
Proof. intros A N l f g [H1 H2] H. split; auto. intros i Hi. rewrite H2, H; auto. Qed.
Lemma arr_of : forall A N (l : list A) d, length l = N -> arr N l (fun i => nth i l d).
Proof. intros A N l d H. split; auto. intros i Hi. apply nth_error_nth'. lia. Qed.

Definition mem (i : nat) (l : list nat) : bool := existsb (Nat.eqb i) l.
Lemma mem_in : forall i l, mem i l = true <-> In i l.
Proof.
  intros i l. unfold mem. rewrite existsb_exists. split.
  - intros (x & H & E). apply Nat.eqb_eq in E. subst. auto.
  - intro H. exists i. split; auto. apply Nat.eqb_refl.
Qed.
Lemma mem_nin : forall i l, mem i l = false <-> ~ In i l.
Proof. intros i l. rewrite <- mem_in. destruct (mem i l); split; intro; congruence. Qed.
Lemma firstn_S_nth : forall A (l : list A) t r, nth_error l t = Some r -> firstn (S t) l = firstn t l ++ [r].
Proof.
  induction l as [|a l IH]; intros t r H; destruct t; simpl in *; try discriminate.
  - inversion H; auto.
  - f_equal. apply IH. auto.
Qed.
Lemma mem_firstn_S : forall l t r i, nth_error l t = Some r -> mem i (firstn (S t) l) = mem i (firstn t l) || Nat.eqb i r.
Proof.
  intros l t r i H. rewrite (firstn_S_nth _ _ _ _ H). unfold mem. rewrite existsb_app. simpl. rewrite orb_false_r. auto.
Qed.
Lemma SS_NoDup : forall l, StronglySorted lt l -> NoDup l.
Proof.
  induction l; intro H; constructor; inversion H; subst; auto. intro Hin. rewrite Forall_forall in H3. apply H3 in Hin. lia.
Qed.
Lemma NoDup_firstn_nth : forall (l : list nat) t r, NoDup l -> nth_error l t = Some r -> mem r (firstn t l) = false.
Proof.
  intros l t r HN H. apply mem_nin. intro Hin. rewrite <- (firstn_skipn (S t) l), (firstn_S_nth _ _ _ _ H), <- app_assoc in HN.
  apply NoDup_remove_2 in HN. apply HN. apply in_or_app. auto.
Qed.

Section Rank1.
  Variable F : Fld.
  Add Field Ff : (fth F).
  Variable N : nat.
  Variable pat : nat -> list nat.
  Hypothesis pat_sorted : forall j, StronglySorted lt (pat j).
  Hypothesis pat_lower : forall j i, In i (pat j) -> j < i < N.
  (** The errors that may happen. *)
  Variable Er : exn -> Prop.
  Local Open Scope num_scope.

  Definition cols (Lv : nat -> nat -> F) : list (list (nat * F)) :=
    map (fun j => map (fun i => (i, Lv i j)) (pat j)) (seq 0 N).
  (** The arrays hold the values [Lv] on the pattern. *)
  Definition vrep (L : csc F) (Lv : nat -> nat -> F) : Prop := rep N L (cols Lv).
  Definition norm (Lv : nat -> nat -> F) : Prop := forall i j, ~ In i (pat j) -> Lv i j = n0.
  Definition un (Lv : nat -> nat -> F) (i j : nat) : F := if Nat.eqb i j then n1 else Lv i j.
  Definition fup (Lv : nat -> nat -> F) (r j : nat) (v : F) : nat -> nat -> F :=
    fun i k => if Nat.eqb i r && Nat.eqb k j then v else Lv i k.

  Lemma nth_cols : forall Lv j, j < N -> nth j (cols Lv) [] = map (fun i => (i, Lv i j)) (pat j).
  Proof.
    intros Lv j H. unfold cols. apply nth_error_nth. rewrite nth_error_map, (nth_error_nth' _ 0%nat) by (rewrite seq_length; auto).
    rewrite seq_nth by auto. auto.
  Qed.
  Lemma vrep_ext : forall L Lv Lv', vrep L Lv -> (forall j i, j < N -> In i (pat j) -> Lv i j = Lv' i j) -> vrep L Lv'.
  Proof.
    intros L Lv Lv' H E. unfold vrep in *. replace (cols Lv') with (cols Lv); auto.
    apply map_ext_in. intros j Hj. apply in_seq in Hj. apply map_ext_in. intros i Hi. rewrite E; auto. lia.
  Qed.
  Lemma vrep_p : forall L Lv j, vrep L Lv -> (j <= N)%nat -> nth_error (c_p L) j = Some (cstart L j).
  Proof. intros L Lv j H Hj. apply nth_error_nth'. rewrite (r_pl _ _ _ _ H). lia. Qed.
  Lemma vrep_end : forall L Lv j, vrep L Lv -> j < N -> cstart L (j + 1) = (cstart L j + length (pat j))%nat.
  Proof. intros L Lv j H Hj. rewrite (r_ps _ _ _ _ H) by auto. rewrite nth_cols by auto. rewrite map_length. auto. Qed.
  Lemma vrep_ent : forall L Lv j t r, vrep L Lv -> j < N -> nth_error (pat j) t = Some r ->
    nth_error (c_i L) (cstart L j + t) = Some r /\ nth_error (c_x L) (cstart L j + t) = Some (Lv r j).
  Proof.
    intros L Lv j t r H Hj Ht. apply (r_ent _ _ _ _ H); auto. rewrite nth_cols by auto.
    rewrite nth_error_map, Ht. auto.
  Qed.
  Lemma vrep_put : forall L Lv j t r v, vrep L Lv -> j < N -> nth_error (pat j) t = Some r ->
    (cstart L j + t < length (c_x L))%nat /\ vrep (set_x L (upd (c_x L) (cstart L j + t) v)) (fup Lv r j v).
  Proof.
    intros L Lv j t r v H Hj Ht. split.
    - eapply nth_err_some. apply (vrep_ent L Lv j t r H Hj Ht).
    - unfold vrep. assert (Hc : nth_error (nth j (cols Lv) []) t = Some (r, Lv r j)).
      { rewrite nth_cols by auto. rewrite nth_error_map, Ht. auto. }
      pose proof (rep_set F N L (cols Lv) j t r (Lv r j) v H Hj Hc) as R.
      replace (cols (fup Lv r j v)) with (upd (cols Lv) j (upd (nth j (cols Lv) []) t (r, v))); auto.
      assert (Hl : length (cols Lv) = N) by (unfold cols; rewrite map_length, seq_length; auto).
      apply nth_ext_len with (d := []).
      + rewrite upd_length. unfold cols. rewrite !map_length. auto.
      + rewrite upd_length, Hl. intros k Hk. rewrite (nth_cols (fup Lv r j v)) by auto.
        destruct (Nat.eq_dec k j) as [->|Hne].
        * rewrite nth_upd_eq by lia. rewrite nth_cols by auto.
          assert (G : forall l t, NoDup l -> nth_error l t = Some r ->
                   upd (map (fun i => (i, Lv i j)) l) t (r, v) = map (fun i => (i, fup Lv r j v i j)) l).
          { induction l as [|a l IH]; intros t0 HN H0; destruct t0; simpl in *; try discriminate.
            - inversion H0; subst. f_equal.
              + unfold fup. rewrite !Nat.eqb_refl. auto.
              + apply map_ext_in. intros i Hi. unfold fup. destruct (Nat.eqb_spec i r); auto. subst. inversion HN; contradiction.
            - inversion HN; subst. f_equal; auto. unfold fup. destruct (Nat.eqb_spec a r); auto. subst.
              apply nth_error_In in H0. contradiction. }
          apply G; auto. apply SS_NoDup. auto.
        * rewrite nth_upd_neq by auto. rewrite nth_cols by auto. apply map_ext. intro i. unfold fup.
          apply Nat.eqb_neq in Hne. rewrite Hne, andb_false_r. auto.
  Qed.
  Lemma norm_fup : forall Lv r j v, norm Lv -> In r (pat j) -> norm (fup Lv r j v).
  Proof.
    intros Lv r j v H Hin i k Hn. unfold fup. destruct (Nat.eqb_spec i r), (Nat.eqb_spec k j); subst; simpl; auto. contradiction.
  Qed.
  Lemma norm_upper : forall Lv i j, norm Lv -> (i <= j)%nat -> Lv i j = n0.
  Proof. intros Lv i j H Hij. apply H. intro Hin. apply pat_lower in Hin. lia. Qed.

  (** Loop over the entries of one column. *)
  Lemma run_col : forall S (I : nat -> S -> Prop) f j st s, j < N -> I 0%nat s ->
    (forall t r s, nth_error (pat j) t = Some r -> I t s -> run Er (f (st + t)%nat s) (I (Datatypes.S t))) ->
    run Er (for_ (length (pat j)) st f s) (I (length (pat j))).
  Proof.
    intros S I f j st s Hj H0 HS.
    replace (length (pat j)) with (st + length (pat j) - st)%nat at 2 by lia.
    apply (run_for Er S (fun k => I (k - st)%nat)).
    - rewrite Nat.sub_diag. auto.
    - intros k s' Hk HI. destruct (nth_err_lt _ (pat j) (k - st) ltac:(lia)) as (r & Hr).
      replace k with (st + (k - st))%nat at 1 by lia. replace (Datatypes.S k - st)%nat with (Datatypes.S (k - st)) by lia. eapply HS; eauto.
  Qed.

  Definition col_L (sg : F) (j : nat) (Lv : nat -> nat -> F) (wf : nat -> F) (rows : list nat) : nat -> nat -> F :=
    fun i k => if Nat.eqb k j && mem i rows then Lv i j + sg * (wf i - wf j * Lv i j) else Lv i k.
  Definition col_w (j : nat) (Lv : nat -> nat -> F) (wf : nat -> F) (rows : list nat) : nat -> F :=
    fun i => if mem i rows then wf i - wf j * Lv i j else wf i.

  Lemma rank1_col_ok : forall sigma g j L w Lv wf, vrep L Lv -> arr N w wf -> j < N ->
    run Er (rank1_col F sigma g j L w)
      (fun '(L', w') => vrep L' (col_L (sigma * g) j Lv wf (pat j)) /\ arr N w' (col_w j Lv wf (pat j))).
  Proof.
    intros sigma g j L w Lv wf HL Hw Hj. unfold rank1_col.
    eapply run_get; [eapply vrep_p; eauto; lia|]. eapply run_get; [eapply vrep_p; eauto; lia|].
    rewrite (vrep_end L Lv j HL Hj). replace (cstart L j + length (pat j) - cstart L j)%nat with (length (pat j)) by lia.
    set (I := fun t (st : csc F * list F) => let '(L', w') := st in
       c_p L' = c_p L /\ vrep L' (col_L (sigma * g) j Lv wf (firstn t (pat j))) /\ arr N w' (col_w j Lv wf (firstn t (pat j)))).
    eapply run_imp with (P := I (length (pat j))).
    2:{ intros [L' w']. unfold I. rewrite firstn_all. tauto. }
    apply run_col; auto.
    - simpl. split; auto. split.
      + eapply vrep_ext; eauto. intros. unfold col_L. simpl. rewrite andb_false_r. auto.
      + eapply arr_ext; eauto.
    - intros t r [L1 w1] Hr (Hp & HL1 & Hw1).
      assert (Hst : cstart L1 j = cstart L j) by (unfold cstart; rewrite Hp; auto).
      pose proof (nth_error_In _ _ Hr) as Hin. pose proof (pat_lower _ _ Hin) as Hlow.
      destruct (vrep_ent L1 _ j t r HL1 Hj Hr) as [Hi Hx]. rewrite Hst in Hi, Hx.
      assert (Hnr : mem r (firstn t (pat j)) = false) by (apply NoDup_firstn_nth; auto; apply SS_NoDup; auto).
      assert (Hnj : mem j (firstn t (pat j)) = false).
      { apply mem_nin. intro H. assert (In j (pat j)) by (rewrite <- (firstn_skipn t (pat j)); apply in_or_app; auto).
        apply pat_lower in H0. lia. }
      eapply run_get; [exact Hi|]. replace (Nat.ltb j r) with true by (symmetry; apply Nat.ltb_lt; lia).
      eapply run_get; [apply (proj2 Hw1); lia|]. eapply run_get; [apply (proj2 Hw1); lia|]. eapply run_get; [exact Hx|].
      assert (E1 : col_w j Lv wf (firstn t (pat j)) r = wf r) by (unfold col_w; rewrite Hnr; auto).
      assert (E2 : col_w j Lv wf (firstn t (pat j)) j = wf j) by (unfold col_w; rewrite Hnj; auto).
      assert (E3 : col_L (sigma * g) j Lv wf (firstn t (pat j)) r j = Lv r j) by (unfold col_L; rewrite Hnr, andb_false_r; auto).
      rewrite E1, E2, E3. cbn zeta.
      eapply run_put; [rewrite (proj1 Hw1); lia|].
      destruct (vrep_put L1 _ j t r (Lv r j + sigma * g * (wf r - wf j * Lv r j)) HL1 Hj Hr) as [Hlt Hv]. rewrite Hst in Hlt, Hv.
      eapply run_put; [exact Hlt|]. cbn [run]. split; [auto|]. split.
      + eapply vrep_ext; [exact Hv|]. intros k i Hk Hik. unfold fup, col_L. rewrite (mem_firstn_S _ _ _ _ Hr).
        destruct (Nat.eqb_spec i r), (Nat.eqb_spec k j); subst; cbn [andb]; rewrite ?Hnr; cbn [orb]; auto. rewrite orb_false_r. auto.
      + eapply arr_ext; [apply arr_upd; [exact Hw1|lia]|]. intros i Hi'. unfold fset, col_w. rewrite (mem_firstn_S _ _ _ _ Hr).
        destruct (Nat.eqb_spec i r); subst; rewrite ?Hnr; cbn [orb]; auto. rewrite orb_false_r. auto.
  Qed.

  (** *** The update *)
  Definition gram (o n : nat) (Lv : nat -> nat -> F) (D : nat -> F) (p q : nat) : F :=
    rsum (map (fun k => un Lv p k * D k * un Lv q k) (seq o n)).

  Lemma rsum_change : forall (f g : nat -> F) j n o, (o <= j < o + n)%nat -> (forall k, k <> j -> f k = g k) ->
    rsum (map f (seq o n)) + g j = rsum (map g (seq o n)) + f j.
  Proof.
    intros f g j. induction n as [|n IH]; intros o Hj H; [lia|]. cbn [seq map]. change (rsum (?a :: ?l)) with (a + rsum l).
    destruct (Nat.eq_dec o j) as [->|Hne].
    - replace (rsum (map f (seq (S j) n))) with (rsum (map g (seq (S j) n))); [simpl; ring|].
      apply rsum_ext. intros k Hk. apply in_seq in Hk. symmetry. apply H. lia.
    - rewrite (H o Hne). specialize (IH (S o) ltac:(lia) H). simpl.
      transitivity (g o + (rsum (map f (seq (S o) n)) + g j)); [ring|]. rewrite IH. ring.
  Qed.

  Lemma nz_mul : forall a b : F, a <> n0 -> b <> n0 -> a * b <> n0.
  Proof.
    intros a b Ha Hb H. apply Hb. transitivity (finv a * (a * b)); [field; auto|]. rewrite H. ring.
  Qed.
  Lemma nz_mul_l : forall a b : F, a * b <> n0 -> a <> n0.
  Proof. intros a b H ->. apply H. ring. Qed.
  Lemma nz_mul_r : forall a b : F, a * b <> n0 -> b <> n0.
  Proof. intros a b H ->. apply H. ring. Qed.

  Lemma run_div : forall B a b (g : F -> res B) Q, (b = n0 -> Er Arith) -> (b <> n0 -> run Er (g (a / b)) Q) -> run Er (bind (div F a b) g) Q.
  Proof.
    intros B a b g Q HE H. unfold div. destruct (rz b) eqn:Eb; [apply HE; apply rz_spec; auto|]. apply H. intro E0. apply rz_spec in E0. congruence.
  Qed.

  (** One column step, as an identity of numbers. *)
  Lemma step_identity : forall sigma a d wj lp lq vp vq : F, d <> n0 -> a <> n0 -> a + sigma * wj * wj / d <> n0 ->
    let abar := a + sigma * wj * wj / d in
    let g := wj / (d * abar) in
    (d * (abar / a)) * (lp + sigma * g * vp) * (lq + sigma * g * vq) + sigma / abar * vp * vq
    = d * lp * lq + sigma / a * (vp + wj * lp) * (vq + wj * lq).
  Proof.
    intros sigma a d wj lp lq vp vq Hd Ha Hb abar g.
    assert (Hb' : a * d + sigma * wj * wj <> n0).
    { intro E. apply Hb. replace (a + sigma * wj * wj / d) with ((a * d + sigma * wj * wj) / d) by (field; auto). rewrite E. field. auto. }
    assert (E1 : d * (abar / a) = d + sigma / a * wj * wj) by (unfold abar; field; auto).
    assert (E2 : d * (abar / a) * (sigma * g) = sigma / a * wj).
    { unfold g, abar. field. repeat split; auto. }
    assert (E3 : d * (abar / a) * (sigma * g) * (sigma * g) + sigma / abar = sigma / a).
    { unfold g, abar. field. repeat split; auto. }
    transitivity (d * (abar / a) * lp * lq + d * (abar / a) * (sigma * g) * (lp * vq + lq * vp)
                  + (d * (abar / a) * (sigma * g) * (sigma * g) + sigma / abar) * (vp * vq)); [ring|].
    rewrite E3, E2, E1. ring.
  Qed.

  Hypothesis pat_closed : forall j i k, In i (pat j) -> In k (pat j) -> i < k -> In k (pat i).

  Definition wplus (j : nat) (wf : nat -> F) (p : nat) : F := if Nat.leb j p then wf p else n0.
  (** Where [w] is nonzero the pattern is full. *)
  Definition clique (j : nat) (wf : nat -> F) : Prop :=
    forall p q, (j <= p)%nat -> p < q -> q < N -> ~ In q (pat p) -> wf p = n0 \/ wf q = n0.

  Lemma f_dec : forall x : F, {x = n0} + {x <> n0}.
  Proof.
    intro x. destruct (rz x) eqn:E; [left; apply rz_spec; auto|right; intro H; apply rz_spec in H; congruence].
  Qed.

  (** Back substitution: a vector given from place [lo] on is continued so that the earlier
      columns of the factor are orthogonal to it. *)
  Lemma back : forall (Lv : nat -> nat -> F) lo, (lo <= N)%nat -> (forall i k, (i <= k)%nat -> Lv i k = n0) ->
    forall v : nat -> F, exists u : nat -> F, (forall i, (lo <= i)%nat -> u i = v i)
      /\ forall k, (k < lo)%nat -> rsum (map (fun i => un Lv i k * u i) (seq 0 N)) = n0.
  Proof.
    intros Lv lo Hlo Hup. induction lo as [|lo IH]; intro v.
    - exists v. split; auto. intros. lia.
    - set (t := - rsum (map (fun i => if Nat.ltb lo i then Lv i lo * v i else n0) (seq 0 N))).
      destruct (IH ltac:(lia) (fset v lo t)) as (u & Hu & Hu0). exists u. split.
      + intros i Hi. rewrite Hu by lia. apply fset_neq. lia.
      + intros k Hk. destruct (Nat.eq_dec k lo) as [->|Hne]; [|apply Hu0; lia].
        pose proof (rsum_change (fun i => un Lv i lo * u i) (fun i => if Nat.ltb lo i then Lv i lo * v i else n0) lo N 0 ltac:(lia)) as C.
        cbn beta in C. rewrite (Hu lo) in C by lia. rewrite fset_eq, Nat.ltb_irrefl in C.
        assert (Eu : un Lv lo lo = n1) by (unfold un; rewrite Nat.eqb_refl; auto). rewrite Eu in C.
        transitivity (rsum (map (fun i => un Lv i lo * u i) (seq 0 N)) + n0); [ring|]. rewrite C; [unfold t; ring|].
        intros i Hne. unfold un. replace (Nat.eqb i lo) with false by (symmetry; apply Nat.eqb_neq; auto).
        destruct (Nat.ltb_spec lo i); [rewrite Hu, fset_neq by lia; auto|rewrite Hup by lia; ring].
  Qed.

  (** *** Sums over all columns *)
  Lemma gram_split : forall o Lv D p q, (o <= N)%nat -> gram 0 N Lv D p q = gram 0 o Lv D p q + gram o (N - o) Lv D p q.
  Proof.
    intros o Lv D p q H. unfold gram. replace N with (o + (N - o))%nat at 1 by lia. rewrite seq_app, map_app, rsum_app. auto.
  Qed.
  Lemma gram_high : forall o Lv D p q, norm Lv -> (p < o \/ q < o)%nat -> gram o (N - o) Lv D p q = n0.
  Proof.
    intros o Lv D p q Hn H. apply rsum_zero. intros k Hk. apply in_seq in Hk.
    assert (Z : forall r, (r < o)%nat -> un Lv r k = n0).
    { intros r Hr. unfold un. replace (Nat.eqb r k) with false by (symmetry; apply Nat.eqb_neq; lia).
      apply (norm_upper Lv r k Hn). lia. }
    destruct H as [H|H]; rewrite (Z _ H); ring.
  Qed.

  (** The vector found by back substitution sees only the pivot. *)
  Lemma gram_back : forall (Lv : nat -> nat -> F) D j, j < N -> norm Lv ->
    exists u : nat -> F, u j = n1 /\ (forall q, (j < q)%nat -> u q = n0)
      /\ forall i, (i <= j)%nat -> rsum (map (fun q => gram 0 N Lv D i q * u q) (seq 0 N)) = if Nat.eqb i j then D j else n0.
  Proof.
    intros Lv D j Hj Hn.
    destruct (back Lv j ltac:(lia) (fun i k H => norm_upper Lv i k Hn H) (fun i => if Nat.eqb i j then n1 else n0)) as (u & Hu & Hu0).
    assert (Huj : u j = n1) by (rewrite Hu, Nat.eqb_refl by lia; auto).
    assert (Hup : forall q, (j < q)%nat -> u q = n0).
    { intros q Hq. rewrite Hu by lia. replace (Nat.eqb q j) with false by (symmetry; apply Nat.eqb_neq; lia). auto. }
    exists u. split; [auto|]. split; [auto|].
    intros i Hi. unfold gram.
    rewrite (@rsum_ext F _ _ (fun q => rsum (map (fun k => un Lv i k * D k * (un Lv q k * u q)) (seq 0 N)))).
    2: { intros q _. rewrite <- rsum_map_mul_r. apply rsum_ext. intros k _. ring. }
    rewrite rsum_swap.
    rewrite (@rsum_single F _ N 0%nat j); [|lia|].
    - rewrite rsum_map_mul. rewrite (@rsum_single F _ N 0%nat j); [|lia|].
      + rewrite Huj. unfold un. rewrite Nat.eqb_refl. destruct (Nat.eqb_spec i j); [ring|]. rewrite (norm_upper Lv i j Hn) by lia. ring.
      + intros q _ Hq. destruct (Nat.lt_ge_cases j q); [rewrite Hup by lia; ring|].
        unfold un. replace (Nat.eqb q j) with false by (symmetry; apply Nat.eqb_neq; auto). rewrite (norm_upper Lv q j Hn) by lia. ring.
    - intros k Hk Hne. rewrite rsum_map_mul. destruct (Nat.lt_ge_cases k j).
      + rewrite Hu0 by lia. ring.
      + unfold un at 1. replace (Nat.eqb i k) with false by (symmetry; apply Nat.eqb_neq; lia). rewrite (norm_upper Lv i k Hn) by lia. ring.
  Qed.
  Lemma pivot_ext : forall (M M' : nat -> nat -> F) j d, j < N -> (forall p q, p < N -> q < N -> M p q = M' p q) -> pivot N M j d -> pivot N M' j d.
  Proof.
    intros M M' j d Hj HM (u & A & B & C). exists u. split; [auto|]. split; [auto|]. intros i Hi. rewrite <- (C i Hi).
    apply rsum_ext. intros q Hq. apply in_seq in Hq. rewrite HM by lia. auto.
  Qed.
  Lemma gram_pivot : forall (Lv : nat -> nat -> F) D j (M : nat -> nat -> F), j < N -> norm Lv ->
    (forall p q, (p <= j)%nat -> (q <= j)%nat -> gram 0 N Lv D p q = M p q) -> pivot N M j (D j).
  Proof.
    intros Lv D j M Hj Hn HM. destruct (gram_back Lv D j Hj Hn) as (u & A & B & C). exists u. split; [auto|]. split; [auto|].
    intros i Hi. rewrite <- (C i Hi). apply rsum_ext. intros q Hq. apply in_seq in Hq.
    destruct (Nat.lt_ge_cases j q) as [Hjq|Hjq]; [rewrite B by lia; ring|]. rewrite HM by lia. auto.
  Qed.
  (** A rank-one step that cannot be taken means that the modified matrix has a zero pivot. *)
  Lemma step_pivot : forall (Lv : nat -> nat -> F) D j sg (wf : nat -> F) (M : nat -> nat -> F), j < N -> norm Lv ->
    (forall p q, p < N -> q < N -> gram 0 N Lv D p q + sg * wplus j wf p * wplus j wf q = M p q) ->
    pivot N M j (D j + sg * wf j * wf j).
  Proof.
    intros Lv D j sg wf M Hj Hn HM. destruct (gram_back Lv D j Hj Hn) as (u & A & B & C). exists u. split; [auto|]. split; [auto|].
    intros i Hi.
    rewrite (@rsum_ext F _ _ (fun q => gram 0 N Lv D i q * u q + sg * wplus j wf i * (wplus j wf q * u q))).
    2: { intros q Hq. apply in_seq in Hq. rewrite <- HM by lia. ring. }
    rewrite rsum_map_add, (C i Hi), rsum_map_mul, (@rsum_single F _ N 0%nat j); [|lia|].
    - unfold wplus. rewrite A, Nat.leb_refl. destruct (Nat.eqb_spec i j) as [->|Hne]; [rewrite Nat.leb_refl; ring|].
      replace (Nat.leb j i) with false by (symmetry; apply Nat.leb_gt; lia). ring.
    - intros q _ Hq. destruct (Nat.lt_ge_cases j q); [rewrite B by lia; ring|].
      unfold wplus. replace (Nat.leb j q) with false by (symmetry; apply Nat.leb_gt; lia). ring.
  Qed.

  Theorem rank1_ok : forall (dead : nat -> Prop) sigma off L D Dinv w Lv Df Di wf,
    (off <= N)%nat -> vrep L Lv -> norm Lv -> arr N D Df -> arr N Dinv Di -> arr N w wf -> clique off wf ->
    (forall k, k < N -> Di k * Df k = n1) ->
    (forall m k, dead m -> off <= m < N -> wf m = n0 /\ Lv m k = n0 /\ Lv k m = n0) ->
    (forall j, j < N -> pivot N (fun p q => gram 0 N Lv Df p q + sigma * wplus off wf p * wplus off wf q) j n0 -> Er Arith) ->
    run Er (rank1 F N sigma off L D Dinv w) (fun '(L', D', Dinv', w') => exists Lv' Df' Di',
      vrep L' Lv' /\ norm Lv' /\ arr N D' Df' /\ arr N Dinv' Di' /\ length w' = N
      /\ (forall k, k < N -> Di' k * Df' k = n1)
      /\ (forall p q, off <= p < N -> off <= q < N ->
            gram off (N - off) Lv' Df' p q = gram off (N - off) Lv Df p q + sigma * wf p * wf q)
      /\ (forall k, (k < off)%nat -> Df' k = Df k /\ forall i, Lv' i k = Lv i k)
      /\ (forall m k, dead m -> off <= m < N -> Df' m = Df m /\ (off <= k -> Lv' m k = n0) /\ Lv' k m = n0)).
  Proof.
    intros dead sigma off L D Dinv w Lv Df Di wf Hoff HL Hn HD HDi Hw Hcl Hinv Hdead HE. unfold rank1.
    set (I := fun j (st : F * csc F * list F * list F * list F) => let '(a, L', D', Dinv', w') := st in
      a <> n0 /\ exists Lv' Df' Di' wf',
      vrep L' Lv' /\ norm Lv' /\ arr N D' Df' /\ arr N Dinv' Di' /\ arr N w' wf' /\ clique j wf'
      /\ (forall k, k < N -> Di' k * Df' k = n1)
      /\ (forall p q, off <= p < N -> off <= q < N ->
            gram off (N - off) Lv' Df' p q + sigma / a * wplus j wf' p * wplus j wf' q
            = gram off (N - off) Lv Df p q + sigma * wf p * wf q)
      /\ (forall k, (k < off)%nat -> Df' k = Df k /\ forall i, Lv' i k = Lv i k)
      /\ (forall m k, dead m -> off <= m < N -> wf' m = n0 /\ Df' m = Df m /\ Lv' m k = n0 /\ Lv' k m = n0)).
    apply run_bind with (P := I N).
    - replace N with (off + (N - off))%nat at 2 by lia. apply (run_for Er _ I).
      + unfold I. split; [apply (F_1_neq_0 (fth F))|]. exists Lv, Df, Di, wf.
        repeat (split; [assumption|]). split; [|split; [auto|]].
        * intros p q Hp Hq. unfold wplus. replace (Nat.leb off p) with true by (symmetry; apply Nat.leb_le; lia).
          replace (Nat.leb off q) with true by (symmetry; apply Nat.leb_le; lia). field. apply (F_1_neq_0 (fth F)).
        * intros m k Hm Hr. destruct (Hdead m k Hm Hr) as (A & B & C). auto.
      + intros j [[[[a L1] D1] Dinv1] w1] Hj (Ha & Lv1 & Df1 & Di1 & wf1 & HL1 & Hn1 & HD1 & HDi1 & Hw1 & Hcl1 & Hinv1 & HG & Hold & Hd1).
        unfold rank1_step.
        eapply run_get; [apply (proj2 Hw1); lia|]. eapply run_get; [apply (proj2 HD1); lia|].
        assert (Hdj : Df1 j <> n0).
        { intro E0. pose proof (Hinv1 j ltac:(lia)) as E1. rewrite E0 in E1. apply (F_1_neq_0 (fth F)). change (n1 = n0 :> F). rewrite <- E1. ring. }
        apply run_div; [intro; contradiction|]. intros _. cbn zeta. set (abar := a + sigma * wf1 j * wf1 j / Df1 j).
        assert (HEj : abar = n0 -> Er Arith).
        { intro E0. apply (HE j ltac:(lia)).
          replace n0 with (Df1 j + sigma / a * wf1 j * wf1 j) by (transitivity (Df1 j / a * abar); [unfold abar; field; auto|rewrite E0; field; auto]).
          apply step_pivot with (Lv := Lv1); [lia|auto|]. intros p q Hp Hq. rewrite (gram_split off) by lia.
          rewrite (gram_split off Lv Df) by lia.
          assert (G0 : gram 0 off Lv1 Df1 p q = gram 0 off Lv Df p q).
          { apply rsum_ext. intros k Hk. apply in_seq in Hk. destruct (Hold k ltac:(lia)) as [E1 E2]. unfold un. rewrite E1, !E2. auto. }
          rewrite G0. destruct (Nat.lt_ge_cases p off) as [Hpo|Hpo]; [|destruct (Nat.lt_ge_cases q off) as [Hqo|Hqo]].
          - rewrite !gram_high by auto. unfold wplus. replace (Nat.leb off p) with false by (symmetry; apply Nat.leb_gt; lia).
            replace (Nat.leb j p) with false by (symmetry; apply Nat.leb_gt; lia). ring.
          - rewrite !gram_high by auto. unfold wplus. replace (Nat.leb off q) with false by (symmetry; apply Nat.leb_gt; lia).
            replace (Nat.leb j q) with false by (symmetry; apply Nat.leb_gt; lia). ring.
          - pose proof (HG p q ltac:(lia) ltac:(lia)) as G1. unfold wplus at 3 4.
            replace (Nat.leb off p) with true by (symmetry; apply Nat.leb_le; lia). replace (Nat.leb off q) with true by (symmetry; apply Nat.leb_le; lia).
            transitivity (gram 0 off Lv Df p q + (gram off (N - off) Lv1 Df1 p q + sigma / a * wplus j wf1 p * wplus j wf1 q)); [ring|].
            rewrite G1. ring. }
        apply run_div; [intro E0; apply HEj; destruct (f_dec abar) as [|Hab]; auto; exfalso; apply (nz_mul _ _ Hdj Hab E0)|].
        intro Hdab. assert (Hab : abar <> n0) by (apply nz_mul_r in Hdab; auto).
        set (g := wf1 j / (Df1 j * abar)). apply run_div; [intro; contradiction|]. intros _.
        eapply run_put; [rewrite (proj1 HD1); lia|].
        assert (Hdr : Df1 j * (abar / a) <> n0).
        { intro E0. apply (nz_mul _ _ Hdj Hab). transitivity (Df1 j * (abar / a) * a); [field; auto|rewrite E0; ring]. }
        apply run_div; [intro; contradiction|]. intros _.
        eapply run_put; [rewrite (proj1 HDi1); lia|].
        eapply run_bind; [apply rank1_col_ok; [exact HL1|exact Hw1|lia]|].
        intros [L2 w2] (HL2 & Hw2). cbn [run]. unfold I. split; [exact Hab|].
        set (Lv2 := col_L (sigma * g) j Lv1 wf1 (pat j)) in *. set (wf2 := col_w j Lv1 wf1 (pat j)) in *.
        (* values *)
        assert (Hw2v : forall i, wf2 i = wf1 i - wf1 j * Lv1 i j).
        { intro i. unfold wf2, col_w. destruct (mem i (pat j)) eqn:Em; auto. apply mem_nin in Em. rewrite (Hn1 i j Em). ring. }
        assert (HL2o : forall i k, k <> j -> Lv2 i k = Lv1 i k).
        { intros i k Hk. unfold Lv2, col_L. apply Nat.eqb_neq in Hk. rewrite Hk. auto. }
        assert (HL2j : forall i, (j < i < N)%nat -> Lv2 i j = Lv1 i j + sigma * g * wf2 i).
        { intros i Hi. rewrite Hw2v. unfold Lv2, col_L. rewrite Nat.eqb_refl. cbn [andb]. destruct (mem i (pat j)) eqn:Em; auto.
          apply mem_nin in Em. rewrite (Hn1 i j Em). destruct (Hcl1 j i ltac:(lia) ltac:(lia) ltac:(lia) Em) as [E|E].
          - unfold g. rewrite E. field. split; auto.
          - rewrite E. ring. }
        assert (Hn2 : norm Lv2).
        { intros i k Hik. unfold Lv2, col_L. destruct (Nat.eqb_spec k j); cbn [andb]; [|apply Hn1; auto]. subst.
          apply mem_nin in Hik. rewrite Hik. apply Hn1. apply mem_nin. auto. }
        exists Lv2, (fset Df1 j (Df1 j * (abar / a))), (fset Di1 j (n1 / (Df1 j * (abar / a)))), wf2.
        split; [exact HL2|]. split; [exact Hn2|]. split; [apply arr_upd; auto; lia|]. split; [apply arr_upd; auto; lia|].
        split; [exact Hw2|]. split; [|split; [|split; [|split]]].
        * (* clique *)
          intros p q Hp Hpq Hq Hnin. rewrite !Hw2v. destruct (f_dec (wf1 j)) as [E|Hwj].
          -- rewrite E. destruct (Hcl1 p q ltac:(lia) Hpq Hq Hnin) as [H|H]; [left|right]; rewrite H; ring.
          -- (* all support lies in column j *)
             assert (Hs : forall i, (j < i)%nat -> i < N -> ~ In i (pat j) -> wf1 i - wf1 j * Lv1 i j = n0).
             { intros i Hi Hi' Hni. rewrite (Hn1 i j Hni). destruct (Hcl1 j i ltac:(lia) ltac:(lia) Hi' Hni) as [H|H]; [contradiction|]. rewrite H. ring. }
             destruct (in_dec Nat.eq_dec p (pat j)) as [Hpj|Hpj]; [|left; apply Hs; auto; lia].
             destruct (in_dec Nat.eq_dec q (pat j)) as [Hqj|Hqj]; [|right; apply Hs; auto; lia].
             exfalso. apply Hnin. eapply pat_closed; eauto.
        * intros k Hk. unfold fset. destruct (Nat.eqb_spec k j); auto. field. repeat split; auto.
        * (* the product *)
          intros p q Hp Hq. rewrite <- (HG p q Hp Hq).
          assert (Hlam : forall i, i < N -> un Lv2 i j = un Lv1 i j + sigma * g * wplus (S j) wf2 i
                                 /\ wplus j wf1 i = wplus (S j) wf2 i + wf1 j * un Lv1 i j).
          { intros i Hi. unfold un, wplus. destruct (Nat.lt_trichotomy i j) as [Hij|[->|Hij]].
            - replace (Nat.eqb i j) with false by (symmetry; apply Nat.eqb_neq; lia).
              replace (Nat.leb (S j) i) with false by (symmetry; apply Nat.leb_gt; lia).
              replace (Nat.leb j i) with false by (symmetry; apply Nat.leb_gt; lia).
              rewrite (norm_upper Lv2 i j Hn2), (norm_upper Lv1 i j Hn1) by lia. split; ring.
            - rewrite Nat.eqb_refl. replace (Nat.leb (S j) j) with false by (symmetry; apply Nat.leb_gt; lia).
              replace (Nat.leb j j) with true by (symmetry; apply Nat.leb_le; lia). split; ring.
            - replace (Nat.eqb i j) with false by (symmetry; apply Nat.eqb_neq; lia).
              replace (Nat.leb (S j) i) with true by (symmetry; apply Nat.leb_le; lia).
              replace (Nat.leb j i) with true by (symmetry; apply Nat.leb_le; lia).
              rewrite HL2j by lia. split; auto. rewrite Hw2v. ring. }
          destruct (Hlam p ltac:(lia)) as [Lp Wp]. destruct (Hlam q ltac:(lia)) as [Lq Wq]. rewrite Wp, Wq.
          pose proof (step_identity sigma a (Df1 j) (wf1 j) (un Lv1 p j) (un Lv1 q j) (wplus (S j) wf2 p) (wplus (S j) wf2 q) Hdj Ha Hab) as Sid.
          cbn zeta in Sid. fold abar in Sid. fold g in Sid. rewrite <- Lp, <- Lq in Sid.
          unfold gram. 
          pose proof (rsum_change (fun k => un Lv2 p k * fset Df1 j (Df1 j * (abar / a)) k * un Lv2 q k)
                                  (fun k => un Lv1 p k * Df1 k * un Lv1 q k) j (N - off) off ltac:(lia)) as Ch.
          assert (Hag : forall k, k <> j -> un Lv2 p k * fset Df1 j (Df1 j * (abar / a)) k * un Lv2 q k = un Lv1 p k * Df1 k * un Lv1 q k).
          { intros k Hk. rewrite fset_neq by auto. unfold un. rewrite !HL2o by auto. auto. }
          specialize (Ch Hag). cbn beta in Ch. rewrite fset_eq in Ch.
          set (S2 := rsum (map (fun k => un Lv2 p k * fset Df1 j (Df1 j * (abar / a)) k * un Lv2 q k) (seq off (N - off)))) in *.
          set (S1 := rsum (map (fun k => un Lv1 p k * Df1 k * un Lv1 q k) (seq off (N - off)))) in *.
          set (vp := wplus (S j) wf2 p) in *. set (vq := wplus (S j) wf2 q) in *.
          transitivity ((S2 + un Lv1 p j * Df1 j * un Lv1 q j) - un Lv1 p j * Df1 j * un Lv1 q j + sigma / abar * vp * vq); [ring|].
          rewrite Ch.
          transitivity (S1 + (Df1 j * (abar / a) * un Lv2 p j * un Lv2 q j + sigma / abar * vp * vq) - un Lv1 p j * Df1 j * un Lv1 q j); [ring|].
          rewrite Sid. ring.
        * intros k Hk. rewrite fset_neq by lia. destruct (Hold k Hk) as [A B]. split; auto. intro i. rewrite HL2o by lia. auto.
        * intros m k Hm Hr. destruct (Hd1 m k Hm Hr) as (A & B & C & E). destruct (Hd1 m j Hm Hr) as (_ & _ & C' & E').
          assert (Hwm : wf2 m = n0) by (rewrite Hw2v, A, C'; ring).
          split; auto. split; [|split].
          -- destruct (Nat.eq_dec m j) as [->|Hne]; [|rewrite fset_neq by auto; auto]. rewrite fset_eq, <- B. unfold abar. rewrite A. field. split; auto.
          -- destruct (Nat.eq_dec k j) as [->|Hne]; [|rewrite HL2o by auto; auto].
             destruct (Nat.lt_ge_cases j m) as [Hlt|Hge]; [|apply (norm_upper Lv2 m j Hn2); lia].
             rewrite HL2j by lia. rewrite C', Hwm. ring.
          -- destruct (Nat.eq_dec m j) as [->|Hne]; [|rewrite HL2o by auto; auto].
             unfold Lv2, col_L. rewrite Nat.eqb_refl. cbn [andb]. destruct (mem k (pat j)); auto.
             rewrite E. unfold g. rewrite A. field. split; auto.
    - intros [[[[a L'] D'] Dinv'] w'] (Ha & Lv' & Df' & Di' & wf' & HL' & Hn' & HD' & HDi' & Hw' & _ & Hinv' & HG & Hold & Hd). cbn [run].
      exists Lv', Df', Di'. split; auto. split; auto. split; auto. split; auto. split; [apply (proj1 Hw')|]. split; auto. split; [|split; auto].
      + intros p q Hp Hq. rewrite <- (HG p q Hp Hq). unfold wplus. replace (Nat.leb N p) with false by (symmetry; apply Nat.leb_gt; lia). ring.
      + intros m k Hm Hr. destruct (Hd m k Hm Hr) as (A & B & C & E). auto.
  Qed.
End Rank1.
