(** QDLDL, which is not part of the repository: the contract the gradient code relies on, and
    a reference implementation (dense, over any field) that meets it.  The reference is used
    only to show that the contract can be met and to run concrete examples. *)

From Coq Require Import Arith Bool ZArith Lia List Sorted Field QArith Qcanon.
From Verif Require Import Base Machine Runtime RuntimeProofs Retrieve RetrieveProofs Sparse SparseProofs Ldl LdlRank1 LdlProofs GradSpec LdlMain FactorProofs Gradient GradKkt.
Import ListNotations.
Local Open Scope nat_scope.

Section Contract.
  Variable F : Fld.
  Variables n N : nat.
  Local Open Scope num_scope.

  (** QDLDL_etree and QDLDL_factor on a matrix given by its upper triangle: an error only if
      elimination meets a zero pivot, otherwise a factorisation whose pattern is sorted, contains the matrix and is closed
      under elimination.  The number of entries depends on the matrix' pattern only. *)
  Record factor_contract (qf : csc F -> csc F -> res (list nat * list nat * list F * list F * list F)) : Prop := mkFc
    { fc_ok : forall K L, csc_ok N K -> kkt_pattern F n N K ->
        run (fun e => e = Arith /\ exists j, j < N /\ pivot N (sym_entry K) j n0) (qf K L) (fun '(p, i, x, D, Dinv) =>
          let L' := mkCsc p i x (nth N p 0%nat) in
          csc_ok N L' /\ factor_pattern F N K L' /\ length D = N /\ length Dinv = N
          /\ (forall k, k < N -> nth k Dinv n0 * nth k D n0 = n1)
          /\ (forall p q, p < N -> q < N -> ldlt N L' D p q = sym_entry K p q));
      fc_nnz : forall K1 L1 K2 L2 p1 i1 x1 D1 E1 p2 i2 x2 D2 E2,
        (forall j, j < N -> rows K1 j = rows K2 j) ->
        qf K1 L1 = Ok (p1, i1, x1, D1, E1) -> qf K2 L2 = Ok (p2, i2, x2, D2, E2) -> nth N p1 0%nat = nth N p2 0%nat }.

  (** QDLDL_solve. *)
  Definition solve_contract (qs : csc F -> list F -> list F -> res (list F)) : Prop :=
    forall L D Dinv b, csc_ok N L -> lower_pat F N L -> length D = N -> length Dinv = N ->
      (forall k, k < N -> nth k Dinv n0 * nth k D n0 = n1) -> length b = N ->
      exists x, qs L Dinv b = Ok x /\ solves N (ldlt N L D) x b.
End Contract.

Section Reference.
  Variable F : Fld.
  Add Field Fref : (fth F).
  Variables n N : nat.
  Local Open Scope num_scope.
  Notation sum f k := (rsum (map f (seq 0 k))).

  Lemma r_split : forall (f : nat -> F) a m, (a <= m)%nat -> sum f m = sum f a + rsum (map f (seq a (m - a))).
  Proof. intros f a m H. rewrite <- rsum_app, <- map_app, <- seq_app. do 3 f_equal. lia. Qed.
  Lemma r_last : forall (f : nat -> F) k, sum f (S k) = sum f k + f k.
  Proof. intros f k. rewrite seq_S, map_app, rsum_app. cbn [map]. rewrite (Nat.add_0_l k). unfold rsum at 2. cbn [fold_right]. ring. Qed.

  (** A table of values, so that closures are not evaluated again and again. *)
  Definition tab (f : nat -> nat -> F) : nat -> nat -> F :=
    let t := map (fun p => map (f p) (seq 0 N)) (seq 0 N) in fun p q => nth q (nth p t []) n0.
  Lemma tab_ok : forall f p q, p < N -> q < N -> tab f p q = f p q.
  Proof.
    intros f p q Hp Hq. unfold tab. rewrite !nth_ms by auto. auto.
  Qed.

  (** Right-looking elimination: columns of the factor, pivots, remaining matrix. *)
  Fixpoint elim (k : nat) (M : nat -> nat -> F) : res (list (nat -> F) * list F * (nat -> nat -> F)) :=
    match k with
    | O => Ok ([], [], tab M)
    | S k =>
      '(cs, D, R) <- elim k M;;
      let d := R k k in
      if rz d then Err Arith
      else
        let col := tab (fun _ i => if Nat.ltb i k then n0 else if Nat.eqb i k then n1 else R i k / d) 0%nat in
        Ok (cs ++ [col], D ++ [d], tab (fun p q => R p q - col p * d * col q))
    end.

  Lemma elim_ok : forall k M, (k <= N)%nat -> (forall p q, p < N -> q < N -> M p q = M q p) ->
    run (fun e => e = Arith /\ exists j, j < N /\ pivot N M j n0) (elim k M) (fun '(cs, D, R) => length cs = k /\ length D = k
      /\ (forall p q, p < N -> q < N -> R p q = R q p)
      /\ (forall p q, (p < k)%nat -> q < N -> R p q = n0)
      /\ (forall j p, (j < k)%nat -> p < N -> (p < j -> nth j cs (fun _ => n0) p = n0)%nat /\ nth j cs (fun _ => n0) j = n1)
      /\ (forall j, (j < k)%nat -> nth j D n0 <> n0)
      /\ forall p q, p < N -> q < N -> M p q = sum (fun j => nth j cs (fun _ => n0) p * nth j D n0 * nth j cs (fun _ => n0) q) k + R p q).
  Proof.
    induction k as [|k IH]; intros M Hk HM.
    - cbn [elim run]. split; auto. split; auto. split; [intros; rewrite !tab_ok; auto|]. split; [lia|]. split; [lia|]. split; [lia|].
      intros p q Hp Hq. rewrite tab_ok by auto. cbn [seq map]. unfold rsum. cbn [fold_right]. ring.
    - cbn [elim]. eapply run_bind; [apply IH; auto; lia|]. intros [[cs D] R] (LC & LD & HS & HZ & HC & HD & HE).
      destruct (rz (R k k)) eqn:Ed.
      { split; [reflexivity|]. exists k. split; [lia|]. apply rz_spec in Ed. rewrite <- Ed.
        set (Lx := fun i j => if Nat.ltb j i && Nat.ltb i N && Nat.ltb j k then nth j cs (fun _ => n0) i else n0 : F).
        set (Dx := fun j => if Nat.ltb j k then nth j D n0 else R k k).
        assert (HnX : norm F (fun j => seq (S j) (N - S j)) Lx).
        { intros i j Hij. unfold Lx. destruct (Nat.ltb_spec j i); cbn [andb]; auto. destruct (Nat.ltb_spec i N); cbn [andb]; auto.
          exfalso. apply Hij. apply in_seq. lia. }
        replace (R k k) with (Dx k) by (unfold Dx; rewrite Nat.ltb_irrefl; auto).
        apply (gram_pivot F N (fun j => seq (S j) (N - S j))) with (Lv := Lx); [intros j i Hi; apply in_seq in Hi; lia|lia|exact HnX|].
        assert (Hun : forall p j, (j < k)%nat -> p < N -> un F Lx p j = nth j cs (fun _ => n0) p).
        { intros p j Hj Hp. destruct (HC j p Hj Hp) as [Z1 Z2]. unfold un, Lx. destruct (Nat.eqb_spec p j) as [->|Hne]; auto.
          destruct (Nat.ltb_spec j p); cbn [andb]; [|symmetry; apply Z1; lia].
          replace (Nat.ltb p N) with true by (symmetry; apply Nat.ltb_lt; auto). replace (Nat.ltb j k) with true by (symmetry; apply Nat.ltb_lt; auto). auto. }
        assert (Hunk : forall p, (p <= k)%nat -> un F Lx p k = if Nat.eqb p k then n1 else n0).
        { intros p Hp. unfold un, Lx. destruct (Nat.eqb_spec p k); auto. replace (Nat.ltb k p) with false by (symmetry; apply Nat.ltb_ge; lia). auto. }
        intros p q Hp Hq. rewrite HE by lia. unfold gram. rewrite (r_split _ (S k) N) by lia. rewrite r_last.
        rewrite (@rsum_zero F _ _ (seq (S k) (N - S k))).
        2:{ intros j Hj. apply in_seq in Hj. unfold un at 1, Lx. replace (Nat.eqb p j) with false by (symmetry; apply Nat.eqb_neq; lia).
            replace (Nat.ltb j p) with false by (symmetry; apply Nat.ltb_ge; lia). cbn [andb]. ring. }
        rewrite rsum_ext with (g := fun j => nth j cs (fun _ => n0) p * nth j D n0 * nth j cs (fun _ => n0) q).
        2:{ intros j Hj. apply in_seq in Hj. rewrite !Hun by lia. unfold Dx. replace (Nat.ltb j k) with true by (symmetry; apply Nat.ltb_lt; lia). auto. }
        rewrite !Hunk by lia. unfold Dx. rewrite Nat.ltb_irrefl.
        destruct (Nat.eqb_spec p k) as [->|Hpk]; [destruct (Nat.eqb_spec q k) as [->|Hqk]|].
        - ring.
        - rewrite (HS k q) by lia. rewrite (HZ q k) by lia. ring.
        - rewrite (HZ p q) by lia. ring. } assert (Hd : R k k <> n0) by (intro X; apply rz_spec in X; congruence).
      set (col := tab (fun _ i => if Nat.ltb i k then n0 else if Nat.eqb i k then n1 else R i k / R k k) 0%nat).
      assert (Hcol : forall i, i < N -> col i = if Nat.ltb i k then n0 else if Nat.eqb i k then n1 else R i k / R k k).
      { intros i Hi. unfold col. rewrite tab_ok; auto; lia. }
      assert (Hold : forall j, (j < k)%nat -> nth j (cs ++ [col]) (fun _ => n0) = nth j cs (fun _ => n0)) by (intros; apply app_nth1; lia).
      assert (HoldD : forall j, (j < k)%nat -> nth j (D ++ [R k k]) n0 = nth j D n0) by (intros; apply app_nth1; lia).
      assert (Hnew : nth k (cs ++ [col]) (fun _ => n0) = col) by (rewrite app_nth2, LC, Nat.sub_diag by lia; auto).
      assert (HnewD : nth k (D ++ [R k k]) n0 = R k k) by (rewrite app_nth2, LD, Nat.sub_diag by lia; auto).
      cbn [run]. rewrite !app_length, LC, LD. cbn [length]. split; [lia|]. split; [lia|]. split; [|split; [|split; [|split]]].
      + intros p q Hp Hq. rewrite !tab_ok by auto. rewrite (HS p q) by auto. ring.
      + intros p q Hp Hq. rewrite tab_ok by (auto; lia). rewrite !Hcol by lia. destruct (Nat.ltb_spec p k) as [H1|H1].
        * rewrite HZ by (auto; lia). ring.
        * replace p with k in * by lia. rewrite Nat.eqb_refl. destruct (Nat.ltb_spec q k) as [H2|H2].
          -- rewrite (HS k q) by (auto; lia). rewrite HZ by (auto; lia). ring.
          -- destruct (Nat.eqb_spec q k) as [->|H3]; [ring|]. rewrite (HS k q) by (auto; lia). field. auto.
      + intros j p Hj Hp. destruct (Nat.eq_dec j k) as [->|Hne].
        * rewrite Hnew, !Hcol by lia. rewrite Nat.ltb_irrefl, Nat.eqb_refl. split; auto. intro H. apply Nat.ltb_lt in H. rewrite H. auto.
        * rewrite Hold by lia. apply HC; auto; lia.
      + intros j Hj. destruct (Nat.eq_dec j k) as [->|Hne]; [rewrite HnewD; auto|rewrite HoldD by lia; apply HD; lia].
      + intros p q Hp Hq. rewrite tab_ok by auto. rewrite r_last, Hnew, HnewD.
        rewrite rsum_ext with (g := fun j => nth j cs (fun _ => n0) p * nth j D n0 * nth j cs (fun _ => n0) q) by (intros j Hj; apply in_seq in Hj; rewrite Hold, HoldD by lia; auto).
        rewrite (HE p q) by auto. ring.
  Qed.

  (** All strictly lower entries are stored. *)
  Definition dense_cols (cs : list (nat -> F)) : list (list (nat * F)) :=
    map (fun j => map (fun i => (i, nth j cs (fun _ => n0) i)) (seq (S j) (N - S j))) (seq 0 N).
  Definition qfactor_ref (K _ : csc F) : res (list nat * list nat * list F * list F * list F) :=
    '(cs, D, _) <- elim N (sym_entry K);;
    let L := csc_cols F (dense_cols cs) in
    Ok (c_p L, c_i L, c_x L, D, map (fun d => n1 / d) D).

  Lemma dense_nth : forall cs j, j < N -> nth j (dense_cols cs) [] = map (fun i => (i, nth j cs (fun _ => n0) i)) (seq (S j) (N - S j)).
  Proof. intros cs j Hj. unfold dense_cols. rewrite nth_ms by auto. auto. Qed.
  Lemma dense_find : forall cs j i, j < N -> find i (nth j (dense_cols cs) []) = if Nat.ltb j i && Nat.ltb i N then Some (nth j cs (fun _ => n0) i) else None.
  Proof.
    intros cs j i Hj. rewrite dense_nth by auto.
    assert (G : forall len s, find i (map (fun i => (i, nth j cs (fun _ => n0) i)) (seq s len)) = if Nat.leb s i && Nat.ltb i (s + len) then Some (nth j cs (fun _ => n0) i) else None).
    { induction len as [|len IH]; intro s; cbn [seq map find].
      - destruct (Nat.leb_spec s i); cbn [andb]; auto. destruct (Nat.ltb_spec i (s + 0)); auto; lia.
      - destruct (Nat.eqb_spec i s) as [E|E].
        + subst. rewrite Nat.leb_refl. cbn [andb]. destruct (Nat.ltb_spec s (s + S len)); auto; lia.
        + rewrite IH. destruct (Nat.leb_spec (S s) i), (Nat.leb_spec s i), (Nat.ltb_spec i (S s + len)), (Nat.ltb_spec i (s + S len)); cbn [andb]; auto; lia. }
    rewrite G. destruct (Nat.leb_spec (S j) i), (Nat.ltb_spec j i), (Nat.ltb_spec i (S j + (N - S j))), (Nat.ltb_spec i N); cbn [andb]; auto; lia.
  Qed.

  Theorem qfactor_ref_ok : factor_contract F n N qfactor_ref.
  Proof.
    constructor.
    - intros K L0 OK HK. unfold qfactor_ref. eapply run_bind; [apply elim_ok; auto|].
      { intros p q _ _. unfold sym_entry. destruct (Nat.leb_spec p q), (Nat.leb_spec q p); auto; try lia. replace q with p by lia. auto. }
      intros [[cs D] R] (LC & LD & HS & HZ & HC & HD & HE). cbn [run].
      assert (Hl : length (dense_cols cs) = N) by (unfold dense_cols; rewrite map_length, seq_length; auto).
      destruct (cols_ok F N (dense_cols cs) Hl) as (A & B & C).
      { intros j Hj. rewrite dense_nth by auto. unfold sorted. rewrite map_map. cbn [fst]. rewrite map_id. apply SS_seq. }
      set (L := csc_cols F (dense_cols cs)) in *.
      assert (EL : mkCsc (c_p L) (c_i L) (c_x L) (nth N (c_p L) 0%nat) = L).
      { transitivity (mkCsc (c_p L) (c_i L) (c_x L) (c_n L)); [|destruct L; auto]. f_equal. symmetry. apply (o_n N L A). }
      cbv zeta. rewrite EL.
      assert (HR : forall j i, j < N -> In i (rows L j) <-> (j < i < N)%nat).
      { intros j i Hj. rewrite B, dense_nth by auto. rewrite map_map. cbn [fst]. rewrite map_id, in_seq. lia. }
      assert (HEn : forall i j, i < N -> j < N -> unit_entry L i j = nth j cs (fun _ => n0) i).
      { intros i j Hi Hj. destruct (HC j i Hj Hi) as [Z1 Z2]. unfold unit_entry. destruct (Nat.eqb_spec i j) as [->|Hne]; auto.
        rewrite C, dense_find by auto. destruct (Nat.ltb_spec j i), (Nat.ltb_spec i N); cbn [andb]; auto; try lia; symmetry; apply Z1; lia. }
      split; auto. split; [|split; [|split; [|split]]]; auto.
      + split; [|split].
        * intros j i Hj Hin. apply HR in Hin; auto.
        * intros j i k Hj Hi Hk Hik. apply HR in Hi; auto. apply HR in Hk; auto. apply HR; lia.
        * intros j i Hj Hin Hij. apply HR; lia.
      + rewrite map_length. auto.
      + intros k Hk. rewrite nth_indep with (d' := n1 / n0) by (rewrite map_length; lia). rewrite map_nth with (f := fun d => n1 / d). field. apply HD. auto.
      + intros p q Hp Hq. rewrite HE by auto. rewrite HZ by auto. unfold ldlt.
        rewrite rsum_ext with (g := fun j => nth j cs (fun _ => n0) p * nth j D n0 * nth j cs (fun _ => n0) q); [ring|].
        intros k Hk. apply in_seq in Hk. rewrite !HEn by (auto; lia). auto.
    - assert (G : forall K L p i x D E, qfactor_ref K L = Ok (p, i, x, D, E) -> nth N p 0%nat = list_sum (map (fun j => N - S j)%nat (seq 0 N))).
      { intros K L p i x D E H. unfold qfactor_ref in H. destruct (elim N (sym_entry K)) as [[[cs D'] R]|]; [|discriminate]. cbn [bind] in H.
        assert (Hp : c_p (csc_cols F (dense_cols cs)) = p) by congruence. rewrite <- Hp. unfold csc_cols. cbn [c_p].
        assert (Hl : length (dense_cols cs) = N) by (unfold dense_cols; rewrite map_length, seq_length; auto).
        rewrite indptr_nth by lia. rewrite firstn_all2 by lia. cbn [Nat.add]. f_equal. unfold dense_cols. rewrite map_map. apply map_ext. intro j. rewrite map_length, seq_length. auto. }
      intros. erewrite G by eauto. symmetry. eapply G. eauto.
  Qed.

  (** Substitution: forward, scaling, backward. *)
  Fixpoint fwd (L : csc F) (b : list F) (k : nat) : list F :=
    match k with
    | O => []
    | S k => let ys := fwd L b k in ys ++ [nth k b n0 - sum (fun j => entry L k j * nth j ys n0) k]
    end.
  Fixpoint bwd (L : csc F) (z : list F) (k : nat) : list F :=
    match k with
    | O => []
    | S k => let xs := bwd L z k in
             (nth (N - S k) z n0 - sum (fun t => entry L (N - k + t) (N - S k) * nth t xs n0) k) :: xs
    end.
  Definition qsolve_ref (L : csc F) (Dinv b : list F) : res (list F) :=
    let y := fwd L b N in
    Ok (bwd L (map (fun k => nth k Dinv n0 * nth k y n0) (seq 0 N)) N).

  Lemma fwd_length : forall L b k, length (fwd L b k) = k.
  Proof. induction k; cbn [fwd]; auto. rewrite app_length, IHk. cbn [length]. lia. Qed.
  Lemma fwd_nth : forall L b i k, (i < k)%nat -> nth i (fwd L b k) n0 = nth i b n0 - sum (fun j => entry L i j * nth j (fwd L b k) n0) i.
  Proof.
    intros L b i. induction k as [|k IH]; intro H; [lia|]. cbn [fwd].
    assert (Hs : forall j, (j < k)%nat -> nth j (fwd L b k ++ [nth k b n0 - sum (fun j => entry L k j * nth j (fwd L b k) n0) k]) n0 = nth j (fwd L b k) n0).
    { intros j Hj. apply app_nth1. rewrite fwd_length. auto. }
    assert (Hsum : sum (fun j => entry L i j * nth j (fwd L b k ++ [nth k b n0 - sum (fun j => entry L k j * nth j (fwd L b k) n0) k]) n0) i
                   = sum (fun j => entry L i j * nth j (fwd L b k) n0) i).
    { apply rsum_ext. intros j Hj. apply in_seq in Hj. rewrite Hs by lia. auto. }
    rewrite Hsum. destruct (Nat.eq_dec i k) as [->|Hne].
    - rewrite app_nth2; rewrite fwd_length; [|lia]. rewrite Nat.sub_diag. auto.
    - rewrite Hs by lia. apply IH. lia.
  Qed.
  Lemma bwd_length : forall L z k, length (bwd L z k) = k.
  Proof. induction k; cbn [bwd length]; auto. Qed.
  Lemma bwd_nth : forall L z t k, (t < k)%nat -> (k <= N)%nat ->
    nth t (bwd L z k) n0 = nth (N - k + t) z n0 - rsum (map (fun s => entry L (N - k + s) (N - k + t) * nth s (bwd L z k) n0) (seq (S t) (k - S t))).
  Proof.
    intros L z t k. revert t. induction k as [|k IH]; intros t H Hk; [lia|]. destruct t as [|t].
    - cbn [bwd nth]. rewrite Nat.add_0_r. replace (S k - 1)%nat with k by lia. f_equal.
      rewrite <- seq_shift, map_map. apply rsum_ext. intros s _. cbn [nth]. do 2 f_equal. lia.
    - cbn [bwd nth]. rewrite IH by lia. replace (N - S k + S t)%nat with (N - k + t)%nat by lia. f_equal.
      replace (S k - S (S t))%nat with (k - S t)%nat by lia. rewrite <- (seq_shift (k - S t) (S t)), map_map. apply rsum_ext. intros s _. cbn [nth]. do 2 f_equal. lia.
  Qed.

  Lemma mulv_ldlt : forall (L : csc F) (D x : list F) p, mulv N (ldlt N L D) x p
    = sum (fun k => unit_entry L p k * (nth k D n0 * sum (fun q => unit_entry L q k * nth q x n0) N)) N.
  Proof.
    intros L D x p. unfold mulv, ldlt.
    rewrite rsum_ext with (g := fun q => sum (fun k => unit_entry L p k * nth k D n0 * unit_entry L q k * nth q x n0) N) by (intros q _; rewrite <- rsum_map_mul_r; auto).
    rewrite rsum_swap. apply rsum_ext. intros k _. rewrite <- !rsum_map_mul. apply rsum_ext. intros q _. ring.
  Qed.
  Lemma unit_upper : forall (L : csc F) p k, lower_pat F N L -> k < N -> (p < k)%nat -> unit_entry L p k = n0.
  Proof.
    intros L p k HL Hk H. unfold unit_entry. replace (Nat.eqb p k) with false by (symmetry; apply Nat.eqb_neq; lia).
    apply entry_out. intro Hin. pose proof (HL k p Hk Hin). lia.
  Qed.
  Lemma unit_diag : forall (L : csc F) k, unit_entry L k k = n1.
  Proof. intros. unfold unit_entry. rewrite Nat.eqb_refl. auto. Qed.
  (** Products with a unit lower triangular matrix and with its transpose. *)
  Lemma lower_mul : forall L (v : nat -> F) p, lower_pat F N L -> p < N ->
    sum (fun k => unit_entry L p k * v k) N = v p + sum (fun j => entry L p j * v j) p.
  Proof.
    intros L v p HL Hp. rewrite (r_split _ p N) by lia. rewrite (@rsum_single F _ (N - p)%nat p p).
    - rewrite unit_diag. rewrite rsum_ext with (g := fun j => entry L p j * v j); [ring|].
      intros j Hj. apply in_seq in Hj. unfold unit_entry. replace (Nat.eqb p j) with false by (symmetry; apply Nat.eqb_neq; lia). auto.
    - lia.
    - intros j Hj Hne. rewrite unit_upper by (auto; lia). ring.
  Qed.
  Lemma upper_mul : forall L (v : nat -> F) k, lower_pat F N L -> k < N ->
    sum (fun q => unit_entry L q k * v q) N = v k + rsum (map (fun q => entry L q k * v q) (seq (S k) (N - S k))).
  Proof.
    intros L v k HL Hk. rewrite (r_split _ (S k) N) by lia. rewrite (@rsum_single F _ (S k) 0%nat k).
    - rewrite unit_diag. rewrite rsum_ext with (l := seq (S k) (N - S k)) (g := fun q => entry L q k * v q); [ring|].
      intros j Hj. apply in_seq in Hj. unfold unit_entry. replace (Nat.eqb j k) with false by (symmetry; apply Nat.eqb_neq; lia). auto.
    - lia.
    - intros j Hj Hne. rewrite unit_upper by (auto; lia). ring.
  Qed.

  Theorem qsolve_ref_ok : solve_contract F N qsolve_ref.
  Proof.
    intros L D Dinv b OL HL LD LDi Hinv Lb. eexists. split; [reflexivity|]. unfold solves. rewrite bwd_length. split; auto.
    intros p Hp. rewrite mulv_ldlt. set (y := fwd L b N). set (z := map (fun k => nth k Dinv n0 * nth k y n0) (seq 0 N)).
    assert (Hx : forall k, k < N -> sum (fun q => unit_entry L q k * nth q (bwd L z N) n0) N = nth k z n0).
    { intros k Hk. rewrite upper_mul by auto. rewrite (bwd_nth L z k N) by auto. replace (N - N)%nat with 0%nat by lia. cbn [Nat.add]. ring. }
    rewrite rsum_ext with (g := fun k => unit_entry L p k * nth k y n0).
    - rewrite lower_mul by auto. unfold y at 1. rewrite fwd_nth by auto. fold y. ring.
    - intros k Hk. apply in_seq in Hk. rewrite Hx by lia. unfold z. rewrite nth_ms by lia.
      transitivity (unit_entry L p k * (nth k Dinv n0 * nth k D n0 * nth k y n0)); [ring|]. rewrite Hinv by lia. ring.
  Qed.

  (** A factorised matrix is invertible: solutions are unique. *)
  Lemma ldlt_kernel : forall L D Dinv (x : list F), lower_pat F N L -> (forall k, k < N -> nth k Dinv n0 * nth k D n0 = n1) ->
    (forall p, p < N -> mulv N (ldlt N L D) x p = n0) -> forall k, k < N -> nth k x n0 = n0.
  Proof.
    intros L D Dinv x HL Hinv Hx. set (u := fun k => sum (fun q => unit_entry L q k * nth q x n0) N).
    assert (Hu : forall m p, (p <= m)%nat -> p < N -> nth p D n0 * u p = n0).
    { induction m as [|m IH]; intros p Hpm Hp.
      - replace p with 0%nat in * by lia. pose proof (Hx 0%nat Hp) as H. rewrite mulv_ldlt in H. fold u in H.
        rewrite (lower_mul L (fun k => nth k D n0 * u k)) in H by auto. cbn [seq map] in H. unfold rsum in H. cbn [fold_right] in H. match type of H with ?a = _ => transitivity a; [ring|exact H] end.
      - pose proof (Hx p Hp) as H. rewrite mulv_ldlt in H. fold u in H. rewrite (lower_mul L (fun k => nth k D n0 * u k)) in H by auto.
        rewrite (@rsum_zero F _ (fun j => entry L p j * (nth j D n0 * u j))) in H.
        + match type of H with ?a = _ => transitivity a; [ring|exact H] end.
        + intros j Hj. apply in_seq in Hj. rewrite IH by lia. ring. }
    assert (Hu0 : forall p, p < N -> u p = n0).
    { intros p Hp. transitivity (nth p Dinv n0 * (nth p D n0 * u p)); [|rewrite (Hu p) by auto; ring].
      transitivity (nth p Dinv n0 * nth p D n0 * u p); [rewrite Hinv by auto|]; ring. }
    assert (G : forall m k, (N - k <= m)%nat -> k < N -> nth k x n0 = n0).
    { induction m as [|m IH]; intros k Hm Hk; [lia|]. pose proof (Hu0 k Hk) as H. unfold u in H. rewrite upper_mul in H by auto.
      rewrite (@rsum_zero F _ (fun q => entry L q k * nth q x n0)) in H.
      - match type of H with ?a = _ => transitivity a; [ring|exact H] end.
      - intros q Hq. apply in_seq in Hq. rewrite IH by lia. ring. }
    intros k Hk. apply (G (N - k)%nat); auto.
  Qed.
  Lemma mulv_ext : forall (M M' : nat -> nat -> F) (x : list F) p, (forall q, q < N -> M p q = M' p q) -> mulv N M x p = mulv N M' x p.
  Proof. intros M M' x p H. unfold mulv. apply rsum_ext. intros q Hq. apply in_seq in Hq. rewrite H by lia. auto. Qed.
  Theorem solves_unique : forall (M : nat -> nat -> F) L D Dinv (x x' b : list F), lower_pat F N L -> (forall k, k < N -> nth k Dinv n0 * nth k D n0 = n1) ->
    (forall p q, p < N -> q < N -> ldlt N L D p q = M p q) -> solves N M x b -> solves N M x' b -> x = x'.
  Proof.
    intros M L D Dinv x x' b HL Hinv HM [L1 S1] [L2 S2].
    assert (E : forall k, k < N -> nth k (map (fun k => nth k x n0 - nth k x' n0) (seq 0 N)) n0 = n0).
    { apply (ldlt_kernel L D Dinv); auto. intros p Hp. rewrite (mulv_ext _ M) by auto.
      transitivity (mulv N M x p - mulv N M x' p); [|rewrite S1, S2 by auto; ring].
      transitivity (mulv N M x p + - mulv N M x' p); [|ring]. unfold mulv. rewrite <- rsum_map_opp, <- rsum_map_add. apply rsum_ext. intros q Hq. apply in_seq in Hq. rewrite nth_ms by lia. ring. }
    apply nth_ext with (d := n0) (d' := n0); [congruence|]. intros k Hk. rewrite L1 in Hk. specialize (E k Hk). rewrite nth_ms in E by auto.
    transitivity (nth k x n0 - nth k x' n0 + nth k x' n0); [ring|]. rewrite E. ring.
  Qed.
End Reference.

(** Square roots of rational squares. *)
Definition qsqrt (x : QcFld) : res QcFld :=
  let q := this x in
  let s := Q2Qc (Qmake (Z.sqrt (Qnum q)) (Pos.sqrt (Qden q))) in
  if Qc_eq_dec (Qcmult s s) x then Ok s else Err Arith.
Lemma qsqrt_ok : forall (x s : QcFld), qsqrt x = Ok s -> nmul s s = x.
Proof. intros x s H. unfold qsqrt in H. destruct (Qc_eq_dec _ x) as [E|E]; [inversion H; subst; auto|discriminate]. Qed.
Lemma qsqrt_err : forall x e, qsqrt x = Err e -> e = Arith.
Proof. intros x e H. unfold qsqrt in H. destruct (Qc_eq_dec _ x); congruence. Qed.
