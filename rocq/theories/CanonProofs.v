From Coq Require Import String Arith Bool Lia List Permutation Ring.
From Verif Require Import Base Pus Machine PusParse PusCheck PusLift Runtime RuntimeSpec
     RuntimeProofs Canon CanonSpec.
Import ListNotations.

(** ** Column pointers *)

Lemma nth_incr_from : forall l k j,
    nth j (incr_from l k) 0 = (if Nat.leb k j && Nat.ltb j (length l) then 1 else 0) + nth j l 0.
Proof.
  induction l; simpl; intros.
  - destruct j; rewrite andb_false_r; reflexivity.
  - destruct k, j; simpl; auto.
    + rewrite IHl. reflexivity.
    + rewrite IHl. reflexivity.
Qed.

Lemma incr_from_length : forall l k, length (incr_from l k) = length l.
Proof. induction l; destruct k; simpl; intros; auto. Qed.

Lemma find_slice_some : forall ip r n c c',
    find_slice ip r c n = Some c' -> nth c' ip 0 <= r < nth (S c') ip 0 /\ c <= c' < c + n.
Proof.
  induction n; simpl; intros. discriminate.
  destruct (Nat.leb (nth c ip 0) r && Nat.ltb r (nth (S c) ip 0)) eqn:E.
  - inversion H; subst. apply andb_true_iff in E. destruct E as [E1 E2].
    apply Nat.leb_le in E1. apply Nat.ltb_lt in E2. lia.
  - apply IHn in H. lia.
Qed.

Lemma find_slice_ex : forall ip r n c,
    nth c ip 0 <= r -> r < nth (c + n) ip 0 -> exists c', find_slice ip r c n = Some c'.
Proof.
  induction n; intros c H1 H2; simpl.
  - rewrite Nat.add_0_r in H2. lia.
  - destruct (Nat.leb (nth c ip 0) r && Nat.ltb r (nth (S c) ip 0)) eqn:E; [eauto|].
    apply andb_false_iff in E. destruct E as [E|E].
    + apply Nat.leb_gt in E. lia.
    + apply Nat.ltb_ge in E. apply IHn; auto. replace (S c + n) with (c + S n) by lia. exact H2.
Qed.

Lemma ip_mono : forall ip nc n, ip_wf ip nc n ->
    forall a b, a <= b -> b <= nc -> nth a ip 0 <= nth b ip 0.
Proof.
  intros ip nc n (H1 & H2 & H3 & H4) a b Hab Hb. induction Hab; auto.
  assert (nth m ip 0 <= nth (S m) ip 0) by (apply H4; lia). specialize (IHHab ltac:(lia)). lia.
Qed.

Lemma recount_length : forall nc ip rs, length (recount nc ip rs) = length ip.
Proof.
  intros. unfold recount.
  assert (forall acc, length (fold_left (fun acc r => match find_slice ip r 0 nc with
      | Some c => incr_from acc (S c) | None => acc end) rs acc) = length acc) as H.
  { induction rs; simpl; intros; auto. rewrite IHrs. destruct (find_slice ip a 0 nc); auto.
    apply incr_from_length. }
  rewrite H. apply map_length.
Qed.

Lemma recount_nth : forall nc n ip rs, ip_wf ip nc n -> (forall r, In r rs -> r < n) ->
    forall j, j <= nc ->
      nth j (recount nc ip rs) 0 = length (filter (fun r => Nat.ltb r (nth j ip 0)) rs).
Proof.
  intros nc n ip rs W Hr j Hj. unfold recount.
  assert (forall acc, length acc = length ip ->
     nth j (fold_left (fun acc r => match find_slice ip r 0 nc with
         | Some c => incr_from acc (S c) | None => acc end) rs acc) 0
     = nth j acc 0 + length (filter (fun r => Nat.ltb r (nth j ip 0)) rs)) as H.
  { induction rs as [|r rs]; simpl; intros acc Hl. lia.
    destruct W as (W1 & W2 & W3 & W4) eqn:EW.
    assert (r < n) by (apply Hr; left; auto).
    destruct (find_slice_ex ip r nc 0) as [c Ec]; [lia | simpl; rewrite W3; auto |].
    rewrite Ec. rewrite IHrs; [|intros; apply Hr; right; auto | rewrite incr_from_length; auto].
    rewrite nth_incr_from. apply find_slice_some in Ec. destruct Ec as [Ec1 Ec2].
    assert (Nat.ltb j (length acc) = true) as HL by (apply Nat.ltb_lt; lia). rewrite HL, andb_true_r.
    destruct (Nat.leb (S c) j) eqn:E1.
    - apply Nat.leb_le in E1.
      assert (nth (S c) ip 0 <= nth j ip 0) by (apply (ip_mono ip nc n W); lia).
      assert (Nat.ltb r (nth j ip 0) = true) as HR by (apply Nat.ltb_lt; lia).
      rewrite HR. simpl. lia.
    - apply Nat.leb_gt in E1.
      assert (nth j ip 0 <= nth c ip 0) by (apply (ip_mono ip nc n W); lia).
      assert (Nat.ltb r (nth j ip 0) = false) as HR by (apply Nat.ltb_ge; lia).
      rewrite HR. simpl. lia. }
  rewrite H by apply map_length.
  replace (nth j (map (fun _ => 0) ip) 0) with 0; auto.
  clear. revert j. induction ip; destruct j; simpl; auto.
Qed.

Lemma np_where_In : forall f n k, In k (np_where f n) <-> k < n /\ f k = true.
Proof. intros. unfold np_where. rewrite filter_In, in_seq. intuition lia. Qed.

Lemma filter_seq_lt : forall f n b, b <= n ->
    filter (fun r => Nat.ltb r b) (np_where f n) = np_where f b.
Proof.
  intros f n b H. unfold np_where.
  replace n with (b + (n - b)) by lia. rewrite seq_app, filter_app, filter_app.
  replace (filter (fun r => Nat.ltb r b) (filter f (seq 0 b))) with (filter f (seq 0 b)).
  - replace (filter (fun r => Nat.ltb r b) (filter f (seq (0 + b) (n - b)))) with (@nil nat).
    apply app_nil_r.
    symmetry. assert (forall l, (forall y, In y l -> b <= y) -> filter (fun r => Nat.ltb r b) (filter f l) = []) as HH.
    { induction l; simpl; intros; auto. destruct (f a); simpl; auto.
      assert (b <= a) by auto. assert (Nat.ltb a b = false) as -> by (apply Nat.ltb_ge; lia). auto. }
    apply HH. intros y Hy. apply in_seq in Hy. lia.
  - assert (forall l, (forall y, In y l -> y < b) -> filter f l = filter (fun r => Nat.ltb r b) (filter f l)) as HH.
    { induction l; simpl; intros; auto. destruct (f a); simpl; auto.
      assert (a < b) by auto. assert (Nat.ltb a b = true) as -> by (apply Nat.ltb_lt; lia).
      f_equal. auto. }
    apply HH. intros y Hy. apply in_seq in Hy. lia.
Qed.

Lemma nth_map_seq' : forall A (h : nat -> A) s n k d, k < n -> nth k (map h (seq s n)) d = h (s + k).
Proof.
  intros. rewrite nth_indep with (d' := h 0) by (rewrite map_length, seq_length; auto).
  rewrite map_nth, seq_nth; auto.
Qed.

Definition cnt (f : nat -> bool) (b : nat) : nat := length (np_where f b).

Lemma np_where_split : forall f a b, a <= b ->
    np_where f b = np_where f a ++ filter f (seq a (b - a)).
Proof.
  intros. unfold np_where. replace b with (a + (b - a)) at 1 by lia.
  rewrite seq_app, filter_app. reflexivity.
Qed.

Lemma cnt_mono : forall f a b, a <= b -> cnt f a <= cnt f b.
Proof. intros. unfold cnt. rewrite (np_where_split f a b H), app_length. lia. Qed.

Lemma recount_where : forall nc n ip f, ip_wf ip nc n -> forall j, j <= nc ->
    nth j (recount nc ip (np_where f n)) 0 = cnt f (nth j ip 0).
Proof.
  intros. rewrite (recount_nth nc n); auto.
  - unfold cnt. rewrite filter_seq_lt; auto.
    destruct H as (H1 & H2 & H3 & H4) eqn:E. rewrite <- H3. apply (ip_mono ip nc n); auto.
  - intros r Hr. apply np_where_In in Hr. lia.
Qed.

Lemma recount_wf : forall nc n ip f, ip_wf ip nc n ->
    ip_wf (recount nc ip (np_where f n)) nc (cnt f n).
Proof.
  intros nc n ip f W. pose proof W as (H1 & H2 & H3 & H4).
  assert (forall j, j <= nc -> nth j (recount nc ip (np_where f n)) 0 = cnt f (nth j ip 0)) as R
    by (intros; apply recount_where; auto).
  split; [rewrite recount_length; auto|]. split; [|split].
  - rewrite R by lia. rewrite H2. reflexivity.
  - rewrite R by lia. rewrite H3. reflexivity.
  - intros c Hc. rewrite !R by lia. apply cnt_mono. apply H4. auto.
Qed.

(** The slice between two recounted pointers lists the selected positions of that column. *)
Lemma where_slice : forall f n a b, a <= b -> b <= n ->
    map (fun k => nth k (np_where f n) 0) (seq (cnt f a) (cnt f b - cnt f a))
    = filter f (seq a (b - a)).
Proof.
  intros f n a b Hab Hbn.
  assert (np_where f n = np_where f a ++ filter f (seq a (b - a)) ++ filter f (seq b (n - b))) as E.
  { rewrite (np_where_split f b n Hbn), (np_where_split f a b Hab), app_assoc. reflexivity. }
  rewrite E. unfold cnt.
  replace (length (np_where f b) - length (np_where f a)) with (length (filter f (seq a (b - a)))).
  2:{ rewrite (np_where_split f a b Hab), app_length. lia. }
  generalize (np_where f a), (filter f (seq a (b - a))), (filter f (seq b (n - b))).
  clear. intros l1 l2 l3.
  apply nth_ext with (d := 0) (d' := 0). rewrite map_length, seq_length. auto.
  intros k Hk. rewrite map_length, seq_length in Hk.
  rewrite nth_map_seq' by auto.
  rewrite app_nth2 by lia. replace (length l1 + k - length l1) with k by lia.
  rewrite app_nth1 by auto. reflexivity.
Qed.

Lemma take_length : forall A (d : A) l idx, length (take d l idx) = length idx.
Proof. intros. apply map_length. Qed.

Lemma take_nth : forall A (d : A) l idx k d', k < length idx ->
    nth k (take d l idx) d' = nth (nth k idx 0) l d.
Proof.
  intros. unfold take. rewrite nth_indep with (d' := (fun k => nth k l d) 0) by (rewrite map_length; auto).
  rewrite (map_nth (fun k => nth k l d)). reflexivity.
Qed.

Section RingPart.
  Variable K : Ring.
  Add Ring Kring : (rth K).
  Local Open Scope num_scope.

  Lemma rsum_filter : forall A (f : A -> bool) (h : A -> K) l,
      (forall a, In a l -> f a = false -> h a = n0) ->
      rsum (map h (filter f l)) = rsum (map h l).
  Proof.
    induction l; simpl; intros; auto. destruct (f a) eqn:E; simpl.
    - rewrite IHl; auto.
    - rewrite IHl, H; auto. ring.
  Qed.

  (** One selection step on a compressed-column matrix. *)
  Lemma sel_entry : forall nc n ip idx (val : nat -> K) f, ip_wf ip nc n ->
      forall i j, (j < nc)%nat ->
        csc_entry (fun k => val (nth k (np_where f n) 0%nat)) (take 0%nat idx (np_where f n))
                  (recount nc ip (np_where f n)) i j
        = rsum (map (fun k => if Nat.eqb (nth k idx 0%nat) i then val k else n0)
                    (filter f (seq (nth j ip 0%nat) (nth (S j) ip 0%nat - nth j ip 0%nat)%nat))).
  Proof.
    intros nc n ip idx val f W i j Hj. unfold csc_entry.
    rewrite !(recount_where nc n) by (auto; lia).
    pose proof W as (H1 & H2 & H3 & H4).
    assert (nth j ip 0%nat <= nth (S j) ip 0%nat)%nat as Hab by auto.
    assert (nth (S j) ip 0%nat <= n)%nat as Hbn by (rewrite <- H3; apply (ip_mono ip nc n); auto).
    rewrite <- (where_slice f n _ _ Hab Hbn). rewrite map_map.
    apply rsum_ext. intros k Hk. apply in_seq in Hk.
    assert (k < length (np_where f n))%nat as HK.
    { pose proof (cnt_mono f _ _ Hbn). unfold cnt in *. lia. }
    rewrite take_nth by auto. reflexivity.
  Qed.

  (** ** Sparse rows *)

  Lemma dot_rsum : forall (v : list K) (r : row K),
      dot v r = rsum (map (fun cv => snd cv * nth (fst cv) v n0) r).
  Proof.
    intros v r. unfold dot.
    assert (forall acc, fold_left (fun acc cv => acc + snd cv * nth (fst cv) v n0) r acc
                        = acc + rsum (map (fun cv => snd cv * nth (fst cv) v n0) r)) as H.
    { induction r; simpl; intros. ring. rewrite IHr. ring. }
    rewrite H. ring.
  Qed.

  Lemma rz_false : forall a : K, rz a = false -> a <> n0.
  Proof. intros a H E. apply rz_spec in E. congruence. Qed.

  Lemma nth_map_seq : forall A (h : nat -> A) n k d, (k < n)%nat -> nth k (map h (seq 0 n)) d = h k.
  Proof.
    intros. rewrite nth_indep with (d' := h 0%nat) by (rewrite map_length, seq_length; auto).
    rewrite map_nth, seq_nth; auto.
  Qed.

  Lemma combine_seq : forall A (l : list A) d s,
      combine (seq s (length l)) l = map (fun c => (c, nth (c - s) l d)) (seq s (length l)).
  Proof.
    induction l; simpl; intros; auto. rewrite Nat.sub_diag. f_equal.
    rewrite IHl with (d := d). apply map_ext_in. intros c Hc. apply in_seq in Hc.
    replace (c - s)%nat with (S (c - S s)) by lia. reflexivity.
  Qed.

  Lemma dense_row_length : forall n (r : row K), length (dense_row n r) = n.
  Proof. intros. unfold dense_row. rewrite map_length, seq_length. reflexivity. Qed.

  Lemma dense_row_nth : forall n (r : row K) c, (c < n)%nat ->
      nth c (dense_row n r) n0 = rsum (map snd (filter (fun cv => Nat.eqb (fst cv) c) r)).
  Proof. intros. unfold dense_row. rewrite nth_map_seq by auto. apply nsum_rsum. Qed.

  Lemma dot_sparse : forall (d v : list K),
      dot v (sparse_row d) = rsum (map (fun c => nth c d n0 * nth c v n0) (seq 0 (length d))).
  Proof.
    intros. rewrite dot_rsum. unfold sparse_row. rewrite rsum_filter.
    - rewrite combine_seq with (d := n0). rewrite map_map. apply rsum_ext. intros c Hc. simpl.
      rewrite Nat.sub_0_r. reflexivity.
    - intros cv _ H. apply negb_false_iff in H. apply rz_spec in H. rewrite H. ring.
  Qed.

  Lemma dot_dense : forall n (r : row K) (v : list K), (forall c w, In (c, w) r -> c < n)%nat ->
      rsum (map (fun c => nth c (dense_row n r) n0 * nth c v n0) (seq 0 n)) = dot v r.
  Proof.
    intros n r v H. rewrite dot_rsum.
    transitivity (rsum (map (fun c => rsum (map (fun cv : nat * K =>
        if Nat.eqb (fst cv) c then snd cv * nth (fst cv) v n0 else n0) r)) (seq 0 n))).
    - apply rsum_ext. intros c Hc. apply in_seq in Hc. rewrite dense_row_nth by lia.
      clear H. induction r as [|[a w] r]; simpl. ring.
      rewrite <- IHr. destruct (Nat.eqb a c) eqn:E; simpl; [|ring].
      apply Nat.eqb_eq in E. subst. ring.
    - rewrite rsum_swap. apply rsum_ext. intros [c w] Hin. simpl.
      rewrite rsum_single with (k := c).
      + rewrite Nat.eqb_refl. reflexivity.
      + specialize (H c w Hin). lia.
      + intros j _ Hj. destruct (Nat.eqb c j) eqn:E; auto. apply Nat.eqb_eq in E. congruence.
  Qed.

  (** One row of [resparse]: value scaled by the sign, no column that was not there. *)
  Definition rs_row (ncols : nat) (neg : bool) (r : row K) : row K :=
    sparse_row (map (fun v => v * sign_of neg) (dense_row ncols r)).

  Lemma rs_row_dot : forall n neg r v, (forall c w, In (c, w) r -> c < n)%nat ->
      dot v (rs_row n neg r) = sign_of neg * dot v r.
  Proof.
    intros n neg r v H. unfold rs_row. rewrite dot_sparse, map_length, dense_row_length.
    rewrite <- (dot_dense n r v H). rewrite <- rsum_map_mul.
    apply rsum_ext. intros c Hc. apply in_seq in Hc.
    rewrite nth_indep with (d' := (fun v => v * sign_of neg) n0)
      by (rewrite map_length, dense_row_length; lia).
    rewrite (map_nth (fun v => v * sign_of neg)). ring.
  Qed.

  Lemma sparse_row_In : forall (d : list K) c w, In (c, w) (sparse_row d) ->
      (c < length d)%nat /\ nth c d n0 = w /\ w <> n0.
  Proof.
    intros d c w H. unfold sparse_row in H. apply filter_In in H. destruct H as [H1 H2].
    rewrite combine_seq with (d := n0) in H1. apply in_map_iff in H1.
    destruct H1 as [c' [E Hc]]. rewrite Nat.sub_0_r in E. inversion E; subst.
    apply in_seq in Hc. split; [lia|]. split; auto. simpl in H2.
    apply negb_true_iff in H2. apply rz_false. exact H2.
  Qed.

  Lemma rs_row_In : forall n neg r c w, In (c, w) (rs_row n neg r) ->
      (c < n)%nat /\ exists w', In (c, w') r.
  Proof.
    intros n neg r c w H. unfold rs_row in H. apply sparse_row_In in H.
    rewrite map_length, dense_row_length in H. destruct H as (H1 & H2 & H3). split; auto.
    rewrite nth_indep with (d' := (fun v => v * sign_of neg) n0) in H2
      by (rewrite map_length, dense_row_length; lia).
    rewrite (map_nth (fun v => v * sign_of neg)) in H2. rewrite dense_row_nth in H2 by auto.
    destruct (filter (fun cv : nat * K => Nat.eqb (fst cv) c) r) as [|[a b] t] eqn:E.
    - exfalso. apply H3. rewrite <- H2. simpl. ring.
    - assert (In (a, b) (filter (fun cv : nat * K => Nat.eqb (fst cv) c) r)) as HI by (rewrite E; left; auto).
      apply filter_In in HI. destruct HI as [HI1 HI2]. apply Nat.eqb_eq in HI2. simpl in HI2. subst.
      exists b. auto.
  Qed.

  Lemma resparse_length : forall n a rows, length (@resparse K n a rows) = length rows.
  Proof. intros. unfold resparse. rewrite map_length, combine_length, seq_length. lia. Qed.

  Lemma resparse_nth : forall n a rows k, (k < length rows)%nat ->
      nth k (@resparse K n a rows) [] = rs_row n (am_neg a k) (nth k rows []).
  Proof.
    intros. unfold resparse. rewrite (combine_seq (row K) rows [] 0). rewrite map_map.
    rewrite nth_map_seq by auto. simpl. rewrite Nat.sub_0_r. reflexivity.
  Qed.

  Lemma nth_In_or : forall (rows : list (row K)) k, In (nth k rows []) rows \/ nth k rows [] = [].
  Proof.
    intros. destruct (Nat.lt_ge_cases k (length rows)).
    - left. apply nth_In. auto.
    - right. apply nth_overflow. auto.
  Qed.

  Definition cols_lt (n : nat) (rows : list (row K)) : Prop :=
    forall r c w, In r rows -> In (c, w) r -> (c < n)%nat.

  Lemma resparse_dot : forall n a rows k v, cols_lt n rows -> (k < length rows)%nat ->
      dot v (nth k (@resparse K n a rows) []) = sign_of (am_neg a k) * dot v (nth k rows []).
  Proof.
    intros. rewrite resparse_nth by auto. apply rs_row_dot. intros c w Hin.
    apply (H (nth k rows []) c w); auto. apply nth_In. auto.
  Qed.

  Lemma resparse_In : forall n a rows r c w, In r (@resparse K n a rows) -> In (c, w) r ->
      (c < n)%nat /\ exists r' w', In r' rows /\ In (c, w') r'.
  Proof.
    intros n a rows r c w H1 H2. apply In_nth with (d := []) in H1. destruct H1 as [k [Hk E]].
    rewrite resparse_length in Hk. rewrite resparse_nth in E by auto. subst r.
    apply rs_row_In in H2. destruct H2 as [H2 [w' H3]]. split; auto.
    exists (nth k rows []), w'. split; auto. apply nth_In. auto.
  Qed.

  Lemma mapv_dot : forall rows v, @mapv K rows v = map (dot v) rows.
  Proof. reflexivity. Qed.

  Lemma take_In : forall A (d : A) l idx a, In a (take d l idx) -> In a l \/ a = d.
  Proof.
    intros. unfold take in H. apply in_map_iff in H. destruct H as [k [E _]]. subst.
    destruct (Nat.lt_ge_cases k (length l)); [left; apply nth_In; auto | right; apply nth_overflow; auto].
  Qed.

  Lemma touches_false : forall rows lo hi, @touches K rows lo hi = false ->
      forall r c w, In r rows -> In (c, w) r -> ~ (lo <= c < hi)%nat.
  Proof.
    intros rows lo hi H r c w H1 H2 H3. unfold touches in H.
    assert (existsb (fun r : list (nat * K) => existsb (fun cv => Nat.leb lo (fst cv) && Nat.ltb (fst cv) hi) r) rows = true).
    { apply existsb_exists. exists r. split; auto. apply existsb_exists. exists (c, w). split; auto. simpl.
      apply andb_true_iff. split; [apply Nat.leb_le | apply Nat.ltb_lt]; lia. }
    congruence.
  Qed.

  (** ** Densification of vectors *)

  Lemma dense_fold : forall (l : list (nat * row K)) acc i,
      NoDup (map fst l) ->
      nth i (fold_left (fun acc ir => upd acc (fst ir) (snd ir)) l acc) []
      = (if Nat.ltb i (length acc) then
           match find (fun ir => Nat.eqb (fst ir) i) l with Some ir => snd ir | None => nth i acc [] end
         else []).
  Proof.
    induction l as [|[a r] l]; simpl; intros acc i H.
    - destruct (Nat.ltb i (length acc)) eqn:E; auto. apply Nat.ltb_ge in E. apply nth_overflow. auto.
    - inversion H; subst. rewrite IHl by auto. rewrite upd_length.
      destruct (Nat.ltb i (length acc)) eqn:E; auto. apply Nat.ltb_lt in E.
      destruct (Nat.eqb a i) eqn:E2.
      + apply Nat.eqb_eq in E2. subst a.
        destruct (find (fun ir : nat * row K => Nat.eqb (fst ir) i) l) as [[b r']|] eqn:E3.
        * exfalso. apply find_some in E3. destruct E3 as [E3 E4]. apply Nat.eqb_eq in E4. simpl in E4. subst b.
          apply H2. apply in_map_iff. exists (i, r'). auto.
        * apply nth_upd_eq. auto.
      + apply Nat.eqb_neq in E2.
        destruct (find (fun ir : nat * row K => Nat.eqb (fst ir) i) l); auto.
        apply nth_upd_neq. auto.
  Qed.

  Lemma fold_upd_length : forall (l : list (nat * row K)) acc,
      length (fold_left (fun acc ir => upd acc (fst ir) (snd ir)) l acc) = length acc.
  Proof. induction l; simpl; intros; auto. rewrite IHl, upd_length. auto. Qed.

  Lemma find_sum : forall (l : list (nat * row K)) i v, NoDup (map fst l) ->
      match find (fun ir => Nat.eqb (fst ir) i) l with Some ir => dot v (snd ir) | None => n0 end
      = rsum (map (fun ir => if Nat.eqb (fst ir) i then dot v (snd ir) else n0) l).
  Proof.
    induction l as [|[a r] l]; simpl; intros; auto. inversion H; subst.
    destruct (Nat.eqb a i) eqn:E.
    - apply Nat.eqb_eq in E. subst. simpl. rewrite rsum_zero. ring.
      intros [b r'] Hb. simpl. destruct (Nat.eqb b i) eqn:E2; auto. apply Nat.eqb_eq in E2. subst.
      exfalso. apply H2. apply in_map_iff. exists (i, r'). auto.
    - rewrite IHl by auto. ring.
  Qed.

  Lemma map_fst_combine : forall A B (l1 : list A) (l2 : list B), length l1 = length l2 ->
      map fst (combine l1 l2) = l1.
  Proof. induction l1; destruct l2; simpl; intros; auto; try discriminate. f_equal. auto. Qed.

  Lemma combine_nth_map : forall A B (d1 : A) (d2 : B) l1 l2, length l1 = length l2 ->
      combine l1 l2 = map (fun k => (nth k l1 d1, nth k l2 d2)) (seq 0 (length l1)).
  Proof.
    intros. apply nth_ext with (d := (d1, d2)) (d' := (d1, d2)).
    - rewrite combine_length, map_length, seq_length. lia.
    - intros k Hk. rewrite combine_length in Hk. rewrite combine_nth by auto.
      rewrite nth_map_seq by lia. reflexivity.
  Qed.

  Lemma to_dense_length : forall (x : cvx K) a, length (to_dense x a) = am_nr a.
  Proof. intros. unfold to_dense. rewrite fold_upd_length, repeat_length. reflexivity. Qed.

  Lemma to_dense_dot : forall (x : cvx K) a i v,
      NoDup (am_idx a) -> length (am_idx a) = length (am_mrows a) -> (i < am_nr a)%nat ->
      dot v (nth i (to_dense x a) [])
      = rsum (map (fun k => if Nat.eqb (nth k (am_idx a) 0%nat) i
                            then dot v (nth (nth k (am_mrows a) 0%nat) (x_A x) []) else n0)
                  (seq 0 (length (am_mrows a)))).
  Proof.
    intros x a i v Hn Hl Hi. unfold to_dense. rewrite dense_fold.
    2:{ rewrite map_fst_combine; auto. rewrite take_length. auto. }
    rewrite repeat_length. assert (Nat.ltb i (am_nr a) = true) as -> by (apply Nat.ltb_lt; auto).
    pose proof (find_sum (combine (am_idx a) (take [] (x_A x) (am_mrows a))) i v) as F.
    rewrite map_fst_combine in F by (rewrite take_length; auto). specialize (F Hn).
    match goal with |- dot v ?X = _ => replace (dot v X) with
      (match find (fun ir : nat * row K => Nat.eqb (fst ir) i) (combine (am_idx a) (take [] (x_A x) (am_mrows a)))
        with Some ir => dot v (snd ir) | None => n0 end) end.
    2:{ destruct (find (fun ir : nat * row K => Nat.eqb (fst ir) i) (combine (am_idx a) (take [] (x_A x) (am_mrows a)))); auto.
        rewrite nth_repeat. reflexivity. }
    rewrite F. rewrite combine_nth_map with (d1 := 0%nat) (d2 := []) by (rewrite take_length; auto).
    rewrite map_map. rewrite Hl. apply rsum_ext. intros k Hk. apply in_seq in Hk. simpl.
    rewrite take_nth by lia. reflexivity.
  Qed.

  Lemma to_dense_In : forall (x : cvx K) a r, In r (to_dense x a) -> In r (x_A x) \/ r = [].
  Proof.
    intros x a r. unfold to_dense.
    assert (forall l acc, (forall y, In y acc -> In y (x_A x) \/ y = []) ->
              (forall ir, In ir l -> In (snd ir) (x_A x) \/ snd ir = []) ->
              forall y, In y (fold_left (fun acc ir => upd acc (fst ir) (snd ir)) l acc)
                        -> In y (x_A x) \/ y = []) as H.
    { induction l as [|[b r'] l]; simpl; intros acc Ha Hl y Hy; [apply Ha; auto|].
      eapply IHl; [| |apply Hy]; auto.
      intros z Hz. apply In_nth with (d := []) in Hz. destruct Hz as [k [Hk E]].
      rewrite upd_length in Hk. destruct (Nat.eq_dec k b).
      - subst k. rewrite nth_upd_eq in E by auto. subst z. apply (Hl (b, r')). auto.
      - rewrite nth_upd_neq in E by auto. apply Ha. subst z. apply nth_In. auto. }
    apply H.
    - intros y Hy. apply repeat_spec in Hy. auto.
    - intros [b r'] Hir. apply in_combine_r in Hir. apply take_In in Hir. auto.
  Qed.
End RingPart.
