(** Proofs about explicit mode: clamping, the parameter box, the reduced QP. *)

From Coq Require Import String Arith Bool ZArith Lia List Permutation Ring.
From Verif Require Import Base Pus Machine PusParse PusCheck PusLift Runtime RuntimeSpec RuntimeProofs
     RuntimeMore Retrieve RetrieveProofs Canon CanonSpec CanonProofs Explicit.
Import ListNotations.
Open Scope list_scope.

(** ** Masks *)

Lemma mask_sel_map : forall A B (f : A -> B) m l, mask_sel m (map f l) = map f (mask_sel m l).
Proof. induction m as [|[] m IH]; intros [|x l]; simpl; auto. f_equal. auto. Qed.

Lemma mask_sel_length : forall A B m (l : list A) (l' : list B), length l = length l' ->
  length (mask_sel m l) = length (mask_sel m l').
Proof. induction m as [|[] m IH]; intros [|x l] [|y l'] H; simpl in *; auto; try discriminate. Qed.

Lemma mask_sel_repeat : forall A (a : A) m n, mask_sel m (repeat a n) = map (fun _ => a) (mask_sel m (seq 0 n)).
Proof.
  intros A a m n. replace (repeat a n) with (map (fun _ => a) (seq 0 n)).
  - apply mask_sel_map.
  - generalize 0. induction n; simpl; intros; auto. f_equal. auto.
Qed.

Lemma mask_sel_In : forall A m (l : list A) x, In x (mask_sel m l) -> In x l.
Proof.
  induction m as [|[] m IH]; intros [|y l] x H; simpl in *; auto; try contradiction.
  destruct H; eauto.
Qed.

Fixpoint cnt_true (m : list bool) : nat := match m with [] => 0 | b :: t => (if b then 1 else 0) + cnt_true t end.
Lemma mask_sel_cnt : forall A m (l : list A), length l = length m -> length (mask_sel m l) = cnt_true m.
Proof. induction m as [|[] m IH]; intros [|x l] H; simpl in *; auto; try discriminate. Qed.

Lemma mask_set_sel : forall A m s (v : list A), length s = cnt_true m ->
  length v = length m -> mask_sel (mask_set m s) v = mask_sel s (mask_sel m v).
Proof.
  induction m as [|[] m IH]; intros s v Hs Hv; destruct v as [|x v]; simpl in *; try discriminate.
  - destruct s; reflexivity.
  - destruct s as [|b s]; simpl in *; try discriminate. destruct b; rewrite IH; auto; lia.
  - apply IH; lia.
Qed.
Lemma mask_set_length : forall m s, length (mask_set m s) = length m.
Proof. induction m as [|[] m IH]; simpl; intros; auto. destruct s; simpl; auto. Qed.

Lemma mask_pos_aux : forall m s, map fst (filter (fun ib : nat * bool => snd ib) (combine (seq s (length m)) m)) = mask_sel m (seq s (length m)).
Proof. induction m as [|[] m IH]; simpl; intros; auto. f_equal. auto. Qed.
Lemma mask_pos_sel : forall m, mask_pos m = mask_sel m (seq 0 (length m)).
Proof. intro. apply mask_pos_aux. Qed.
Lemma mask_pos_lt : forall m i, In i (mask_pos m) -> i < length m.
Proof. intros m i H. rewrite mask_pos_sel in H. apply mask_sel_In in H. apply in_seq in H. lia. Qed.
Lemma mask_pos_sel_nth : forall A (d : A) m v, length v = length m ->
  map (fun i => nth i v d) (mask_pos m) = mask_sel m v.
Proof.
  intros A d m v H. rewrite mask_pos_sel, <- mask_sel_map. f_equal.
  rewrite <- H. apply nth_ext with d d; rewrite map_length, seq_length; auto.
  intros k Hk. rewrite (nth_indep _ d (nth 0 v d)) by (rewrite map_length, seq_length; auto).
  change (nth 0 v d) with ((fun i => nth i v d) 0). rewrite map_nth. rewrite seq_nth; auto.
Qed.

Lemma map2_length : forall A B C (f : A -> B -> C) l l', length l = length l' -> length (map2 f l l') = length l.
Proof. induction l; intros [|b l'] H; simpl in *; auto; try discriminate. Qed.
Lemma map2_map : forall A B C D (f : B -> C -> D) (g : A -> B) (h : A -> C) l,
  map2 f (map g l) (map h l) = map (fun a => f (g a) (h a)) l.
Proof. induction l; simpl; auto. f_equal. auto. Qed.
Lemma nth_map2 : forall A B C (f : A -> B -> C) l l' k d1 d2 d, k < length l -> k < length l' ->
  nth k (map2 f l l') d = f (nth k l d1) (nth k l' d2).
Proof. induction l; intros [|b l'] [|k] d1 d2 d H H'; simpl in *; try lia; auto. apply IHl; lia. Qed.

(** ** Dot products *)
Section Dots.
  Variable K : Ring.
  Add Ring Kring : (rth K).
  Local Open Scope num_scope.

  Lemma ldot_split : forall m (a b : list K), length a = length m -> length b = length m ->
    ldot a b = ldot (mask_sel (map negb m) a) (mask_sel (map negb m) b) + ldot (mask_sel m a) (mask_sel m b).
  Proof.
    unfold ldot. induction m as [|[] m IH]; intros [|x a] [|y b] Ha Hb; simpl in *; try discriminate.
    - ring.
    - rewrite IH by lia. ring.
    - rewrite IH by lia. ring.
  Qed.

  Lemma neqb_false : forall a b : K, neqb a b = false -> a = b.
  Proof.
    intros a b H. unfold neqb in H. apply negb_false_iff in H. apply rz_spec in H.
    replace a with ((a - b) + b) by ring. rewrite H. ring.
  Qed.
  Lemma neqb_refl : forall a : K, neqb a a = false.
  Proof. intro. unfold neqb. apply negb_false_iff. apply rz_spec. ring. Qed.

  Lemma ldot_drop : forall m (a b : list K), length a = length m -> length b = length m ->
    (forall j, nth j m true = false -> nth j a n0 = n0) -> ldot a b = ldot (mask_sel m a) (mask_sel m b).
  Proof.
    unfold ldot. induction m as [|[] m IH]; intros [|x a] [|y b] Ha Hb H; simpl in *; try discriminate; auto.
    - rewrite (IH a b); auto; try lia. intros j Hj. apply (H (S j)). auto.
    - rewrite (IH a b); try lia; [|intros j Hj; apply (H (S j)); auto].
      pose proof (H 0%nat eq_refl) as E. simpl in E. rewrite E. ring.
  Qed.

  Lemma ldot_unit : forall w o i (v : list K), length v = w -> o + i < w ->
    ldot (unit_row w o i) v = nth (o + i)%nat v n0.
  Proof.
    intros w o i v Hv Hi. unfold ldot, unit_row.
    replace v with (map (fun j => nth j v n0) (seq 0 w)) at 1.
    - rewrite map2_map. rewrite rsum_single with (k := (o + i)%nat).
      + rewrite Nat.eqb_refl. ring.
      + lia.
      + intros j Hj Hn. apply Nat.eqb_neq in Hn. rewrite Hn. ring.
    - rewrite <- Hv. rewrite map_nth_seq by (simpl; lia). simpl. apply firstn_all.
  Qed.

  Lemma any_col_false : forall w (M : list (list K)) j r, nth j (any_col w M) true = false -> In r M -> nth j r n0 = n0.
  Proof.
    intros w M j r H Hr. unfold any_col in H. destruct (Nat.lt_ge_cases j w) as [L|L].
    - rewrite (nth_map_seq' _ _ 0 w j) in H by auto. simpl in H.
      destruct (neqb (nth j r n0) n0) eqn:E; [|apply neqb_false; auto].
      assert (existsb (fun r => neqb (nth j r n0) n0) M = true); [|congruence].
      apply existsb_exists. exists r. auto.
    - rewrite nth_overflow in H; [discriminate|]. rewrite map_length, seq_length. auto.
  Qed.

  Lemma map2_orb_false : forall a b j, length a = length b -> nth j (map2 orb a b) true = false ->
    nth j a true = false /\ nth j b true = false.
  Proof.
    induction a; intros [|y b] [|j] H E; simpl in *; try discriminate.
    - apply orb_false_iff in E. auto.
    - apply IHa; auto.
  Qed.
End Dots.

(** ** The reduced QP *)
Section Reduced.
  Variable K : Ring.
  Add Ring Kring : (rth K).
  Local Open Scope num_scope.

  (** [v] agrees with [thmin] wherever the box is a point. *)
  Definition fixed_agree (thmin thmax v : list K) : Prop :=
    forall j, nth j thmin n0 = nth j thmax n0 -> nth j v n0 = nth j thmin n0.

  Lemma sel_fixed : forall (thmin thmax v : list K), length thmin = length thmax -> length v = length thmin ->
    fixed_agree thmin thmax v ->
    mask_sel (map negb (map2 neqb thmin thmax)) v = mask_sel (map negb (map2 neqb thmin thmax)) thmin.
  Proof.
    induction thmin as [|a t IH]; intros [|b t'] [|x v] H1 H2 HF; simpl in *; try discriminate; auto.
    assert (HF' : fixed_agree t t' v) by (intros j Hj; apply (HF (S j)); auto).
    rewrite (IH t' v) by (auto; lia).
    destruct (neqb a b) eqn:E; simpl; auto.
    apply neqb_false in E. subst. rewrite (HF 0%nat eq_refl : x = b). reflexivity.
  Qed.

  Lemma reduce_ok : forall n (A : list (list K)) thmin thmax q u,
    length q = n -> length u = length A -> length thmin = (n + length A)%nat -> length thmax = (n + length A)%nat ->
    fixed_agree thmin thmax (q ++ u) ->
    let R := reduce n A thmin thmax in
    let th := mask_sel (xq_mask R) (q ++ u) in
    vadd (xq_f R) (map (fun r => ldot r th) (xq_F R)) = q
    /\ vadd (xq_b R) (map (fun r => ldot r th) (xq_B R)) = mask_sel (xq_amask R) u
    /\ length (xq_mask R) = (n + length A)%nat
    /\ length th = length (xq_min R) /\ length (xq_max R) = length (xq_min R)
    /\ (forall r, In r (xq_F R) \/ In r (xq_B R) -> length r = length th).
  Proof.
    intros n A thmin thmax q u Hq Hu Hmin Hmax HF. cbv zeta.
    set (m := length A) in *. set (w := (n + m)%nat) in *. set (qu := q ++ u).
    assert (Hqu : length qu = w) by (unfold qu; rewrite app_length; lia).
    unfold reduce. fold m. fold w.
    set (F0 := map (unit_row w 0) (seq 0 n)).
    set (amask := map (existsb (fun a : K => neqb a n0)) A).
    set (msk := map2 neqb thmin thmax).
    assert (Hm : length msk = w) by (unfold msk; rewrite map2_length; lia).
    set (B0 := mask_sel amask (map (unit_row w n) (seq 0 m))).
    assert (HB0 : B0 = map (unit_row w n) (mask_sel amask (seq 0 m))) by apply mask_sel_map.
    set (F1 := map (mask_sel msk) F0). set (B1 := map (mask_sel msk) B0).
    set (nz := map2 orb (any_col (length (mask_sel msk thmin)) F1) (any_col (length (mask_sel msk thmin)) B1)).
    cbn [xq_f xq_F xq_b xq_B xq_min xq_max xq_mask xq_amask].
    assert (Hc : cnt_true msk = length (mask_sel msk thmin)) by (symmetry; apply mask_sel_cnt; lia).
    assert (Hnz : length nz = cnt_true msk).
    { unfold nz. rewrite map2_length; unfold any_col; rewrite !map_length, !seq_length; auto; lia. }
    assert (Hth : mask_sel (mask_set msk nz) qu = mask_sel nz (mask_sel msk qu)) by (apply mask_set_sel; lia).
    rewrite Hth.
    assert (Hrow : forall r : list K, length r = w -> In (mask_sel msk r) F1 \/ In (mask_sel msk r) B1 ->
              ldot (mask_sel (map negb msk) r) (mask_sel (map negb msk) thmin)
              + ldot (mask_sel nz (mask_sel msk r)) (mask_sel nz (mask_sel msk qu)) = ldot r qu).
    { intros r Hr Hin. rewrite (ldot_split K msk r qu) by lia. f_equal.
      - f_equal. symmetry. apply sel_fixed; auto; lia.
      - symmetry. apply ldot_drop.
        + rewrite Hnz. apply mask_sel_cnt. lia.
        + rewrite Hnz. apply mask_sel_cnt. lia.
        + intros j Hj. unfold nz in Hj. apply map2_orb_false in Hj;
            [|unfold any_col; rewrite !map_length; reflexivity].
          destruct Hj as [J1 J2]. destruct Hin as [Hin|Hin]; [exact (any_col_false K _ _ _ _ J1 Hin)|exact (any_col_false K _ _ _ _ J2 Hin)]. }
    assert (Hur : forall o i, length (@unit_row K w o i) = w) by (intros; unfold unit_row; rewrite map_length, seq_length; auto).
    assert (HinF : forall i, In i (seq 0 n) -> In (mask_sel msk (unit_row w 0 i)) F1).
    { intros i Hi. unfold F1, F0. apply in_map. apply in_map. auto. }
    assert (HinB : forall i, In i (mask_sel amask (seq 0 m)) -> In (mask_sel msk (unit_row w n i)) B1).
    { intros i Hi. unfold B1. rewrite HB0. apply in_map. apply in_map. auto. }
    split; [|split; [|split; [|split; [|split]]]].
    - unfold vadd, F1, F0. rewrite !map_map.
      replace (repeat n0 n) with (map (fun _ : nat => @n0 K) (seq 0 n)).
      2:{ clear. generalize 0%nat. induction n; simpl; intros; auto. f_equal. auto. }
      rewrite map2_map, map2_map.
      rewrite (map_ext_in _ (fun i => nth i qu n0)).
      + rewrite map_nth_seq by lia. simpl. unfold qu. rewrite firstn_app, Hq, Nat.sub_diag. simpl.
        rewrite app_nil_r. rewrite <- Hq. apply firstn_all.
      + intros i Hi. pose proof (Hrow (unit_row w 0 i) (Hur _ _) (or_introl (HinF i Hi))) as E.
        apply in_seq in Hi. rewrite ldot_unit in E by (auto; lia). simpl in E. rewrite <- E. ring.
    - unfold vadd, B1. rewrite HB0. rewrite !map_map.
      replace (mask_sel amask (repeat n0 m)) with (map (fun _ : nat => @n0 K) (mask_sel amask (seq 0 m)))
        by (symmetry; apply mask_sel_repeat).
      rewrite map2_map, map2_map.
      rewrite (map_ext_in _ (fun i => nth (n + i)%nat qu n0)).
      + rewrite <- mask_sel_map. f_equal. rewrite (map_ext_in _ (fun i => nth i u n0)).
        * rewrite map_nth_seq by lia. simpl. rewrite <- Hu. apply firstn_all.
        * intros i _. unfold qu. rewrite app_nth2 by lia. f_equal. lia.
      + intros i Hi. pose proof (Hrow (unit_row w n i) (Hur _ _) (or_intror (HinB i Hi))) as E.
        apply mask_sel_In in Hi. apply in_seq in Hi. rewrite ldot_unit in E by (auto; lia). rewrite <- E. ring.
    - rewrite mask_set_length. lia.
    - apply mask_sel_length. apply mask_sel_length. lia.
    - apply mask_sel_length. apply mask_sel_length. lia.
    - assert (Hlen : forall r0 : list K, length r0 = w -> length (mask_sel nz (mask_sel msk r0)) = length (mask_sel nz (mask_sel msk qu))).
      { intros r0 Hr0. apply mask_sel_length. apply mask_sel_length. lia. }
      intros r [H|H]; apply in_map_iff in H; destruct H as (r1 & E & H); subst r;
        unfold F1, B1 in H; apply in_map_iff in H; destruct H as (r2 & E & H); subst r1; apply Hlen.
      + unfold F0 in H. apply in_map_iff in H. destruct H as (i & E & _). subst. auto.
      + rewrite HB0 in H. apply in_map_iff in H. destruct H as (i & E & _). subst. auto.
  Qed.

  Lemma get_app : forall (q u : list K) i, (i < length (q ++ u))%nat ->
    (if Nat.ltb i (length q) then get q i else get u (i - length q)) = Ok (nth i (q ++ u) n0).
  Proof.
    intros q u i H. rewrite app_length in H. destruct (Nat.ltb i (length q)) eqn:E.
    - apply Nat.ltb_lt in E. rewrite (get_ok _ _ _ n0) by auto. rewrite app_nth1; auto.
    - apply Nat.ltb_ge in E. rewrite (get_ok _ _ _ n0) by lia. rewrite app_nth2; auto.
  Qed.

  Lemma mapM_pure : forall A B (f : A -> res B) (h : A -> B) l, (forall a, In a l -> f a = Ok (h a)) -> mapM f l = Ok (map h l).
  Proof. induction l; simpl; intros H; auto. rewrite H by auto. simpl. rewrite IHl by auto. reflexivity. Qed.

  Lemma theta_ok : forall (q u : list K) mask, length mask = length (q ++ u) ->
    theta (length q) mask q u = Ok (mask_sel mask (q ++ u)).
  Proof.
    intros q u mask H. unfold theta. rewrite (mapM_pure _ _ _ (fun i => nth i (q ++ u) n0)).
    - f_equal. apply mask_pos_sel_nth. auto.
    - intros i Hi. apply get_app. apply mask_pos_lt in Hi. lia.
  Qed.
End Reduced.
Arguments fixed_agree {K}.

(** ** Bounds *)
Section Ordered.
  Variable K : ORing.
  Add Ring Koring : (rth K).
  Local Open Scope num_scope.

  Lemma ltb_ge : forall a b : K, ltb a b = false <-> ole b a.
  Proof. intros. unfold ltb. rewrite negb_false_iff. apply oleb_spec. Qed.
  Lemma ltb_lt : forall a b : K, ltb a b = true <-> ~ ole b a.
  Proof.
    intros. unfold ltb. rewrite negb_true_iff. split; intro H.
    - intro L. apply oleb_spec in L. congruence.
    - destruct (oleb b a) eqn:E; auto. apply oleb_spec in E. contradiction.
  Qed.
  Lemma nle_le : forall a b : K, ~ ole a b -> ole b a.
  Proof. intros a b H. destruct (ole_total K a b); tauto. Qed.

  Lemma clamp_ok : forall lo hi v : K, ole lo hi ->
    ole lo (clamp lo hi v) /\ ole (clamp lo hi v) hi
    /\ (ole lo v -> ole v hi -> clamp lo hi v = v)
    /\ (~ ole lo v -> clamp lo hi v = lo) /\ (~ ole v hi -> clamp lo hi v = hi).
  Proof.
    intros lo hi v H. unfold clamp. destruct (ltb v lo) eqn:E1.
    - apply ltb_lt in E1. assert (E2 : ltb hi lo = false) by (apply ltb_ge; auto). rewrite E2.
      repeat split; auto using ole_refl; try contradiction.
      intro N. exfalso. apply N. eapply ole_trans; [apply nle_le; exact E1|exact H].
    - apply ltb_ge in E1. destruct (ltb hi v) eqn:E2.
      + apply ltb_lt in E2. repeat split; auto using ole_refl; try contradiction.
      + apply ltb_ge in E2. repeat split; auto; contradiction.
  Qed.

  Lemma put_slice_length : forall (l : list K) c vals, (c + length vals <= length l)%nat ->
    length (put_slice l c vals) = length l.
  Proof.
    intros. unfold put_slice. rewrite !app_length, firstn_length, skipn_length. lia.
  Qed.
  Lemma put_slice_nth : forall (l : list K) c vals k d, (c + length vals <= length l)%nat ->
    nth k (put_slice l c vals) d
    = if (Nat.leb c k && Nat.ltb k (c + length vals))%bool then nth (k - c) vals d else nth k l d.
  Proof.
    intros l c vals k d H. unfold put_slice.
    destruct (Nat.leb c k) eqn:E1; simpl.
    - apply Nat.leb_le in E1. rewrite app_nth2; rewrite firstn_length, Nat.min_l by lia; [|lia].
      destruct (Nat.ltb k (c + length vals)) eqn:E2.
      + apply Nat.ltb_lt in E2. apply app_nth1. lia.
      + apply Nat.ltb_ge in E2. rewrite app_nth2 by lia.
        rewrite <- (firstn_skipn (c + length vals) l) at 2.
        rewrite app_nth2; rewrite firstn_length, Nat.min_l by lia; [|lia]. f_equal. lia.
    - apply Nat.leb_gt in E1. rewrite app_nth1 by (rewrite firstn_length; lia).
      rewrite <- (firstn_skipn c l) at 2. rewrite app_nth1; auto. rewrite firstn_length. lia.
  Qed.

  Variable ps : list (string * nat).
  Hypothesis Hnd : NoDup (map fst ps).

  Lemma total_flat : forall th : pvals K, length (flat ps th) = S (list_sum (map snd ps)).
  Proof.
    intro th. unfold flat. rewrite app_length. simpl. rewrite Nat.add_1_r. f_equal.
    clear. induction ps as [|[n s] t IH]; simpl; auto. rewrite app_length, map_length, seq_length. auto.
  Qed.

  Lemma col_range : forall n s, In (n, s) ps -> exists c, find_col n (col_to_name 0 ps) = Some c
    /\ (c + s <= list_sum (map snd ps))%nat /\ assoc n ps = Some s.
  Proof.
    intros n s H. destruct (find_col_some n s ps 0 H) as [c Hc]. exists c. split; auto.
    assert (Hn := H). apply In_nth_error in Hn. destruct Hn as [k Hk].
    rewrite (find_col_nth ps k n s 0 Hnd Hk) in Hc. inversion Hc; subst c. split.
    - pose proof (sizes_before_step _ _ _ _ Hk).
      assert (Hlt : (k < length ps)%nat) by (apply nth_error_Some; congruence).
      pose proof (sizes_before_mono ps (S k) (length ps) Hlt).
      pose proof (flat_total K ps (fun _ _ => n0)). rewrite total_flat in H2. simpl in *. lia.
    - clear - Hnd H. induction ps as [|[m t] l IH]; simpl in *; [contradiction|].
      destruct H as [H|H].
      + inversion H; subst. rewrite String.eqb_refl. auto.
      + inversion Hnd; subst. destruct (String.eqb n m) eqn:E.
        * apply String.eqb_eq in E. subst. exfalso. apply H2. change m with (fst (m, s)). apply in_map. auto.
        * auto.
  Qed.

  (** What the user declared: the last bound wins. *)
  Fixpoint last_upper (cs : list (ucon K)) (n : string) (i : nat) (acc : K) : K :=
    match cs with
    | [] => acc
    | UUpper m vals :: t => last_upper t n i (if String.eqb m n then nth i vals n0 else acc)
    | _ :: t => last_upper t n i acc
    end.
  Fixpoint last_lower (cs : list (ucon K)) (n : string) (i : nat) (acc : K) : K :=
    match cs with
    | [] => acc
    | ULower m vals :: t => last_lower t n i (if String.eqb m n then nth i vals n0 else acc)
    | _ :: t => last_lower t n i acc
    end.
  Definition simple_bound (c : ucon K) : Prop :=
    match c with
    | UVars => True
    | UUpper n vals | ULower n vals => In (n, length vals) ps
    | UOther => False
    end.

  Lemma set_bound_ok : forall (l : list K) n vals, In (n, length vals) ps -> length l = S (list_sum (map snd ps)) ->
    exists l', set_bound ps l n vals = Ok l' /\ length l' = length l
      /\ nth (list_sum (map snd ps)) l' n0 = nth (list_sum (map snd ps)) l n0
      /\ (forall m s i c, In (m, s) ps -> (i < s)%nat -> find_col m (col_to_name 0 ps) = Some c ->
            nth (c + i) l' n0 = if String.eqb n m then nth i vals n0 else nth (c + i) l n0).
  Proof.
    intros l n vals Hin Hl. destruct (col_range _ _ Hin) as (c & Hc & Hr & Ha).
    unfold set_bound. rewrite Hc, Ha, Nat.eqb_refl. eexists. split; [reflexivity|].
    split; [apply put_slice_length; lia|]. split.
    - rewrite put_slice_nth by lia.
      destruct (Nat.ltb (list_sum (map snd ps)) (c + length vals)) eqn:E; [apply Nat.ltb_lt in E; lia|].
      rewrite andb_false_r. reflexivity.
    - intros m s i c' Hm Hi Hc'. rewrite put_slice_nth by lia.
      destruct (String.eqb n m) eqn:E.
      + apply String.eqb_eq in E. subst m. rewrite Hc in Hc'. inversion Hc'; subst c'.
        assert (s = length vals). { destruct (col_range _ _ Hm) as (_ & _ & _ & Ha'). congruence. }
        subst s. replace (Nat.leb c (c + i)) with true by (symmetry; apply Nat.leb_le; lia).
        replace (Nat.ltb (c + i) (c + length vals)) with true by (symmetry; apply Nat.ltb_lt; lia).
        simpl. f_equal. lia.
      + apply String.eqb_neq in E.
        destruct (slices_disjoint ps n m _ _ _ _ Hnd E Hin Hm Hc Hc') as [D|D].
        * replace (Nat.ltb (c' + i) (c + length vals)) with false by (symmetry; apply Nat.ltb_ge; lia).
          rewrite andb_false_r. reflexivity.
        * replace (Nat.leb c (c' + i)) with false by (symmetry; apply Nat.leb_gt; lia). reflexivity.
  Qed.

  Lemma bound_steps_ok : forall cs (l u : list K), Forall simple_bound cs ->
    length l = S (list_sum (map snd ps)) -> length u = S (list_sum (map snd ps)) ->
    exists l' u', bound_steps ps (l, u) cs = Ok (l', u') /\ length l' = length l /\ length u' = length u
      /\ nth (list_sum (map snd ps)) l' n0 = nth (list_sum (map snd ps)) l n0
      /\ nth (list_sum (map snd ps)) u' n0 = nth (list_sum (map snd ps)) u n0
      /\ (forall m s i c, In (m, s) ps -> (i < s)%nat -> find_col m (col_to_name 0 ps) = Some c ->
            nth (c + i) l' n0 = last_lower cs m i (nth (c + i) l n0)
            /\ nth (c + i) u' n0 = last_upper cs m i (nth (c + i) u n0)).
  Proof.
    induction cs as [|c cs IH]; intros l u HF Hl Hu; simpl.
    - exists l, u. repeat split; auto.
    - inversion HF as [|? ? Hc HF']; subst. destruct c as [|n vals|n vals|]; simpl in Hc; try contradiction.
      + cbn [bound_step bind]. apply IH; auto.
      + destruct (set_bound_ok u n vals Hc Hu) as (u1 & E & L1 & T1 & N1). cbn [bound_step bind fst snd].
        rewrite E. cbn [bind].
        destruct (IH l u1 HF' Hl) as (l' & u' & E' & L2 & L3 & T2 & T3 & N2); [lia|].
        exists l', u'. split; auto. split; auto. split; [lia|]. split; auto. split; [congruence|].
        intros m s i c Hm Hi Hcol. destruct (N2 m s i c Hm Hi Hcol) as [A1 A2]. split; auto.
        rewrite A2. rewrite (N1 m s i c Hm Hi Hcol). reflexivity.
      + destruct (set_bound_ok l n vals Hc Hl) as (l1 & E & L1 & T1 & N1). cbn [bound_step bind fst snd].
        rewrite E. cbn [bind].
        destruct (IH l1 u HF') as (l' & u' & E' & L2 & L3 & T2 & T3 & N2); [lia|lia|].
        exists l', u'. split; auto. split; [lia|]. split; auto. split; [congruence|]. split; auto.
        intros m s i c Hm Hi Hcol. destruct (N2 m s i c Hm Hi Hcol) as [A1 A2]. split; auto.
        rewrite A1. rewrite (N1 m s i c Hm Hi Hcol). reflexivity.
  Qed.

  Lemma bounds_ok : forall big cs, Forall simple_bound cs ->
    exists lo hi, bounds big ps cs = Ok (lo, hi)
      /\ length lo = S (list_sum (map snd ps)) /\ length hi = S (list_sum (map snd ps))
      /\ nth (list_sum (map snd ps)) lo n0 = n1 /\ nth (list_sum (map snd ps)) hi n0 = n1
      /\ (forall m s i c, In (m, s) ps -> (i < s)%nat -> find_col m (col_to_name 0 ps) = Some c ->
            nth (c + i) lo n0 = last_lower cs m i (- big) /\ nth (c + i) hi n0 = last_upper cs m i big).
  Proof.
    intros big cs HF. unfold bounds. set (t := list_sum (map snd ps)).
    assert (HL : forall x : K, length (repeat x t ++ [n1]) = S t) by (intro; rewrite app_length, repeat_length; simpl; lia).
    assert (HN : forall x : K, nth t (repeat x t ++ [n1]) n0 = n1).
    { intro x. rewrite app_nth2; rewrite repeat_length; [|lia]. rewrite Nat.sub_diag. reflexivity. }
    assert (HR : forall (x : K) k, (k < t)%nat -> nth k (repeat x t ++ [n1]) n0 = x).
    { intros x k Hk. rewrite app_nth1 by (rewrite repeat_length; auto). apply nth_error_nth with (n := k).
      apply nth_error_repeat. auto. }
    destruct (bound_steps_ok cs (repeat (- big) t ++ [n1]) (repeat big t ++ [n1]) HF (HL _) (HL _))
      as (lo & hi & E & L1 & L2 & T1 & T2 & N).
    exists lo, hi. split; auto. split; [rewrite L1; apply HL|]. split; [rewrite L2; apply HL|].
    split; [fold t in T1; rewrite T1; apply HN|]. split; [fold t in T2; rewrite T2; apply HN|].
    intros m s i c Hm Hi Hc. destruct (N m s i c Hm Hi Hc) as [A1 A2].
    destruct (col_range _ _ Hm) as (c' & Hc' & Hr & _). rewrite Hc in Hc'. inversion Hc'; subst c'. fold t in Hr.
    rewrite A1, A2. rewrite !HR by lia. auto.
  Qed.

  Lemma bounds_rejects : forall big cs, In (@UOther K) cs -> exists e, bounds big ps cs = Err e.
  Proof.
    intros big cs. unfold bounds. generalize (repeat (- big) (list_sum (map snd ps)) ++ [n1], repeat big (list_sum (map snd ps)) ++ [n1]).
    induction cs as [|c cs IH]; intros b H; simpl in *; [contradiction|].
    destruct H as [H|H].
    - subst. simpl. eauto.
    - destruct (bound_step ps b c) eqn:E; simpl; eauto.
  Qed.

  (** ** The box *)
  Definition within (lo hi v : list K) : Prop :=
    length v = length lo /\ length hi = length lo
    /\ forall k, (k < length lo)%nat -> ole (nth k lo n0) (nth k v n0) /\ ole (nth k v n0) (nth k hi n0).

  Lemma ole_add2 : forall a b c d : K, ole a b -> ole c d -> ole (a + c) (b + d).
  Proof.
    intros a b c d H1 H2. apply ole_trans with (a + d).
    - apply ole_add. auto.
    - replace (a + d) with (d + a) by ring. replace (b + d) with (d + b) by ring. apply ole_add. auto.
  Qed.
  Lemma ole_sub : forall a b : K, ole a b <-> ole n0 (b - a).
  Proof.
    intros a b. split; intro H.
    - apply (ole_add K _ _ (- a)) in H. replace (- a + a) with (@n0 K) in H by ring.
      replace (- a + b) with (b - a) in H by ring. auto.
    - apply (ole_add K _ _ a) in H. replace (a + n0) with a in H by ring.
      replace (a + (b - a)) with b in H by ring. auto.
  Qed.
  Lemma ole_mul_l : forall w a b : K, ole n0 w -> ole a b -> ole (w * a) (w * b).
  Proof.
    intros w a b Hw H. apply ole_sub. replace (w * b - w * a) with (w * (b - a)) by ring.
    apply ole_mul; [exact Hw|apply (proj1 (ole_sub a b)); exact H].
  Qed.
  Lemma ole_mul_neg : forall w a b : K, ole w n0 -> ole a b -> ole (w * b) (w * a).
  Proof.
    intros w a b Hw H. apply ole_sub. replace (w * a - w * b) with ((n0 - w) * (b - a)) by ring.
    apply ole_mul; [apply (proj1 (ole_sub w n0)); auto|apply (proj1 (ole_sub a b)); auto].
  Qed.

  (** No row mixes signs over the entries that can vary. *)
  Definition one_sign (lo hi : list K) (r : row K) : Prop :=
    (forall c w, In (c, w) r -> nth c lo n0 = nth c hi n0 \/ ole n0 w)
    \/ (forall c w, In (c, w) r -> nth c lo n0 = nth c hi n0 \/ ole w n0).

  Lemma dot_le : forall (a b : list K) (r : row K),
    (forall c w, In (c, w) r -> ole (w * nth c a n0) (w * nth c b n0)) -> ole (dot a r) (dot b r).
  Proof.
    intros a b r. rewrite !dot_rsum. induction r as [|[c w] r IH]; intro H; simpl.
    - apply ole_refl.
    - apply ole_add2; [apply (H c w); simpl; auto|]. apply IH. intros. apply H. simpl; auto.
  Qed.

  Lemma box_row : forall lo hi v (r : row K), within lo hi v -> (forall c w, In (c, w) r -> (c < length lo)%nat) ->
    one_sign lo hi r ->
    ole (omin (dot lo r) (dot hi r)) (dot v r) /\ ole (dot v r) (omax (dot lo r) (dot hi r)).
  Proof.
    intros lo hi v r (L1 & L2 & HW) Hc HS.
    assert (HE : forall c w, In (c, w) r -> nth c lo n0 = nth c hi n0 -> nth c v n0 = nth c lo n0).
    { intros c w Hin E. destruct (HW c (Hc c w Hin)) as [A B]. rewrite <- E in B. apply (ole_antisym K); auto. }
    unfold omin, omax. destruct HS as [HS|HS].
    - assert (D1 : ole (dot lo r) (dot v r)).
      { apply dot_le. intros c w Hin. destruct (HS c w Hin) as [E|P].
        - rewrite (HE c w Hin E). apply ole_refl.
        - apply ole_mul_l; auto. apply HW. eapply Hc; eauto. }
      assert (D2 : ole (dot v r) (dot hi r)).
      { apply dot_le. intros c w Hin. destruct (HS c w Hin) as [E|P].
        - rewrite (HE c w Hin E), E. apply ole_refl.
        - apply ole_mul_l; auto. apply HW. eapply Hc; eauto. }
      assert (D : oleb (dot lo r) (dot hi r) = true) by (apply oleb_spec; eapply ole_trans; eauto).
      rewrite D. auto.
    - assert (D1 : ole (dot hi r) (dot v r)).
      { apply dot_le. intros c w Hin. destruct (HS c w Hin) as [E|P].
        - rewrite (HE c w Hin E), E. apply ole_refl.
        - apply ole_mul_neg; auto. apply HW. eapply Hc; eauto. }
      assert (D2 : ole (dot v r) (dot lo r)).
      { apply dot_le. intros c w Hin. destruct (HS c w Hin) as [E|P].
        - rewrite (HE c w Hin E). apply ole_refl.
        - apply ole_mul_neg; auto. apply HW. eapply Hc; eauto. }
      destruct (oleb (dot lo r) (dot hi r)) eqn:D; auto.
      apply oleb_spec in D.
      assert (dot lo r = dot hi r) as E by (apply (ole_antisym K); auto; eapply ole_trans; eauto).
      rewrite E in *. auto.
  Qed.

  Lemma box_ok : forall lo hi v (C : list (row K)), within lo hi v ->
    (forall r c w, In r C -> In (c, w) r -> (c < length lo)%nat) -> Forall (one_sign lo hi) C ->
    within (fst (box C lo hi)) (snd (box C lo hi)) (map (dot v) C).
  Proof.
    intros lo hi v C HW Hc HS. unfold box, within. cbn [fst snd].
    assert (HL : forall f : K -> K -> K, length (map2 f (map (dot lo) C) (map (dot hi) C)) = length C).
    { intro f. rewrite map2_length; rewrite !map_length; auto. }
    rewrite !HL, map_length. split; auto. split; auto. intros k Hk.
    rewrite !(nth_map2 _ _ _ _ _ _ k n0 n0) by (rewrite map_length; auto).
    assert (HD : forall a : list K, nth k (map (dot a) C) n0 = dot a (nth k C [])).
    { intro a. rewrite (nth_indep _ n0 (dot a [])) by (rewrite map_length; auto). apply map_nth. }
    pose proof (nth_In C [] Hk) as Hr.
    assert (HS' : one_sign lo hi (nth k C [])) by (rewrite Forall_forall in HS; auto).
    pose proof (box_row lo hi v (nth k C []) HW (fun c w => Hc _ c w Hr) HS') as HB.
    rewrite !HD. exact HB.
  Qed.

  Lemma within_fixed : forall lo hi v, within lo hi v -> fixed_agree lo hi v.
  Proof.
    intros lo hi v (L1 & L2 & H) j E. destruct (Nat.lt_ge_cases j (length lo)) as [L|L].
    - destruct (H j L) as [A B]. rewrite <- E in B. apply (ole_antisym K); auto.
    - rewrite !nth_overflow by lia. reflexivity.
  Qed.
End Ordered.
Arguments within {K}. Arguments one_sign {K}. Arguments last_upper {K}. Arguments last_lower {K}. Arguments simple_bound {K}.

(** ** Run time *)
Section XRun.
  Variable K : ORing.
  Variable g : genc K.
  Variable th0 : pvals K.
  Hypothesis W : wf_gen g th0.
  Hypothesis Hosqp : g_solver g = OSQP.
  Variables lower upper : list K.
  Hypothesis Hlo : length lower = length (g_vec0 g).
  Hypothesis Hhi : length upper = length (g_vec0 g).
  Variable mask : list bool.

  (** Declared bounds of entry [i] of parameter [n]. *)
  Definition lo_of (n : string) (i : nat) : K :=
    match base_col g n with Some c => nth (c + i) lower n0 | None => n0 end.
  Definition hi_of (n : string) (i : nat) : K :=
    match base_col g n with Some c => nth (c + i) upper n0 | None => n0 end.
  (** A history with every value clamped. *)
  Definition clamp_op (o : op K) : op K :=
    match o with OUpd n i v => OUpd n i (clamp (lo_of n i) (hi_of n i) v) | OSolve => OSolve end.

  Record XInv (th : pvals K) (s : xst K) : Prop :=
    { xi_v : xs_vec s = flat (g_params g) th;
      xi_t : forall p, chg_get (g_chg g) p = true ->
               length (xs_can s p) = length (g_baked g p)
               /\ skipn (length (g_rows g p)) (xs_can s p) = skipn (length (g_rows g p)) (g_baked g p);
      xi_f : forall p, chg_get (g_chg g) p = true -> xs_flag s p = false -> xs_can s p = canon_spec g th p;
      xi_c : forall p, chg_get (g_chg g) p = false -> xs_can s p = g_baked g p }.

  Lemma xinv_init : XInv th0 (x_init g).
  Proof. constructor; simpl; auto; [apply (w_vec0 _ _ _ W)|intros; discriminate]. Qed.

  Lemma canon_spec_len : forall th p, length (canon_spec g th p) = length (g_baked g p).
  Proof.
    intros th p. unfold canon_spec. destruct (chg_get (g_chg g) p); auto.
    rewrite app_length, map_length, skipn_length. pose proof (w_len _ _ _ W p). lia.
  Qed.

  Lemma xinv_update : forall th s n i v, XInv th s -> valid_op (g_params g) (OUpd n i v) ->
    exists s', x_update g lower upper s n i v = Ok s'
      /\ XInv (set_val th n i (clamp (lo_of n i) (hi_of n i) v)) s' /\ xs_log s' = xs_log s.
  Proof.
    intros th s n i v I (sz & Hin & Hi).
    destruct (find_col_some n sz (g_params g) 0 Hin) as [c Hc0].
    assert (Hc : base_col g n = Some c) by exact Hc0.
    set (v' := clamp (lo_of n i) (hi_of n i) v).
    destruct (flat_set K g th n sz i v' c (w_names _ _ _ W) Hin Hi Hc) as [Hf Hl].
    assert (Hlen : length (g_vec0 g) = length (flat (g_params g) th)).
    { rewrite (w_vec0 _ _ _ W). apply flat_length. }
    unfold x_update. rewrite Hc.
    rewrite (get_ok _ lower _ n0) by lia. rewrite (get_ok _ upper _ n0) by lia. cbn [bind].
    rewrite put_ok by (rewrite (xi_v _ _ I); lia). cbn [bind].
    eexists. split; [reflexivity|]. split; [|reflexivity].
    assert (Ev : clamp (nth (i + c) lower n0) (nth (i + c) upper n0) v = v').
    { unfold v', lo_of, hi_of. rewrite Hc, (Nat.add_comm i c). reflexivity. }
    rewrite Ev. destruct I as [I1 I2 I3 I4]. constructor; simpl; auto.
    - rewrite I1, Hf. reflexivity.
    - intros p Hp Hfl. apply orb_false_iff in Hfl. destruct Hfl as [Hno Hfl].
      rewrite (I3 p Hp Hfl). unfold canon_spec. rewrite Hp. f_equal.
      apply map_ext_in. intros r Hr. apply dot_ext. intros c' w Hcw.
      rewrite Hf. symmetry. apply nth_upd_neq.
      assert (~ (c <= c' < c + sz)); [|lia].
      eapply (w_deps _ _ _ W); eauto. intro HI. apply mem_pid_In in HI. congruence.
  Qed.

  Lemma x_canon : forall th s ps can, XInv th s -> NoDup ps -> (forall p, In p ps -> can p = xs_can s p) ->
      exists can', canon_blocks g (xs_vec s) (xs_flag s) can ps = Ok can'
        /\ (forall p, ~ In p ps -> can' p = can p)
        /\ (forall p, In p ps -> can' p = if chg_get (g_chg g) p && xs_flag s p then canon_spec g th p else can p).
  Proof.
    induction ps as [|p ps IH]; intros can I Hnd Hc; simpl.
    - exists can. repeat split; auto; tauto.
    - inversion Hnd; subst. destruct (chg_get (g_chg g) p && xs_flag s p) eqn:E.
      + assert (Ecan : canonicalize (csr_of (g_rows g p)) (xs_vec s) (can p) = Ok (canon_spec g th p)).
        { apply andb_true_iff in E. destruct E as [E1 E2]. destruct (xi_t _ _ I p E1) as [T1 T2].
          rewrite canonicalize_ok.
          - f_equal. unfold canon_spec. rewrite E1. rewrite (xi_v _ _ I), Hc, T2 by (simpl; auto). reflexivity.
          - intros. rewrite (xi_v _ _ I), (flat_length _ _ th th0). eapply (w_cols _ _ _ W); eauto.
          - rewrite Hc by (simpl; auto). rewrite T1. apply (w_len _ _ _ W). }
        rewrite Ecan. cbn [bind].
        destruct (IH (pset can p (canon_spec g th p))) as (can' & E' & F1 & F2); auto.
        { intros q Hq. unfold pset. destruct (pid_eqb q p) eqn:Eq.
          - apply pid_eqb_spec in Eq. subst. contradiction.
          - apply Hc. simpl; auto. }
        exists can'. split; auto. split.
        * intros q Hq. rewrite F1 by (intro; apply Hq; simpl; auto). unfold pset.
          destruct (pid_eqb q p) eqn:Eq; auto. apply pid_eqb_spec in Eq. subst. exfalso; apply Hq; simpl; auto.
        * intros q [Hq|Hq].
          -- subst q. rewrite F1 by auto. unfold pset. rewrite pid_eqb_refl, E. auto.
          -- rewrite F2 by auto. unfold pset. destruct (pid_eqb q p) eqn:Eq; auto.
             apply pid_eqb_spec in Eq. subst. contradiction.
      + destruct (IH can) as (can' & E' & F1 & F2); auto.
        { intros; apply Hc; simpl; auto. }
        exists can'. split; auto. split.
        * intros q Hq. apply F1. intro; apply Hq; simpl; auto.
        * intros q [Hq|Hq].
          -- subst q. rewrite E. apply F1. auto.
          -- apply F2; auto.
  Qed.

  Lemma xinv_solve : forall th s, XInv th s ->
    length mask = length (g_baked g pq) + length (g_baked g pu) ->
    exists s', x_solve g (length (g_baked g pq)) mask s = Ok s' /\ XInv th s'
      /\ xs_log s' = xs_log s ++ [mask_sel mask (canon_spec g th pq ++ canon_spec g th pu)].
  Proof.
    intros th s I Hm. unfold x_solve.
    destruct (x_canon th s (solver_pids OSQP) (xs_can s) I) as (can & E & F1 & F2); auto.
    { simpl. repeat constructor; simpl; intuition congruence. }
    rewrite E. cbn [bind].
    assert (HA : forall p, chg_get (g_chg g) p = true -> In p (solver_pids OSQP)).
    { intros p H. rewrite <- Hosqp. apply (w_chg _ _ _ W). unfold chg_get in H. destruct (g_chg g p); congruence. }
    assert (HC : forall p, can p = canon_spec g th p).
    { intro p. destruct (chg_get (g_chg g) p) eqn:Ec.
      - rewrite F2 by auto. rewrite Ec. simpl. destruct (xs_flag s p) eqn:Ef; auto. apply (xi_f _ _ I); auto.
      - assert (E2 : can p = xs_can s p).
        { destruct (mem_pid p (solver_pids OSQP)) eqn:Em.
          - apply mem_pid_In in Em. rewrite F2 by auto. rewrite Ec. reflexivity.
          - apply F1. intro H. apply mem_pid_In in H. congruence. }
        rewrite E2, (xi_c _ _ I p Ec). unfold canon_spec. rewrite Ec. reflexivity. }
    assert (HT : theta (length (g_baked g pq)) mask (can pq) (can pu)
                 = Ok (mask_sel mask (canon_spec g th pq ++ canon_spec g th pu))).
    { rewrite !HC. rewrite <- (canon_spec_len th pq) at 1. apply theta_ok.
      rewrite app_length, !canon_spec_len. auto. }
    rewrite HT. cbn [bind]. eexists. split; [reflexivity|]. split; [|reflexivity].
    constructor; simpl.
    - apply (xi_v _ _ I).
    - intros p Hp. rewrite HC. split; [apply canon_spec_len|]. unfold canon_spec. rewrite Hp.
      rewrite skipn_app, map_length, Nat.sub_diag. simpl.
      rewrite skipn_all2 by (rewrite map_length; auto). reflexivity.
    - intros p Hp _. apply HC.
    - intros p Hp. rewrite HC. unfold canon_spec. rewrite Hp. reflexivity.
  Qed.

  Lemma valid_clamp : forall o, valid_op (g_params g) o -> valid_op (g_params g) (clamp_op o).
  Proof. destruct o; simpl; auto. Qed.

  Theorem x_run_ok : forall os th s, XInv th s -> Forall (valid_op (g_params g)) os ->
    length mask = length (g_baked g pq) + length (g_baked g pu) ->
    exists s', x_steps g lower upper (length (g_baked g pq)) mask s os = Ok s'
      /\ XInv (final_vals th (map clamp_op os)) s'
      /\ xs_log s' = xs_log s ++ map (fun t => mask_sel mask (canon_spec g t pq ++ canon_spec g t pu))
                                     (solve_vals th (map clamp_op os)).
  Proof.
    induction os as [|o os IH]; intros th s I HV Hm; simpl.
    - exists s. rewrite app_nil_r. auto.
    - inversion HV as [|? ? Ho HV']; subst. destruct o as [n i v|]; simpl.
      + destruct (xinv_update th s n i v I Ho) as (s1 & E & I1 & L1). rewrite E. cbn [bind].
        destruct (IH _ s1 I1 HV' Hm) as (s2 & E2 & I2 & L2). exists s2. rewrite L2, L1. auto.
      + destruct (xinv_solve th s I Hm) as (s1 & E & I1 & L1). rewrite E. cbn [bind].
        destruct (IH _ s1 I1 HV' Hm) as (s2 & E2 & I2 & L2). exists s2. split; auto. split; auto.
        rewrite L2, L1. rewrite <- app_assoc. reflexivity.
  Qed.

  (** The last value written to an entry, if any. *)
  Fixpoint last_write (os : list (op K)) (n : string) (i : nat) (acc : option K) : option K :=
    match os with
    | [] => acc
    | OUpd m j v :: t => last_write t n i (if String.eqb n m && Nat.eqb i j then Some v else acc)
    | OSolve :: t => last_write t n i acc
    end.

  Lemma final_last : forall os th n i acc,
    th n i = match acc with Some v => clamp (lo_of n i) (hi_of n i) v | None => th0 n i end ->
    final_vals th (map clamp_op os) n i
    = match last_write os n i acc with Some v => clamp (lo_of n i) (hi_of n i) v | None => th0 n i end.
  Proof.
    induction os as [|[m j v|] os IH]; simpl; intros th n i acc H; auto.
    apply IH. unfold set_val. destruct (String.eqb n m) eqn:E1; simpl; auto.
    destruct (Nat.eqb i j) eqn:E2; auto.
    apply String.eqb_eq in E1. apply Nat.eqb_eq in E2. subst. reflexivity.
  Qed.

  (** Every solve's parameter values are the clamped last writes of some prefix. *)
  Lemma solve_vals_prefix : forall os (th : pvals K) t, In t (solve_vals th os) ->
    exists os1 os2, os = os1 ++ OSolve :: os2 /\ t = final_vals th os1.
  Proof.
    induction os as [|[m j v|] os IH]; simpl; intros th t H; try contradiction.
    - destruct (IH _ _ H) as (o1 & o2 & E & E'). exists (OUpd m j v :: o1), o2. subst. auto.
    - destruct H as [H|H].
      + exists [], os. auto.
      + destruct (IH _ _ H) as (o1 & o2 & E & E'). exists (OSolve :: o1), o2. subst. auto.
  Qed.
End XRun.
Arguments last_write {K}. Arguments lo_of {K}. Arguments hi_of {K}. Arguments clamp_op {K}.
