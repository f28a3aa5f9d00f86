(** Proofs about two-stage canonicalization. *)

From Coq Require Import String Arith Bool Lia List Permutation Ring.
From Verif Require Import Base Pus Machine PusParse PusCheck PusLift Runtime RuntimeSpec
     RuntimeProofs RuntimeMore Canon CanonSpec CanonProofs CanonMain CanonGen Merge.
Import ListNotations.

Lemma drop5_osqp : forall p, drop5 (osqp_name p) = pid_name p.
Proof. destruct p; reflexivity. Qed.
Lemma osqp_name_inj : forall p q, osqp_name p = osqp_name q -> p = q.
Proof. destruct p, q; simpl; intro H; try reflexivity; discriminate H. Qed.

Section MergeProofs.
  Variable K : Ring.
  Add Ring Kring : (rth K).
  Local Open Scope num_scope.

  (** Data of the first stage for parameter vector [v], laid out for the second stage:
      blocks in the order [ps], then the constant 1. *)
  Definition stage1 (g1 : genc K) (ps : list pid) (v : list K) : list K :=
    flat_map (fun p => map (dot v) (g_rows g1 p)) ps ++ [n1].

  (** The second stage's parameters are the first stage's blocks [ps], sizes included. *)
  Definition layout (g1 g2 : genc K) (ps : list pid) : Prop :=
    g_params g2 = map (fun p => (osqp_name p, length (g_rows g1 p))) ps.

  (** A block marked constant has no entry outside the last column. *)
  Definition flags_ok (g : genc K) : Prop :=
    forall p, chg_get (g_chg g) p = false ->
      forall r c w, In r (g_rows g p) -> In (c, w) r -> S c = length (g_vec0 g).

  Lemma mapping_ok : forall (g1 : genc K) p, g_solver g1 = OSQP -> In p (solver_pids OSQP) ->
      mapping_of g1 (drop5 (osqp_name p)) = Ok (g_rows g1 p).
  Proof.
    intros g1 p E Hp. unfold mapping_of. rewrite E, drop5_osqp. simpl in Hp.
    destruct Hp as [<-|[<-|[<-|[<-|[<-|[<-|[]]]]]]]; reflexivity.
  Qed.

  Lemma stack_ok : forall (g1 : genc K) ps params cum, g_solver g1 = OSQP -> incl ps (solver_pids OSQP) ->
      map fst params = map osqp_name ps ->
      stack_maps g1 (col_to_name cum params) = Ok (flat_map (g_rows g1) ps).
  Proof.
    intros g1 ps. induction ps as [|p ps IH]; intros [|[n s] params] cum E Hi Hn; try discriminate; [reflexivity|].
    cbn [map fst] in Hn. injection Hn as Hn1 Hn2. subst n.
    cbn [col_to_name stack_maps flat_map]. rewrite mapping_ok; auto; [|apply Hi; left; reflexivity].
    cbn [bind]. rewrite IH; auto. intros q Hq. apply Hi. right. exact Hq.
  Qed.

  Lemma dot_nil : forall v : list K, dot v [] = n0.
  Proof. reflexivity. Qed.
  Lemma dot_app : forall (v : list K) r r', dot v (r ++ r') = dot v r + dot v r'.
  Proof. intros. rewrite !dot_rsum, map_app, rsum_app. reflexivity. Qed.
  Lemma dot_scale : forall (v : list K) a r, dot v (scale_row a r) = a * dot v r.
  Proof.
    intros. rewrite !dot_rsum. unfold scale_row. rewrite map_map. rewrite <- rsum_map_mul.
    apply rsum_ext. intros [c w] _. simpl. ring.
  Qed.

  Lemma row_times_dot : forall n (r : row K) M v,
      (forall r' c w, In r' M -> In (c, w) r' -> c < n) ->
      dot v (row_times n r M) = dot (map (dot v) M) r.
  Proof.
    intros n r M v H. unfold row_times. rewrite dot_sparse, dense_row_length, dot_dense.
    - rewrite (dot_rsum K (map (dot v) M) r). induction r as [|[k a] r IH]; simpl; [reflexivity|].
      rewrite dot_app, dot_scale, IH. f_equal. f_equal.
      rewrite <- (dot_nil v) at 1. symmetry. apply map_nth.
    - intros c w Hin. apply in_flat_map in Hin. destruct Hin as ([k a] & _ & Hin). simpl in Hin.
      unfold scale_row in Hin. apply in_map_iff in Hin. destruct Hin as ([c' w'] & E & Hin).
      simpl in E. inversion E; subst.
      destruct (nth_In_or K M k) as [E1|E1]; [|rewrite E1 in Hin; destruct Hin].
      eapply H; eauto.
  Qed.

  Lemma dense_row_zero : forall n (r : row K) c, c < n -> (forall w, ~ In (c, w) r) ->
      nth c (dense_row n r) n0 = n0.
  Proof.
    intros n r c Hc H. rewrite dense_row_nth by auto.
    destruct (filter (fun cv : nat * K => Nat.eqb (fst cv) c) r) as [|[a b] t] eqn:E; [reflexivity|].
    exfalso. assert (In (a, b) (filter (fun cv : nat * K => Nat.eqb (fst cv) c) r)) as Hin
      by (rewrite E; left; reflexivity).
    apply filter_In in Hin. destruct Hin as [Hin Ha]. simpl in Ha. apply Nat.eqb_eq in Ha. subst.
    exact (H b Hin).
  Qed.

  Lemma row_times_In : forall n (r : row K) M c w, In (c, w) (row_times n r M) ->
      c < n /\ exists k a b, In (k, a) r /\ In (c, b) (nth k M []).
  Proof.
    intros n r M c w Hin. unfold row_times in Hin. apply sparse_row_In in Hin.
    rewrite dense_row_length in Hin. destruct Hin as (H1 & H2 & H3). split; auto.
    rewrite dense_row_nth in H2 by auto.
    destruct (filter (fun cv : nat * K => Nat.eqb (fst cv) c)
                (flat_map (fun kv => scale_row (snd kv) (nth (fst kv) M [])) r)) as [|[a b] t] eqn:E.
    - exfalso. apply H3. rewrite <- H2. reflexivity.
    - assert (In (a, b) (filter (fun cv : nat * K => Nat.eqb (fst cv) c)
                (flat_map (fun kv => scale_row (snd kv) (nth (fst kv) M [])) r))) as Hin
        by (rewrite E; left; reflexivity).
      apply filter_In in Hin. destruct Hin as [Hin Ha]. simpl in Ha. apply Nat.eqb_eq in Ha. subst.
      apply in_flat_map in Hin. destruct Hin as ([k x] & Hk & Hin). simpl in Hin.
      unfold scale_row in Hin. apply in_map_iff in Hin. destruct Hin as ([c' w'] & E1 & Hin).
      simpl in E1. inversion E1; subst. exists k, x, w'. auto.
  Qed.

  Lemma slot : forall (R : pid -> list (row K)) ps cum k, NoDup ps -> k < length (flat_map R ps) ->
      exists p c, In p ps
        /\ find_col (osqp_name p) (col_to_name cum (map (fun p => (osqp_name p, length (R p))) ps)) = Some (cum + c)%nat
        /\ (c <= k < c + length (R p))%nat /\ In (nth k (flat_map R ps) []) (R p).
  Proof.
    intros R ps. induction ps as [|p ps IH]; intros cum k Hn Hk; [simpl in Hk; lia|].
    cbn [flat_map] in Hk. rewrite app_length in Hk. inversion Hn; subst.
    destruct (Nat.lt_ge_cases k (length (R p))).
    - exists p, 0. split; [left; reflexivity|]. cbn [map col_to_name find_col flat_map].
      rewrite String.eqb_refl. split; [f_equal; lia|]. split; [lia|].
      rewrite app_nth1 by auto. apply nth_In. auto.
    - destruct (IH (cum + length (R p))%nat (k - length (R p))%nat) as (q & c & Q1 & Q2 & Q3 & Q4); [auto|lia|].
      exists q, (length (R p) + c)%nat. split; [right; auto|]. cbn [map col_to_name find_col flat_map].
      destruct (String.eqb (osqp_name q) (osqp_name p)) eqn:E.
      { apply String.eqb_eq in E. apply osqp_name_inj in E. subst. contradiction. }
      split; [rewrite Q2; f_equal; lia|]. split; [lia|].
      rewrite app_nth2 by lia. exact Q4.
  Qed.

  Definition dep_spec (g1 g2 : genc K) (n : string) : list pid :=
    flat_map (fun p => g_outd g2 (osqp_name p)) (g_outd g1 n).

  Lemma merge_outd_ok : forall (g2 : genc K) l,
      (forall p, In p l -> In (osqp_name p) (map fst (g_params g2))) ->
      merge_outd g2 l = Ok (flat_map (fun p => g_outd g2 (osqp_name p)) l).
  Proof.
    induction l as [|p l IH]; intro H; [reflexivity|]. cbn [merge_outd flat_map].
    assert (E : mem_str (osqp_name p) (map fst (g_params g2)) = true)
      by (apply mem_str_In; apply H; left; reflexivity).
    rewrite E. cbn [bind]. rewrite IH; [reflexivity|]. intros q Hq. apply H. right. exact Hq.
  Qed.

  Lemma merge_outd_err : forall (g2 : genc K) l p, In p l -> ~ In (osqp_name p) (map fst (g_params g2)) ->
      merge_outd g2 l = Err KeyError.
  Proof.
    induction l as [|q l IH]; intros p Hin Hno; [destruct Hin|]. cbn [merge_outd].
    destruct (mem_str (osqp_name q) (map fst (g_params g2))) eqn:E; [|reflexivity].
    cbn [bind]. destruct Hin as [<-|Hin].
    - apply mem_str_In in E. contradiction.
    - rewrite (IH p); auto.
  Qed.

  Lemma merge_deps_ok : forall (g1 g2 : genc K) ns,
      (forall n p, In n ns -> In p (g_outd g1 n) -> In (osqp_name p) (map fst (g_params g2))) ->
      exists deps, merge_deps g1 g2 ns = Ok deps
        /\ forall n, In n ns -> assoc n deps = Some (dep_spec g1 g2 n).
  Proof.
    induction ns as [|n ns IH]; intro H.
    - exists []. split; auto. intros n [].
    - cbn [merge_deps]. rewrite merge_outd_ok by (intros p Hp; apply (H n); [left; reflexivity|auto]).
      cbn [bind]. destruct IH as (deps & E & Ha); [intros; eapply H; eauto; right; auto|].
      rewrite E. cbn [bind]. eexists. split; [reflexivity|]. intros m Hm. cbn [assoc].
      destruct (String.eqb m n) eqn:Em.
      + apply String.eqb_eq in Em. subst. reflexivity.
      + destruct Hm as [<-|Hm]; [rewrite String.eqb_refl in Em; discriminate|]. apply Ha. auto.
  Qed.

  Lemma merge_deps_err : forall (g1 g2 : genc K) ns n p,
      In n ns -> In p (g_outd g1 n) -> ~ In (osqp_name p) (map fst (g_params g2)) ->
      merge_deps g1 g2 ns = Err KeyError.
  Proof.
    induction ns as [|m ns IH]; intros n p Hn Hp Hno; [destruct Hn|]. cbn [merge_deps].
    destruct (merge_outd g2 (g_outd g1 m)) as [l|e] eqn:E.
    - destruct Hn as [->|Hn].
      + rewrite (merge_outd_err g2 _ p) in E; auto. discriminate.
      + cbn [bind]. rewrite (IH n p); auto.
    - assert (e = KeyError) as ->; [|reflexivity]. clear - E. revert E.
      generalize (g_outd g1 m) as l. induction l as [|q l IH]; cbn [merge_outd]; [discriminate|].
      destruct (mem_str (osqp_name q) (map fst (g_params g2))); cbn [bind].
      + destruct (merge_outd g2 l); cbn [bind]; [discriminate|]. exact IH.
      + congruence.
  Qed.

  Section One.
    Variables g1 g2 : genc K.
    Variables th1 th2 : pvals K.
    Variable ps : list pid.
    Hypothesis S1 : g_solver g1 = OSQP.
    Hypothesis W1 : wf_gen g1 th1.
    Hypothesis F1 : flags_ok g1.
    Hypothesis W2 : wf_gen g2 th2.
    Hypothesis Hps : incl ps (solver_pids OSQP).
    Hypothesis Hnd : NoDup ps.
    Hypothesis Hlay : layout g1 g2 ps.

    Definition stacked : list (row K) := flat_map (g_rows g1) ps ++ [const_row (length (g_vec0 g1)) n1].

    Lemma map_first_ok : map_first g1 g2 = Ok stacked.
    Proof. unfold map_first. rewrite (stack_ok g1 ps); auto. rewrite Hlay, map_map. reflexivity. Qed.

    Lemma len2 : length (g_vec0 g2) = length stacked.
    Proof.
      rewrite (w_vec0 _ _ _ W2). unfold flat, stacked. rewrite !app_length. f_equal. rewrite Hlay.
      clear. induction ps as [|p l IH]; simpl; auto. rewrite !app_length, map_length, seq_length, IH. reflexivity.
    Qed.

    Lemma vec1_pos : 0 < length (g_vec0 g1).
    Proof. rewrite (w_vec0 _ _ _ W1). unfold flat. rewrite app_length. simpl. lia. Qed.

    Lemma stacked_cols : forall r c w, In r stacked -> In (c, w) r -> c < length (g_vec0 g1).
    Proof.
      intros r c w Hr Hc. unfold stacked in Hr. apply in_app_or in Hr. destruct Hr as [Hr|[<-|[]]].
      - apply in_flat_map in Hr. destruct Hr as (p & _ & Hr).
        rewrite (w_vec0 _ _ _ W1). eapply (w_cols _ _ _ W1); eauto.
      - destruct Hc as [Hc|[]]. inversion Hc; subst. pose proof vec1_pos. lia.
    Qed.

    Lemma stacked_dot : forall v, nth (length (g_vec0 g1) - 1)%nat v n0 = n1 ->
        map (dot v) stacked = stage1 g1 ps v.
    Proof.
      intros v Hv. unfold stacked, stage1. rewrite map_app. f_equal.
      - clear. induction ps as [|p l IH]; simpl; auto. rewrite map_app, IH. reflexivity.
      - simpl. f_equal. unfold dot, const_row. simpl. rewrite Hv. ring.
    Qed.

    (** An entry of a merged map in the columns of a user parameter comes from an entry of
        the second map in the columns of some first-stage block that has an entry there. *)
    Lemma trace : forall n s c0 (r : row K) c v, In (n, s) (g_params g1) -> base_col g1 n = Some c0 ->
        In (c, v) (row_times (length (g_vec0 g1)) r stacked) -> (c0 <= c < c0 + s)%nat ->
        exists p1 c1 k a r1 b, In p1 ps /\ In (k, a) r /\ base_col g2 (osqp_name p1) = Some c1
          /\ (c1 <= k < c1 + length (g_rows g1 p1))%nat
          /\ In (osqp_name p1, length (g_rows g1 p1)) (g_params g2)
          /\ In r1 (g_rows g1 p1) /\ In (c, b) r1 /\ (S c < length (g_vec0 g1))%nat.
    Proof.
      intros n s c0 r c v Hin Hb Hcv Hrange.
      apply row_times_In in Hcv. destruct Hcv as (Hlt & k & a & b & Hk & Hb2).
      assert (Hend : (c0 + s <= length (g_vec0 g1) - 1)%nat).
      { destruct s as [|s]; [lia|].
        destruct (flat_set_aux K (g_params g1) th1 n (S s) 0 n0 c0 (w_names _ _ _ W1) Hin) as [_ Hl];
          [lia|exact Hb|].
        rewrite (w_vec0 _ _ _ W1). unfold flat. rewrite app_length. simpl length at 2. lia. }
      assert (Hk1 : k < length (flat_map (g_rows g1) ps)).
      { destruct (Nat.lt_ge_cases k (length (flat_map (g_rows g1) ps))) as [L|L]; auto. exfalso.
        unfold stacked in Hb2. rewrite app_nth2 in Hb2 by auto.
        destruct (k - length (flat_map (g_rows g1) ps))%nat as [|[|j]]; simpl in Hb2; try contradiction;
          destruct Hb2 as [Hb2|[]]; inversion Hb2; lia. }
      unfold stacked in Hb2. rewrite app_nth1 in Hb2 by auto.
      destruct (slot (g_rows g1) ps 0 k Hnd Hk1) as (p1 & c1 & P1 & P2 & P3 & P4).
      exists p1, c1, k, a, (nth k (flat_map (g_rows g1) ps) []), b.
      split; auto. split; auto. split; [unfold base_col; rewrite Hlay; exact P2|]. split; auto.
      split; [rewrite Hlay; apply in_map_iff; exists p1; auto|]. split; auto. split; auto. lia.
    Qed.

    (** What [merge] returns: either it fails with KeyError on a dependency outside [ps], or
        the result is well formed and its maps are the composition. *)
    Lemma merge_fails : forall n p, In n (map fst (g_params g1)) -> In p (g_outd g1 n) -> ~ In p ps ->
        merge [] g1 g2 = Err KeyError.
    Proof.
      intros n p Hn Hp Hno. unfold merge. rewrite map_first_ok. cbn [bind].
      rewrite len2, Nat.eqb_refl. cbn [bind]. rewrite (merge_deps_err g1 g2 _ n p); auto.
      rewrite Hlay, map_map. intro Hin. apply in_map_iff in Hin. destruct Hin as (q & E & Hq).
      apply osqp_name_inj in E. subst. contradiction.
    Qed.

    Lemma merge_ok : (forall n p, In n (map fst (g_params g1)) -> In p (g_outd g1 n) -> In p ps) ->
        exists m, merge [] g1 g2 = Ok m /\ wf_gen m th1
          /\ g_solver m = g_solver g2 /\ g_params m = g_params g1 /\ g_vec0 m = g_vec0 g1
          /\ g_chg m = g_chg g2 /\ g_baked m = g_baked g2
          /\ g_nonzero_d m = g_nonzero_d g1 /\ g_max m = g_max g1
          /\ (forall n, In n (map fst (g_params g1)) -> g_outd m n = dep_spec g1 g2 n)
          /\ forall p, length (g_rows m p) = length (g_rows g2 p)
             /\ (forall v, nth (length (g_vec0 g1) - 1)%nat v n0 = n1 ->
                  map (dot v) (g_rows m p) = map (dot (stage1 g1 ps v)) (g_rows g2 p))
             /\ g_rows m p = map (fun r => row_times (length (g_vec0 g1)) r stacked) (g_rows g2 p).
    Proof.
      intro Hd. unfold merge. rewrite map_first_ok. cbn [bind].
      rewrite len2, Nat.eqb_refl. cbn [bind].
      destruct (merge_deps_ok g1 g2 (map fst (g_params g1))) as (deps & E & Ha).
      { intros n p Hn Hp. rewrite Hlay, map_map. apply in_map_iff. exists p. split; auto. eapply Hd; eauto. }
      rewrite E. cbn [bind]. eexists. split; [reflexivity|].
      split; [|repeat (split; [reflexivity|]); split].
      - constructor; simpl.
        + apply (w_names _ _ _ W1).
        + apply (w_vec0 _ _ _ W1).
        + apply (w_chg _ _ _ W2).
        + intros p r c v Hr Hc. apply in_map_iff in Hr. destruct Hr as (r2 & <- & Hr).
          apply row_times_In in Hc. rewrite <- (w_vec0 _ _ _ W1). tauto.
        + intro p. rewrite map_length. apply (w_len _ _ _ W2).
        + intros p n s c0 Hc Hin Hb Hno r c v Hr Hcv Hrange.
          apply in_map_iff in Hr. destruct Hr as (r2 & <- & Hr2).
          assert (Hnn : In n (map fst (g_params g1))) by (apply in_map_iff; exists (n, s); auto).
          rewrite (Ha n Hnn) in Hno.
          destruct (trace n s c0 r2 c v Hin Hb Hcv Hrange)
            as (p1 & c1 & k & a & r1 & b & P1 & P2 & P3 & P4 & P5 & P6 & P7 & P8).
          apply Hno. unfold dep_spec. apply in_flat_map. exists p1. split.
          * destruct (in_dec pid_eq_dec p1 (g_outd g1 n)) as [|Hn1]; auto. exfalso.
            destruct (chg_get (g_chg g1) p1) eqn:Ec.
            -- exact (w_deps _ _ _ W1 p1 n s c0 Ec Hin Hb Hn1 _ _ _ P6 P7 Hrange).
            -- pose proof (F1 p1 Ec _ _ _ P6 P7). lia.
          * destruct (in_dec pid_eq_dec p (g_outd g2 (osqp_name p1))) as [|Hn1]; auto. exfalso.
            exact (w_deps _ _ _ W2 p (osqp_name p1) (length (g_rows g1 p1)) c1 Hc P5 P3 Hn1 _ _ _ Hr2 P2 P4).
        + exact (w_block _ _ _ W2).
      - simpl. intros n Hn. rewrite (Ha n Hn). reflexivity.
      - intro p. simpl. rewrite map_length. split; [reflexivity|]. split; [|reflexivity]. intros v Hv.
        rewrite map_map. apply map_ext. intro r.
        rewrite row_times_dot by apply stacked_cols. rewrite stacked_dot by auto. reflexivity.
    Qed.

    (** Every entry in the columns of a parameter is covered by that parameter's list. *)
    Definition deps_sound (g : genc K) : Prop :=
      forall p n s c0 r c v, In (n, s) (g_params g) -> base_col g n = Some c0 ->
        In r (g_rows g p) -> In (c, v) r -> (c0 <= c < c0 + s)%nat -> In p (g_outd g n).

    Lemma merged_sound : deps_sound g1 -> deps_sound g2 ->
        (forall n p, In n (map fst (g_params g1)) -> In p (g_outd g1 n) -> In p ps) ->
        forall m, merge [] g1 g2 = Ok m -> deps_sound m.
    Proof.
      intros D1 D2 Hd m Hm. destruct (merge_ok Hd) as (m' & E & _ & _ & E1 & _ & _ & _ & _ & _ & E2 & E3).
      rewrite E in Hm. injection Hm as <-.
      intros p n s c0 r c v Hin Hb Hr Hc Hrange. rewrite E1 in Hin.
      assert (Hnn : In n (map fst (g_params g1))) by (apply in_map_iff; exists (n, s); auto).
      rewrite (E2 n Hnn). destruct (E3 p) as (_ & _ & E4). rewrite E4 in Hr.
      apply in_map_iff in Hr. destruct Hr as (r2 & <- & Hr2).
      assert (Hb1 : base_col g1 n = Some c0) by (unfold base_col in *; rewrite E1 in Hb; exact Hb).
      destruct (trace n s c0 r2 c v Hin Hb1 Hc Hrange)
        as (p1 & c1 & k & a & r1 & b & P1 & P2 & P3 & P4 & P5 & P6 & P7 & P8).
      unfold dep_spec. apply in_flat_map. exists p1. split.
      - eapply D1; eauto.
      - eapply D2; eauto.
    Qed.
  End One.
End MergeProofs.
Arguments stage1 {K}. Arguments layout {K}. Arguments flags_ok {K}. Arguments dep_spec {K}. Arguments deps_sound {K}.

(** ** Stages produced by the generator *)
Section Generated.
  Variable K : Ring.
  Variable big : K.
  Variable x : cvx K.
  Variable th0 : pvals K.
  Hypothesis W : wf_cvx x th0.

  Lemma gen_rows : forall s order g, generate big x s order = Ok g ->
      g_rows g = (fun p => if mem_pid p (solver_pids s) then pr_rows (proc big x s p) else [])
      /\ g_chg g = chg big x s
      /\ g_baked g = (fun p => if mem_pid p (solver_pids s) then pr_base (proc big x s p) else [])
      /\ g_outd g = outdated big x s /\ g_params g = x_params x /\ g_vec0 g = x_flat x /\ g_solver g = s.
  Proof.
    intros s order g H. unfold generate in H. destruct (block_for big x s order); [|discriminate].
    cbn [bind] in H. injection H as <-. repeat split.
  Qed.

  Lemma gen_flags : forall s order g, generate big x s order = Ok g -> flags_ok g.
  Proof.
    intros s order g H. destruct (gen_rows s order g H) as (E1 & E2 & _ & _ & _ & E6 & _).
    intros p Hc r c w Hr Hcw. rewrite E1 in Hr. rewrite E2 in Hc. rewrite E6.
    unfold chg_get, chg in Hc.
    destruct (mem_pid p (solver_pids s)) eqn:Ep; [|destruct Hr]. apply mem_pid_In in Ep.
    destruct (proc_facts K big x s p Ep) as (F1 & F2 & _).
    destruct (F1 r c w Hr Hcw) as [Hlt _]. rewrite F2 in Hc.
    pose proof (touches_false K _ _ _ Hc r c w Hr Hcw). lia.
  Qed.

  Lemma gen_sound : forall s order g, generate big x s order = Ok g -> deps_sound g.
  Proof.
    intros s order g H. destruct (gen_rows s order g H) as (E1 & _ & _ & E4 & E5 & _).
    intros p n sz c0 r c w Hin Hb Hr Hcw Hrange. rewrite E1 in Hr. rewrite E4. rewrite E5 in Hin.
    unfold base_col in Hb. rewrite E5 in Hb.
    destruct (mem_pid p (solver_pids s)) eqn:Ep; [|destruct Hr]. apply mem_pid_In in Ep.
    destruct (proc_facts K big x s p Ep) as (F1 & _).
    destruct (F1 r c w Hr Hcw) as (_ & r' & w' & H1 & H2).
    unfold outdated. rewrite Hb. rewrite (assoc_In _ _ _ _ (wx_names _ _ _ W) Hin).
    apply filter_In. split; auto.
    destruct (touches (pr_map1 (proc big x s p)) c0 (c0 + sz)) eqn:Et; auto.
    exfalso. exact (touches_false K _ _ _ Et r' c w' H1 H2 Hrange).
  Qed.

  Lemma gen_outd_pids : forall s order g n p, generate big x s order = Ok g -> In p (g_outd g n) ->
      In p (solver_pids s).
  Proof.
    intros s order g n p H Hp. destruct (gen_rows s order g H) as (_ & _ & _ & E4 & _).
    rewrite E4 in Hp. unfold outdated in Hp.
    destruct (find_col n (col_to_name 0 (x_params x))); [|destruct Hp].
    destruct (assoc n (x_params x)); [|destruct Hp]. apply filter_In in Hp. tauto.
  Qed.

  (** Sizes in the OSQP problem: all as in the first stage, except that the entries of A
      whose value is zero are missing. *)
  Lemma osqp_sizes : forall order g, generate big x OSQP order = Ok g ->
      length (g_baked g pq) = length (g_rows g pq) /\ length (g_baked g pA) = length (g_rows g pA)
      /\ length (g_baked g pu) = length (g_rows g pu).
  Proof.
    intros order g H. destruct (gen_rows OSQP order g H) as (E1 & _ & E3 & _).
    rewrite E1, E3. assert (forall p, In p (solver_pids OSQP) -> p <> pl ->
       length (pr_base (proc big x OSQP p)) = length (pr_rows (proc big x OSQP p))) as Hl.
    { intros p Hp Hn. destruct (proc_facts K big x OSQP p Hp) as (_ & _ & F3 & _). cbv zeta in F3.
      rewrite F3, app_length, map_length. destruct p; try congruence; simpl; lia. }
    cbv beta. simpl mem_pid. cbv iota.
    repeat split; apply Hl; simpl; auto 10; discriminate.
  Qed.

  Lemma filter_len : forall A (f : A -> bool) l, length (filter f l) = length l <-> Forall (fun a => f a = true) l.
  Proof.
    induction l as [|a l IH]; simpl; [split; auto|].
    destruct (f a) eqn:E; simpl.
    - split; intro H.
      + constructor; auto. apply IH. lia.
      + inversion H; subst. f_equal. apply IH. auto.
    - split; intro H.
      + exfalso. assert (length (filter f l) <= length l) by (clear; induction l; simpl; auto; destruct (f a); simpl; lia). lia.
      + inversion H; subst. congruence.
  Qed.

  (** When CVXPY builds the second stage from the OSQP problem's parameters. *)
  Section Second.
    Variable order : list string -> list string.
    Variable g1 : genc K.
    Hypothesis G1 : generate big x OSQP order = Ok g1.
    Hypothesis Hord : forall l, Permutation l (order l).
    Variable g2 : genc K.
    Variable th2 : pvals K.
    Hypothesis W2 : wf_gen g2 th2.
    Hypothesis Hlay2 : Permutation (osqp_params g1) (g_params g2).

    Lemma osqp_layout :
      Forall (fun v => v <> n0) (g_baked g1 pA) ->
      exists ps, Permutation [pq; pA; pl; pu] ps /\ layout g1 g2 ps.
    Proof.
      intro Hz. destruct (osqp_sizes order g1 G1) as (L1 & L2 & L3).
      assert (E : osqp_params g1 = map (fun p => (osqp_name p, length (g_rows g1 p))) [pq; pA; pl; pu]).
      { unfold osqp_params. simpl. rewrite L1, L3.
        assert (length (filter (fun v => negb (rz v)) (g_baked g1 pA)) = length (g_baked g1 pA)) as ->.
        { apply filter_len. eapply Forall_impl; [|exact Hz]. intros a Ha. simpl.
          destruct (rz a) eqn:Ea; auto. apply rz_spec in Ea. congruence. }
        rewrite L2. reflexivity. }
      rewrite E in Hlay2. apply Permutation_sym, Permutation_map_inv in Hlay2.
      destruct Hlay2 as (ps & Ep & Hp). exists ps. split; [exact Hp|]. exact Ep.
    Qed.

    Lemma zero_entry_fails : Exists (fun v => v = n0) (g_baked g1 pA) ->
        merge [] g1 g2 = Err ValueError.
    Proof.
      intro Hz. unfold merge.
      assert (exists ps, Permutation [pq; pA; pl; pu] ps /\ map fst (g_params g2) = map osqp_name ps) as (ps & P1 & P2).
      { pose proof (Permutation_map fst Hlay2) as Hm.
        change (map fst (osqp_params g1)) with (map osqp_name [pq; pA; pl; pu]) in Hm.
        apply Permutation_sym, Permutation_map_inv in Hm. destruct Hm as (ps & E & Hp). exists ps. auto. }
      destruct (gen_rows OSQP order g1 G1) as (_ & _ & _ & _ & _ & _ & S1).
      unfold map_first. rewrite (stack_ok K g1 ps).
      - cbn [bind].
        assert (length (g_vec0 g2) < length (flat_map (g_rows g1) ps ++ [const_row (length (g_vec0 g1)) n1])).
        { rewrite (w_vec0 _ _ _ W2). rewrite app_length. simpl length at 3.
          rewrite <- (Permutation_length (Permutation_flat_map (g_rows g1) P1)).
          assert (forall l l' : list (string * nat), Permutation l l' ->
                    length (flat l th2) = length (flat l' th2)) as Hperm.
          { intros l l' Hp. unfold flat. rewrite !app_length. f_equal.
            apply Permutation_length. apply Permutation_flat_map. exact Hp. }
          rewrite <- (Hperm _ _ Hlay2). unfold flat, osqp_params.
          destruct (osqp_sizes order g1 G1) as (L1 & L2 & L3).
          cbn [flat_map fst snd]. rewrite !app_length, !map_length, !seq_length. simpl length.
          assert (length (filter (fun v => negb (rz v)) (g_baked g1 pA)) < length (g_baked g1 pA)).
          { clear - Hz. induction Hz as [a l Ha|a l Hl IH]; simpl.
            - assert (rz a = true) as -> by (apply rz_spec; auto). simpl.
              assert (forall m : list K, length (filter (fun v => negb (rz v)) m) <= length m) as Hf
                by (induction m as [|b m IHm]; simpl; auto; destruct (negb (rz b)); simpl; lia).
              specialize (Hf l). lia.
            - destruct (negb (rz a)); simpl; lia. }
          lia. }
        match goal with |- context [Nat.eqb ?a ?b] => destruct (Nat.eqb a b) eqn:E end; [|reflexivity].
        apply Nat.eqb_eq in E. lia.
      - exact S1.
      - intros p Hp. apply (Permutation_in _ (Permutation_sym P1)) in Hp. simpl in *. tauto.
      - exact P2.
    Qed.
  End Second.
End Generated.
