(** Proofs about explicit mode: the parameter gradient and the objective. *)

From Coq Require Import String Arith Bool ZArith Lia List Permutation Ring.
From Verif Require Import Base Pus Machine PusParse PusCheck PusLift Runtime RuntimeSpec RuntimeProofs
     RuntimeMore Retrieve RetrieveProofs Canon CanonSpec CanonProofs CanonMain CanonGen CanonProblem CanonMore Info
     Explicit ExplicitProofs ExplicitVars.
Import ListNotations.
Open Scope list_scope.

Section XGrad.
  Variable K : Ring.
  Add Ring Kring : (rth K).
  Local Open Scope num_scope.

  Lemma ldot_seq : forall (a b : list K) n, length a = n -> length b = n ->
    ldot a b = rsum (map (fun i => nth i a n0 * nth i b n0) (seq 0 n)).
  Proof.
    unfold ldot. induction a as [|x a IH]; intros [|y b] n Ha Hb; subst n; simpl in *; try discriminate; auto.
    rewrite (IH b (length a)) by (auto; lia). f_equal. rewrite <- (seq_shift _ 0), map_map. reflexivity.
  Qed.

  Lemma ldot_upd : forall (l d : list K) k a, k < length l -> length d = length l ->
    ldot (upd l k a) d = ldot l d + (a - nth k l n0) * nth k d n0.
  Proof.
    unfold ldot. induction l as [|x l IH]; intros [|y d] k a Hk Hd; simpl in *; try discriminate; try lia.
    destruct k as [|k]; simpl; [ring|]. rewrite IH by lia. ring.
  Qed.

  Lemma add_row_ok : forall (r : row K) y (dp : list K), (forall c w, In (c, w) r -> (c < length dp)%nat) ->
    exists dp', add_row r y dp = Ok dp' /\ length dp' = length dp
      /\ forall d, length d = length dp -> ldot dp' d = ldot dp d + y * dot d r.
  Proof.
    induction r as [|[c w] r IH]; intros y dp H; simpl.
    - exists dp. repeat split; auto. intros. unfold dot. simpl. ring.
    - assert (Hc : (c < length dp)%nat) by (eapply H; simpl; eauto).
      rewrite (get_ok _ dp c n0 Hc). cbn [bind]. rewrite put_ok by auto. cbn [bind].
      destruct (IH y (upd dp c (nth c dp n0 + w * y))) as (dp' & E & L & D).
      { intros. rewrite upd_length. eapply H; simpl; eauto. }
      rewrite upd_length in L, D. exists dp'. split; auto. split; auto. intros d Hd.
      rewrite D by auto. rewrite ldot_upd by auto. rewrite !dot_rsum. simpl. ring.
  Qed.

  (** The value that row [i] of the (q, u) map gives for direction [d]. *)
  Definition rowdot (G : xgrad K) (d : list K) (i : nat) : K :=
    if Nat.ltb i (xg_n G) then if xg_chq G then dot d (nth i (xg_q G) []) else n0
    else if xg_chu G then dot d (nth (i - xg_n G)%nat (xg_u G) []) else n0.

  Definition rows_fit (G : xgrad K) (pos : list nat) : Prop := forall i, In i pos ->
    (if Nat.ltb i (xg_n G) then xg_chq G = true -> i < length (xg_q G)
     else xg_chu G = true -> i - xg_n G < length (xg_u G)).
  Definition cols_fit (G : xgrad K) : Prop := forall r c w, (In r (xg_q G) /\ xg_chq G = true) \/ (In r (xg_u G) /\ xg_chu G = true) ->
    In (c, w) r -> c < xg_np G.

  Lemma back_loop_ok : forall (G : xgrad K) pos k (dth dp : list K), (k + length pos <= length dth)%nat ->
    rows_fit G pos -> cols_fit G -> length dp = xg_np G ->
    exists dp', back_loop G k pos dth dp = Ok dp' /\ length dp' = xg_np G
      /\ forall d, length d = xg_np G ->
         ldot dp' d = ldot dp d + rsum (map (fun m => nth (k + m)%nat dth n0 * rowdot G d (nth m pos 0%nat)) (seq 0 (length pos))).
  Proof.
    intros G. induction pos as [|i pos IH]; intros k dth dp Hk HR HC HL; cbn [back_loop].
    - exists dp. repeat split; auto. intros; simpl; ring.
    - simpl length in Hk.
      assert (exists dp1, (if Nat.ltb i (xg_n G)
                then if xg_chq G then y <- get dth k;; r <- get (xg_q G) i;; add_row r y dp else Ok dp
                else if xg_chu G then y <- get dth k;; r <- get (xg_u G) (i - xg_n G)%nat;; add_row r y dp else Ok dp) = Ok dp1
             /\ length dp1 = xg_np G /\ forall d, length d = xg_np G -> ldot dp1 d = ldot dp d + nth k dth n0 * rowdot G d i)
        as (dp1 & E & L & D).
      { pose proof (HR i (or_introl eq_refl)) as Hi. unfold rowdot. destruct (Nat.ltb i (xg_n G)).
        - destruct (xg_chq G) eqn:Eq.
          + specialize (Hi eq_refl). rewrite (get_ok _ dth k n0) by lia. cbn [bind]. rewrite (get_ok _ (xg_q G) i []) by auto. cbn [bind].
            destruct (add_row_ok (nth i (xg_q G) []) (nth k dth n0) dp) as (dp1 & E1 & L1 & D1).
            { rewrite HL. intros c w Hc. eapply HC; [left; split; [apply nth_In; exact Hi|auto]|exact Hc]. }
            exists dp1. rewrite HL in L1, D1. auto.
          + exists dp. repeat split; auto. intros. ring.
        - destruct (xg_chu G) eqn:Eq.
          + specialize (Hi eq_refl). rewrite (get_ok _ dth k n0) by lia. cbn [bind]. rewrite (get_ok _ (xg_u G) (i - xg_n G)%nat []) by auto. cbn [bind].
            destruct (add_row_ok (nth (i - xg_n G)%nat (xg_u G) []) (nth k dth n0) dp) as (dp1 & E1 & L1 & D1).
            { rewrite HL. intros c w Hc. eapply HC; [right; split; [apply nth_In; exact Hi|auto]|exact Hc]. }
            exists dp1. rewrite HL in L1, D1. auto.
          + exists dp. repeat split; auto. intros. ring. }
      rewrite E. cbn [bind].
      destruct (IH (S k) dth dp1) as (dp' & E' & L' & D'); auto; try lia.
      { intros j Hj. apply HR. simpl; auto. }
      exists dp'. split; auto. split; auto. intros d Hd. rewrite D', D by auto. cbn [length seq map rsum nth].
      rewrite Nat.add_0_r. rewrite <- (seq_shift _ 0), map_map. cbn [nth].
      rewrite (rsum_ext _ (fun x => nth (k + S x)%nat dth n0 * rowdot G d (nth x pos 0%nat))
                 (fun x => nth (S k + x)%nat dth n0 * rowdot G d (nth x pos 0%nat))
                 (seq 0 (length pos))) by (intros; rewrite Nat.add_succ_r; reflexivity).
      cut (forall x y z : K, x + y + z = x + (y + z)); [intro X; apply X|intros; ring].
  Qed.

  (** Entry (i, j) of the affine law of a region. *)
  Definition coef (t : table K) (base i j : nat) : K := nth (base + i * (t_np t + 1) + j)%nat (t_feed t) n0.

  Lemma dtheta_loop_ok : forall (t : table K) base (dx : list K) j fuel i acc,
    (i + fuel <= length dx)%nat -> (base + (i + fuel) * (t_np t + 1) <= length (t_feed t))%nat -> (j <= t_np t)%nat ->
    dtheta_loop t base dx j i fuel acc
    = Ok (acc + rsum (map (fun i => coef t base i j * nth i dx n0) (seq i fuel))).
  Proof.
    intros t base dx j. induction fuel as [|f IH]; intros i acc Hd Hf Hj; cbn [dtheta_loop seq map rsum].
    - f_equal. ring.
    - rewrite (get_ok _ (t_feed t) _ n0) by nia. cbn [bind]. rewrite (get_ok _ dx i n0) by lia. cbn [bind].
      rewrite IH by (try lia; nia). f_equal. fold (coef t base i j).
      cut (forall a b c : K, a + b + c = a + (b + c)); [intro X; apply X|intros; ring].
  Qed.

  Lemma ldot_app1 : forall (a b : list K) x y, length a = length b -> ldot (a ++ [x]) (b ++ [y]) = ldot a b + x * y.
  Proof.
    unfold ldot. induction a as [|c a IH]; intros [|e b] x y H; simpl in *; try discriminate; [ring|].
    rewrite IH by lia. ring.
  Qed.

  Lemma t_eval_ok : forall (t : table K) region base th, t_base t region = Ok base ->
    (base + t_nsol t * (t_np t + 1) <= length (t_feed t))%nat -> length th = t_np t ->
    t_eval t region th = Ok (map (fun i => rsum (map (fun j => coef t base i j * nth j th n0) (seq 0 (t_np t)))
                                           + coef t base i (t_np t)) (seq 0 (t_nsol t))).
  Proof.
    intros t region base th Hb Hf Hl. unfold t_eval. rewrite Hb. cbn [bind].
    rewrite (mapM_pure _ _ _ (fun i => rsum (map (fun j => coef t base i j * nth j th n0) (seq 0 (t_np t)))
                                           + coef t base i (t_np t))); auto.
    intros i Hi. apply in_seq in Hi.
    rewrite (mapM_pure _ _ _ (fun j => coef t base i j)).
    - cbn [bind]. f_equal. rewrite Nat.add_1_r, seq_S. rewrite map_app. simpl map.
      rewrite ldot_app1 by (rewrite map_length, seq_length; auto). f_equal; [|simpl; ring].
      rewrite (ldot_seq _ _ (t_np t)); auto; [|rewrite map_length, seq_length; auto].
      apply rsum_ext. intros j Hj. apply in_seq in Hj. f_equal.
      rewrite (nth_indep _ n0 (coef t base i 0)) by (rewrite map_length, seq_length; lia).
      rewrite (map_nth (coef t base i)). rewrite seq_nth by lia. reflexivity.
    - intros j Hj. apply in_seq in Hj. apply get_ok. nia.
  Qed.

  (** ** cpg_update_d<name> *)

  (** Assignments of one variable: (position, value). *)
  Definition assigns (v : xinfo) (vals : list K) : list (nat * K) :=
    flat_map (fun i => match slot v i with Some pos => [(pos, nth i vals n0)] | None => [] end) (seq 0 (xi_size v)).
  Fixpoint puts (as_ : list (nat * K)) (dx : list K) : list K :=
    match as_ with [] => dx | (p, a) :: t => puts t (upd dx p a) end.

  Lemma puts_length : forall as_ dx, length (puts as_ dx) = length dx.
  Proof. induction as_ as [|[p a] t IH]; simpl; intros; auto. rewrite IH. apply upd_length. Qed.
  Lemma puts_app : forall a b dx, puts (a ++ b) dx = puts b (puts a dx).
  Proof. induction a as [|[p x] t IH]; simpl; intros; auto. Qed.

  Lemma put_loop : forall (v : xinfo) (vals : list K) idx s (dx : list K),
    (forall k, In (Some k) idx -> xi_off v + k < length dx) -> s + length idx <= length vals ->
    fold_left (fun acc ik => d <- acc;;
                      match snd ik with
                      | Some k => a <- get vals (fst ik);; put d (xi_off v + k)%nat a
                      | None => Ok d
                      end) (combine (seq s (length idx)) idx) (Ok dx)
    = Ok (puts (flat_map (fun m => match nth m idx None with Some k => [((xi_off v + k)%nat, nth (s + m)%nat vals n0)] | None => [] end)
                         (seq 0 (length idx))) dx).
  Proof.
    intros v vals. induction idx as [|k idx IH]; intros s dx Hk Hl; cbn [length seq combine fold_left flat_map fst snd bind]; auto.
    simpl length in Hl.
    assert (X : forall dx', flat_map (fun m => match nth m (k :: idx) None with Some k => [((xi_off v + k)%nat, nth (s + m)%nat vals n0)] | None => [] end) (seq 1 (length idx))
       = flat_map (fun m => match nth m idx None with Some k => [((xi_off v + k)%nat, nth (S s + m)%nat vals n0)] | None => [] end) (seq 0 (length idx)) /\ length (dx' : list K) = length dx').
    { intro dx'. split; auto. rewrite <- (seq_shift _ 0), flat_map_map. apply flat_map_ext. intro m. cbn [nth].
      rewrite Nat.add_succ_r. reflexivity. }
    destruct k as [k|].
    - rewrite (get_ok _ vals s n0) by lia. cbn [bind]. rewrite put_ok by (apply Hk; simpl; auto).
      rewrite IH; [|intros; rewrite upd_length; apply Hk; simpl; auto|lia].
      rewrite (proj1 (X dx)). rewrite Nat.add_0_r. reflexivity.
    - rewrite IH; [|intros; apply Hk; simpl; auto|lia]. rewrite (proj1 (X dx)). reflexivity.
  Qed.

  Lemma put_delta_ok : forall (v : xinfo) (vals dx : list K), shaped (length dx) v -> xi_size v <= length vals ->
    put_delta v vals dx = Ok (puts (assigns v vals) dx).
  Proof.
    intros v vals dx (S1 & S2 & S3 & S4) Hl. unfold put_delta, assigns. destruct (Nat.eqb (xi_size v) 1) eqn:E.
    - pose proof E as E1. apply Nat.eqb_eq in E1. rewrite (get_ok _ vals 0 n0) by lia. cbn [bind].
      rewrite E1. cbn [seq flat_map]. unfold slot. rewrite E. cbn [app puts].
      apply put_ok. apply (S4 0%nat); [lia|]. unfold slot. rewrite E. reflexivity.
    - pose proof E as E1. apply Nat.eqb_neq in E1. specialize (S3 E1).
      rewrite put_loop.
      + rewrite S3. f_equal. f_equal. apply flat_map_ext. intro i. unfold slot. rewrite E.
        destruct (nth i (xi_idx v) None); auto.
      + intros k Hk. destruct (In_nth_error _ _ Hk) as (i & Hi).
        apply (S4 i); [rewrite <- S3; apply nth_error_Some; congruence|].
        unfold slot. rewrite E. rewrite (nth_error_nth _ _ None Hi). reflexivity.
      + rewrite S3. simpl. auto.
  Qed.

  Lemma put_deltas_ok : forall vs (vd : string -> list K) (dx : list K), Forall (shaped (length dx)) vs ->
    (forall v, In v vs -> xi_size v <= length (vd (xi_name v))) ->
    put_deltas vs vd dx = Ok (puts (flat_map (fun v => assigns v (vd (xi_name v))) vs) dx).
  Proof.
    induction vs as [|v vs IH]; intros vd dx HF HL; simpl; auto.
    inversion HF as [|? ? Hv HF']; subst. rewrite put_delta_ok by (auto; apply HL; simpl; auto). cbn [bind].
    rewrite IH.
    - rewrite puts_app. reflexivity.
    - rewrite puts_length. auto.
    - intros; apply HL; simpl; auto.
  Qed.

  Lemma nth_puts : forall as_ (dx : list K) p, ~ In p (map fst as_) -> nth p (puts as_ dx) n0 = nth p dx n0.
  Proof.
    induction as_ as [|[q a] t IH]; simpl; intros dx p H; auto. rewrite IH by tauto. apply nth_upd_neq. intro; subst; tauto.
  Qed.

  Lemma ldot_puts : forall as_ (dx z : list K), NoDup (map fst as_) ->
    (forall p, In p (map fst as_) -> p < length dx /\ nth p dx n0 = n0) -> length z = length dx ->
    ldot (puts as_ dx) z = ldot dx z + rsum (map (fun pa => snd pa * nth (fst pa) z n0) as_).
  Proof.
    induction as_ as [|[p a] t IH]; simpl; intros dx z HN HP HZ; [ring|].
    inversion HN; subst. destruct (HP p (or_introl eq_refl)) as [Hp H0].
    rewrite IH; auto.
    - rewrite ldot_upd by auto. rewrite H0. ring.
    - intros q Hq. rewrite upd_length. split; [apply HP; auto|]. rewrite nth_upd_neq; [apply HP; auto|]. intro; subst; tauto.
    - rewrite upd_length. auto.
  Qed.

  (** Distinct stored entries have distinct positions. *)
  Definition slots_inj (vs : list xinfo) : Prop :=
    forall v w i j p, In v vs -> In w vs -> i < xi_size v -> j < xi_size w ->
      slot v i = Some p -> slot w j = Some p -> v = w /\ i = j.

  Lemma assigns_nodup : forall (vs : list xinfo) (vd : string -> list K), NoDup vs -> slots_inj vs ->
    NoDup (map fst (flat_map (fun v => assigns v (vd (xi_name v))) vs)).
  Proof.
    intros vs vd HN HI. rewrite map_flat_map. apply NoDup_flat_map; auto.
    - intros v Hv. unfold assigns. rewrite map_flat_map. apply NoDup_flat_map; [apply seq_NoDup| |].
      + intros i _. destruct (slot v i); simpl; constructor; auto; constructor.
      + intros i j p Hi Hj Hij Hp Hp'. apply in_seq in Hi. apply in_seq in Hj.
        destruct (slot v i) as [a|] eqn:Ea; simpl in Hp; [|tauto]. destruct Hp as [->|[]].
        destruct (slot v j) as [b|] eqn:Eb; simpl in Hp'; [|tauto]. destruct Hp' as [->|[]].
        apply Hij. eapply HI; eauto; lia.
    - assert (G : forall v p, In p (map fst (assigns v (vd (xi_name v)))) -> exists i, i < xi_size v /\ slot v i = Some p).
      { intros v p Hp. unfold assigns in Hp. rewrite map_flat_map in Hp. apply in_flat_map in Hp. destruct Hp as (i & Hi & Hp).
        apply in_seq in Hi. exists i. destruct (slot v i); simpl in Hp; [|tauto]. destruct Hp as [->|[]]. split; auto; lia. }
      intros v w p Hv Hw Hvw Hp Hp'. destruct (G _ _ Hp) as (i & Hi & Ei). destruct (G _ _ Hp') as (j & Hj & Ej).
      apply Hvw. eapply HI; eauto.
  Qed.

  Lemma rsum_cut : forall (f : nat -> K) a b, (a <= b)%nat -> (forall i, a <= i < b -> f i = n0)%nat ->
    rsum (map f (seq 0 b)) = rsum (map f (seq 0 a)).
  Proof.
    intros f a b Hab H0. replace b with (a + (b - a))%nat by lia. rewrite seq_app, map_app, rsum_app.
    rewrite (rsum_zero _ f (seq (0 + a) (b - a))); [ring|]. intros i Hi. apply in_seq in Hi. apply H0. lia.
  Qed.

  Lemma nth_map_seq0 : forall (f : nat -> K) n i, (i < n)%nat -> nth i (map f (seq 0 n)) n0 = f i.
  Proof.
    intros f n i Hi. rewrite (nth_indep _ n0 (f 0%nat)) by (rewrite map_length, seq_length; auto).
    rewrite map_nth, seq_nth by auto. reflexivity.
  Qed.

  Lemma x_gradient_adj : forall (G : xgrad K) (t : table K) region base dx,
    t_base t region = Ok base -> length dx = xg_nsol G ->
    (base + xg_nsol G * (t_np t + 1) <= length (t_feed t))%nat ->
    t_np t = length (mask_pos (xg_mask G)) -> rows_fit G (mask_pos (xg_mask G)) -> cols_fit G ->
    exists dp, x_gradient G t region dx = Ok (dp, repeat n0 (xg_nsol G)) /\ length dp = xg_np G
      /\ forall d, length d = xg_np G -> ldot dp d
         = rsum (map (fun i => nth i dx n0 * rsum (map (fun j => coef t base i j * rowdot G d (nth j (mask_pos (xg_mask G)) 0%nat)) (seq 0 (t_np t))))
                     (seq 0 (xg_nsol G))).
  Proof.
    intros G t region base dx Hb Hd Hf Hnp HR HC. unfold x_gradient. rewrite Hb. cbn [bind].
    rewrite (mapM_pure _ _ _ (fun j => rsum (map (fun i => coef t base i j * nth i dx n0) (seq 0 (xg_nsol G))))).
    2:{ intros j Hj. apply in_seq in Hj. rewrite dtheta_loop_ok by (try lia; nia).
        f_equal. ring. }
    cbn [bind].
    set (dth := map (fun j => rsum (map (fun i => coef t base i j * nth i dx n0) (seq 0 (xg_nsol G)))) (seq 0 (length (mask_pos (xg_mask G))))).
    assert (Hl : length dth = length (mask_pos (xg_mask G))) by (unfold dth; rewrite map_length, seq_length; auto).
    destruct (back_loop_ok G (mask_pos (xg_mask G)) 0 dth (repeat n0 (xg_np G))) as (dp & E & L & D); auto; try (rewrite Hl; simpl; lia).
    { apply repeat_length. }
    rewrite E. cbn [bind]. exists dp. split; auto. split; auto. intros d Hdl. rewrite D by auto. cbn [Nat.add].
    rewrite (ldot_seq _ _ (xg_np G)) by (auto; apply repeat_length).
    rewrite rsum_zero.
    2:{ intros i Hi. assert (E0 : forall n k, nth k (repeat (@n0 K) n) n0 = n0) by (induction n; destruct k; simpl; auto).
        rewrite E0. ring. }
    rewrite (rsum_ext _ (fun i => nth i dx n0 * rsum (map (fun j => coef t base i j * rowdot G d (nth j (mask_pos (xg_mask G)) 0%nat)) (seq 0 (t_np t))))
       (fun i => rsum (map (fun j => nth i dx n0 * (coef t base i j * rowdot G d (nth j (mask_pos (xg_mask G)) 0%nat))) (seq 0 (t_np t)))) (seq 0 (xg_nsol G))).
    2:{ intros i _. rewrite <- rsum_map_mul. reflexivity. }
    rewrite rsum_swap. rewrite Hnp.
    rewrite (rsum_ext _ (fun m => nth m dth n0 * rowdot G d (nth m (mask_pos (xg_mask G)) 0%nat))
      (fun b => rsum (map (fun a => nth a dx n0 * (coef t base a b * rowdot G d (nth b (mask_pos (xg_mask G)) 0%nat))) (seq 0 (xg_nsol G))))).
    - ring.
    - intros m Hm. apply in_seq in Hm. unfold dth. rewrite nth_map_seq0 by lia. rewrite <- rsum_map_mul_r.
      apply rsum_ext. intros i _. ring.
  Qed.

  Definition vsub (a b : list K) : list K := map2 (fun x y => x - y) a b.

  Lemma vsub_length : forall a b, length a = length b -> length (vsub a b) = length a.
  Proof. intros. apply map2_length. auto. Qed.
  Lemma nth_vsub : forall a b i, length a = length b -> nth i (vsub a b) n0 = nth i a n0 - nth i b n0.
  Proof.
    unfold vsub. induction a as [|x a IH]; intros [|y b] i H; simpl in *; try discriminate.
    - destruct i; ring.
    - destruct i; simpl; auto.
  Qed.
  Lemma dot_vsub : forall a b (r : row K), length a = length b -> dot (vsub a b) r = dot a r - dot b r.
  Proof.
    intros a b r H. rewrite !dot_rsum. induction r as [|[c w] r IH]; simpl; [ring|]. rewrite IH, nth_vsub by auto. ring.
  Qed.

  Section Gen.
    Variable g : genc K.
    Variable mask : list bool.
    Variable nsol : nat.
    Variable t : table K.
    Variable vs : list xinfo.

    Definition xg_of : xgrad K :=
      mkXG (length (g_baked g pq)) mask (g_rows g pq) (g_rows g pu) (chg_get (g_chg g) pq) (chg_get (g_chg g) pu)
           nsol (length (g_vec0 g)).

    (** Canonical q and u, restricted to the parameters of the table. *)
    Definition xtheta (th : pvals K) : list K := mask_sel mask (canon_spec g th pq ++ canon_spec g th pu).

    (** [dp] is the adjoint of "solve with region r, read the variables". *)
    Definition adjoint (r : nat) (vd : string -> list K) (dp : list K) : Prop :=
      length dp = length (g_vec0 g) /\
      forall p p', exists o o', t_eval t r (xtheta p) = Ok o /\ t_eval t r (xtheta p') = Ok o'
        /\ rsum (map (fun v => ldot (vd (xi_name v)) (vsub (slot_vals n0 o' v) (slot_vals n0 o v))) vs)
           = ldot dp (vsub (flat (g_params g) p') (flat (g_params g) p)).

    Variable th0 : pvals K.
    Hypothesis W : wf_gen g th0.
    Hypothesis Hmask : length mask = (length (g_baked g pq) + length (g_baked g pu))%nat.
    Hypothesis Hfull : forall p, In p [pq; pu] -> chg_get (g_chg g) p = true -> length (g_rows g p) = length (g_baked g p).
    Hypothesis Hnp : t_np t = length (mask_pos mask).
    Hypothesis Hshape : Forall (shaped (t_nsol t)) vs.
    Hypothesis Hnd : NoDup vs.
    Hypothesis Hinj : slots_inj vs.
    Hypothesis Hns : (t_nsol t <= nsol)%nat.

    Lemma flat_len : forall p p' : pvals K, length (flat (g_params g) p) = length (flat (g_params g) p').
    Proof.
      intros. unfold flat. rewrite !app_length. f_equal. generalize (g_params g). induction l as [|a l IH]; simpl; auto.
      rewrite !app_length, !map_length. auto.
    Qed.
    Lemma canon_spec_len' : forall th p, length (canon_spec g th p) = length (g_baked g p).
    Proof.
      intros th p. unfold canon_spec. destruct (chg_get (g_chg g) p); auto.
      rewrite app_length, map_length, skipn_length. pose proof (w_len _ _ _ W p). lia.
    Qed.

    Lemma rows_fit_of : rows_fit xg_of (mask_pos mask).
    Proof.
      intros i Hi. apply mask_pos_lt in Hi. cbn [xg_of xg_n xg_chq xg_chu xg_q xg_u].
      destruct (Nat.ltb i (length (g_baked g pq))) eqn:E.
      - apply Nat.ltb_lt in E. intro H. rewrite (Hfull pq) by (simpl; auto). auto.
      - apply Nat.ltb_ge in E. intro H. rewrite (Hfull pu) by (simpl; auto). lia.
    Qed.
    Lemma cols_fit_of : cols_fit xg_of.
    Proof.
      intros r c w H Hc. cbn [xg_of xg_np]. rewrite (w_vec0 _ _ _ W).
      destruct H as [[H _]|[H _]]; [exact (w_cols _ _ _ W pq r c w H Hc)|exact (w_cols _ _ _ W pu r c w H Hc)].
    Qed.

    Lemma canon_diff : forall p p' q i, In q [pq; pu] -> (i < length (g_baked g q))%nat ->
      nth i (canon_spec g p' q) n0 - nth i (canon_spec g p q) n0
      = if chg_get (g_chg g) q then dot (vsub (flat (g_params g) p') (flat (g_params g) p)) (nth i (g_rows g q) []) else n0.
    Proof.
      intros p p' q i Hq Hi. unfold canon_spec. destruct (chg_get (g_chg g) q) eqn:E; [|ring].
      rewrite !app_nth1 by (rewrite map_length, Hfull; auto).
      rewrite dot_vsub by apply flat_len.
      assert (X : forall (f : row K -> K), nth i (map f (g_rows g q)) n0 = f (nth i (g_rows g q) [])).
      { intro f. rewrite (nth_indep _ n0 (f [])) by (rewrite map_length, Hfull; auto). apply map_nth. }
      rewrite !X. reflexivity.
    Qed.

    Lemma xtheta_len : forall p, length (xtheta p) = t_np t.
    Proof.
      intro p. unfold xtheta. rewrite <- (mask_pos_sel_nth _ n0).
      - rewrite map_length. auto.
      - rewrite app_length, !canon_spec_len'. auto.
    Qed.

    Lemma xtheta_diff : forall p p' j, (j < t_np t)%nat ->
      nth j (xtheta p') n0 - nth j (xtheta p) n0
      = rowdot xg_of (vsub (flat (g_params g) p') (flat (g_params g) p)) (nth j (mask_pos mask) 0%nat).
    Proof.
      intros p p' j Hj. unfold xtheta.
      rewrite <- !(mask_pos_sel_nth _ n0) by (rewrite app_length, !canon_spec_len'; auto).
      assert (X : forall l : list K, nth j (map (fun i => nth i l n0) (mask_pos mask)) n0 = nth (nth j (mask_pos mask) 0%nat) l n0).
      { intro l. rewrite (nth_indep _ n0 ((fun i => nth i l n0) 0%nat)) by (rewrite map_length; lia).
        rewrite (map_nth (fun i => nth i l n0)). reflexivity. }
      rewrite !X. set (i := nth j (mask_pos mask) 0%nat).
      assert (Hi : (i < length mask)%nat) by (apply mask_pos_lt; apply nth_In; lia).
      unfold rowdot. cbn [xg_of xg_n xg_chq xg_chu xg_q xg_u].
      destruct (Nat.ltb i (length (g_baked g pq))) eqn:E.
      - apply Nat.ltb_lt in E. rewrite !app_nth1 by (rewrite canon_spec_len'; auto). apply canon_diff; simpl; auto.
      - apply Nat.ltb_ge in E. rewrite !app_nth2 by (rewrite canon_spec_len'; auto). rewrite !canon_spec_len'.
        apply canon_diff; simpl; auto. lia.
    Qed.

    Lemma grad_adjoint : forall r base vd, t_base t r = Ok base ->
      (base + nsol * (t_np t + 1) <= length (t_feed t))%nat ->
      (forall v, In v vs -> length (vd (xi_name v)) = xi_size v) ->
      exists dx dp, put_deltas vs vd (repeat n0 nsol) = Ok dx
        /\ x_gradient xg_of t r dx = Ok (dp, repeat n0 nsol) /\ adjoint r vd dp.
    Proof.
      intros r base vd Hb Hf Hvd.
      assert (Hsh : Forall (shaped (length (repeat (@n0 K) nsol))) vs).
      { rewrite repeat_length. eapply Forall_impl; [|exact Hshape]. intros v (S1 & S2 & S3 & S4). repeat split; auto.
        intros i pos Hi Hs. specialize (S4 i pos Hi Hs). lia. }
      rewrite (put_deltas_ok vs vd (repeat n0 nsol) Hsh) by (intros v Hv; rewrite Hvd; auto).
      set (asg := flat_map (fun v => assigns v (vd (xi_name v))) vs).
      set (dx := puts asg (repeat n0 nsol)).
      assert (Hdl : length dx = nsol) by (unfold dx; rewrite puts_length, repeat_length; auto).
      assert (E0 : forall n k, nth k (repeat (@n0 K) n) n0 = n0) by (induction n; destruct k; simpl; auto).
      assert (Hpos : forall p, In p (map fst asg) -> (p < t_nsol t)%nat).
      { intros p Hp. unfold asg in Hp. rewrite map_flat_map in Hp. apply in_flat_map in Hp. destruct Hp as (v & Hv & Hp).
        unfold assigns in Hp. rewrite map_flat_map in Hp. apply in_flat_map in Hp. destruct Hp as (i & Hi & Hp). apply in_seq in Hi.
        destruct (slot v i) as [q|] eqn:Es; simpl in Hp; [|tauto]. destruct Hp as [<-|[]].
        rewrite Forall_forall in Hshape. destruct (Hshape v Hv) as (_ & _ & _ & S4). eapply S4; eauto. lia. }
      destruct (x_gradient_adj xg_of t r base dx) as (dp & E & L & D); auto.
      { apply rows_fit_of. } { apply cols_fit_of. }
      exists dx, dp. split; auto. split; auto. split; auto. intros p p'.
      assert (Hf' : (base + t_nsol t * (t_np t + 1) <= length (t_feed t))%nat) by nia.
      rewrite !(t_eval_ok t r base _ Hb Hf' (xtheta_len _)).
      set (law := fun th i => rsum (map (fun j => coef t base i j * nth j th n0) (seq 0 (t_np t))) + coef t base i (t_np t)).
      exists (map (law (xtheta p)) (seq 0 (t_nsol t))), (map (law (xtheta p')) (seq 0 (t_nsol t))).
      split; auto. split; auto.
      set (dl := vsub (flat (g_params g) p') (flat (g_params g) p)).
      assert (Hdll : length dl = xg_np xg_of).
      { unfold dl. rewrite vsub_length by apply flat_len. cbn [xg_of xg_np]. rewrite (w_vec0 _ _ _ W). apply flat_len. }
      rewrite (D dl Hdll). cbn [xg_of xg_nsol xg_mask].
      set (z := fun i => rsum (map (fun j => coef t base i j * rowdot xg_of dl (nth j (mask_pos mask) 0%nat)) (seq 0 (t_np t)))).
      assert (Hz : forall i, law (xtheta p') i - law (xtheta p) i = z i).
      { intro i. unfold law, z. 
        rewrite (rsum_ext _ (fun j => coef t base i j * rowdot xg_of dl (nth j (mask_pos mask) 0%nat))
                          (fun j => coef t base i j * nth j (xtheta p') n0 + - (coef t base i j * nth j (xtheta p) n0))).
        - rewrite rsum_map_add, rsum_map_opp. ring.
        - intros j Hj. apply in_seq in Hj. unfold dl. rewrite <- xtheta_diff by lia. ring. }
      transitivity (rsum (map (fun i => nth i dx n0 * z i) (seq 0 nsol))); [|reflexivity].
      assert (EL : ldot dx (map z (seq 0 nsol)) = rsum (map (fun i => nth i dx n0 * z i) (seq 0 nsol))).
      { rewrite (ldot_seq _ _ nsol); auto; [|rewrite map_length, seq_length; auto].
        apply rsum_ext. intros i Hi. apply in_seq in Hi. rewrite nth_map_seq0 by lia. reflexivity. }
      rewrite <- EL. unfold dx. rewrite ldot_puts.
      - assert (EZ : ldot (repeat n0 nsol) (map z (seq 0 nsol)) = n0).
        { rewrite (ldot_seq _ _ nsol) by (rewrite ?repeat_length, ?map_length, ?seq_length; auto).
          apply rsum_zero. intros i _. rewrite E0. ring. }
        rewrite EZ.
        unfold asg. clear - Hshape Hvd Hz Hns.
        revert Hshape Hvd. induction vs as [|v l IH]; intros HS Hvd; simpl; [ring|].
        inversion HS as [|? ? Hv HS']; subst. rewrite map_app, rsum_app. rewrite IH by (auto; intros; apply Hvd; simpl; auto).
        assert (EV : ldot (vd (xi_name v)) (vsub (slot_vals n0 (map (law (xtheta p')) (seq 0 (t_nsol t))) v)
                                                 (slot_vals n0 (map (law (xtheta p)) (seq 0 (t_nsol t))) v))
                     = rsum (map (fun pa => snd pa * nth (fst pa) (map z (seq 0 nsol)) n0) (assigns v (vd (xi_name v))))).
        { destruct Hv as (_ & _ & _ & S4).
          assert (Hl : forall o, length (slot_vals (@n0 K) o v) = xi_size v) by (intro; unfold slot_vals; rewrite map_length, seq_length; auto).
          rewrite (ldot_seq _ _ (xi_size v)); [|apply Hvd; simpl; auto|rewrite vsub_length; rewrite ?Hl; auto].
          unfold assigns.
          assert (X : forall l0, (forall i, In i l0 -> (i < xi_size v)%nat) ->
             rsum (map (fun i => nth i (vd (xi_name v)) n0 * nth i (vsub (slot_vals n0 (map (law (xtheta p')) (seq 0 (t_nsol t))) v)
                                                 (slot_vals n0 (map (law (xtheta p)) (seq 0 (t_nsol t))) v)) n0) l0)
             = rsum (map (fun pa => snd pa * nth (fst pa) (map z (seq 0 nsol)) n0)
                  (flat_map (fun i => match slot v i with Some pos => [(pos, nth i (vd (xi_name v)) n0)] | None => [] end) l0))).
          { induction l0 as [|i l0 IH0]; intros Hl0; simpl; auto. rewrite map_app, rsum_app, IH0 by (intros; apply Hl0; simpl; auto).
            f_equal. rewrite nth_vsub by (rewrite !Hl; auto). unfold slot_vals.
            assert (Hi : (i < xi_size v)%nat) by (apply Hl0; simpl; auto).
            rewrite !nth_map_seq0 by auto. destruct (slot v i) as [pos|] eqn:Es; simpl; [|ring].
            specialize (S4 i pos Hi Es). rewrite !nth_map_seq0 by lia. rewrite <- Hz. ring. }
          apply X. intros i Hi. apply in_seq in Hi. lia. }
        rewrite EV. ring.
      - apply assigns_nodup; auto.
      - intros q Hq. rewrite repeat_length. split; [|apply E0]. specialize (Hpos q Hq). lia.
      - rewrite map_length, seq_length, repeat_length. auto.
    Qed.

    (** Regions used by the gradient calls of a history. *)
    Fixpoint call_regions (cur : option nat) (os : list (gop K)) : list (option nat * (string -> list K)) :=
      match os with
      | [] => []
      | GSolve r :: rest => call_regions (Some r) rest
      | GGrad r vd :: rest =>
          let c := match r with Some r => Some r | None => cur end in (c, vd) :: call_regions c rest
      end.

    Lemma grad_run_ok : forall os cur,
      (forall c vd, In (c, vd) (call_regions cur os) ->
        (exists r base, c = Some r /\ t_base t r = Ok base /\ (base + nsol * (t_np t + 1) <= length (t_feed t))%nat)
        /\ (forall v, In v vs -> length (vd (xi_name v)) = xi_size v)) ->
      exists dps, grad_run xg_of t vs (cur, repeat n0 nsol) os = Ok dps
        /\ Forall2 (fun c dp => exists r, fst c = Some r /\ adjoint r (snd c) dp) (call_regions cur os) dps.
    Proof.
      induction os as [|o os IH]; intros cur H; cbn [grad_run call_regions].
      - exists []. auto.
      - destruct o as [r|r vd]; cbn [grad_run call_regions snd fst].
        + apply IH. exact H.
        + unfold grad_call. cbn [fst snd].
          destruct (H _ vd (or_introl eq_refl)) as ((r0 & base & Ec & Hb & Hf) & Hvd).
          destruct (grad_adjoint r0 base vd Hb Hf Hvd) as (dx & dp & E1 & E2 & A).
          rewrite E1. cbn [bind].
          assert (Er : (match r with Some r1 => Some r1 | None => cur end) = Some r0) by exact Ec.
          rewrite Er. rewrite E2. cbn [bind].
          destruct (IH (Some r0)) as (dps & E3 & F3).
          { intros c' vd' Hin. apply H. cbn [call_regions]. rewrite Er. right. exact Hin. }
          rewrite E3. cbn [bind]. exists (dp :: dps). split; auto. constructor; auto. exists r0. cbn [fst snd]. auto.
    Qed.
  End Gen.
End XGrad.

(** ** Objective *)

Section XObj.
  Variable K : Ring.
  Add Ring Kring2 : (rth K).
  Local Open Scope num_scope.

  (** Entry (r, c) of a matrix given by columns. *)
  Definition col_entry (P : list (row K)) (r c : nat) : K :=
    rsum (map snd (filter (fun rv => Nat.eqb (fst rv) r) (nth c P []))).

  Lemma obj_col_ok : forall half (col : row K) (sx : list K) i acc, (forall r p, In (r, p) col -> (r < length sx)%nat) ->
    (i < length sx)%nat ->
    obj_col half col sx i acc = Ok (acc + half * (dot sx col * nth i sx n0)).
  Proof.
    intros half. induction col as [|[r p] col IH]; intros sx i acc H Hi; cbn [obj_col].
    - f_equal. unfold dot. simpl. ring.
    - rewrite (get_ok _ sx r n0) by (eapply H; simpl; eauto). cbn [bind]. rewrite (get_ok _ sx i n0) by auto. cbn [bind].
      rewrite IH; auto; [|intros; eapply H; simpl; eauto]. f_equal. rewrite !dot_rsum. simpl. ring.
  Qed.

  Lemma obj_quad_ok : forall half (P : list (row K)) (sx : list K) i acc,
    (forall c r p, In c P -> In (r, p) c -> (r < length sx)%nat) -> (i + length P <= length sx)%nat ->
    obj_quad half P sx i acc
    = Ok (acc + half * rsum (map (fun k => dot sx (nth k P []) * nth (i + k)%nat sx n0) (seq 0 (length P)))).
  Proof.
    intros half. induction P as [|c P IH]; intros sx i acc H Hi; cbn [obj_quad].
    - f_equal. simpl. ring.
    - simpl length in Hi. rewrite obj_col_ok; [|intros r p Hr; eapply H; [left; reflexivity|exact Hr]|lia]. cbn [bind].
      rewrite IH; [|intros c' r p Hc Hr; eapply H; [right; exact Hc|exact Hr]|lia].
      f_equal. cbn [length seq map rsum nth]. rewrite <- (seq_shift _ 0), map_map. cbn [nth]. rewrite Nat.add_0_r.
      rewrite (rsum_ext _ (fun x => dot sx (nth x P []) * nth (i + S x)%nat sx n0)
                 (fun k => dot sx (nth k P []) * nth (S i + k)%nat sx n0)); [ring|].
      intros k _. rewrite Nat.add_succ_r. reflexivity.
  Qed.

  Lemma obj_lin_ok : forall (q sx : list K) i acc, (i + length q <= length sx)%nat ->
    obj_lin q sx i acc = Ok (acc + rsum (map (fun k => nth k q n0 * nth (i + k)%nat sx n0) (seq 0 (length q)))).
  Proof.
    induction q as [|a q IH]; intros sx i acc Hi; cbn [obj_lin].
    - f_equal. simpl. ring.
    - simpl length in Hi. rewrite (get_ok _ sx i n0) by lia. cbn [bind]. rewrite IH by lia.
      f_equal. cbn [length seq map rsum nth]. rewrite <- (seq_shift _ 0), map_map. cbn [nth]. rewrite Nat.add_0_r.
      rewrite (rsum_ext _ (fun x => nth x q n0 * nth (i + S x)%nat sx n0)
                 (fun k => nth k q n0 * nth (S i + k)%nat sx n0)); [ring|].
      intros k _. rewrite Nat.add_succ_r. reflexivity.
  Qed.

  Lemma x_obj_ok : forall half (P : list (row K)) (q sx : list K) n, length P = n -> length q = n -> length sx = n ->
    (forall c r p, In c P -> In (r, p) c -> (r < n)%nat) ->
    x_obj half P q sx = Ok (half * qf n (col_entry P) (fun i => nth i sx n0) + lf n (fun i => nth i q n0) (fun i => nth i sx n0)).
  Proof.
    intros half P q sx n HP Hq Hs HR. unfold x_obj.
    rewrite obj_quad_ok by (rewrite ?Hs, ?HP; auto). cbn [bind]. rewrite obj_lin_ok by (rewrite Hs, Hq; auto).
    f_equal. rewrite HP, Hq. unfold qf, lf. rewrite rsum_swap. cbn [Nat.add].
    rewrite (rsum_ext _ (fun k => dot sx (nth k P []) * nth k sx n0)
      (fun b => rsum (map (fun a => nth a sx n0 * col_entry P a b * nth b sx n0) (seq 0 n))) (seq 0 n)); [ring|].
    intros k Hk. apply in_seq in Hk. rewrite <- (dot_dense _ n (nth k P [])).
    - rewrite <- rsum_map_mul_r. apply rsum_ext. intros a Ha. apply in_seq in Ha. rewrite dense_row_nth by lia. unfold col_entry. ring.
    - intros c w Hc. eapply HR; [|exact Hc]. apply nth_In. lia.
  Qed.
End XObj.
