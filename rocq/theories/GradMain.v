(** The data gradients, the adjoint of the canonicalization, and one gradient call. *)

From Coq Require Import Arith Bool ZArith Lia List Sorted Field.
From Verif Require Import Base Machine Runtime RuntimeSpec RuntimeProofs Retrieve RetrieveProofs Sparse SparseProofs Ldl LdlRank1 LdlProofs GradSpec LdlMain FactorProofs Gradient GradKkt Qdldl GradSolve GradKktSolve.
Import ListNotations.

Lemma upd_mid : forall A (a : list A) x b v, upd (a ++ x :: b) (length a) v = a ++ v :: b.
Proof. induction a as [|y a IH]; intros; simpl; auto. f_equal. apply IH. Qed.

Section Fill.
  Variable K : Type.
  Variables n : nat.
  Variable val : nat -> nat -> K.

  (** The values of all entries of a pattern, column after column. *)
  Definition pat_vals (M : csc K) (k : nat) : list K := flat_map (fun j => map (fun i => val i j) (rows M j)) (seq 0 k).

  Lemma pat_vals_length : forall (M : csc K) k, csc_ok n M -> k <= n -> length (pat_vals M k) = cptr M k.
  Proof.
    intros M k HO. induction k as [|k IH]; intro Hk; [rewrite (o_0 n M HO); auto|].
    unfold pat_vals in *. rewrite seq_S, flat_map_app, app_length, IH by lia. cbn [flat_map Nat.add]. rewrite app_nil_r, map_length.
    assert (Hl : length (rows M k) = cptr M (S k) - cptr M k).
    { unfold rows. rewrite firstn_length, skipn_length. pose proof (o_mono n M HO k ltac:(lia)). pose proof (o_cap n M HO).
      assert (cptr M (S k) <= c_n M).
      { rewrite (o_n n M HO). assert (G : forall m, S k + m <= n -> cptr M (S k) <= cptr M (S k + m)).
        { induction m as [|m IHm]; intro Hm; [rewrite Nat.add_0_r; auto|]. rewrite Nat.add_succ_r. etransitivity; [apply IHm; lia|]. apply (o_mono n M HO). lia. }
        replace n with (S k + (n - S k)) by lia. apply G. lia. }
      lia. }
    rewrite Hl. pose proof (o_mono n M HO k ltac:(lia)). lia.
  Qed.

  Lemma fill_ok : forall (M : csc K) (body : nat -> nat -> csc K -> res (csc K)), csc_ok n M -> length (c_x M) = c_n M ->
    (forall j k i M', j < n -> In i (rows M j) -> nth_error (c_i M) k = Some i -> k < length (c_x M') -> c_i M' = c_i M ->
       body j k M' = Ok (set_x M' (upd (c_x M') k (val i j)))) ->
    exists M', for_ n 0 (fun j M => s <- get (c_p M) j;; e <- get (c_p M) (j + 1);; for_ (e - s) s (body j) M) M = Ok M'
      /\ c_p M' = c_p M /\ c_i M' = c_i M /\ c_n M' = c_n M /\ c_x M' = pat_vals M n.
  Proof.
    intros M body HO HX HB.
    pose (I := fun j t (M' : csc K) => c_p M' = c_p M /\ c_i M' = c_i M /\ c_n M' = c_n M
      /\ c_x M' = pat_vals M j ++ map (fun i => val i j) (firstn t (rows M j)) ++ skipn (cptr M j + t) (c_x M)).
    assert (Hrl : forall j, j < n -> length (rows M j) = cptr M (S j) - cptr M j).
    { intros j Hj. pose proof (pat_vals_length M (S j) HO ltac:(lia)) as A. pose proof (pat_vals_length M j HO ltac:(lia)) as B.
      unfold pat_vals in *. rewrite seq_S, flat_map_app, app_length in A. cbn [flat_map Nat.add] in A. rewrite app_nil_r, map_length in A. lia. }
    assert (Hle : forall j, j <= n -> cptr M j <= length (c_x M)).
    { intros j Hj. rewrite HX, (o_n n M HO). assert (G : forall m, j + m <= n -> cptr M j <= cptr M (j + m)).
      { induction m as [|m IHm]; intro Hm; [rewrite Nat.add_0_r; auto|]. rewrite Nat.add_succ_r. etransitivity; [apply IHm; lia|]. apply (o_mono n M HO). lia. }
      replace n with (j + (n - j)) by lia. apply G. lia. }
    assert (R : run none (for_ n 0 (fun j M => s <- get (c_p M) j;; e <- get (c_p M) (j + 1);; for_ (e - s) s (body j) M) M) (I n 0)).
    { change (I n 0) with ((fun j => I j 0) (0 + n)). apply (run_for none _ (fun j => I j 0)).
      - unfold I. repeat (split; auto). rewrite (o_0 n M HO). auto.
      - intros j M1 Hj (E1 & E2 & E3 & E4). rewrite E1.
        assert (Hp : forall k, k <= n -> nth_error (c_p M) k = Some (cptr M k)).
        { intros k Hk. unfold cptr. apply nth_error_nth'. rewrite (o_p n M HO). lia. }
        apply run_get with (a := cptr M j); [apply Hp; lia|]. apply run_get with (a := cptr M (S j)); [rewrite Nat.add_1_r; apply Hp; lia|].
        eapply run_imp; [apply (run_for none _ (fun k M' => exists t, k = cptr M j + t /\ I j t M'))|].
        + exists 0. split; [lia|]. unfold I. auto.
        + intros k M2 Hk (t & -> & F1 & F2 & F3 & F4). assert (Ht : t < length (rows M j)) by (rewrite Hrl by lia; lia).
          destruct (nth_err_lt _ (rows M j) t Ht) as (i & Ei).
          assert (Ei' : nth_error (c_i M) (cptr M j + t) = Some i).
          { unfold rows in Ei. rewrite nth_error_firstn', nth_error_skipn' in Ei by lia. auto. }
          assert (Hlen : length (pat_vals M j ++ map (fun i => val i j) (firstn t (rows M j))) = cptr M j + t).
          { rewrite app_length, (pat_vals_length M j HO) by lia. rewrite map_length, firstn_length. lia. }
          assert (Hsk : exists x, skipn (cptr M j + t) (c_x M) = x :: skipn (cptr M j + S t) (c_x M)).
          { pose proof (Hle (S j) ltac:(lia)). rewrite Hrl in Ht by lia. destruct (nth_err_lt _ (c_x M) (cptr M j + t) ltac:(lia)) as (x & Ex).
            exists x. clear -Ex. rewrite Nat.add_succ_r. revert Ex. generalize (cptr M j + t) as k, (c_x M) as l.
            induction k; destruct l; simpl; intro H; try discriminate; [congruence|apply IHk; auto]. }
          destruct Hsk as (x & Hsk). rewrite app_assoc, Hsk in F4.
          rewrite (HB j (cptr M j + t) i M2); auto; [|lia|apply (nth_error_In _ _ Ei)|rewrite F4, app_length, Hlen; simpl; lia].
          cbn [run]. exists (S t). split; [lia|]. unfold I, set_x. cbn [c_p c_i c_n c_x]. repeat (split; auto).
          rewrite F4. rewrite <- Hlen at 1. rewrite upd_mid. rewrite (firstn_S_nth _ _ _ _ Ei), map_app. cbn [map]. rewrite <- !app_assoc. auto.
        + intros M2 (t & Et & F1 & F2 & F3 & F4). pose proof (Hrl j ltac:(lia)) as Hl. pose proof (o_mono n M HO j ltac:(lia)).
          unfold I. repeat (split; auto). rewrite F4. cbn [firstn map app]. replace t with (length (rows M j)) by lia. rewrite firstn_all.
          unfold pat_vals. rewrite seq_S, flat_map_app. cbn [flat_map Nat.add]. rewrite app_nil_r, <- app_assoc. do 2 f_equal. f_equal. lia. }
    destruct (run_none _ _ _ R) as (M' & E & F1 & F2 & F3 & F4). exists M'. repeat (split; auto). rewrite F4. cbn [firstn map app].
    rewrite skipn_all2, app_nil_r; auto. rewrite Nat.add_0_r, <- (o_n n M HO), HX. auto.
  Qed.
End Fill.
Arguments pat_vals {K}.

Section Adjoint.
  Variable F : Ring.
  Add Ring Fadj : (rth F).
  Local Open Scope num_scope.
  Notation sum f k := (rsum (map f (seq 0 k))).

  (** Inner product of two vectors of length [k]. *)
  Definition ip (k : nat) (x y : list F) : F := sum (fun c => nth c x n0 * nth c y n0) k.

  Lemma ip_upd : forall k x y c v, (c < length x)%nat -> (c < k)%nat -> ip k (upd x c v) y = ip k x y + (v - nth c x n0) * nth c y n0.
  Proof.
    intros k x y c v Hc Hk. unfold ip.
    assert (Hs : (v - nth c x n0) * nth c y n0 = sum (fun q => if Nat.eqb c q then (v - nth q x n0) * nth q y n0 else n0) k).
    { rewrite (@rsum_single F _ k 0%nat c); [rewrite Nat.eqb_refl; auto|lia|]. intros q _ Hq. destruct (Nat.eqb_spec c q); auto. congruence. }
    rewrite Hs, <- rsum_map_add. apply rsum_ext. intros q _. destruct (Nat.eqb_spec c q) as [<-|Hne].
    - rewrite nth_upd_eq by auto. ring.
    - rewrite nth_upd_neq by auto. ring.
  Qed.

  Lemma dot_rsum : forall (delta : list F) (r : row F), dot delta r = rsum (map (fun cv => snd cv * nth (fst cv) delta n0) r).
  Proof.
    intros delta r. unfold dot.
    assert (G : forall (l : row F) acc, fold_left (fun acc cv => acc + snd cv * nth (fst cv) delta n0) l acc = acc + rsum (map (fun cv => snd cv * nth (fst cv) delta n0) l)).
    { induction l as [|cv l IH]; intro acc; cbn [fold_left map]; [unfold rsum; cbn [fold_right]; ring|].
      rewrite IH. cbn [rsum]. ring. }
    rewrite G. ring.
  Qed.
End Adjoint.
Arguments ip {F}.

Section Scatter.
  Variable F : Fld.
  Add Field Fsc : (fth F).
  Local Open Scope num_scope.
  Notation sum f k := (rsum (map f (seq 0 k))).

  (** Rows whose columns exist. *)
  Definition cols_lt (np : nat) (rows : list (row F)) : Prop := forall r, In r rows -> forall cv, In cv r -> (fst cv < np)%nat.

  Theorem scatter_adj : forall (rows : list (row F)) nrows d dp np, cols_lt np rows -> (nrows <= length rows)%nat -> (nrows <= length d)%nat -> length dp = np ->
    exists dp', scatter F (csr_of rows) nrows d dp = Ok dp' /\ length dp' = np
      /\ forall delta, ip np dp' delta = ip np dp delta + sum (fun j => nth j d n0 * dot delta (nth j rows [])) nrows.
  Proof.
    intros rows nrows d dp np Hc Hr Hd Hl. unfold scatter.
    set (M := csc_cols F rows). set (N := length rows).
    assert (Hrep : rep N M rows) by (apply cols_rep; auto).
    assert (R : run none (for_ nrows 0 (fun j dp =>
      s <- get (c_p M) j;;
      e <- get (c_p M) (j + 1);;
      for_ (e - s)%nat s (fun k dp =>
        c <- get (c_i M) k;;
        old <- get dp c;;
        x <- get (c_x M) k;;
        dj <- get d j;;
        put dp c (old + x * dj)) dp) dp)
      (fun dp' => length dp' = np /\ forall delta, ip np dp' delta = ip np dp delta + sum (fun j => nth j d n0 * dot delta (nth j rows [])) nrows)).
    2:{ destruct (run_none _ _ _ R) as (dp' & E & A & B). exists dp'. auto. }
    apply (run_for none _ (fun j dp' => length dp' = np /\ forall delta, ip np dp' delta = ip np dp delta + sum (fun j => nth j d n0 * dot delta (nth j rows [])) j)).
    - split; auto. intro delta. cbn [seq map]. cbn [rsum]. ring.
    - intros j dp1 Hj [L1 H1]. assert (HjN : (j < N)%nat) by (unfold N; lia).
      rewrite (rep_get_p _ _ M rows j Hrep) by lia. cbn [bind]. rewrite (rep_get_p _ _ M rows (j + 1) Hrep) by lia. cbn [bind]. rewrite (r_ps _ _ _ _ Hrep) by auto.
      set (rw := nth j rows []) in *. assert (Hin : In rw rows) by (apply nth_In; auto).
      change (@length (nat * F) (@nth (list (nat * F)) j rows [])) with (length rw).
      replace (cstart M j + length rw - cstart M j)%nat with (length rw) by lia.
      eapply run_imp; [apply (run_for none _ (fun k dp' => exists t, k = (cstart M j + t)%nat /\ length dp' = np
         /\ forall delta, ip np dp' delta = ip np dp1 delta + nth j d n0 * rsum (map (fun cv => snd cv * nth (fst cv) delta n0) (firstn t rw))))|].
      + exists 0%nat. split; [lia|]. split; auto. intro delta. cbn [firstn map]. cbn [rsum]. ring.
      + intros k dp2 Hk (t & -> & L2 & H2). assert (Ht : (t < length rw)%nat) by (apply (Nat.add_lt_mono_l _ _ (cstart M j)); apply Hk).
        destruct (nth_err_lt _ rw t Ht) as ([c x] & Et).
        destruct (r_ent _ _ _ _ Hrep j t c x HjN Et) as [Ei Ex]. apply run_get with (a := c); auto.
        pose proof (Hc rw Hin (c, x) (nth_error_In _ _ Et)) as Hcn. cbn [fst] in Hcn.
        apply run_get with (a := nth c dp2 n0); [apply nth_error_nth'; lia|]. apply run_get with (a := x); auto.
        apply run_get with (a := nth j d n0); [apply nth_error_nth'; lia|]. rewrite put_ok by lia. cbn [run].
        exists (S t). split; [lia|]. rewrite upd_length. split; auto. intro delta. rewrite ip_upd by lia. rewrite H2.
        rewrite (firstn_S_nth _ _ _ _ Et), map_app, rsum_app. cbn [map fst snd]. cbn [rsum]. ring.
      + intros dp2 (t & Et & L2 & H2). split; auto. intro delta. rewrite H2, H1. assert (Ht : length rw = t) by (apply (Nat.add_cancel_l _ _ (cstart M j)); apply Et). rewrite <- Ht. rewrite firstn_all.
        rewrite seq_S, map_app, rsum_app. cbn [map Nat.add]. cbn [rsum]. rewrite dot_rsum. fold rw. ring.
  Qed.

  (** Directional derivative of block [k]'s map; zero if the block does not change. *)
  Definition mapd (o : option (list (row F))) (delta : list F) (k : nat) : F :=
    match o with Some rows => dot delta (nth k rows []) | None => n0 end.
  Definition map_fits (np nrows : nat) (o : option (list (row F))) : Prop :=
    match o with Some rows => cols_lt np rows /\ (nrows <= length rows)%nat | None => True end.

  Lemma scatter_opt_adj : forall o nrows d dp np, map_fits np nrows o -> (nrows <= length d)%nat -> length dp = np ->
    exists dp', scatter_opt F o nrows d dp = Ok dp' /\ length dp' = np
      /\ forall delta, ip np dp' delta = ip np dp delta + sum (fun j => nth j d n0 * mapd o delta j) nrows.
  Proof.
    intros [rows|] nrows d dp np H Hd Hl; unfold scatter_opt, mapd.
    - destruct H. apply scatter_adj; auto.
    - exists dp. split; auto. split; auto. intro delta. rewrite (@rsum_zero F) by (intros; ring). ring.
  Qed.

  Variables n N : nat.

  (** uncanon is the adjoint of the maps. *)
  Theorem uncanon_adj : forall (c : gcfg F) dq dl du dP dA,
    map_fits (gc_np c) n (gc_q c) -> map_fits (gc_np c) (gc_nl c) (gc_l c) -> map_fits (gc_np c) (N - n) (gc_u c) ->
    map_fits (gc_np c) (length dP) (gc_P c) -> map_fits (gc_np c) (length dA) (gc_A c) ->
    (n <= length dq)%nat -> (gc_nl c <= length dl)%nat -> (N - n <= length du)%nat ->
    exists dp, uncanon F n N c dq dl du dP dA = Ok dp /\ length dp = gc_np c
      /\ forall delta, ip (gc_np c) dp delta
           = sum (fun j => nth j dq n0 * mapd (gc_q c) delta j) n
             + sum (fun j => nth j dl n0 * mapd (gc_l c) delta j) (gc_nl c)
             + sum (fun j => nth j du n0 * mapd (gc_u c) delta j) (N - n)
             + sum (fun j => nth j dP n0 * mapd (gc_P c) delta j) (length dP)
             + sum (fun j => nth j dA n0 * mapd (gc_A c) delta j) (length dA).
  Proof.
    intros c dq dl du dP dA Mq Ml Mu MP MA Lq Ll Lu. unfold uncanon. cbn [bind].
    destruct (scatter_opt_adj (gc_q c) n dq (repeat n0 (gc_np c)) (gc_np c) Mq Lq (repeat_length _ _)) as (d1 & E1 & L1 & H1). rewrite E1. cbn [bind].
    destruct (scatter_opt_adj (gc_l c) (gc_nl c) dl d1 (gc_np c) Ml Ll L1) as (d2 & E2 & L2 & H2). rewrite E2. cbn [bind].
    destruct (scatter_opt_adj (gc_u c) (N - n) du d2 (gc_np c) Mu Lu L2) as (d3 & E3 & L3 & H3). rewrite E3. cbn [bind].
    destruct (scatter_opt_adj (gc_P c) (length dP) dP d3 (gc_np c) MP (le_n _) L3) as (d4 & E4 & L4 & H4). rewrite E4. cbn [bind].
    destruct (scatter_opt_adj (gc_A c) (length dA) dA d4 (gc_np c) MA (le_n _) L4) as (d5 & E5 & L5 & H5). rewrite E5.
    exists d5. split; auto. split; auto. intro delta. rewrite H5, H4, H3, H2, H1.
    assert (E0 : ip (gc_np c) (repeat n0 (gc_np c)) delta = (n0 : F)).
    { apply rsum_zero. intros q Hq. apply in_seq in Hq. rewrite nth_repeat. ring. }
    rewrite E0. ring.
  Qed.
End Scatter.
