(** The generator's data satisfy what the gradient code needs, and what the gradient means in
    terms of CVXPY's parametrised problem data (OSQP, one stage). *)

From Coq Require Import String Arith Bool ZArith Lia List Sorted Permutation Field.
From Verif Require Import Base Pus Machine PusCheck Runtime RuntimeSpec RuntimeProofs RuntimeMore Canon CanonSpec CanonProofs CanonMain CanonGen CanonProblem CanonMore.
From Verif Require Import Retrieve Sparse SparseProofs Ldl LdlRank1 LdlProofs GradSpec LdlMain FactorProofs Gradient GradKkt Qdldl GradSolve GradKktSolve GradMain GradCall GradSession GradSessionProofs.
Import ListNotations.

(** Row indices of column [j]. *)
Definition colrows (ip idx : list nat) (j : nat) : list nat :=
  map (fun k => nth k idx 0) (seq (nth j ip 0) (nth (S j) ip 0 - nth j ip 0)).

Lemma sorted_map_filter : forall (h : nat -> nat) f l, StronglySorted lt (map h l) -> StronglySorted lt (map h (filter f l)).
Proof.
  intros h f l. induction l as [|a l IH]; cbn [map filter]; intro H; auto. apply StronglySorted_inv in H. destruct H as [H1 H2].
  destruct (f a); auto. cbn [map]. constructor; auto. rewrite Forall_forall in *. intros b Hb. apply H2. apply in_map_iff in Hb.
  destruct Hb as (c & <- & Hc). apply filter_In in Hc. apply in_map. tauto.
Qed.
Lemma slice_map : forall (l : list nat) b k, b + k <= length l -> firstn k (skipn b l) = map (fun i => nth i l 0) (seq b k).
Proof.
  intros l b k H. apply nth_ext with (d := 0) (d' := 0).
  - rewrite firstn_length, skipn_length, map_length, seq_length. lia.
  - intros i Hi. rewrite firstn_length, skipn_length in Hi. rewrite nth_map_seq' by lia.
    rewrite <- CanonMain.nth_skipn. rewrite <- (firstn_skipn k (skipn b l)) at 2. rewrite app_nth1; auto. rewrite firstn_length, skipn_length. lia.
Qed.

Section Cols.
  (** Columns after dropping structurally zero entries: sub-columns. *)
  Lemma sel_cols : forall nc n ip idx f, ip_wf ip nc n -> forall j, (j < nc)%nat ->
    colrows (recount nc ip (np_where f n)) (take 0 idx (np_where f n)) j
    = map (fun k => nth k idx 0) (filter f (seq (nth j ip 0) (nth (S j) ip 0 - nth j ip 0))).
  Proof.
    intros nc n ip idx f W j Hj. unfold colrows. rewrite !(recount_where nc n) by (auto; lia). pose proof W as (H1 & H2 & H3 & H4).
    assert (Hab : nth j ip 0 <= nth (S j) ip 0) by auto.
    assert (Hbn : nth (S j) ip 0 <= n) by (rewrite <- H3; apply (ip_mono ip nc n); auto).
    rewrite <- (where_slice f n _ _ Hab Hbn), map_map. apply map_ext_in. intros k Hk. apply in_seq in Hk.
    assert (HK : k < length (np_where f n)). { pose proof (cnt_mono f _ _ Hbn). pose proof (cnt_mono f _ _ Hab). unfold cnt in *. lia. }
    unfold take. rewrite (nth_indep _ 0 (nth 0 idx 0)) by (rewrite map_length; auto). rewrite map_nth with (f := fun k => nth k idx 0). auto.
  Qed.
End Cols.

(** CVXPY's matrices: rows increasing in every column of A, and of P's upper triangle. *)
Record layout {K : Ring} (x : cvx K) : Prop := mkLayout
  { ly_A : forall j, j < x_n x -> StronglySorted lt (colrows (x_Ap x) (x_Ai x) j);
    ly_P : exists rows idx ip, x_P x = Some (rows, idx, ip) /\ forall j, j < x_n x ->
             StronglySorted lt (colrows ip idx j) /\ forall i, In i (colrows ip idx j) -> i <= j }.

Section Layout.
  Variable K : Ring.
  Add Ring Kgg : (rth K).
  Local Open Scope num_scope.
  Variable big : K.
  Variable x : cvx K.
  Variable th0 : pvals K.
  Hypothesis W : wf_cvx x th0.
  Hypothesis Y : layout x.
  Notation n := (x_n x).
  Notation m := (x_neq x + x_nineq x)%nat.
  Notation prA := (proc big x OSQP pA).
  Notation prP := (proc big x OSQP pP).

  Lemma A_cols : forall j, (j < n)%nat -> exists f, colrows (pr_ip prA) (pr_idx prA) j = map (fun k => nth k (x_Ai x) 0%nat) (filter f (seq (nth j (x_Ap x) 0%nat) (nth (S j) (x_Ap x) 0%nat - nth j (x_Ap x) 0%nat))).
  Proof.
    intros j Hj. destruct (Ap_facts K x th0 W) as (H1 & H2 & H3). unfold proc, process. cbn [is_qp qp_map bind pid_upper constr_vec indptr_for is_split].
    pose proof (n_mat_eq K x th0 W) as HM. cbn [pr_ip pr_idx am_nc am_idx].
    match goal with |- context [resparse ?nc ?a ?b] => pose (map2 := resparse nc a b); assert (L : length map2 = n_mat x) end.
    { unfold map2. rewrite resparse_length. cbn [am_map]. rewrite map_length, seq_length, firstn_length, (wx_A _ _ _ W), HM. lia. }
    fold map2. rewrite L. eexists. rewrite sel_cols; [|rewrite HM; apply (ip0_wf K x th0 W)|auto].
    rewrite !(ip0_nth K x th0 W) by lia. apply map_ext_in. intros k Hk. apply filter_In in Hk. destruct Hk as [Hk _]. apply in_seq in Hk.
    assert (Hkm : (k < n_mat x)%nat).
    { pose proof (wx_Ap _ _ _ W) as Hw. pose proof (ip_mono _ _ _ Hw (S j) n ltac:(lia) ltac:(lia)). lia. }
    rewrite <- (firstn_skipn (n_mat x) (x_Ai x)) at 2. rewrite app_nth1; auto. rewrite firstn_length. lia.
  Qed.
  Lemma P_cols : forall rows idx ip, x_P x = Some (rows, idx, ip) -> forall j, (j < n)%nat ->
    exists f, colrows (pr_ip prP) (pr_idx prP) j = map (fun k => nth k idx 0%nat) (filter f (seq (nth j ip 0%nat) (nth (S j) ip 0%nat - nth j ip 0%nat))).
  Proof.
    intros rows idx ip EP j Hj. destruct (wx_P _ _ _ W _ _ _ EP) as (H1 & H2 & H3). unfold proc, process.
    cbn [is_qp qp_map]. unfold map_P. rewrite EP. cbn [bind pid_upper constr_vec]. unfold indptr_for. rewrite EP. cbn [pr_ip pr_idx am_nc am_idx am_map].
    match goal with |- context [resparse ?nc ?a ?b] => pose (map2 := resparse nc a b); assert (L : length map2 = length idx) end.
    { unfold map2. rewrite resparse_length. auto. }
    fold map2. rewrite L. eexists. rewrite sel_cols; auto.
  Qed.

  Definition csc_of (r : pres K) (d : list K) : csc K := mkCsc (pr_ip r) (pr_idx r) d (length d).

  Lemma rows_of : forall r nr d j, CanonMore.csc_ok x r nr -> (j < n)%nat -> GradSpec.rows (csc_of r d) j = colrows (pr_ip r) (pr_idx r) j.
  Proof.
    intros r nr d j (H1 & H2 & H3) Hj. unfold rows, cptr, csc_of. cbn [Sparse.c_p Sparse.c_i].
    pose proof (ip_mono _ _ _ H1 j (S j) ltac:(lia) ltac:(lia)). pose proof (ip_mono _ _ _ H1 (S j) n ltac:(lia) ltac:(lia)).
    destruct H1 as (_ & _ & E & _). apply slice_map. lia.
  Qed.
  Lemma csc_good : forall r nr d, CanonMore.csc_ok x r nr -> length d = length (pr_rows r) ->
    (forall j, (j < n)%nat -> StronglySorted lt (colrows (pr_ip r) (pr_idx r) j)) -> GradSpec.csc_ok n (csc_of r d).
  Proof.
    intros r nr d H Hd Hsrt. pose proof H as ((H1 & H1' & H1'' & H1''') & H2 & H3). constructor; unfold cptr, csc_of in *; cbn [Sparse.c_p Sparse.c_i Sparse.c_x Sparse.c_n]; auto; try lia.
    intros j Hj. change (mkCsc _ _ _ _) with (csc_of r d). rewrite (rows_of r nr) by auto. auto.
  Qed.

  Lemma base_len : forall p, pid_upper p = true -> In p (solver_pids OSQP) -> length (pr_base (proc big x OSQP p)) = length (pr_rows (proc big x OSQP p)).
  Proof.
    intros p Hu Hp. destruct (proc_facts K big x OSQP p Hp) as (_ & _ & E & _). rewrite E, app_length, map_length.
    destruct p; try discriminate; cbn [tl_of length]; lia.
  Qed.

  Variable order : list string -> list string.
  Variable g : genc K.
  Hypothesis Hg : generate big x OSQP order = Ok g.

  Lemma gen_fields : (forall p, In p (solver_pids OSQP) -> g_rows g p = pr_rows (proc big x OSQP p))
    /\ (forall p, In p (solver_pids OSQP) -> g_baked g p = pr_base (proc big x OSQP p))
    /\ (forall p, In p (solver_pids OSQP) -> chg_get (g_chg g) p = pr_chg (proc big x OSQP p))
    /\ g_vec0 g = x_flat x /\ g_solver g = OSQP.
  Proof.
    pose proof Hg as E. unfold generate in E. destruct (block_for big x OSQP order); [|discriminate]. cbn [bind] in E. apply (f_equal (fun r => match r with Ok a => a | Err _ => g end)) in E. cbv beta iota in E. clear Hg. subst g.
    cbn [g_rows g_baked g_chg g_vec0 g_solver]. assert (M : forall p, In p (solver_pids OSQP) -> mem_pid p (solver_pids OSQP) = true) by (intros; apply mem_pid_In; auto).
    split; [|split; [|split; [|auto]]]; intros p Hp.
    - rewrite (M p Hp). auto.
    - rewrite (M p Hp). auto.
    - unfold chg_get, chg. rewrite (M p Hp). auto.
  Qed.

  (** Directions that leave the constant alone see nothing of blocks without changing entries. *)
  Lemma const_dir : forall p delta r, In p (solver_pids OSQP) -> pr_chg (proc big x OSQP p) = false -> In r (pr_rows (proc big x OSQP p)) ->
    nth (length (x_flat x) - 1) delta n0 = n0 -> dot delta r = n0.
  Proof.
    intros p delta r Hp Hc Hr Hd. destruct (proc_facts K big x OSQP p Hp) as (F1 & F2 & _). rewrite F2 in Hc.
    assert (Hz : forall c v, In (c, v) r -> nth c delta n0 = n0).
    { intros c v Hcv. destruct (F1 r c v Hr Hcv) as [Hlt _]. pose proof (touches_false K _ _ _ Hc r c v Hr Hcv) as Hn.
      assert (c = length (x_flat x) - 1)%nat by lia. subst c. auto. }
    clear Hr. transitivity (dot (repeat n0 (length delta)) r).
    - apply dot_ext. intros c v Hcv. rewrite (Hz c v Hcv). symmetry. apply nth_repeat.
    - unfold dot. induction r as [|[c v] r IH]; auto. cbn [fold_left fst snd]. rewrite nth_repeat. replace (n0 + v * n0) with (n0 : K) by ring. apply IH.
      intros c' v' H. apply (Hz c' v'). right. auto.
  Qed.

  Lemma col_sum : forall (r : pres K) nr d (h : nat -> K) j, (forall i, In i (colrows (pr_ip r) (pr_idx r) j) -> (i < nr)%nat) ->
    rsum (map (fun t => h (nth t (pr_idx r) 0%nat) * nth t d n0) (seq (nth j (pr_ip r) 0%nat) (nth (S j) (pr_ip r) 0%nat - nth j (pr_ip r) 0%nat)))
    = rsum (map (fun i => h i * csc_entry (fun k => nth k d n0) (pr_idx r) (pr_ip r) i j) (seq 0 nr)).
  Proof.
    intros r nr d h j Hb. unfold csc_entry.
    rewrite (rsum_ext K) with (g := fun i => rsum (map (fun t => h i * (if Nat.eqb (nth t (pr_idx r) 0%nat) i then nth t d n0 else n0))
       (seq (nth j (pr_ip r) 0%nat) (nth (S j) (pr_ip r) 0%nat - nth j (pr_ip r) 0%nat)))) (l := seq 0 nr) by (intros; rewrite rsum_map_mul; auto).
    rewrite rsum_swap. apply rsum_ext. intros t Ht.
    assert (Hi : (nth t (pr_idx r) 0%nat < nr)%nat) by (apply Hb; unfold colrows; apply in_map_iff; exists t; auto).
    rewrite (@rsum_single K _ nr 0 (nth t (pr_idx r) 0%nat)); [rewrite Nat.eqb_refl; auto|lia|].
    intros i Hi2 Hne. destruct (Nat.eqb_spec (nth t (pr_idx r) 0%nat) i); [congruence|]. ring.
  Qed.
  Lemma mat_sum : forall (r : pres K) nr0 nr d (f : nat -> nat -> K), CanonMore.csc_ok x r nr0 -> length d = length (pr_rows r) ->
    (forall j i, (j < n)%nat -> In i (colrows (pr_ip r) (pr_idx r) j) -> (i < nr)%nat) ->
    forall d0, rsum (map (fun k => nth k (pat_vals f (csc_of r d0) n) n0 * nth k d n0) (seq 0 (length (pat_vals f (csc_of r d0) n))))
    = rsum (map (fun j => rsum (map (fun i => f i j * csc_entry (fun k => nth k d n0) (pr_idx r) (pr_ip r) i j) (seq 0 nr))) (seq 0 n)).
  Proof.
    intros r nr0 nr d f H Hd Hb d0. pose proof H as ((H1 & H1' & H1'' & H1''') & H2 & H3).
    assert (P : forall k, (k <= n)%nat ->
      length (pat_vals f (csc_of r d0) k) = nth k (pr_ip r) 0%nat /\
      rsum (map (fun t => nth t (pat_vals f (csc_of r d0) k) n0 * nth t d n0) (seq 0 (length (pat_vals f (csc_of r d0) k))))
      = rsum (map (fun j => rsum (map (fun i => f i j * csc_entry (fun k => nth k d n0) (pr_idx r) (pr_ip r) i j) (seq 0 nr))) (seq 0 k))).
    2:{ apply (P n). lia. }
    induction k as [|k IH]; intro Hk; [cbn; auto|]. destruct (IH ltac:(lia)) as [IL IS].
    assert (EV : pat_vals f (csc_of r d0) (S k) = pat_vals f (csc_of r d0) k ++ map (fun i => f i k) (colrows (pr_ip r) (pr_idx r) k)).
    { unfold pat_vals. rewrite seq_S, flat_map_app. cbn [flat_map Nat.add]. rewrite app_nil_r, (rows_of r nr0) by (auto; lia). auto. }
    pose proof (H1''' k ltac:(lia)) as Hm.
    assert (LC : length (colrows (pr_ip r) (pr_idx r) k) = (nth (S k) (pr_ip r) 0 - nth k (pr_ip r) 0)%nat) by (unfold colrows; rewrite map_length, seq_length; auto).
    rewrite EV, app_length, IL, map_length, LC.
    split; [lia|]. rewrite (seq_S k 0), map_app, rsum_app. cbn [map Nat.add].
    rewrite seq_app, map_app, rsum_app. rewrite <- IS, IL. f_equal.
    - apply rsum_ext. intros t Ht. apply in_seq in Ht. rewrite app_nth1 by lia. auto.
    - cbn [Nat.add]. rewrite <- (col_sum r nr d (fun i => f i k) k) by (intros; apply (Hb k); auto; lia).
      match goal with |- _ = rsum [?a] => transitivity a; [|cbn; ring] end.
      apply rsum_ext. intros t Ht. apply in_seq in Ht. rewrite app_nth2 by lia. rewrite IL. f_equal.
      rewrite nth_indep with (d' := f (nth 0 (pr_idx r) 0%nat) k) by (rewrite map_length; lia).
      rewrite (map_nth (fun i => f i k)). unfold colrows. rewrite nth_map_seq' by lia. f_equal. f_equal. lia.
  Qed.

  Lemma vals_of : forall (r : pres K) nr (d : list K) j, CanonMore.csc_ok x r nr -> length d = length (pr_rows r) -> (j < n)%nat ->
    vals (csc_of r d) j = map (fun k => nth k d n0) (seq (nth j (pr_ip r) 0%nat) (nth (S j) (pr_ip r) 0%nat - nth j (pr_ip r) 0%nat)).
  Proof.
    intros r nr d j (H1 & H2 & H3) Hd Hj. unfold vals, cptr, csc_of. cbn [Sparse.c_p Sparse.c_x].
    pose proof (ip_mono _ _ _ H1 j (S j) ltac:(lia) ltac:(lia)). pose proof (ip_mono _ _ _ H1 (S j) n ltac:(lia) ltac:(lia)).
    destruct H1 as (_ & _ & E & _). set (b := nth j (pr_ip r) 0%nat) in *. set (e := nth (S j) (pr_ip r) 0%nat) in *.
    apply nth_ext with (d := n0) (d' := n0).
    - rewrite firstn_length, skipn_length, map_length, seq_length. lia.
    - intros i Hi. rewrite firstn_length, skipn_length in Hi. rewrite nth_map_seq' by lia.
      rewrite <- CanonMain.nth_skipn. rewrite <- (firstn_skipn (e - b) (skipn b d)) at 2. rewrite app_nth1; auto. rewrite firstn_length, skipn_length. lia.
  Qed.
  Lemma entry_of : forall (r : pres K) nr (d : list K) i j, CanonMore.csc_ok x r nr -> length d = length (pr_rows r) -> (j < n)%nat ->
    GradSpec.entry (csc_of r d) i j = csc_entry (fun k => nth k d n0) (pr_idx r) (pr_ip r) i j.
  Proof.
    intros r nr d i j H Hd Hj. unfold entry, csc_entry. rewrite (rows_of r nr d j H Hj), (vals_of r nr d j H Hd Hj). unfold colrows.
    generalize (seq (nth j (pr_ip r) 0%nat) (nth (S j) (pr_ip r) 0%nat - nth j (pr_ip r) 0%nat)) as l. induction l as [|a l IH]; auto.
    cbn [map combine filter fst]. destruct (Nat.eqb (nth a (pr_idx r) 0%nat) i); cbn [map snd]; change (rsum (?a :: ?l)) with (a + rsum l); rewrite IH; ring.
  Qed.
End Layout.

(** The gradient in terms of CVXPY's data: inner product of the canonical gradients with the
    change of the canonical data (the QP's constraints are A x = -b, resp. -A x <= b for
    CVXPY's A x + b = 0, resp. >= 0). *)
Section Meaning.
  Variable F : Fld.
  Variable x : cvx F.
  Variable half : F.
  Variables below above : F -> bool.
  Local Open Scope num_scope.
  Notation sum f k := (rsum (map f (seq 0 k))).
  Notation n := (x_n x).
  Notation m := (x_neq x + x_nineq x)%nat.
  Definition data_slope (sx sy r delta : list F) : F :=
    sum (fun j => d_q F r j * cq x delta j) n
    + sum (fun i => d_bound F n below above sy r i * (if Nat.ltb i (x_neq x) then - cb x delta i else cb x delta i)) m
    + sum (fun j => sum (fun i => d_P F half sx r i j * cP x delta i j) n) n
    + sum (fun j => sum (fun i => d_A F n below above sx sy r i j * (if Nat.ltb i (x_neq x) then cA x delta i j else - cA x delta i j)) m) n.

  (** The KKT matrices of the QP: P and A^T above A, P and A that of the parameter values [v];
      P's off-diagonal entries are those CVXPY stores.  The factorised one is symmetric and
      regularised. *)
  Definition qA (v : list F) (i j : nat) : F := if Nat.ltb i (x_neq x) then cA x v i j else - cA x v i j.
  Definition kkt_exact (v : list F) (p q : nat) : F :=
    if Nat.ltb p n then (if Nat.ltb q n then cP x v p q else qA v (q - n)%nat p)
    else if Nat.ltb q n then qA v (p - n)%nat q else n0.
  Definition kkt_upper (eps : F) (v : list F) (p q : nat) : F :=
    if Nat.ltb q n then cP x v p q + (if Nat.eqb p q then eps else n0)
    else if Nat.ltb p n then qA v (q - n)%nat p else if Nat.eqb p q then - eps else n0.
  Definition kkt_symm (eps : F) (v : list F) (p q : nat) : F := if Nat.leb p q then kkt_upper eps v p q else kkt_upper eps v q p.

  (** [dp] is the gradient for parameter values [th], solution (sx, sy) and derivatives [dx]. *)
  Definition grad_of (eps : F) (e : pvals F * list F * list F * list F) (dp : list F) : Prop :=
    let '(th, sx, sy, dx) := e in
    let v := flat (x_params x) th in
    let act k := Nat.ltb k n || active_at F below above sy (k - n) in
    length dp = length v /\
    exists r,
      (forall r', refined (n + m) act (masked act (kkt_symm eps v)) (kkt_exact v) (dx ++ repeat n0 m) 3 r' <-> r' = r)
      /\ forall delta, nth (length v - 1) delta n0 = n0 -> ip (length v) dp delta = data_slope sx sy r delta.
End Meaning.

Section Gen.
  Variable F : Fld.
  Add Field Fgg : (fth F).
  Local Open Scope num_scope.
  Variable big : F.
  Variable x : cvx F.
  Variable th0 : pvals F.
  Hypothesis W : wf_cvx x th0.
  Hypothesis Y : layout x.
  Variable order : list string -> list string.
  Hypothesis Hord : forall l, Permutation l (order l).
  Variable g : genc F.
  Hypothesis Hg : generate big x OSQP order = Ok g.
  Notation n := (x_n x).
  Notation m := (x_neq x + x_nineq x)%nat.
  Notation N := (n + m)%nat.
  Notation prA := (proc big x OSQP pA).
  Notation prP := (proc big x OSQP pP).
  Notation mP := (matP F (pr_ip prP) (pr_idx prP)).
  Notation mA := (matA F (pr_ip prA) (pr_idx prA)).
  Notation cfg := (gcfg_of F g (x_neq x)).
  Notation sum f k := (rsum (map f (seq 0 k))).

  Lemma P_struct : CanonMore.csc_ok x prP (match x_P x with Some (_, idx, _) => S (list_max idx) | None => 0%nat end).
  Proof.
    destruct (ly_P _ Y) as (rows & idx & ip & EP & HP). rewrite EP. apply (P_wf F big x th0 W OSQP _ rows idx ip EP); [cbn; auto|].
    intros i Hi. pose proof (list_max_le idx (list_max idx)) as [H _]. specialize (H (le_n _)). rewrite Forall_forall in H. specialize (H i Hi). lia.
  Qed.
  Lemma P_sorted : forall j, (j < n)%nat -> StronglySorted lt (colrows (pr_ip prP) (pr_idx prP) j) /\ forall i, In i (colrows (pr_ip prP) (pr_idx prP) j) -> (i <= j)%nat.
  Proof.
    intros j Hj. destruct (ly_P _ Y) as (rows & idx & ip & EP & HP). destruct (HP j Hj) as [S1 S2]. destruct (P_cols F big x th0 W rows idx ip EP j Hj) as (f & ->). split.
    - apply sorted_map_filter. exact S1.
    - intros i Hi. apply S2. apply in_map_iff in Hi. destruct Hi as (k & <- & Hk). apply filter_In in Hk. unfold colrows.
      apply (in_map (fun k => nth k idx 0%nat)). tauto.
  Qed.
  Lemma A_sorted : forall j, (j < n)%nat -> StronglySorted lt (colrows (pr_ip prA) (pr_idx prA) j) /\ forall i, In i (colrows (pr_ip prA) (pr_idx prA) j) -> (i < m)%nat.
  Proof.
    intros j Hj. destruct (A_cols F big x th0 W j Hj) as (f & E). split.
    - rewrite E. apply sorted_map_filter. apply (ly_A _ Y). auto.
    - intros i Hi. destruct (osqp_A_wf F big x th0 W) as ((_ & _ & E1 & Hm) & E2 & E3). apply E3. unfold colrows in Hi. apply in_map_iff in Hi.
      destruct Hi as (k & <- & Hk). apply in_seq in Hk. apply nth_In. rewrite E2, <- E1.
      pose proof (ip_mono _ _ _ (proj1 (osqp_A_wf F big x th0 W)) (S j) n ltac:(lia) ltac:(lia)). lia.
  Qed.

  Lemma baked_spec : forall p, In p (solver_pids OSQP) -> canon_spec g th0 p = g_baked g p.
  Proof.
    intros p Hp. destruct (gen_fields F big x order g Hg) as (GR & GB & GC & GV & GS). unfold canon_spec. rewrite (GC p Hp), (GB p Hp), (GR p Hp).
    destruct (pr_chg _); auto. destruct (proc_facts F big x OSQP p Hp) as (_ & _ & E & _). rewrite E.
    assert (Efl : flat (g_params g) th0 = x_flat x).
    { rewrite (wx_flat _ _ _ W). f_equal. pose proof Hg as E0. unfold generate in E0. destruct (block_for big x OSQP order); [|discriminate].
      cbn [bind] in E0. inversion E0. auto. }
    rewrite Efl, skipn_app, skipn_all2 by (rewrite map_length; lia). rewrite map_length, Nat.sub_diag. auto.
  Qed.
  Lemma mapd_bval : forall p delta k, In p (solver_pids OSQP) -> nth (length (g_vec0 g) - 1) delta n0 = n0 ->
    mapd F (map_of F g p) delta k = nth k (bval F big x OSQP p delta) n0.
  Proof.
    intros p delta k Hp Hd. destruct (gen_fields F big x order g Hg) as (GR & GB & GC & GV & GS). unfold map_of. rewrite (GC p Hp), (GR p Hp).
    unfold bval. rewrite GV in Hd.
    assert (E : nth k (map (dot delta) (pr_rows (proc big x OSQP p))) n0 = dot delta (nth k (pr_rows (proc big x OSQP p)) [])).
    { rewrite <- (map_nth (dot delta)). auto. }
    rewrite E. unfold mapd. destruct (pr_chg (proc big x OSQP p)) eqn:Ec; auto.
    destruct (nth_in_or_default k (pr_rows (proc big x OSQP p)) []) as [Hi| ->]; [|auto].
    symmetry. apply (const_dir F big x p delta _ Hp Ec Hi Hd).
  Qed.

  Theorem gen_wf_grad : forall eps, no_zero F n eps (mP (g_baked g pP)) ->
    wf_grad F n N eps g th0 (x_neq x) (pr_ip prP) (pr_idx prP) (pr_ip prA) (pr_idx prA).
  Proof.
    intros eps Hnz. destruct (gen_fields F big x order g Hg) as (GR & GB & GC & GV & GS).
    assert (IP : In pP (solver_pids OSQP)) by (cbn; auto 10). assert (IA : In pA (solver_pids OSQP)) by (cbn; auto 10).
    assert (Iq : In pq (solver_pids OSQP)) by (cbn; auto 10). assert (Il : In pl (solver_pids OSQP)) by (cbn; auto 10).
    assert (Iu : In pu (solver_pids OSQP)) by (cbn; auto 10).
    pose proof (base_len F big x pP eq_refl IP) as LP. pose proof (base_len F big x pA eq_refl IA) as LA. rewrite <- (GB pP IP) in LP. rewrite <- (GB pA IA) in LA.
    pose proof P_struct as SP. pose proof (osqp_A_wf F big x th0 W) as SA.
    constructor; auto.
    - split.
      + apply (csc_good F x prP _ _ SP LP). intros j Hj. apply (P_sorted j Hj).
      + intros j i Hj Hi. change (mP (g_baked g pP)) with (csc_of F prP (g_baked g pP)) in Hi. rewrite (rows_of F x prP _ _ j SP Hj) in Hi. apply (proj2 (P_sorted j Hj) i Hi).
    - split.
      + apply (csc_good F x prA _ _ SA LA). intros j Hj. apply (A_sorted j Hj).
      + intros j i Hj Hi. change (mA (g_baked g pA)) with (csc_of F prA (g_baked g pA)) in Hi. rewrite (rows_of F x prA _ _ j SA Hj) in Hi. pose proof (proj2 (A_sorted j Hj) i Hi). lia.
    - apply baked_spec. auto.
    - apply baked_spec. auto.
    - lia.
    - intros _. rewrite (GR pq Iq), <- (bval_length F big x OSQP pq []). destruct (q_block F big x th0 W OSQP pq [] (or_introl eq_refl)) as [-> _]; [discriminate|]. auto.
    - intros _. rewrite (GR pl Il), <- (bval_length F big x OSQP pl []). destruct (osqp_l F big x th0 W []) as [-> _]. auto.
    - intros _. rewrite (GR pu Iu), <- (bval_length F big x OSQP pu []). destruct (osqp_u F big x th0 W []) as [-> _]. lia.
    - intros _. rewrite (GR pP IP). auto.
    - intros _. rewrite (GR pA IA). auto.
    - intros delta i Hd Hi. rewrite !mapd_bval by auto. destruct (osqp_l F big x th0 W delta) as [_ Hl]. destruct (osqp_u F big x th0 W delta) as [_ Hu].
      rewrite Hl, Hu by lia. destruct (Nat.ltb_spec i (x_neq x)); [auto|lia].
  Qed.

  Theorem slope_data : forall half below above th sx sy r delta, nth (length (g_vec0 g) - 1) delta n0 = n0 ->
    slope F n N half below above cfg (mP (canon_spec g th pP)) (mA (canon_spec g th pA)) sx sy r delta = data_slope F x half below above sx sy r delta.
  Proof.
    intros half below above th sx sy r delta Hd. unfold slope, data_slope. replace (N - n)%nat with m by lia. cbn [gcfg_of gc_q gc_u gc_P gc_A].
    assert (IP : In pP (solver_pids OSQP)) by (cbn; auto 10). assert (IA : In pA (solver_pids OSQP)) by (cbn; auto 10).
    assert (Iq : In pq (solver_pids OSQP)) by (cbn; auto 10). assert (Iu : In pu (solver_pids OSQP)) by (cbn; auto 10).
    f_equal; [f_equal; [f_equal|]|].
    - apply rsum_ext. intros j Hj. apply in_seq in Hj. rewrite mapd_bval by auto. f_equal. apply (proj2 (q_block F big x th0 W OSQP pq delta (or_introl eq_refl) ltac:(discriminate))). lia.
    - apply rsum_ext. intros i Hi. apply in_seq in Hi. rewrite mapd_bval by auto. f_equal. apply (proj2 (osqp_u F big x th0 W delta)). lia.
    - rewrite (rsum_ext F) with (g := fun k => nth k (pat_vals (d_P F half sx r) (csc_of F prP (canon_spec g th pP)) n) n0 * nth k (bval F big x OSQP pP delta) n0)
        by (intros; rewrite mapd_bval by auto; auto).
      change (mP (canon_spec g th pP)) with (csc_of F prP (canon_spec g th pP)).
      rewrite (mat_sum F x prP _ n _ _ P_struct); [|apply bval_length|intros j i Hj Hi; pose proof (proj2 (P_sorted j Hj) i Hi); lia].
      apply rsum_ext. intros j Hj. apply in_seq in Hj. apply rsum_ext. intros i Hi. f_equal. apply (CanonMain.P_ok F big x th0 W OSQP delta i j IP). lia.
    - rewrite (rsum_ext F) with (g := fun k => nth k (pat_vals (d_A F n below above sx sy r) (csc_of F prA (canon_spec g th pA)) n) n0 * nth k (bval F big x OSQP pA delta) n0)
        by (intros; rewrite mapd_bval by auto; auto).
      change (mA (canon_spec g th pA)) with (csc_of F prA (canon_spec g th pA)).
      rewrite (mat_sum F x prA _ m _ _ (osqp_A_wf F big x th0 W)); [|apply bval_length|intros j i Hj Hi; apply (proj2 (A_sorted j Hj) i Hi)].
      apply rsum_ext. intros j Hj. apply in_seq in Hj. apply rsum_ext. intros i Hi. f_equal. apply (osqp_A F big x th0 W delta i j). lia.
  Qed.

  Lemma entry_P : forall th i j, (j < n)%nat -> GradSpec.entry (mP (canon_spec g th pP)) i j = cP x (flat (x_params x) th) i j.
  Proof.
    intros th i j Hj. assert (IP : In pP (solver_pids OSQP)) by (cbn; auto 10).
    change (mP (canon_spec g th pP)) with (csc_of F prP (canon_spec g th pP)). pose proof (canon_spec_meaning F big x th0 W OSQP order g th pP Hord Hg IP) as E.
    cbn [tail_of tl_of is_qp] in E. unfold tail_of, tl_of in E. rewrite app_nil_r in E.
    rewrite (entry_of F x prP _ _ i j P_struct); [|rewrite E; apply bval_length|auto]. rewrite E. apply (CanonMain.P_ok F big x th0 W OSQP _ i j IP Hj).
  Qed.
  Lemma entry_A : forall th i j, (j < n)%nat -> GradSpec.entry (mA (canon_spec g th pA)) i j = qA F x (flat (x_params x) th) i j.
  Proof.
    intros th i j Hj. assert (IA : In pA (solver_pids OSQP)) by (cbn; auto 10).
    change (mA (canon_spec g th pA)) with (csc_of F prA (canon_spec g th pA)). pose proof (canon_spec_meaning F big x th0 W OSQP order g th pA Hord Hg IA) as E.
    unfold tail_of, tl_of in E. rewrite app_nil_r in E.
    rewrite (entry_of F x prA _ _ i j (osqp_A_wf F big x th0 W)); [|rewrite E; apply bval_length|auto]. rewrite E. apply (osqp_A F big x th0 W _ i j Hj).
  Qed.

  Variable sqr : F -> res F.
  Variables eps half : F.
  Variables below above : F -> bool.
  Variable qfactor : csc F -> csc F -> res (list nat * list nat * list F * list F * list F).
  Variable qsolve : csc F -> list F -> list F -> res (list F).
  Hypothesis sqr_ok : forall x s, sqr x = Ok s -> (s * s = x)%num.
  Hypothesis sqr_err : forall x e, sqr x = Err e -> e = Arith.
  Hypothesis qf_ok : factor_contract F n N qfactor.
  Hypothesis qs_ok : solve_contract F N qsolve.
  Hypothesis below0 : below n0 = false.
  Hypothesis nz : no_zero F n eps (mP (g_baked g pP)).
  Variable scr : nat -> pid -> list F -> list F.

  Lemma reg_symm : forall th p q, (p < N)%nat -> (q < N)%nat ->
    sym F (kkt_reg F n eps (mP (canon_spec g th pP)) (mA (canon_spec g th pA))) p q = kkt_symm F x eps (flat (x_params x) th) p q.
  Proof.
    intros th p q Hp Hq. unfold sym, kkt_symm.
    assert (U : forall a b, (a <= b)%nat -> kkt_reg F n eps (mP (canon_spec g th pP)) (mA (canon_spec g th pA)) a b = kkt_upper F x eps (flat (x_params x) th) a b).
    { intros a b Hab. unfold kkt_reg, kkt_upper. destruct (Nat.ltb_spec b n).
      - destruct (Nat.ltb_spec a n); [|lia]. rewrite entry_P by auto. auto.
      - destruct (Nat.ltb_spec a n); auto. rewrite entry_A; auto. }
    destruct (Nat.leb_spec p q); apply U; lia.
  Qed.

  Lemma solution_iff : forall th sy dx r, length dx = n ->
    kkt_solution F n N eps below above (mP (canon_spec g th pP)) (mA (canon_spec g th pA)) sy dx r
    <-> refined N (fun k => Nat.ltb k n || active_at F below above sy (k - n)) (masked (fun k => Nat.ltb k n || active_at F below above sy (k - n)) (kkt_symm F x eps (flat (x_params x) th)))
         (kkt_exact F x (flat (x_params x) th)) (dx ++ repeat n0 m) 3 r.
  Proof.
    intros th sy dx r Hdx. unfold kkt_solution, rhs_of. replace (N - n)%nat with m by lia. rewrite firstn_all2 by lia.
    assert (HM : forall p q, (p < N)%nat -> (q < N)%nat -> masked (takes_part F n below above sy) (sym F (kkt_reg F n eps (mP (canon_spec g th pP)) (mA (canon_spec g th pA)))) p q
      = masked (fun k => Nat.ltb k n || active_at F below above sy (k - n)) (kkt_symm F x eps (flat (x_params x) th)) p q).
    { intros p q Hp Hq. unfold masked, takes_part, part. destruct (_ && _); auto. apply reg_symm; auto. }
    assert (HT : forall p q, (p < N)%nat -> (q < N)%nat -> kkt_true F n (mP (canon_spec g th pP)) (mA (canon_spec g th pA)) p q = kkt_exact F x (flat (x_params x) th) p q).
    { intros p q Hp Hq. unfold kkt_true, kkt_exact. destruct (Nat.ltb_spec p n); destruct (Nat.ltb_spec q n); auto; rewrite ?entry_P, ?entry_A by auto; auto. }
    split; apply (refined_ext F n N (Nat.le_add_r n m)); auto; intros; symmetry; auto.
  Qed.

  Lemma grad_of_at : forall th sx sy dx dp, length dx = n -> 
    grad_at F n N eps half below above g (x_neq x) (pr_ip prP) (pr_idx prP) (pr_ip prA) (pr_idx prA) (th, sx, sy, dx) dp ->
    grad_of F x half below above eps (th, sx, sy, dx) dp.
  Proof.
    intros th sx sy dx dp Hdx (H1 & r & H2 & H3 & H4). destruct (gen_fields F big x order g Hg) as (_ & _ & _ & GV & _).
    assert (L : length (g_vec0 g) = length (flat (x_params x) th)) by (rewrite GV, (wx_flat _ _ _ W); apply flat_length).
    unfold grad_of. rewrite <- L. split; auto. exists r. split.
    - intro r'. rewrite <- (solution_iff th sy dx r' Hdx). split; [apply H3|intros ->; auto].
    - intros delta Hd. rewrite <- (slope_data half below above th) by auto. apply H4. auto.
  Qed.

  (** [Er]: the errors allowed; a breakdown of the arithmetic must be among them only if one of
      the matrices met has a pivot that breaks it down. *)
  Theorem gen_session : forall (Er : exn -> Prop) os, Forall (py_valid F n N below g (x_neq x)) os ->
    Forall (fun '(th, _, _, _) => admits n N sqr Er (kkt_symm F x eps (flat (x_params x) th))) (expect n th0 (repeat n0 n) (repeat n0 m) os) ->
    run Er (pysteps F n N sqr eps half below above qfactor qsolve g scr (x_neq x) (pr_ip prP) (pr_idx prP) (pr_ip prA) (pr_idx prA)
                 (init_sst F n N eps g (pr_ip prP) (pr_idx prP) (pr_ip prA) (pr_idx prA)) os)
      (fun '(_, outs) => Forall2 (grad_of F x half below above eps) (expect n th0 (repeat n0 n) (repeat n0 m) os) outs).
  Proof.
    intros Er os HV HE. destruct (generate_wf F big x th0 W OSQP order Hord) as (g' & Hg' & WG & Hs). rewrite Hg in Hg'. injection Hg' as <-.
    assert (n_le : (n <= N)%nat) by lia.
    assert (HA : adm_all F n N sqr eps g (pr_ip prP) (pr_idx prP) (pr_ip prA) (pr_idx prA) Er (expect n th0 (repeat n0 n) (repeat n0 (N - n)) os)).
    { replace (N - n)%nat with m by lia. unfold adm_all. eapply Forall_impl; [|exact HE]. intros [[[th sx] sy] dx] H. unfold adm.
      eapply (admits_ext F n N sqr n_le); [|exact H]. intros p q Hp Hq. symmetry. apply reg_symm; auto. }
    eapply run_imp; [apply (session_init F n N sqr eps half below above qfactor qsolve n_le sqr_ok sqr_err qf_ok qs_ok g scr th0 WG Hs below0 (x_neq x) _ _ _ _ (gen_wf_grad eps nz) Er os HV HA)|].
    intros [s outs] H. replace (N - n)%nat with m in H by lia.
    assert (HL : forall th sx sy e, In e (expect n th sx sy os) -> length (snd e) = n).
    { clear -HV. assert (LW : forall ds, length (writes (F := F) n ds) = n).
      { intro ds. unfold writes. assert (G : forall l, length (fold_left (fun (l : list F) '(k, v) => upd l k v) ds l) = length l).
        { induction ds as [|[k v] ds IH]; intro l; cbn [fold_left]; auto. rewrite IH, upd_length. auto. }
        rewrite G. apply repeat_length. }
      induction os as [|[ups sx1 sy1|ds [[sx1 sy1]|]] os IH]; intros th sx sy e He; cbn [expect] in He.
      - destruct He.
      - apply Forall_cons_iff in HV. apply (IH (proj2 HV) _ _ _ e He).
      - apply Forall_cons_iff in HV. destruct He as [<-|He]; [apply LW|apply (IH (proj2 HV) _ _ _ e He)].
      - apply Forall_cons_iff in HV. destruct He as [<-|He]; [apply LW|apply (IH (proj2 HV) _ _ _ e He)]. }
    specialize (HL th0 (repeat n0 n) (repeat n0 m)).
    revert H HL. generalize (expect n th0 (repeat n0 n) (repeat n0 m) os) as es. intros es H. induction H as [|e dp es outs He H IH]; intro HL; constructor.
    - destruct e as [[[th sx] sy] dx]. apply grad_of_at; auto. apply (HL (th, sx, sy, dx)). left. auto.
    - apply IH. intros e' He'. apply HL. right. auto.
  Qed.
End Gen.
