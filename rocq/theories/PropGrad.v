(** Properties C33-C36, C41 and C42: gradients through the solver. *)

From Coq Require Import String Arith Bool ZArith Lia List Sorted Permutation QArith Qcanon Field.
From Verif Require Import Base Pus Machine PusCheck Runtime RuntimeSpec RuntimeProofs RuntimeMore Canon CanonSpec CanonProofs CanonMain CanonGen CanonProblem CanonMore.
From Verif Require Import Retrieve RetrieveProofs Explicit Examples Sparse SparseProofs Ldl LdlRank1 LdlProofs GradSpec LdlMain FactorProofs Gradient GradKkt Qdldl GradSolve GradKktSolve GradMain GradCall GradSession GradSessionProofs GradGen GradVars PropExplicit PropFactor.
Import ListNotations.
Open Scope string_scope.
Open Scope list_scope.
Local Open Scope nat_scope.

(** ** A concrete problem for the examples, rational numbers: minimise (7/8) x^2 + 2 b x subject
    to a x <= b ([q_x 0 1]) or a x = b ([q_x 1 0]); with constant matrices ([q_y]): minimise
    (7/8) x^2 + 2 a x subject to 4 x <= b. *)
Definition q_th0 : pvals QcFld := fun nm i => if String.eqb nm "a" then qz 4 else qz 1.
Definition q_prob (ca : nat) (wa : Z) (cq neq nineq : nat) : cvx QcFld :=
  mkCvx QcFld [("a", 1); ("b", 1)] [qz 4; qz 1; qz 1] 1 neq nineq
        (Some ([[(2, qd 7 4)]], [0], [0; 1]))
        [[(cq, qz 2)]; []]
        [[(ca, qz wa)]; [(1, qz 1)]] [0; 0] [0; 1; 2] false.
Definition q_x : nat -> nat -> cvx QcFld := q_prob 0 (-1) 1.
Definition q_y : cvx QcFld := q_prob 2 (-4) 0 0 1.
Definition q_eps : QcFld := qd 9 4.
Definition q_half : QcFld := qd 1 2.
Definition q_big : QcFld := qz 1000.
Definition q_below (y : QcFld) : bool := match (this y ?= -1 # 1000000000000)%Q with Lt => true | _ => false end.
Definition q_above (y : QcFld) : bool := match (this y ?= 1 # 1000000000000)%Q with Gt => true | _ => false end.
Definition q_gen (x : cvx QcFld) : genc QcFld :=
  match generate (K := QcFld) q_big x OSQP ex_order with
  | Ok g => g
  | Err _ => mkG QcFld OSQP [] [] (fun _ => []) (fun _ => None) (fun _ => []) (fun _ => []) false false UNil
  end.
Definition q_scr : nat -> pid -> list QcFld -> list QcFld := fun _ _ d => d.

Lemma q_wf : forall ca wa cq neq nineq, ca < 3 -> cq < 3 -> neq + nineq = 1 -> wf_cvx (q_prob ca wa cq neq nineq) q_th0.
Proof.
  intros ca wa cq neq nineq Hca Hcq H. constructor.
  - repeat constructor; simpl; intuition discriminate.
  - reflexivity.
  - split; [reflexivity|]. split; [reflexivity|]. split; [reflexivity|].
    intros c Hc. simpl in Hc. destruct c as [|[|]]; simpl; lia.
  - reflexivity.
  - intros i Hi. simpl in *. lia.
  - simpl. repeat constructor; simpl; intuition lia.
  - intros r c w H1 H2. simpl in H1. fin; simpl in H2; fin.
  - reflexivity.
  - intros r c w H1 H2. simpl in H1. fin; simpl in H2; fin.
  - intros rows idx ip E. simpl in E. inversion E; subst.
    split; [|split; [reflexivity|]].
    + split; [reflexivity|]. split; [reflexivity|]. split; [reflexivity|].
      intros c Hc. simpl in Hc. destruct c as [|]; simpl; lia.
    + intros r c w H1 H2. simpl in H1. fin; simpl in H2; fin.
Qed.
Lemma q_layout : forall ca wa cq neq nineq, layout (q_prob ca wa cq neq nineq).
Proof.
  intros ca wa cq neq nineq. constructor.
  - intros j Hj. simpl in Hj. replace j with 0 by lia. apply lt_list_ok. reflexivity.
  - do 3 eexists. split; [reflexivity|]. intros j Hj. simpl in Hj. replace j with 0 by lia. split; [apply lt_list_ok; reflexivity|].
    intros i Hi. simpl in Hi. lia.
Qed.
Lemma q_generate : forall x, wf_cvx x q_th0 -> generate (K := QcFld) q_big x OSQP ex_order = Ok (q_gen x).
Proof.
  intros x H. unfold q_gen.
  destruct (generate_wf QcFld q_big x q_th0 H OSQP ex_order ex_order_perm) as (g & E & _ & _).
  rewrite E. reflexivity.
Qed.

(** ** C33 *)

(** The un-canonicalization loops compute the adjoint of the maps; blocks without a map do not
    contribute. *)
Theorem C33_uncanonicalize_is_adjoint : forall (F : Fld) (n N : nat) (c : gcfg F) dq dl du dP dA,
  map_fits F (gc_np c) n (gc_q c) -> map_fits F (gc_np c) (gc_nl c) (gc_l c) -> map_fits F (gc_np c) (N - n) (gc_u c) ->
  map_fits F (gc_np c) (length dP) (gc_P c) -> map_fits F (gc_np c) (length dA) (gc_A c) ->
  n <= length dq -> gc_nl c <= length dl -> N - n <= length du ->
  exists dp, uncanon F n N c dq dl du dP dA = Ok dp /\ length dp = gc_np c
    /\ forall delta,
         let block (o : option (list (row F))) (d : list F) (k : nat) :=
           rsum (map (fun j => (nth j d n0 * match o with Some rows => dot delta (nth j rows []) | None => n0 end)%num) (seq 0 k)) in
         rsum (map (fun k => (nth k dp n0 * nth k delta n0)%num) (seq 0 (gc_np c)))
         = (block (gc_q c) dq n + block (gc_l c) dl (gc_nl c) + block (gc_u c) du (N - n)%nat
            + block (gc_P c) dP (length dP) + block (gc_A c) dA (length dA))%num.
Proof. intros F n N c dq dl du dP dA. exact (uncanon_adj F n N c dq dl du dP dA). Qed.
Print Assumptions C33_uncanonicalize_is_adjoint.

Section PatEntry.
  Variable F : Fld.
  Add Field Fpe : (fth F).
  Local Open Scope num_scope.
  Lemma entry_col : forall (l : list nat) (v : list F), NoDup l -> length l = length v ->
    map (fun i => rsum (map snd (filter (fun e => Nat.eqb (fst e) i) (combine l v)))) l = v.
  Proof.
    assert (Z : forall (l : list nat) (v : list F) i, ~ In i l -> filter (fun e => Nat.eqb (fst e) i) (combine l v) = []).
    { induction l as [|b l IH]; intros [|x v] i Hi; auto. cbn [combine filter fst]. destruct (Nat.eqb_spec b i) as [E|E]; [exfalso; apply Hi; left; auto|]. apply IH. intro H; apply Hi; right; auto. }
    intros l. induction l as [|a l IH]; intros [|x v] HN HL; try discriminate; auto. apply NoDup_cons_iff in HN. destruct HN as [H1 H2].
    cbn [map combine filter fst]. rewrite Nat.eqb_refl. f_equal.
    - rewrite Z by auto. cbn. ring.
    - etransitivity; [|apply (IH v H2); injection HL; auto]. apply map_ext_in. intros i Hi. destruct (Nat.eqb_spec a i) as [E|E]; [subst; contradiction|auto].
  Qed.
  Lemma pat_entry : forall n (M : csc F), csc_ok n M -> length (Sparse.c_x M) = Sparse.c_n M -> pat_vals (entry M) M n = Sparse.c_x M.
  Proof.
    intros n M HO HX. assert (G : forall k, (k <= n)%nat -> pat_vals (entry M) M k = firstn (cptr M k) (Sparse.c_x M)).
    2:{ rewrite G by auto. rewrite <- (o_n _ _ HO), <- HX. apply firstn_all. }
    induction k as [|k IH]; intro Hk; [rewrite (o_0 _ _ HO); auto|].
    pose proof (alen F n M k HO ltac:(lia)) as [L1 L2].
    unfold pat_vals in *. rewrite seq_S, flat_map_app, IH by lia. cbn [flat_map Nat.add]. rewrite app_nil_r. unfold entry.
    rewrite entry_col; auto.
    - unfold vals. pose proof (o_mono _ _ HO k ltac:(lia)). replace (cptr M (S k)) with (cptr M k + (cptr M (S k) - cptr M k))%nat at 2 by lia.
      rewrite <- (firstn_skipn (cptr M k) (Sparse.c_x M)) at 3. rewrite firstn_app. rewrite firstn_length.
      pose proof (o_cap _ _ HO). pose proof (o_x _ _ HO). pose proof (cptr_mono F n M k n HO ltac:(lia) ltac:(lia)). rewrite (o_n _ _ HO) in *.
      replace (cptr M k + (cptr M (S k) - cptr M k) - Nat.min (cptr M k) (length (Sparse.c_x M)))%nat with (cptr M (S k) - cptr M k)%nat by lia.
      f_equal. rewrite firstn_firstn. f_equal. lia.
    - pose proof (o_sorted _ _ HO k ltac:(lia)) as HS. clear -HS. induction HS as [|a l HS IH Ha]; constructor; auto.
      intro H. rewrite Forall_forall in Ha. specialize (Ha a H). lia.
  Qed.
End PatEntry.

(** ** Generated code *)
Section Generated.
  Variable F : Fld.
  Add Field Fpg : (fth F).
  Variable big : F.
  Variable x : cvx F.
  Variable th0 : pvals F.
  Hypothesis W : wf_cvx x th0.
  Hypothesis Y : layout x.
  Variable order : list string -> list string.
  Hypothesis Hord : forall l, Permutation l (order l).
  Variable g : genc F.
  Hypothesis Hg : generate big x OSQP order = Ok g.
  Notation n := (x_n x).
  Notation m := (x_neq x + x_nineq x).
  Notation prA := (proc big x OSQP pA).
  Notation prP := (proc big x OSQP pP).
  Local Open Scope num_scope.
  Notation sum f k := (rsum (map f (seq 0 k))).

  (** In terms of CVXPY's parametrised data: [dP], [dA] are values for the stored entries of P
      and A; the QP's bounds are -b (equality rows, l and u) and b (inequality rows, u). *)
  Theorem C33_generated_adjoint : forall dq dl du dP dA,
    length dq = n -> (x_neq x <= length dl)%nat -> length du = m -> length dP = length (pr_rows prP) -> length dA = length (pr_rows prA) ->
    exists dp, uncanon F n (n + m) (gcfg_of F g (x_neq x)) dq dl du dP dA = Ok dp /\ length dp = length (x_flat x)
      /\ forall delta, nth (length (x_flat x) - 1) delta n0 = n0 ->
           ip (length (x_flat x)) dp delta
           = sum (fun j => nth j dq n0 * cq x delta j) n
             + sum (fun i => nth i dl n0 * - cb x delta i) (x_neq x)
             + sum (fun i => nth i du n0 * (if Nat.ltb i (x_neq x) then - cb x delta i else cb x delta i)) m
             + sum (fun j => sum (fun i => entry (csc_of F prP dP) i j * cP x delta i j) n) n
             + sum (fun j => sum (fun i => entry (csc_of F prA dA) i j * qA F x delta i j) m) n.
  Proof.
    intros dq dl du dP dA Lq Ll Lu LP LA. destruct (gen_fields F big x order g Hg) as (GR & GB & GC & GV & GS).
    destruct (generate_wf F big x th0 W OSQP order Hord) as (g' & Hg' & WG & _). rewrite Hg in Hg'. injection Hg' as <-.
    assert (IP : In pP (solver_pids OSQP)) by (cbn; auto 10). assert (IA : In pA (solver_pids OSQP)) by (cbn; auto 10).
    assert (Iq : In pq (solver_pids OSQP)) by (cbn; auto 10). assert (Il : In pl (solver_pids OSQP)) by (cbn; auto 10).
    assert (Iu : In pu (solver_pids OSQP)) by (cbn; auto 10).
    assert (FIT : forall p k, In p (solver_pids OSQP) -> (k <= length (g_rows g p))%nat -> map_fits F (length (g_vec0 g)) k (map_of F g p)).
    { intros p k Hp Hk. unfold map_fits, map_of. destruct (chg_get (g_chg g) p) eqn:E; auto. split; auto. apply (cols_fit F g th0 WG p E). }
    destruct (uncanon_adj F n (n + m)%nat (gcfg_of F g (x_neq x)) dq dl du dP dA) as (dp & E & L & H); cbn [gcfg_of gc_np gc_nl gc_q gc_l gc_u gc_P gc_A].
    - apply FIT; auto. rewrite (GR pq Iq), <- (bval_length F big x OSQP pq []). destruct (q_block F big x th0 W OSQP pq [] (or_introl eq_refl)) as [-> _]; [discriminate|]. auto.
    - apply FIT; auto. rewrite (GR pl Il), <- (bval_length F big x OSQP pl []). destruct (osqp_l F big x th0 W []) as [-> _]. auto.
    - apply FIT; auto. rewrite (GR pu Iu), <- (bval_length F big x OSQP pu []). destruct (osqp_u F big x th0 W []) as [-> _]. lia.
    - apply FIT; auto. rewrite (GR pP IP). lia.
    - apply FIT; auto. rewrite (GR pA IA). lia.
    - lia.
    - auto.
    - lia.
    - exists dp. split; auto. cbn [gcfg_of gc_np] in L. rewrite <- GV. split; auto. intros delta Hd. specialize (H delta). cbn [gcfg_of gc_np gc_nl gc_q gc_l gc_u gc_P gc_A] in H.
      rewrite H. clear H. replace (n + m - n)%nat with m by lia.
      pose proof (mapd_bval F big x order g Hg) as MB.
      f_equal; [f_equal; [f_equal; [f_equal|]|]|].
      + apply rsum_ext. intros j Hj. apply in_seq in Hj. rewrite MB by auto. f_equal. apply (proj2 (q_block F big x th0 W OSQP pq delta (or_introl eq_refl) ltac:(discriminate))). lia.
      + apply rsum_ext. intros i Hi. apply in_seq in Hi. rewrite MB by auto. f_equal. apply (proj2 (osqp_l F big x th0 W delta)). lia.
      + apply rsum_ext. intros i Hi. apply in_seq in Hi. rewrite MB by auto. f_equal. apply (proj2 (osqp_u F big x th0 W delta)). lia.
      + assert (EP : pat_vals (entry (csc_of F prP dP)) (csc_of F prP dP) n = dP).
        { rewrite pat_entry; [reflexivity| |reflexivity]. apply (csc_good F x prP _ dP (P_struct F big x th0 W Y) LP). intros j Hj. apply (P_sorted F big x th0 W Y j Hj). }
        rewrite (rsum_ext F) with (g := fun k => nth k (pat_vals (entry (csc_of F prP dP)) (csc_of F prP dP) n) n0 * nth k (bval F big x OSQP pP delta) n0)
          by (intros; rewrite MB, EP by auto; auto).
        replace (length dP) with (length (pat_vals (entry (csc_of F prP dP)) (csc_of F prP dP) n)) by (rewrite EP; auto).
        rewrite (mat_sum F x prP _ n _ _ (P_struct F big x th0 W Y)); [|apply bval_length|intros j i Hj Hi; pose proof (proj2 (P_sorted F big x th0 W Y j Hj) i Hi); lia].
        apply rsum_ext. intros j Hj. apply in_seq in Hj. apply rsum_ext. intros i Hi. f_equal. apply (CanonMain.P_ok F big x th0 W OSQP delta i j IP). lia.
      + assert (EA : pat_vals (entry (csc_of F prA dA)) (csc_of F prA dA) n = dA).
        { rewrite pat_entry; [reflexivity| |reflexivity]. apply (csc_good F x prA _ dA (osqp_A_wf F big x th0 W) LA). intros j Hj. apply (A_sorted F big x th0 W Y j Hj). }
        rewrite (rsum_ext F) with (g := fun k => nth k (pat_vals (entry (csc_of F prA dA)) (csc_of F prA dA) n) n0 * nth k (bval F big x OSQP pA delta) n0)
          by (intros; rewrite MB, EA by auto; auto).
        replace (length dA) with (length (pat_vals (entry (csc_of F prA dA)) (csc_of F prA dA) n)) by (rewrite EA; auto).
        rewrite (mat_sum F x prA _ m _ _ (osqp_A_wf F big x th0 W)); [|apply bval_length|intros j i Hj Hi; apply (proj2 (A_sorted F big x th0 W Y j Hj) i Hi)].
        apply rsum_ext. intros j Hj. apply in_seq in Hj. apply rsum_ext. intros i Hi. f_equal. apply (osqp_A F big x th0 W delta i j). lia.
  Qed.

  Variable sqr : F -> res F.
  Variables eps half : F.
  Variables below above : F -> bool.
  Variable qfactor : csc F -> csc F -> res (list nat * list nat * list F * list F * list F).
  Variable qsolve : csc F -> list F -> list F -> res (list F).
  Hypothesis sqr_ok : forall x s, sqr x = Ok s -> (s * s = x)%num.
  Hypothesis sqr_err : forall x e, sqr x = Err e -> e = Arith.
  Hypothesis qf_ok : factor_contract F n (n + m) qfactor.
  Hypothesis qs_ok : solve_contract F (n + m) qsolve.
  Hypothesis below0 : below n0 = false.
  Hypothesis nz : no_zero F n eps (matP F (pr_ip prP) (pr_idx prP) (g_baked g pP)).
  Variable scr : nat -> pid -> list F -> list F.

  (** The generated program with its gradient part: histories of C calls, of Python calls. *)
  Definition c_session (os : list (cop F)) : res (sst F * list (list F)) :=
    csteps F n (n + m) sqr eps half below above qfactor qsolve g scr (x_neq x) (pr_ip prP) (pr_idx prP) (pr_ip prA) (pr_idx prA)
      (init_sst F n (n + m) eps g (pr_ip prP) (pr_idx prP) (pr_ip prA) (pr_idx prA)) os.
  Definition py_session (os : list (pyop F)) : res (sst F * list (list F)) := c_session (flat_map py_ops os).
  Definition py_ok (o : pyop F) : Prop := py_valid F n (n + m) below g (x_neq x) o.

  Lemma any_admits : forall (M : pvals F -> nat -> nat -> F) (es : list (pvals F * list F * list F * list F)),
    Forall (fun '(th, _, _, _) => admits n (n + m) sqr arith (M th)) es.
  Proof. intros M es. apply Forall_forall. intros [[[th sx] sy] dx] _ act _ _. reflexivity. Qed.

  (** ** C34 *)

  (** After any history ending in a gradient call (or an arithmetic failure on the way), the
      marked constraints are those whose dual is beyond the tolerance. *)
  Theorem C34_active_set_exact : forall os ds use, Forall py_ok os -> py_ok (PGrad ds use) ->
    run arith (py_session (os ++ [PGrad ds use])) (fun '(s, _) =>
      length (s_a (x_g s)) = m
      /\ forall i, (i < m)%nat -> (nth i (s_a (x_g s)) 0%Z <> 0%Z <-> below (nth i (x_sy s) n0) = true \/ above (nth i (x_sy s) n0) = true)).
  Proof.
    intros os ds use HV Hv. destruct (generate_wf F big x th0 W OSQP order Hord) as (g' & Hg' & WG & Hs). rewrite Hg in Hg'. injection Hg' as <-.
    eapply run_imp; [apply (session_marks F n (n + m) sqr eps half below above qfactor qsolve (Nat.le_add_r n m) sqr_ok sqr_err qf_ok qs_ok g scr th0 WG Hs below0 (x_neq x) _ _ _ _
        (gen_wf_grad F big x th0 W Y order g Hg eps nz) arith os ds use HV Hv (any_admits _ _) (fun _ _ _ => eq_refl))|].
    intros [s o] (H1 & H2 & _). replace (n + m - n)%nat with m in * by lia. split; auto. intros i Hi. specialize (H2 i Hi). unfold supp, active_at, binds in H2.
    destruct (Z.eqb_spec (nth i (s_a (x_g s)) 0%Z) 0) as [E|E]; cbn [negb] in H2.
    - symmetry in H2. apply orb_false_iff in H2. destruct H2 as [-> ->]. split; [intro; contradiction|intros [|]; discriminate].
    - symmetry in H2. apply orb_true_iff in H2. tauto.
  Qed.

  (** The gradient is determined by the matrices, the solution and the derivatives. *)
  Lemma unit_ip : forall k i (dp : list F), (i < k)%nat -> ip k dp (upd (repeat n0 k) i n1) = nth i dp n0.
  Proof.
    intros k i dp Hi. unfold ip. rewrite (@rsum_single F _ k 0%nat i); [rewrite nth_upd_eq by (rewrite repeat_length; auto); ring|lia|].
    intros j _ Hj. rewrite nth_upd_neq by auto. rewrite nth_repeat. ring.
  Qed.
  Lemma grad_of_det : forall th1 th2 sx sy dx dp1 dp2,
    (forall i j, (i < n)%nat -> (j < n)%nat -> cP x (flat (x_params x) th1) i j = cP x (flat (x_params x) th2) i j) ->
    (forall i j, (i < m)%nat -> (j < n)%nat -> cA x (flat (x_params x) th1) i j = cA x (flat (x_params x) th2) i j) ->
    grad_of F x half below above eps (th1, sx, sy, dx) dp1 -> grad_of F x half below above eps (th2, sx, sy, dx) dp2 ->
    forall i, (i < length (x_flat x) - 1)%nat -> nth i dp1 n0 = nth i dp2 n0.
  Proof.
    intros th1 th2 sx sy dx dp1 dp2 EP EA (L1 & r1 & U1 & S1) (L2 & r2 & U2 & S2) i Hi.
    assert (LF : forall th, length (flat (x_params x) th) = length (x_flat x)) by (intro th; rewrite (wx_flat _ _ _ W); apply flat_length). rewrite LF in *.
    assert (QA : forall i j, (i < m)%nat -> (j < n)%nat -> qA F x (flat (x_params x) th1) i j = qA F x (flat (x_params x) th2) i j) by (intros; unfold qA; rewrite EA by auto; auto).
    assert (EU : forall p q, (p <= q)%nat -> (q < n + m)%nat -> kkt_upper F x eps (flat (x_params x) th1) p q = kkt_upper F x eps (flat (x_params x) th2) p q).
    { intros p q Hpq Hq. unfold kkt_upper. destruct (Nat.ltb_spec q n); [rewrite EP by lia; auto|]. destruct (Nat.ltb_spec p n); auto. apply QA; lia. }
    assert (E : r1 = r2).
    { apply U2. apply (refined_ext F n (n + m) (Nat.le_add_r n m)) with (4 := proj2 (U1 r1) eq_refl); auto.
      - intros p q Hp Hq. unfold masked, kkt_symm. destruct (_ && _); auto. destruct (Nat.leb_spec p q); apply EU; lia.
      - intros p q Hp Hq. unfold kkt_exact. destruct (Nat.ltb_spec p n), (Nat.ltb_spec q n); auto; apply QA; lia. }
    subst r2. rewrite <- (unit_ip (length (x_flat x)) i dp1), <- (unit_ip (length (x_flat x)) i dp2) by lia.
    assert (Hd : nth (length (x_flat x) - 1) (upd (repeat n0 (length (x_flat x))) i n1) n0 = (n0 : F)) by (rewrite nth_upd_neq by lia; apply nth_repeat).
    rewrite S1, S2; auto.
  Qed.

  (** Whatever was marked before, and with whatever sign: the gradients of two histories agree
      wherever the latest solve's parameters, the solution and the derivatives do. *)
  Theorem C34_gradient_independent_of_marks : forall os1 os2 s1 s2 outs1 outs2 k1 k2 th1 th2 sx sy dx dp1 dp2,
    Forall py_ok os1 -> Forall py_ok os2 -> py_session os1 = Ok (s1, outs1) -> py_session os2 = Ok (s2, outs2) ->
    nth_error (expect n th0 (repeat n0 n) (repeat n0 m) os1) k1 = Some (th1, sx, sy, dx) ->
    nth_error (expect n th0 (repeat n0 n) (repeat n0 m) os2) k2 = Some (th2, sx, sy, dx) ->
    flat (x_params x) th1 = flat (x_params x) th2 ->
    nth_error outs1 k1 = Some dp1 -> nth_error outs2 k2 = Some dp2 ->
    forall i, (i < length (x_flat x) - 1)%nat -> nth i dp1 n0 = nth i dp2 n0.
  Proof.
    intros os1 os2 s1 s2 outs1 outs2 k1 k2 th1 th2 sx sy dx dp1 dp2 V1 V2 R1 R2 X1 X2 ET D1 D2.
    pose proof (gen_session F big x th0 W Y order Hord g Hg sqr eps half below above qfactor qsolve sqr_ok sqr_err qf_ok qs_ok below0 nz scr arith) as GS.
    pose proof (GS os1 V1 (any_admits _ _)) as G1. pose proof (GS os2 V2 (any_admits _ _)) as G2. unfold py_session, c_session in R1, R2. unfold pysteps in G1, G2. rewrite R1 in G1. rewrite R2 in G2.
    cbn [SparseProofs.run] in G1, G2. destruct (Forall2_nth _ _ _ _ _ _ _ G1 X1) as (d1 & E1 & H1). destruct (Forall2_nth _ _ _ _ _ _ _ G2 X2) as (d2 & E2 & H2).
    rewrite D1 in E1. rewrite D2 in E2. injection E1 as <-. injection E2 as <-.
    apply (grad_of_det th1 th2 sx sy dx dp1 dp2); auto; intros; rewrite ET; auto.
  Qed.

  (** ** C35 *)

  (** After a history of Python calls ending in a gradient call, the factorised matrix is
      [P + eps I, A^T; ., -eps I] (upper triangle) and the matrix of the refinement is
      [P, A^T; A, 0], for the P and A of the parameter values of the latest solve. *)
  Theorem C35_matrices_of_latest_solve : forall os ds use, Forall py_ok os -> py_ok (PGrad ds use) ->
    run arith (py_session (os ++ [PGrad ds use])) (fun '(s, _) =>
      let v := flat (x_params x) (end_vals th0 os) in
      (forall p q, (p <= q)%nat -> (q < n + m)%nat -> entry (gK (s_ws (x_g s))) p q = kkt_upper F x eps v p q)
      /\ (forall p q, (p < n + m)%nat -> (q < n + m)%nat -> entry (s_Kt (x_g s)) q p = kkt_exact F x v p q)).
  Proof.
    intros os ds use HV Hv. destruct (generate_wf F big x th0 W OSQP order Hord) as (g' & Hg' & WG & Hs). rewrite Hg in Hg'. injection Hg' as <-.
    eapply run_imp; [apply (session_marks F n (n + m) sqr eps half below above qfactor qsolve (Nat.le_add_r n m) sqr_ok sqr_err qf_ok qs_ok g scr th0 WG Hs below0 (x_neq x) _ _ _ _
        (gen_wf_grad F big x th0 W Y order g Hg eps nz) arith os ds use HV Hv (any_admits _ _) (fun _ _ _ => eq_refl))|].
    intros [s o] (_ & _ & HK & HT). cbv zeta. split.
    - intros p q Hpq Hq. rewrite HK by auto. unfold kkt_reg, kkt_upper. destruct (Nat.ltb_spec q n).
      + destruct (Nat.ltb_spec p n); [|lia]. rewrite (entry_P F big x th0 W Y order Hord g Hg) by auto. auto.
      + destruct (Nat.ltb_spec p n); auto. apply (entry_A F big x th0 W order Hord g Hg). auto.
    - intros p q Hp Hq. rewrite HT by auto. unfold kkt_true, kkt_exact.
      destruct (Nat.ltb_spec p n); destruct (Nat.ltb_spec q n); auto; rewrite ?(entry_P F big x th0 W Y order Hord g Hg), ?(entry_A F big x th0 W order Hord g Hg) by auto; auto.
  Qed.

  (** The k-th gradient of a Python history is that of the k-th expected (parameter values of
      the latest solve, solution in force, derivatives). *)
  Theorem C35_gradients_of_latest_solve : forall os, Forall py_ok os ->
    run arith (py_session os) (fun '(_, outs) =>
      Forall2 (grad_of F x half below above eps) (expect n th0 (repeat n0 n) (repeat n0 m) os) outs).
  Proof. intros os HV. apply (gen_session F big x th0 W Y order Hord g Hg sqr eps half below above qfactor qsolve sqr_ok sqr_err qf_ok qs_ok below0 nz scr arith os HV (any_admits _ _)). Qed.

  (** ** C36 *)

  Lemma expect_app : forall (a b : list (pyop F)) th sx sy, exists th' sx' sy',
    expect n th sx sy (a ++ b) = expect n th sx sy a ++ expect n th' sx' sy' b.
  Proof.
    induction a as [|[ups sx1 sy1|ds [[sx1 sy1]|]] a IH]; intros b th sx sy; cbn [app expect].
    - eauto.
    - apply IH.
    - destruct (IH b th sx1 sy1) as (t & p & q & ->). eauto.
    - destruct (IH b th sx sy) as (t & p & q & ->). eauto.
  Qed.
  Lemma Forall2_last : forall A B (R : A -> B -> Prop) l a l' d, Forall2 R (l ++ [a]) l' -> R a (last l' d).
  Proof.
    intros A B R l a l' d H. apply Forall2_app_inv_l in H. destruct H as (l1 & l2 & _ & H & ->). inversion H as [|? b ? ? Hab Hnil]; subst. inversion Hnil; subst.
    rewrite last_last. auto.
  Qed.

  (** If P and A do not depend on the parameters: the gradient for the solution of an earlier
      solve, after any other calls, is the one right after that solve. *)
  Theorem C36_backward_order_irrelevant : forall os1 os2 ups sx sy ds s1 s2 outs1 outs2,
    (forall th1 th2 i j, (i < n)%nat -> (j < n)%nat -> cP x (flat (x_params x) th1) i j = cP x (flat (x_params x) th2) i j) ->
    (forall th1 th2 i j, (i < m)%nat -> (j < n)%nat -> cA x (flat (x_params x) th1) i j = cA x (flat (x_params x) th2) i j) ->
    Forall py_ok (os1 ++ [PSolve ups sx sy; PGrad ds None]) -> Forall py_ok (os2 ++ [PGrad ds (Some (sx, sy))]) ->
    py_session (os1 ++ [PSolve ups sx sy; PGrad ds None]) = Ok (s1, outs1) ->
    py_session (os2 ++ [PGrad ds (Some (sx, sy))]) = Ok (s2, outs2) ->
    forall i, (i < length (x_flat x) - 1)%nat -> nth i (last outs1 []) n0 = nth i (last outs2 []) n0.
  Proof.
    intros os1 os2 ups sx sy ds s1 s2 outs1 outs2 HP HA V1 V2 R1 R2.
    pose proof (C35_gradients_of_latest_solve _ V1) as G1. pose proof (C35_gradients_of_latest_solve _ V2) as G2.
    rewrite R1 in G1. rewrite R2 in G2. cbn [SparseProofs.run] in G1, G2.
    destruct (expect_app os1 [PSolve ups sx sy; PGrad ds None] th0 (repeat n0 n) (repeat n0 m)) as (t1 & a1 & b1 & E1). rewrite E1 in G1. cbn [expect] in G1.
    destruct (expect_app os2 [PGrad ds (Some (sx, sy))] th0 (repeat n0 n) (repeat n0 m)) as (t2 & a2 & b2 & E2). rewrite E2 in G2. cbn [expect] in G2.
    apply Forall2_last with (d := []) in G1, G2. intros i Hi. exact (grad_of_det _ _ _ _ _ _ _ (HP _ _) (HA _ _) G1 G2 i Hi).
  Qed.
End Generated.

Print Assumptions C33_generated_adjoint.
Print Assumptions C34_active_set_exact.
Print Assumptions C34_gradient_independent_of_marks.
Print Assumptions C35_matrices_of_latest_solve.
Print Assumptions C35_gradients_of_latest_solve.
Print Assumptions C36_backward_order_irrelevant.

(** ** The concrete problem meets the hypotheses of the section above. *)
Definition q_c (x : cvx QcFld) (os : list (cop QcFld)) : res (sst QcFld * list (list QcFld)) :=
  c_session QcFld q_big x (q_gen x) qsqrt q_eps q_half q_below q_above (qfactor_ref QcFld 2) (qsolve_ref QcFld 2) q_scr os.
Definition q_py (x : cvx QcFld) (os : list (pyop QcFld)) : res (sst QcFld * list (list QcFld)) := q_c x (flat_map py_ops os).
Definition qup (a : QcFld) (sx sy : list QcFld) : pyop QcFld := PSolve (F := QcFld) [("a", 0, a)] sx sy.
Definition qgr (d : QcFld) (use : option (list QcFld * list QcFld)) : pyop QcFld := PGrad (F := QcFld) [(0, d)] use.
Definition q_params (x : cvx QcFld) : g_params (q_gen x) = g_params (q_gen x) := eq_refl.
(** Solve with a = 8/5 (constraint active), gradient; solve with a = 4 (inactive), gradient;
    gradient at the first solution. *)
Definition q_hist : list (pyop QcFld) :=
  [qup (qd 8 5) [qz 1] [qz 1]; qgr (qz 1) None; qup (qz 4) [qz 2] [qz 0]; qgr (qz 1) None; qgr (qz 3) (Some ([qz 1], [qz 1]))].
Definition show (r : res (sst QcFld * list (list QcFld))) : res (list Z * list (list Q)) :=
  match r with Ok (s, o) => Ok (s_a (x_g s), map (map (fun q : QcFld => this q)) o) | Err e => Err e end.

Record q_hyps (x : cvx QcFld) : Prop := mkQH
  { qh_wf : wf_cvx x q_th0; qh_layout : layout x; qh_gen : generate (K := QcFld) q_big x OSQP ex_order = Ok (q_gen x);
    qh_f : factor_contract QcFld (x_n x) (x_n x + (x_neq x + x_nineq x)) (qfactor_ref QcFld 2);
    qh_s : solve_contract QcFld (x_n x + (x_neq x + x_nineq x)) (qsolve_ref QcFld 2);
    qh_b : q_below n0 = false;
    qh_nz : no_zero QcFld (x_n x) q_eps (matP QcFld (pr_ip (proc q_big x OSQP pP)) (pr_idx (proc q_big x OSQP pP)) (g_baked (q_gen x) pP)) }.
Lemma q_hyps_ok : forall x, In x [q_x 0 1; q_x 1 0; q_y] -> q_hyps x.
Proof.
  intros x Hx.
  assert (HW : wf_cvx x q_th0) by (destruct Hx as [<-|[<-|[<-|[]]]]; apply q_wf; lia).
  assert (HN : no_zero QcFld (x_n x) q_eps (matP QcFld (pr_ip (proc q_big x OSQP pP)) (pr_idx (proc q_big x OSQP pP)) (g_baked (q_gen x) pP))).
  { destruct Hx as [<-|[<-|[<-|[]]]]; (split; [vm_compute; discriminate|]; intros j i Hj Hi; cbn [x_n q_x q_y q_prob] in Hj; replace j with 0 in * by lia;
      assert (i = 0) by (vm_compute in Hi; lia); subst i; vm_compute; discriminate). }
  constructor; auto.
  - destruct Hx as [<-|[<-|[<-|[]]]]; apply q_layout.
  - apply q_generate. auto.
  - destruct Hx as [<-|[<-|[<-|[]]]]; apply (qfactor_ref_ok QcFld 1 2).
  - destruct Hx as [<-|[<-|[<-|[]]]]; apply (qsolve_ref_ok QcFld 2).
Qed.
Lemma q_valid_op : forall x a, In x [q_x 0 1; q_x 1 0; q_y] -> valid_op (g_params (q_gen x)) (OUpd (N := QcFld) "a" 0 a).
Proof.
  intros x a Hx. assert (E : g_params (q_gen x) = [("a", 1); ("b", 1)]).
  { pose proof (qh_gen _ (q_hyps_ok x Hx)) as E0. unfold generate in E0. destruct (block_for q_big x OSQP ex_order); [|discriminate].
    cbn [bind] in E0. apply (f_equal (fun r => match r with Ok a => g_params a | Err _ => [] end)) in E0. cbv beta iota in E0. rewrite <- E0. cbn [g_params].
    destruct Hx as [<-|[<-|[<-|[]]]]; reflexivity. }
  rewrite E. exists 1. simpl. auto.
Qed.
Lemma q_ok_solve : forall x a sx y, In x [q_x 0 1; q_x 1 0; q_y] -> length sx = 1 -> (x_neq x = 1 \/ q_below y = false) ->
  py_ok QcFld x (q_gen x) q_below (qup a sx [y]).
Proof.
  intros x a sx y Hx Hl Hy. split.
  - repeat constructor. apply q_valid_op. auto.
  - assert (En : x_n x = 1 /\ x_neq x + x_nineq x = 1) by (destruct Hx as [<-|[<-|[<-|[]]]]; auto). destruct En as [En Em].
    unfold sol_ok. rewrite En, Em. cbn [gcfg_of gc_nl length]. split; auto. split; auto. intros i Hi. replace i with 0 by lia. cbn [nth]. destruct Hy as [Hy|Hy]; [lia|auto].
Qed.
Lemma q_ok_same : forall x sx y, In x [q_x 0 1; q_x 1 0; q_y] -> length sx = 1 -> (x_neq x = 1 \/ q_below y = false) ->
  py_ok QcFld x (q_gen x) q_below (PSolve (F := QcFld) [] sx [y]).
Proof. intros x sx y Hx Hl Hy. split; [constructor|]. apply (proj2 (q_ok_solve x (qz 0) sx y Hx Hl Hy)). Qed.
Lemma q_ok_grad : forall x d use, In x [q_x 0 1; q_x 1 0; q_y] ->
  match use with Some (sx, sy) => exists y, length sx = 1 /\ sy = [y] /\ (x_neq x = 1 \/ q_below y = false) | None => True end ->
  py_ok QcFld x (q_gen x) q_below (qgr d use).
Proof.
  intros x d use Hx Hu. split.
  - repeat constructor. destruct Hx as [<-|[<-|[<-|[]]]]; cbn; lia.
  - destruct use as [[sx sy]|]; auto. destruct Hu as (y & Hl & -> & Hy). apply (proj2 (q_ok_solve x (qz 0) sx y Hx Hl Hy)).
Qed.

Example C33_example : let c := gcfg_of QcFld (q_gen (q_x 0 1)) 0 in
  uncanon QcFld 1 2 c [qz 2] [] [qz 5] [qz 7] [qz 11] = Ok [qz 11; qz 9; qz 0]
  /\ map_fits QcFld (gc_np c) 1 (gc_q c) /\ map_fits QcFld (gc_np c) 0 (gc_l c) /\ map_fits QcFld (gc_np c) 1 (gc_u c)
  /\ map_fits QcFld (gc_np c) 1 (gc_P c) /\ map_fits QcFld (gc_np c) 1 (gc_A c).
Proof.
  assert (D : forall (rows : option (list (row QcFld))) k, match rows with Some r => forallb (forallb (fun cv => Nat.ltb (fst cv) 3)) r && Nat.leb k (length r) | None => true end = true -> map_fits QcFld 3 k rows).
  { intros [r|] k H; unfold map_fits; auto. apply andb_prop in H. destruct H as [H1 H2]. apply Nat.leb_le in H2. split; auto. intros r' Hr cv Hc.
    rewrite forallb_forall in H1. specialize (H1 r' Hr). rewrite forallb_forall in H1. specialize (H1 cv Hc). apply Nat.ltb_lt in H1. auto. }
  cbv zeta. split; [vm_compute; reflexivity|]. change (gc_np (gcfg_of QcFld (q_gen (q_x 0 1)) 0)) with (length (g_vec0 (q_gen (q_x 0 1)))).
  replace (length (g_vec0 (q_gen (q_x 0 1)))) with 3 by (vm_compute; reflexivity).
  split; [apply D; vm_compute; reflexivity|]. split; [apply D; vm_compute; reflexivity|]. split; [apply D; vm_compute; reflexivity|]. split; apply D; vm_compute; reflexivity.
Qed.

Ltac q_in := simpl; auto.
Ltac q_solve := first [apply q_ok_solve | apply q_ok_same]; [q_in|reflexivity|first [right; vm_compute; reflexivity | left; reflexivity]].
Ltac q_grad := apply q_ok_grad; [q_in|first [exact I | eexists; split; [reflexivity|]; split; [reflexivity|]; first [right; vm_compute; reflexivity | left; reflexivity]]].
Ltac q_all := repeat (constructor; [first [q_solve | q_grad]|]); constructor.

(** The history is valid and runs to its end, with three gradients. *)
Example C35_example : q_hyps (q_x 0 1) /\ Forall (py_ok QcFld (q_x 0 1) (q_gen (q_x 0 1)) q_below) q_hist
  /\ show (q_py (q_x 0 1) q_hist) = Ok ([1%Z],
       [[-79509105811465 # 114290809913344; 15239222632295 # 57145404956672; 0]; [0; -8425 # 8192; 0]; [-7857147 # 10240000; 827049 # 1024000; 0]]%Q).
Proof.
  split; [apply q_hyps_ok; q_in|]. split; [|vm_compute; reflexivity]. unfold q_hist. q_all.
Qed.

(** Through the C functions: with a = 4 baked in, update a to 8/5, gradient, solve, gradient.
    The second gradient's matrix still holds 4 and the result differs from that of
    update, solve, gradient, although parameters, solution and derivatives are the same. *)
Definition q_c1 : list (cop QcFld) :=
  [CUpd (F := QcFld) "a" 0 (qd 8 5); CUpdD (F := QcFld) 0 (qz 1); CGrad (F := QcFld); CSolve (F := QcFld) [qz 1] [qz 1]; CUpdD (F := QcFld) 0 (qz 1); CGrad (F := QcFld)].
Definition q_c2 : list (cop QcFld) :=
  [CUpd (F := QcFld) "a" 0 (qd 8 5); CSolve (F := QcFld) [qz 1] [qz 1]; CUpdD (F := QcFld) 0 (qz 1); CGrad (F := QcFld)].
Definition k_at (r : res (sst QcFld * list (list QcFld))) : res (Q * Q * list Q) :=
  match r with
  | Ok (s, o) => Ok (this (entry (F := QcFld) (gK (s_ws (x_g s))) 0 1 : QcFld), this (nth 0 (m_can (r_m (x_r s)) pA) (n0 : QcFld)), map (fun q : QcFld => this q) (last o []))
  | Err e => Err e
  end.
Theorem C35_c_level_refuted :
  k_at (q_c (q_x 0 1) q_c1) = Ok (4 # 1, 8 # 5, [-2619049 # 10240000; 275683 # 1024000; 0])%Q
  /\ k_at (q_c (q_x 0 1) q_c2) = Ok (8 # 5, 8 # 5, [-79509105811465 # 114290809913344; 15239222632295 # 57145404956672; 0])%Q.
Proof. split; vm_compute; reflexivity. Qed.
Print Assumptions C35_c_level_refuted.

(** Equality constraint, dual +1 and then -1: the mark stays +1.  The constraint is marked
    active in both cases, and the gradient is that of a history that never saw the +1. *)
Definition q_sign (y : Z) : list (pyop QcFld) := [qup (qz 4) [qz 1] [qz y]; qgr (qz 1) None].
Definition fst_ok {A B} (r : res (A * B)) : option A := match r with Ok (a, _) => Some a | Err _ => None end.
Theorem C34_sign_refuted : Forall (py_ok QcFld (q_x 1 0) (q_gen (q_x 1 0)) q_below) (q_sign 1 ++ q_sign (-1))
  /\ fst_ok (show (q_py (q_x 1 0) (q_sign 1 ++ q_sign (-1)))) = Some [1%Z] /\ q_below (qz (-1)) = true.
Proof.
  split; [|split; vm_compute; reflexivity]. unfold q_sign. cbn [app]. q_all.
Qed.
Print Assumptions C34_sign_refuted.
Definition q_off (y : Z) : list (pyop QcFld) := [qup (qz 4) [qz 1] [qz 0]; qgr (qz 1) None; PSolve (F := QcFld) [] [qz 1] [qz y]; qgr (qz 1) None].
Example C34_example : q_hyps (q_x 1 0) /\ Forall (py_ok QcFld (q_x 1 0) (q_gen (q_x 1 0)) q_below) (q_off (-1))
  /\ fst_ok (show (q_py (q_x 1 0) (q_off (-1)))) = Some [(-1)%Z]
  /\ match show (q_py (q_x 1 0) (q_off (-1))), show (q_py (q_x 1 0) (q_sign 1 ++ q_sign (-1))) with
      | Ok (_, [_; d1]), Ok (_, [_; d2]) => d1 = d2 /\ d1 <> [0; 0; 0]%Q
      | _, _ => False
      end.
Proof.
  split; [apply q_hyps_ok; q_in|]. split; [unfold q_off; q_all|]. split; [vm_compute; reflexivity|].
  vm_compute. split; [reflexivity|discriminate].
Qed.

(** ** C36 *)

(** A depends on a: the gradient at the first solution after a second solve uses the second
    matrix. *)
Definition q_later : list (pyop QcFld) := [qup (qd 8 5) [qz 1] [qz 1]; qup (qz 4) [qz 2] [qz 0]; qgr (qz 1) (Some ([qz 1], [qz 1]))].
Definition q_now : list (pyop QcFld) := [qup (qd 8 5) [qz 1] [qz 1]; qgr (qz 1) (Some ([qz 1], [qz 1]))].
Theorem C36_parametric_matrix_refuted :
  Forall (py_ok QcFld (q_x 0 1) (q_gen (q_x 0 1)) q_below) q_later /\ Forall (py_ok QcFld (q_x 0 1) (q_gen (q_x 0 1)) q_below) q_now
  /\ match show (q_py (q_x 0 1) q_now), show (q_py (q_x 0 1) q_later) with
      | Ok (_, [d1]), Ok (_, [d2]) => d1 <> d2
      | _, _ => False
      end.
Proof. split; [unfold q_later; q_all|]. split; [unfold q_now; q_all|]. vm_compute. discriminate. Qed.
Print Assumptions C36_parametric_matrix_refuted.

Lemma q_const : (forall th1 th2 i j, i < 1 -> j < 1 -> cP q_y (flat (x_params q_y) th1) i j = cP q_y (flat (x_params q_y) th2) i j)
  /\ (forall th1 th2 i j, i < 1 -> j < 1 -> cA q_y (flat (x_params q_y) th1) i j = cA q_y (flat (x_params q_y) th2) i j).
Proof.
  assert (E : forall (th : pvals QcFld), flat (x_params q_y) th = [th "a" 0; th "b" 0; n1]) by reflexivity.
  split; intros th1 th2 i j Hi Hj; replace i with 0 by lia; replace j with 0 by lia; rewrite !E; reflexivity.
Qed.
(** Constant matrices, two solves; the delayed gradient is the immediate one. *)
Example C36_example : q_hyps q_y
  /\ Forall (py_ok QcFld q_y (q_gen q_y) q_below) ([] ++ [qup (qd 8 5) [qz 1] [qz 1]; qgr (qz 1) None])
  /\ Forall (py_ok QcFld q_y (q_gen q_y) q_below) ([qup (qd 8 5) [qz 1] [qz 1]; qup (qz 4) [qz 2] [qz 0]; qgr (qz 3) None] ++ [qgr (qz 1) (Some ([qz 1], [qz 1]))])
  /\ match show (q_py q_y [qup (qd 8 5) [qz 1] [qz 1]; qgr (qz 1) None]),
           show (q_py q_y [qup (qd 8 5) [qz 1] [qz 1]; qup (qz 4) [qz 2] [qz 0]; qgr (qz 3) None; qgr (qz 1) (Some ([qz 1], [qz 1]))]) with
     | Ok (_, [d1]), Ok (_, [_; d2]) => d1 = d2 /\ d1 <> [0; 0; 0]%Q
     | _, _ => False
     end.
Proof.
  split; [apply q_hyps_ok; q_in|]. split; [cbn [app]; q_all|]. split; [cbn [app]; q_all|]. vm_compute. split; [reflexivity|discriminate].
Qed.

(** Explicit mode, any number type: the gradient at a recorded region does not depend on the
    calls before it. *)
Section ExplicitOrder.
  Variable K : Ring.
  Variables (G : xgrad K) (t : table K) (vs : list xinfo).
  Let dx0 : list K := repeat n0 (xg_nsol G).

  Lemma call_dx : forall r c st' dp, grad_call G t vs (r, dx0) c = Ok (st', dp) -> snd st' = dx0.
  Proof.
    intros r c st' dp H. unfold grad_call in H. cbn [fst snd] in H. destruct (put_deltas vs (snd c) dx0) as [dx|]; [|discriminate]. cbn [bind] in H.
    destruct (match fst c with Some r0 => Some r0 | None => r end) as [r'|]; [|discriminate].
    unfold x_gradient in H. destruct (t_base t r') as [b|]; [|discriminate]. cbn [bind] in H.
    destruct (mapM _ _) as [dth|]; [|discriminate]. cbn [bind] in H. destruct (back_loop _ _ _ _ _) as [d|]; [|discriminate]. cbn [bind] in H.
    injection H as <- <-. reflexivity.
  Qed.
  Lemma run_ne : forall os st reg vd, grad_run G t vs st (os ++ [GGrad (Some reg) vd]) <> Ok [].
  Proof.
    induction os as [|o os IH]; intros st reg vd E; cbn [app grad_run] in E.
    - destruct (grad_call G t vs st (Some reg, vd)) as [[? ?]|]; discriminate.
    - destruct o as [r|r v]; [apply IH in E; auto|]. destruct (grad_call G t vs st (r, v)) as [[st' ?]|]; [|discriminate]. cbn [bind] in E.
      destruct (grad_run G t vs st' (os ++ [GGrad (Some reg) vd])); discriminate.
  Qed.
  Lemma run_last : forall os r0 reg vd outs, grad_run G t vs (r0, dx0) (os ++ [GGrad (Some reg) vd]) = Ok outs ->
    exists st', grad_call G t vs (None, dx0) (Some reg, vd) = Ok (st', last outs []).
  Proof.
    induction os as [|o os IH]; intros r0 reg vd outs H.
    - cbn [app grad_run] in H. unfold grad_call in H |- *. cbn [fst snd] in H |- *. destruct (put_deltas vs vd dx0) as [dx|]; [|discriminate]. cbn [bind] in H |- *.
      destruct (x_gradient G t reg dx) as [[dp dx']|]; [|discriminate]. cbn [bind] in H |- *. injection H as <-. eexists. reflexivity.
    - destruct o as [r|r v]; cbn [app grad_run snd] in H; [eapply IH; eauto|].
      destruct (grad_call G t vs (r0, dx0) (r, v)) as [[[r1 d1] dp]|] eqn:E; [|discriminate]. cbn [bind] in H.
      pose proof (call_dx _ _ _ _ E) as Hd. cbn [snd] in Hd. subst d1.
      destruct (grad_run G t vs (r1, dx0) (os ++ [GGrad (Some reg) vd])) as [ds|] eqn:E2; [|discriminate]. cbn [bind] in H. injection H as <-.
      destruct (IH _ _ _ _ E2) as (st' & E3). exists st'. rewrite E3. destruct ds as [|d ds]; [exfalso|reflexivity]. revert E2. apply run_ne.
  Qed.
  Theorem C36_explicit_order_irrelevant : forall os1 os2 reg vd outs1 outs2,
    grad_run G t vs (None, repeat n0 (xg_nsol G)) (os1 ++ [GSolve reg; GGrad (Some reg) vd]) = Ok outs1 ->
    grad_run G t vs (None, repeat n0 (xg_nsol G)) (os2 ++ [GGrad (Some reg) vd]) = Ok outs2 ->
    last outs1 [] = last outs2 [].
  Proof.
    intros os1 os2 reg vd outs1 outs2 H1 H2. change [GSolve reg; GGrad (Some reg) vd] with ([GSolve reg] ++ [GGrad (Some reg) vd]) in H1. rewrite app_assoc in H1.
    destruct (run_last _ _ _ _ _ H1) as (s1 & E1). destruct (run_last _ _ _ _ _ H2) as (s2 & E2). congruence.
  Qed.
End ExplicitOrder.
Print Assumptions C36_explicit_order_irrelevant.
Example C36_explicit_example :
  let now := [@GSolve ZRing 1; @GGrad ZRing (Some 1) c31_vd] in
  let later := [@GSolve ZRing 1; @GSolve ZRing 2; @GGrad ZRing None c31_vd; @GSolve ZRing 0; @GGrad ZRing (Some 1) c31_vd] in
  match c31_run c31_sels 5 now, c31_run c31_sels 5 later with
  | Ok [d1], Ok [d2; d3] => d1 = d3 /\ d2 <> d1
  | _, _ => False
  end.
Proof. vm_compute. split; [reflexivity|discriminate]. Qed.

(** ** C41 *)

(** Independent of what the two matrices contained (right patterns, and the regularisation
    entries no copy touches): after both copies they are those of the current P and A. *)
Theorem C41_refresh : forall (F : Fld) n N (eps : F) (P A K Kt : csc F), n <= N ->
  P_ok F n P -> A_ok F n N A -> kkt_shape F n N eps P A K Kt ->
  exists K1 Kt1 K2 Kt2, P_to_K F n eps P K Kt = Ok (K1, Kt1) /\ A_to_K F n A K1 Kt1 = Ok (K2, Kt2)
    /\ kkt_shape F n N eps P A K2 Kt2
    /\ (forall p q, p < n -> q < n -> entry K2 p q = nadd (entry P p q) (if Nat.eqb p q then eps else n0) /\ entry Kt2 q p = entry P p q)
    /\ (forall p q, p < n -> n <= q < N -> entry K2 p q = entry A (q - n) p /\ entry Kt2 q p = entry A (q - n) p /\ entry Kt2 p q = entry A (q - n) p)
    /\ (forall p q, n <= p < N -> n <= q < N -> entry K2 p q = (if Nat.eqb p q then ropp eps else n0) /\ entry Kt2 p q = n0)
    /\ (forall p q, n <= p < N -> q < n -> entry K2 p q = n0).
Proof.
  intros F n N eps P A K Kt Hn HP HA HS. destruct (PA_refresh F n N eps Hn P A K Kt HP HA HS) as (K1 & Kt1 & K2 & Kt2 & E1 & E2 & HS2 & HK & HT).
  exists K1, Kt1, K2, Kt2. split; auto. split; auto. split; auto. unfold kkt_reg in HK. unfold kkt_true in HT.
  split; [|split; [|split]]; intros p q Hp Hq.
  - rewrite HK, HT by lia. rewrite !ltb_t by lia. auto.
  - rewrite HK, !HT by lia. rewrite (ltb_t p), (ltb_f q) by lia. auto.
  - rewrite HK, !HT by lia. rewrite (ltb_f p), (ltb_f q) by lia. auto.
  - rewrite HK by lia. rewrite (ltb_t q), (ltb_f p) by lia. auto.
Qed.
Print Assumptions C41_refresh.

(** The arrays the generator writes have these patterns and already hold the matrices of the
    P and A they are generated from. *)
Theorem C41_generated_arrays : forall (F : Fld) n N (eps : F) (P A : csc F), n <= N -> P_ok F n P -> A_ok F n N A -> no_zero F n eps P ->
  kkt_shape F n N eps P A (kkt_K F n N eps P A) (kkt_Kt F n N P A) /\ holds_kkt F n N eps P A (kkt_K F n N eps P A) (kkt_Kt F n N P A).
Proof. intros F n N eps P A Hn HP HA HZ. apply kkt_arrays; auto. Qed.
Print Assumptions C41_generated_arrays.
(** ... and keep fitting when the values change, the patterns being those at generation. *)
Theorem C41_new_values : forall (F : Fld) n N (eps : F) (P P' A A' K Kt : csc F), same_pat F P P' -> same_pat F A A' ->
  kkt_shape F n N eps P A K Kt -> kkt_shape F n N eps P' A' K Kt.
Proof. exact shape_pat. Qed.
Print Assumptions C41_new_values.

Definition k_P (a b c : Z) : csc QcFld := mkCsc (K := QcFld) [0; 1; 3] [0; 0; 1] [qz a; qz b; qz c] 3.
Definition k_A (a b : Z) : csc QcFld := mkCsc (K := QcFld) [0; 1; 2] [0; 0] [qz a; qz b] 2.
Lemma k_PA_ok : forall a b c d e, P_ok QcFld 2 (k_P a b c) /\ A_ok QcFld 2 3 (k_A d e).
Proof.
  intros a b c d e. split; split.
  - apply csc_okb_ok. reflexivity.
  - intros j i Hj. destruct j as [|[|j]]; [| |lia]; cbn; lia.
  - apply csc_okb_ok. reflexivity.
  - intros j i Hj. destruct j as [|[|j]]; [| |lia]; cbn; lia.
Qed.
(** Arrays of one P and A (all entries present), refreshed with another. *)
Example C41_example : P_ok QcFld 2 (k_P 1 2 3) /\ A_ok QcFld 2 3 (k_A 4 5)
  /\ kkt_shape QcFld 2 3 q_eps (k_P 1 2 3) (k_A 4 5) (kkt_K QcFld 2 3 q_eps (k_P 6 7 8) (k_A 9 10)) (kkt_Kt QcFld 2 3 (k_P 6 7 8) (k_A 9 10)).
Proof.
  split; [apply (k_PA_ok 1 2 3 0 0)|]. split; [apply (k_PA_ok 0 0 0 4 5)|].
  apply C41_new_values with (P := k_P 6 7 8) (A := k_A 9 10); [repeat split|repeat split|].
  apply C41_generated_arrays; [lia|apply (k_PA_ok 6 7 8 0 0)|apply (k_PA_ok 0 0 0 9 10)|].
  split; [vm_compute; discriminate|]. intros j i Hj. destruct j as [|[|j]]; [| |lia]; intro Hi; cbn in Hi; [destruct Hi as [<-|[]]|destruct Hi as [<-|[<-|[]]]]; vm_compute; discriminate.
Qed.

(** The "true" matrix is not symmetric when P, stored upper triangular, has an off-diagonal
    entry: its upper left block is the stored triangle. *)
Theorem C41_symmetric_refuted : let Kt := kkt_Kt QcFld 2 3 (k_P 6 7 8) (k_A 9 10) in
  P_ok QcFld 2 (k_P 6 7 8) /\ A_ok QcFld 2 3 (k_A 9 10) /\ (entry Kt 1 0 : QcFld) = qz 7 /\ (entry Kt 0 1 : QcFld) = qz 0.
Proof.
  cbv zeta. split; [apply (k_PA_ok 6 7 8 0 0)|]. split; [apply (k_PA_ok 0 0 0 9 10)|]. split; apply Qc_is_canon; vm_compute; reflexivity.
Qed.
Print Assumptions C41_symmetric_refuted.

(** ** C42 *)

(** Non-symmetric variables: derivative entry i goes to the position entry i of the value is
    retrieved from. *)
Theorem C42_position : forall red us ps u p i, prim_info red us = Ok ps -> In (u, p) (combine us ps) ->
  uv_sym u = false -> i < fsize (uv_shape u) -> nth_error (pi_idx p) i = Some (vd_pos p i).
Proof. intros red us ps u p i H1 H2 H3 H4. apply (vd_pos_idx red us ps u p i H1 H2 H3 H4). Qed.
Print Assumptions C42_position.

(** Consequence: paired with any canonical point, the array of derivatives gives the sum over
    all variable entries of derivative times value. *)
Theorem C42_directional : forall (F : Fld) red us ps (blk : nat -> list F) (vd : string -> list F) x,
  vars_ok red us -> NoDup (map fst red) -> NoDup (map uv_id us) -> (forall u, In u us -> uv_sym u = false) ->
  (forall i z, In (i, z) red -> length (blk i) = z) -> x = concat (map (fun e => blk (fst e)) red) ->
  prim_info red us = Ok ps ->
  (forall k v, In (k, v) (vd_writes ps vd) -> k < length x)
  /\ ip (length x) (writes (length x) (vd_writes ps vd)) x
     = rsum (map (fun u => rsum (map (fun i => nmul (nth i (vd (uv_name u)) n0) (nth i (blk (uv_id u)) n0)) (seq 0 (fsize (uv_shape u))))) us).
Proof. exact dx_adjoint. Qed.
Print Assumptions C42_directional.
Definition c42_us : list uvar := [mkUV "t" 3 [] false; mkUV "X" 2 [2; 2] false].
Definition c42_red : list (nat * nat) := [(2, 4); (7, 2); (3, 1)].
Definition c42_blk (i : nat) : list QcFld := match i with 2 => [qz 1; qz 2; qz 3; qz 4] | 7 => [qz 8; qz 9] | _ => [qz 5] end.
Definition c42_vd (s : string) : list QcFld := if String.eqb s "X" then [qz 10; qz 20; qz 30; qz 40] else [qz 50].
Example C42_example : vars_ok c42_red c42_us /\ NoDup (map fst c42_red) /\ NoDup (map uv_id c42_us)
  /\ (forall u, In u c42_us -> uv_sym u = false) /\ (forall i z, In (i, z) c42_red -> length (c42_blk i) = z)
  /\ match prim_info c42_red c42_us with
     | Ok ps => map (fun q : QcFld => this q) (writes 7 (vd_writes ps c42_vd)) = [10; 20; 30; 40; 0; 0; 50]%Q
     | Err _ => False
     end.
Proof.
  split; [|split; [|split; [|split; [|split]]]].
  - constructor.
    + simpl. repeat (constructor; [simpl; intuition discriminate|]). constructor.
    + simpl. intros u Hu. intuition subst; reflexivity.
    + simpl. intros u [<-|[<-|[]]] E; discriminate.
  - repeat constructor; simpl; intuition discriminate.
  - repeat constructor; simpl; intuition discriminate.
  - intros u [<-|[<-|[]]]; reflexivity.
  - intros i z H. simpl in H. destruct H as [E|[E|[E|[]]]]; injection E as <- <-; reflexivity.
  - vm_compute. reflexivity.
Qed.

(** Symmetric n x n variables, n >= 2: the last entry of the value is read from within the
    packed range of length n(n+1)/2, but its derivative goes outside of it. *)
Theorem C42_symmetric_refuted : forall red us ps u p n, 2 <= n -> prim_info red us = Ok ps -> In (u, p) (combine us ps) ->
  uv_sym u = true -> uv_shape u = [n; n] ->
  let i := n * n - 1 in
  i < pi_size p /\ 2 * (vd_pos p i - pi_off p) >= n * (n + 1)
  /\ exists c, nth_error (pi_idx p) i = Some c /\ pi_off p <= c /\ 2 * (c - pi_off p) < n * (n + 1).
Proof.
  intros red us ps u p n Hn Hp Hin Hs Hsh i. unfold prim_info in Hp. apply mapM_Forall2 in Hp. induction Hp as [|u' p' us ps Hu Hp IH]; cbn [combine In] in Hin; [destruct Hin|].
  destruct Hin as [E|H]; [|apply IH; auto]. injection E as -> ->. clear IH Hp. destruct (key _) as [o|] eqn:Ek; [|discriminate]. cbn [bind] in Hu. rewrite Hs, Hsh in Hu. cbn [bind] in Hu.
  injection Hu as <-. unfold vd_pos. cbn [pi_size pi_idx pi_off]. rewrite Nat.mul_1_r.
  assert (Hnn : n * n >= 2 * n) by nia. replace (Nat.eqb (n * n) 1) with false by (symmetry; apply Nat.eqb_neq; lia).
  split; [lia|]. split; [subst i; nia|]. rewrite nth_error_map.
  destruct (nth_error (nonzero_cols (n * n) (tri_entries n)) i) as [c|] eqn:Ec; [|apply nth_error_None in Ec; rewrite tri_cols_length in Ec; lia].
  cbn [option_map]. exists (o + c). split; auto. split; [lia|]. apply nth_error_In, tri_cols_lt in Ec. pose proof (upper_length n). lia.
Qed.
Print Assumptions C42_symmetric_refuted.
(** Witness: a symmetric 2 x 2 variable followed by a scalar; the scalar's entry receives the
    matrix variable's last derivative when the scalar is passed first. *)
Definition c42_sym : list uvar := [mkUV "t" 3 [] false; mkUV "S" 2 [2; 2] true].
Definition c42_vds (s : string) : list QcFld := if String.eqb s "S" then [qz 0; qz 0; qz 0; qz 40] else [qz 50].
Theorem C42_symmetric_clash_refuted : match prim_info [(2, 3); (3, 1)] c42_sym with
  | Ok [t; m] => pi_idx t = [3] /\ pi_idx m = [0; 1; 1; 2] /\ map (vd_pos m) [0; 1; 2; 3] = [0; 1; 2; 3]
                 /\ map (fun q : QcFld => this q) (writes 4 (vd_writes [t; m] c42_vds)) = [0; 0; 0; 40]%Q
  | _ => False
  end.
Proof. vm_compute. auto. Qed.
Print Assumptions C42_symmetric_clash_refuted.
