(** Property C58: the gradients are derivatives of the solution with respect to the parameters. *)

From Coq Require Import String Arith Bool ZArith Lia List Sorted Permutation QArith Qcanon Field Reals Lra.
From Verif Require Import Base Pus Machine PusCheck Runtime RuntimeSpec RuntimeProofs RuntimeMore Canon CanonSpec CanonProofs CanonMain CanonGen CanonProblem CanonMore.
From Verif Require Import Retrieve RetrieveProofs Explicit Examples Sparse SparseProofs Ldl LdlRank1 LdlProofs GradSpec LdlMain FactorProofs Gradient GradKkt Qdldl GradSolve GradKktSolve GradMain GradCall GradSession GradSessionProofs GradGen GradVars GradTotal PropExplicit PropFactor PropGrad PropTotal GradSens GradDeriv.
Import ListNotations.
Open Scope string_scope.
Open Scope list_scope.
Local Open Scope nat_scope.

Lemma expect_dx : forall (F : Fld) n (os : list (pyop F)) th sx sy e, In e (expect n th sx sy os) -> length (snd e) = n.
Proof.
  intros F n os.
  assert (LW : forall ds, length (writes (F := F) n ds) = n).
  { intro ds. unfold writes. assert (G : forall l, length (fold_left (fun (l : list F) '(k, v) => upd l k v) ds l) = length l).
    { induction ds as [|[k v] ds IH]; intro l; cbn [fold_left]; auto. rewrite IH, upd_length. auto. }
    rewrite G. apply repeat_length. }
  induction os as [|[ups sx1 sy1|ds [[sx1 sy1]|]] os IH]; intros th sx sy e He; cbn [expect] in He.
  - destruct He.
  - apply (IH _ _ _ e He).
  - destruct He as [<-|He]; [apply LW|apply (IH _ _ _ e He)].
  - destruct He as [<-|He]; [apply LW|apply (IH _ _ _ e He)].
Qed.

(** The k-th gradient of a history, against the expected parameter values [th], solution
    (sx, sy) and derivatives dx: along every direction dth of the parameters and every
    differentiable family of strictly complementary optimal points that starts at (sx, sy), the
    derivative of sum_j dx_j z_j is the inner product of the gradient with the direction, up to
    eps^4 times a quantity given by four solves with the regularised matrix.  The objective has
    no products of different variables, and the tolerance test recognises the zero duals. *)
Definition derivative_of (x : cvx RFld) (eps : RFld) (below above : RFld -> bool) (e : pvals RFld * list RFld * list RFld * list RFld) (dp : list RFld) : Prop :=
  let '(th, sx, sy, dx) := e in
  let n := x_n x in
  let m := (x_neq x + x_nineq x)%nat in
  let v := flat (x_params x) th in
  length dp = length v /\
  forall (dth : pvals RFld) (zs ys : RFld -> nat -> RFld) (xd yd : nat -> RFld),
  let delta := dir RFld (x_params x) dth in
  diagonal RFld x v -> diagonal RFld x delta ->
  family x th dth zs ys xd yd -> strict x th dth zs ys ->
  (forall j, j < n -> nth j sx n0 = zs 0%R j) -> (forall i, i < m -> nth i sy n0 = ys 0%R i) ->
  (forall i, i < m -> below (nth i sy n0) = true \/ above (nth i sy n0) = true <-> nth i sy n0 <> n0) ->
  exists s, powers RFld x (masked (fun k => Nat.ltb k n || active_at RFld below above sy (k - n)) (kkt_symm RFld x eps v)) (dx ++ repeat n0 m) 3 s
    /\ derivable_pt_lim (fun t => rsum (map (fun j => nmul (nth j dx n0) (zs t j)) (seq 0 n))) 0
         (ip (length v) dp delta + eps * (eps * (eps * eps)) * rsum (map (fun p => nmul (nmul (sgn RFld x p) (nth p s n0)) (joint RFld x xd yd p)) (seq 0 (n + m))))%R.

Theorem C58_gradients_are_derivatives :
  forall (big : RFld) (x : cvx RFld) (th0 : pvals RFld) (order : list string -> list string) (g : genc RFld)
         (sqr : RFld -> res RFld) (eps : RFld) (below above : RFld -> bool)
         (qfactor : csc RFld -> csc RFld -> res (list nat * list nat * list RFld * list RFld * list RFld))
         (qsolve : csc RFld -> list RFld -> list RFld -> res (list RFld)) (scr : nat -> pid -> list RFld -> list RFld),
  let n := x_n x in
  let m := (x_neq x + x_nineq x)%nat in
  let prP := proc big x OSQP pP in
  wf_cvx x th0 -> layout x -> (forall l, Permutation l (order l)) -> generate big x OSQP order = Ok g ->
  (forall z s, sqr z = Ok s -> nmul s s = z) -> (forall z e, sqr z = Err e -> e = Arith) ->
  factor_contract RFld n (n + m) qfactor -> solve_contract RFld (n + m) qsolve ->
  below n0 = false -> eps <> 0%R -> no_zero RFld n eps (matP RFld (pr_ip prP) (pr_idx prP) (g_baked g pP)) ->
  forall os s outs, Forall (py_ok RFld x g below) os ->
  py_session RFld big x g sqr eps (/ 2)%R below above qfactor qsolve scr os = Ok (s, outs) ->
  Forall2 (derivative_of x eps below above) (expect n th0 (repeat n0 n) (repeat n0 m) os) outs.
Proof.
  intros big x th0 order g sqr eps below above qfactor qsolve scr n m prP W Y Hord Hg S1 S2 QF QS B0 He NZ os s outs HV Hrun.
  pose proof (C35_gradients_of_latest_solve RFld big x th0 W Y order Hord g Hg sqr eps (/ 2)%R below above qfactor qsolve S1 S2 QF QS B0 NZ scr os HV) as H.
  rewrite Hrun in H. unfold run in H.
  pose proof (expect_dx RFld n os th0 (repeat n0 n) (repeat n0 m)) as HL. fold n m in H. revert H HL.
  generalize (expect n th0 (repeat n0 n) (repeat n0 m) os) as es. intros es H. clear Hrun. induction H as [|e dp es outs H _ IH]; intro HL; constructor.
  - destruct e as [[[th sx] sy] dx]. pose proof (HL _ (or_introl eq_refl)) as Hdx. cbn [snd] in Hdx. split; [exact (proj1 H)|].
    intros dth zs ys xd yd delta DP DD HF HS Hsx Hsy Hact.
    assert (HM : moves RFld x (active_at RFld below above sy) (flat (x_params x) th) delta sx sy xd yd).
    { apply (family_moves x th dth zs ys xd yd HF HS); auto. intros i Hi. rewrite <- Hsy by auto. rewrite <- Hact by auto. unfold active_at, binds.
      rewrite orb_true_iff. tauto. }
    destruct (grad_moves RFld x eps (/ 2)%R below above th sx sy dx dp delta xd yd H He) as (s0 & Hs & E).
    + cbn. lra.
    + exact Hdx.
    + exact DP.
    + exact DD.
    + rewrite <- (dir_length RFld (x_params x) dth th). apply dir_last.
    + exact HM.
    + exists s0. split; [exact Hs|].
      assert (HD : D (fun t => rsum (map (fun j => nmul (nth j dx n0) (zs t j)) (seq 0 n))) (rsum (map (fun j => nmul (nth j dx n0) (xd j)) (seq 0 n)))).
      { apply D_sum. intros j Hj. eapply D_eq; [|apply (D_mul (fun _ => nth j dx n0) (fun t => zs t j)); [apply D_const|apply (proj1 (proj2 HF) j Hj)]].
        cbv beta. cbn. ring. }
      eapply D_eq; [|exact HD]. etransitivity; [exact E|]. cbn [fpow]. cbn. ring.
  - apply IH. intros e' He'. apply HL. right. auto.
Qed.
Print Assumptions C58_gradients_are_derivatives.

(** Over any field, without limits: the same identity for first-order changes. *)
Theorem C58_first_order : forall (F : Fld) (x : cvx F) eps half below above th sx sy dx dp delta xd yd,
  let n := x_n x in
  let m := (x_neq x + x_nineq x)%nat in
  let v := flat (x_params x) th in
  let on := active_at F below above sy in
  grad_of F x half below above eps (th, sx, sy, dx) dp ->
  eps <> n0 -> nadd half half = n1 -> length dx = n -> diagonal F x v -> diagonal F x delta -> nth (length v - 1) delta n0 = n0 ->
  moves F x on v delta sx sy xd yd ->
  exists s, powers F x (masked (fun k => Nat.ltb k n || on (k - n)) (kkt_symm F x eps v)) (dx ++ repeat n0 m) 3 s
    /\ rsum (map (fun j => nmul (nth j dx n0) (xd j)) (seq 0 n))
       = nadd (ip (length v) dp delta) (nmul (fpow F eps 4) (rsum (map (fun p => nmul (nmul (sgn F x p) (nth p s n0)) (joint F x xd yd p)) (seq 0 (n + m))))).
Proof. exact grad_moves. Qed.
Print Assumptions C58_first_order.

(** ** Example: minimise z^2 + 2 b z subject to a z <= b at a = 4, b = -2, direction b.  The solution
    for b = -2 + t is z = (-2 + t) / 4 with dual 5 (2 - t) / 8. *)
Definition s_x : cvx RFld :=
  mkCvx RFld [("a", 1); ("b", 1)] [4; 1; 1]%R 1 0 1
        (Some ([[(2, 2%R)]], [0], [0; 1])) [[(1, 2%R)]; []] [[(0, (-1)%R)]; [(1, 1%R)]] [0; 0] [0; 1; 2] false.
Definition s_gen : genc RFld :=
  match generate (K := RFld) r_big s_x OSQP ex_order with
  | Ok g => g
  | Err _ => mkG RFld OSQP [] [] (fun _ => []) (fun _ => None) (fun _ => []) (fun _ => []) false false UNil
  end.
Definition s_hist : list (pyop RFld) := [PSolve (F := RFld) [("b", 0, (-2)%R)] [(- / 2)%R] [(5 / 4)%R]; PGrad (F := RFld) [(0, 1%R)] None].
Definition s_th : pvals RFld := set_vals r_th0 [("b", 0, (-2)%R)].
Definition s_dth : pvals RFld := fun nm i => if String.eqb nm "b" then 1%R else 0%R.
Definition s_zs (t : RFld) (j : nat) : RFld := ((-2 + t) / 4)%R.
Definition s_ys (t : RFld) (i : nat) : RFld := (5 * (2 - t) / 8)%R.
Lemma s_wf : wf_cvx s_x r_th0.
Proof.
  constructor.
  - repeat constructor; simpl; intuition discriminate.
  - reflexivity.
  - split; [reflexivity|]. split; [reflexivity|]. split; [reflexivity|].
    intros c Hc. simpl in Hc. destruct c as [|[|]]; simpl; lia.
  - reflexivity.
  - intros i Hi. simpl in *. lia.
  - simpl. repeat constructor; simpl; intuition lia.
  - intros r c w H1 H2. simpl in H1. fin; simpl in H2; fin.
  - reflexivity.
  - intros r c w H1 H2. simpl in H1. fin; simpl in H2; fin.
  - intros rows idx ip E. simpl in E. inversion E; subst.
    split; [|split; [reflexivity|]].
    + split; [reflexivity|]. split; [reflexivity|]. split; [reflexivity|].
      intros c Hc. simpl in Hc. destruct c as [|]; simpl; lia.
    + intros r c w H1 H2. simpl in H1. fin; simpl in H2; fin.
Qed.
Lemma s_layout : layout s_x.
Proof.
  constructor.
  - intros j Hj. simpl in Hj. replace j with 0 by lia. apply lt_list_ok. reflexivity.
  - do 3 eexists. split; [reflexivity|]. intros j Hj. simpl in Hj. replace j with 0 by lia. split; [apply lt_list_ok; reflexivity|].
    intros i Hi. simpl in Hi. lia.
Qed.
Lemma s_generate : generate (K := RFld) r_big s_x OSQP ex_order = Ok s_gen.
Proof.
  unfold s_gen. destruct (generate_wf RFld r_big s_x r_th0 s_wf OSQP ex_order ex_order_perm) as (g & E & _ & _). rewrite E. reflexivity.
Qed.
Lemma s_convex : forall th, convex_at RFld r_pos s_x (flat (x_params s_x) th).
Proof.
  intros th z. cbv zeta. unfold r_pos. cbn. generalize (z 0). cbn. intro a.
  pose proof (Rle_0_sqr a) as H. unfold Rsqr in H. destruct (Rle_lt_or_eq_dec _ _ H) as [Hlt|Heq]; [right|left]; lra.
Qed.
Lemma s_nz : no_zero RFld (x_n s_x) (/ 1000000)%R (matP RFld (pr_ip (proc r_big s_x OSQP pP)) (pr_idx (proc r_big s_x OSQP pP)) (g_baked s_gen pP)).
Proof.
  split; [cbn; lra|]. intros j i Hj Hi.
  assert (IP : In pP (solver_pids OSQP)) by (cbn; auto 10).
  change (matP RFld (pr_ip (proc r_big s_x OSQP pP)) (pr_idx (proc r_big s_x OSQP pP)) (g_baked s_gen pP)) with (csc_of RFld (proc r_big s_x OSQP pP) (g_baked s_gen pP)) in Hi.
  rewrite (rows_of RFld s_x _ _ _ j (P_struct RFld r_big s_x r_th0 s_wf s_layout) Hj) in Hi.
  apply (proj2 (P_sorted RFld r_big s_x r_th0 s_wf s_layout j Hj)) in Hi.
  rewrite <- (baked_spec RFld r_big s_x r_th0 s_wf ex_order s_gen s_generate pP IP).
  rewrite (entry_P RFld r_big s_x r_th0 s_wf s_layout ex_order ex_order_perm s_gen s_generate r_th0 i j Hj).
  cbn in Hj. replace j with 0 in * by lia. replace i with 0 by lia. cbn. lra.
Qed.
Lemma s_hist_ok : Forall (py_ok RFld s_x s_gen r_below) s_hist.
Proof.
  assert (EP : g_params s_gen = [("a", 1); ("b", 1)]).
  { pose proof s_generate as E0. unfold generate in E0. destruct (block_for r_big s_x OSQP ex_order); [|discriminate].
    cbn [bind] in E0. apply (f_equal (fun r => match r with Ok a => g_params a | Err _ => [] end)) in E0. cbv beta iota in E0. rewrite <- E0. reflexivity. }
  unfold s_hist. repeat apply Forall_cons; try apply Forall_nil.
  - split; [repeat constructor; rewrite EP; exists 1; simpl; auto|]. split; auto. split; auto. intros i Hi. cbn in Hi. replace i with 0 by lia.
    unfold r_below. cbn [nth]. destruct (Rlt_dec (5 / 4) (- / 1000000)) as [H|H]; auto. exfalso. lra.
  - split; [|exact I]. repeat constructor.
Qed.

Lemma D_affine : forall c d : R, D (fun t : RFld => (c + t * d)%R) d.
Proof. exact D_lin. Qed.
Lemma s_family : family s_x s_th s_dth s_zs s_ys (fun _ => (/ 4)%R) (fun _ => (- (5 / 8))%R).
Proof.
  split; [|split].
  - exists 1%R. split; [lra|]. intros t Ht. assert (Hb : (-1 < t < 1)%R) by (unfold Rabs in Ht; destruct (Rcase_abs t); lra).
    constructor.
    + intros j Hj. cbn in Hj. replace j with 0 by lia. unfold s_zs, s_ys. cbn. unfold along, s_th, s_dth, r_th0. cbn. field.
    + intros i Hi. cbn in Hi. lia.
    + intros i Hi. cbn in Hi. replace i with 0 by lia. unfold CanonSpec.resid, s_zs, s_ys. cbn. unfold along, s_th, s_dth, r_th0. cbn. split; [|split]; lra.
  - intros j Hj. apply (D_ext (fun t : RFld => ((-2 / 4) + t * / 4)%R)); [intro t; unfold s_zs; cbn in *; field|apply D_affine].
  - intros i Hi. apply (D_ext (fun t : RFld => ((10 / 8) + t * (- (5 / 8)))%R)); [intro t; unfold s_ys; cbn in *; field|apply D_affine].
Qed.
Lemma s_strict : strict s_x s_th s_dth s_zs s_ys.
Proof. intros i Hi E. exfalso. unfold s_ys in E. cbn in E. lra. Qed.
Lemma s_diagonal : forall v, diagonal RFld s_x v.
Proof.
  intros v i j H. unfold cP, csc_entry. cbn [x_P s_x]. destruct j as [|[|j]]; cbn; auto.
  - destruct i as [|i]; [congruence|]. cbn. ring.
Qed.

Example C58_example : exists s dp s0,
  py_session RFld r_big s_x s_gen r_sqrt (/ 1000000)%R (/ 2)%R r_below r_above (qfactor_ref RFld 2) (qsolve_ref RFld 2) (fun _ _ d => d) s_hist = Ok (s, [dp])
  /\ family s_x s_th s_dth s_zs s_ys (fun _ => (/ 4)%R) (fun _ => (- (5 / 8))%R) /\ strict s_x s_th s_dth s_zs s_ys
  /\ (ip 3 dp [0; 1; 0]%R + / 1000000 * (/ 1000000 * (/ 1000000 * / 1000000)) * (nth 0 s0 0 * / 4 + - 1 * nth 1 s0 0 * - (5 / 8)) = / 4)%R.
Proof.
  assert (H57 := C57_gradients_never_break_down RFld r_pos r_big s_x r_th0 ex_order s_gen r_sqrt (/ 1000000)%R (/ 2)%R r_below r_above (qfactor_ref RFld 2) (qsolve_ref RFld 2) (fun _ _ d => d)
    r_ordered s_wf s_layout ex_order_perm s_generate).
  assert (S1 : forall z s, r_sqrt z = Ok s -> nmul s s = z).
  { intros z s. unfold r_sqrt. destruct (Rlt_dec z 0) as [Hz|Hz]; [discriminate|]. intro E. injection E as <-. cbn. apply sqrt_sqrt. cbn in Hz. lra. }
  assert (S2 : forall z e, r_sqrt z = Err e -> e = Arith).
  { intros z e. unfold r_sqrt. destruct (Rlt_dec z 0); [|discriminate]. intro E. injection E as <-. reflexivity. }
  assert (B0 : r_below n0 = false) by (unfold r_below; cbn; destruct (Rlt_dec 0 (- / 1000000)) as [H1|H1]; auto; exfalso; lra).
  cbv zeta in H57. destruct (H57) with (os := s_hist) as (s & outs & E & HO); auto.
  - intros z Hz. unfold r_sqrt, r_pos in *. destruct (Rlt_dec z 0) as [H1|H1]; [exfalso; cbn in *; lra|eauto].
  - apply (qfactor_ref_ok RFld 1 2).
  - apply (qsolve_ref_ok RFld 2).
  - unfold r_pos. cbn. lra.
  - apply s_nz.
  - apply s_hist_ok.
  - apply Forall_forall. intros [[[th sx] sy] dx] _. apply s_convex.
  - clear H57. cbn [expect s_hist] in HO. inversion HO as [|e dp es outs' H1 H2 E1 E2]; subst. inversion H2; subst.
    pose proof (C58_gradients_are_derivatives r_big s_x r_th0 ex_order s_gen r_sqrt (/ 1000000)%R r_below r_above (qfactor_ref RFld 2) (qsolve_ref RFld 2) (fun _ _ d => d)
      s_wf s_layout ex_order_perm s_generate S1 S2 (qfactor_ref_ok RFld 1 2) (qsolve_ref_ok RFld 2) B0 ltac:(lra) s_nz s_hist s [dp] s_hist_ok E) as H.
    cbn [expect s_hist] in H. inversion H as [|e' dp' es' outs' H3 H4 E3 E4]; subst. cbv zeta in H3. cbn [derivative_of] in H3.
    destruct (proj2 H3 s_dth s_zs s_ys (fun _ => (/ 4)%R) (fun _ => (- (5 / 8))%R)) as (s0 & _ & HD).
    + apply s_diagonal.
    + apply s_diagonal.
    + apply s_family.
    + apply s_strict.
    + intros j Hj. cbn in Hj. replace j with 0 by lia. unfold s_zs. cbn. field.
    + intros j Hj. cbn in Hj. replace j with 0 by lia. unfold s_ys. cbn. field.
    + intros j Hj. cbn in Hj. replace j with 0 by lia. cbn [nth]. unfold r_below, r_above. split; [intros _; cbn; lra|]. intros _. right.
      destruct (Rlt_dec (/ 1000000) (5 / 4)) as [H5|H5]; auto. exfalso. apply H5. lra.
    + exists s, dp, s0. split; [exact E|]. split; [apply s_family|]. split; [apply s_strict|].
      assert (HD2 : D (fun t : RFld => rsum (map (fun j => nmul (nth j (writes (F := RFld) 1 [(0, 1%R)]) n0) (s_zs t j)) (seq 0 1))) (/ 4)%R).
      { apply (D_ext (fun t : RFld => ((-2 / 4) + t * / 4)%R)); [intro t; unfold s_zs; cbn in *; field|apply D_affine]. }
      pose proof (uniqueness_limite _ _ _ _ HD HD2) as EU. etransitivity; [|exact EU]. cbn. ring.
Qed.
Print Assumptions C58_example.

(** ** Where the statement stops.  An equality whose dual is 0 is treated as absent: minimise
    (7/8) z^2 + 2 b z subject to a z = b at a = -7/8, b = 1 has z = -8/7 with dual 0.  The solution
    z = b / a changes with a at the rate -64/49, the gradient with respect to a is 0 whatever
    eps is. *)
Definition zd_hist : list (pyop QcFld) := [qup (qd (-7) 8) [qd (-8) 7] [qz 0]; qgr (qz 1) None].
Definition zd_th : pvals QcFld := set_vals q_th0 [("a", 0, qd (-7) 8)].
Definition zd_v : list QcFld := flat (x_params (q_x 1 0)) zd_th.
Definition zd_delta : list QcFld := [qz 1; qz 0; qz 0].
Theorem C58_zero_dual_refuted :
  let x := q_x 1 0 in
  q_hyps x /\ Forall (py_ok QcFld x (q_gen x) q_below) zd_hist
  /\ expect 1 q_th0 [qz 0] [qz 0] zd_hist = [(zd_th, [qd (-8) 7], [qz 0], [qz 1])]
  /\ nadd (nadd (nmul (fullP QcFld x zd_v 0 0) (qd (-8) 7)) (cq x zd_v 0)) (nmul (cA x zd_v 0 0) (qz 0)) = n0
  /\ CanonSpec.resid x zd_v (fun _ => qd (-8) 7) 0 = n0
  /\ diagonal QcFld x zd_v /\ diagonal QcFld x zd_delta
  /\ moves QcFld x (fun _ => true) zd_v zd_delta [qd (-8) 7] [qz 0] (fun _ => qd (-64) 49) (fun _ => qd 128 49)
  /\ (forall eps half dp, grad_of QcFld x half q_below q_above eps (zd_th, [qd (-8) 7], [qz 0], [qz 1]) dp -> ip 3 dp zd_delta = n0)
  /\ show (q_py x zd_hist) = Ok ([0%Z], [[0; -8425 # 8192; 0]%Q]).
Proof.
  cbv zeta. split; [apply q_hyps_ok; q_in|]. split; [unfold zd_hist; q_all|]. split; [reflexivity|].
  split; [apply Qc_is_canon; vm_compute; reflexivity|]. split; [apply Qc_is_canon; vm_compute; reflexivity|].
  assert (DG : forall v, diagonal QcFld (q_x 1 0) v).
  { intros v i j H. unfold cP, csc_entry. cbn [x_P q_x q_prob]. destruct j as [|[|j]]; cbn; auto. destruct i as [|i]; [congruence|]. cbn. apply Qcplus_0_l. }
  split; [apply DG|]. split; [apply DG|].
  split; [|split].
  - constructor.
    + intros j Hj. cbn in Hj. replace j with 0 by lia. apply Qc_is_canon. vm_compute. reflexivity.
    + intros i Hi _. cbn in Hi. replace i with 0 by lia. apply Qc_is_canon. vm_compute. reflexivity.
    + discriminate.
  - intros eps half dp (_ & r & _ & H). specialize (H zd_delta). change (length (flat (x_params (q_x 1 0)) zd_th)) with 3 in H. rewrite H; [|reflexivity].
    unfold data_slope, d_q, d_bound, d_P, d_A, active_at, binds. cbn [x_n x_neq x_nineq q_x q_prob seq map Nat.add].
    replace (q_below (nth 0 [qz 0] n0) || q_above (nth 0 [qz 0] n0)) with false by reflexivity.
    replace (cq (q_prob 0 (-1) 1 1 0) zd_delta 0) with (@n0 QcFld) by (apply Qc_is_canon; vm_compute; reflexivity).
    replace (cP (q_prob 0 (-1) 1 1 0) zd_delta 0 0) with (@n0 QcFld) by (apply Qc_is_canon; vm_compute; reflexivity).
    unfold rsum. cbn. replace (qz 0) with (Q2Qc 0) by (apply Qc_is_canon; reflexivity). generalize (nth 0 r (Q2Qc 0)) half (qz 2) (qz 1) (qd (-8) 7) (qd 7 4) (qz (-1)). cbn. intros. ring.
  - vm_compute. reflexivity.
Qed.
Print Assumptions C58_zero_dual_refuted.

(** Products of different variables: minimise z0^2 + z0 z1 + z1^2 + 2 b z0 subject to z0 + z1 = a
    (a = 4, b = 1, eps = 10^-6).  Both entries of the solution change with a at the rate 1/2; the
    gradient of z0 with respect to a is not within 1/10 of that, because the refinement uses the
    stored triangle of P as if it were the whole matrix. *)
Definition od_x : cvx QcFld :=
  mkCvx QcFld [("a", 1); ("b", 1)] [qz 4; qz 1; qz 1] 2 1 0
        (Some ([[(2, qz 2)]; [(2, qz 1)]; [(2, qz 2)]], [0; 0; 1], [0; 1; 3]))
        [[(1, qz 2)]; []; []]
        [[(2, qz 1)]; [(2, qz 1)]; [(0, qz (-1))]] [0; 0; 0] [0; 1; 2; 3] false.
Definition od_hist : list (pyop QcFld) := [PSolve (F := QcFld) [] [qz 1; qz 3] [qz (-7)]; PGrad (F := QcFld) [(0, qz 1)] None].
Definition od_v : list QcFld := flat (x_params od_x) q_th0.
Definition od_py : res (sst QcFld * list (list QcFld)) :=
  py_session QcFld q_big od_x (q_gen od_x) qsqrt (qd 1 1000000) q_half q_below q_above (qfactor_ref QcFld 3) (qsolve_ref QcFld 3) q_scr od_hist.
Lemma od_wf : wf_cvx od_x q_th0.
Proof.
  constructor.
  - repeat constructor; simpl; intuition discriminate.
  - reflexivity.
  - split; [reflexivity|]. split; [reflexivity|]. split; [reflexivity|].
    intros c Hc. simpl in Hc. destruct c as [|[|[|]]]; simpl; lia.
  - reflexivity.
  - intros i Hi. simpl in *. lia.
  - simpl. repeat constructor; simpl; intuition lia.
  - intros r c w H1 H2. simpl in H1. fin; simpl in H2; fin.
  - reflexivity.
  - intros r c w H1 H2. simpl in H1. fin; simpl in H2; fin.
  - intros rows idx ip E. simpl in E. inversion E; subst.
    split; [|split; [reflexivity|]].
    + split; [reflexivity|]. split; [reflexivity|]. split; [reflexivity|].
      intros c Hc. simpl in Hc. destruct c as [|[|]]; simpl; lia.
    + intros r c w H1 H2. simpl in H1. fin; simpl in H2; fin.
Qed.
Theorem C58_products_refuted :
  wf_cvx od_x q_th0 /\ layout od_x /\ Forall (py_ok QcFld od_x (q_gen od_x) q_below) od_hist
  /\ (forall j, j < 2 -> nadd (nadd (rsum (map (fun k => nmul (fullP QcFld od_x od_v j k) (nth k [qz 1; qz 3] n0)) (seq 0 2))) (cq od_x od_v j)) (nmul (cA od_x od_v 0 j) (qz (-7))) = n0)
  /\ CanonSpec.resid od_x od_v (fun k => nth k [qz 1; qz 3] n0) 0 = n0
  /\ moves QcFld od_x (active_at QcFld q_below q_above [qz (-7)]) od_v [qz 1; qz 0; qz 0] [qz 1; qz 3] [qz (-7)] (fun _ => qd 1 2) (fun _ => qd (-3) 2)
  /\ exists s a b, od_py = Ok (s, [[a; b; n0]]) /\ (1 # 10 < this a - (1 # 2))%Q.
Proof.
  split; [apply od_wf|]. split.
  { constructor.
    - intros j Hj. simpl in Hj. destruct j as [|[|]]; [| |lia]; apply lt_list_ok; reflexivity.
    - do 3 eexists. split; [reflexivity|]. intros j Hj. simpl in Hj. destruct j as [|[|]]; [| |lia]; (split; [apply lt_list_ok; reflexivity|]); intros i Hi; simpl in Hi; lia. }
  split.
  { unfold od_hist. repeat apply Forall_cons; try apply Forall_nil.
    - split; [constructor|]. split; [reflexivity|]. split; [reflexivity|]. intros i Hi. exfalso. cbn in Hi. lia.
    - split; [|exact I]. repeat constructor. }
  split; [intros j Hj; destruct j as [|[|]]; [| |lia]; apply Qc_is_canon; vm_compute; reflexivity|].
  split; [apply Qc_is_canon; vm_compute; reflexivity|]. split.
  - constructor.
    + intros j Hj. cbn in Hj. destruct j as [|[|]]; [| |lia]; apply Qc_is_canon; vm_compute; reflexivity.
    + intros i Hi _. cbn in Hi. replace i with 0 by lia. apply Qc_is_canon; vm_compute; reflexivity.
    + intros i Hi H. exfalso. cbn in Hi. replace i with 0 in H by lia. vm_compute in H. discriminate.
  - assert (E : match od_py with
        | Ok (_, [[a; b; c]]) => (Qle_bool (this a - (1 # 2)) (1 # 10), Qeq_bool (this c) 0)
        | _ => (true, false)
        end = (false, true)) by (vm_compute; reflexivity).
    destruct od_py as [[s outs]|]; [|discriminate]. destruct outs as [|[|a [|b [|c [|]]]] [|]]; try discriminate. injection E as E1 E2.
    apply Qeq_bool_eq in E2. exists s, a, b. split.
    + assert (c = n0) as -> by (apply Qc_is_canon; exact E2). reflexivity.
    + apply Qnot_le_lt. intro H. apply Qle_bool_iff in H. congruence.
Qed.
Print Assumptions C58_products_refuted.
