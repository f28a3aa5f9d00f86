(** Two-stage canonicalization: C24, C25, C54. *)

From Coq Require Import String Arith Bool Lia List Permutation ZArith Ring.
From Verif Require Import Base Pus Machine PusParse PusCheck PusLift Runtime RuntimeSpec RuntimeProofs
     RuntimeMore Canon CanonSpec CanonMain CanonGen CanonMore Info Examples Merge MergeProofs.
Import ListNotations.
Open Scope string_scope.
Open Scope list_scope.

(** Two stages that fit together: both are well formed, the first is for OSQP, and the
    parameters of the second are the blocks [ps] of the first.  [stage1 g1 ps v] is the
    first stage's data at parameter vector [v], followed by 1. *)
Record stages {K : Ring} (g1 g2 : genc K) (th1 th2 : pvals K) (ps : list pid) : Prop :=
  { st_osqp : g_solver g1 = OSQP;
    st_1 : wf_gen g1 th1;
    st_flags : flags_ok g1;
    st_2 : wf_gen g2 th2;
    st_ps : incl ps (solver_pids OSQP);
    st_nd : NoDup ps;
    st_lay : layout g1 g2 ps }.

(** No user parameter enters a block of the first stage that the second stage does not
    take as a parameter. *)
Definition within {K : Ring} (g1 : genc K) (ps : list pid) : Prop :=
  forall n p, In n (map fst (g_params g1)) -> In p (g_outd g1 n) -> In p ps.

(** ** C24 *)

(** The merged maps are the second-stage maps after the first-stage maps. *)
Theorem C24_maps_compose :
  forall (K : Ring) (g1 g2 : genc K) th1 th2 ps, stages g1 g2 th1 th2 ps -> within g1 ps ->
  exists m, merge [] g1 g2 = Ok m
    /\ forall p th, map (dot (flat (g_params m) th)) (g_rows m p)
                    = map (dot (stage1 g1 ps (flat (g_params g1) th))) (g_rows g2 p).
Proof.
  intros K g1 g2 th1 th2 ps [S1 W1 F1 W2 Hps Hnd Hl] Hw.
  destruct (merge_ok K g1 g2 th1 th2 ps S1 W1 F1 W2 Hps Hnd Hl Hw)
    as (m & E & _ & _ & Ep & _ & _ & _ & _ & _ & _ & H).
  exists m. split; auto. intros p th. rewrite Ep. destruct (H p) as (_ & H2 & _). apply H2.
  rewrite (w_vec0 _ _ _ W1). rewrite (flat_length K _ th1 th). apply flat_last.
Qed.
Print Assumptions C24_maps_compose.

(** If every entry in a parameter's columns is covered by its list in both stages, the
    same holds after merging. *)
Theorem C24_dependencies_sound :
  forall (K : Ring) (g1 g2 : genc K) th1 th2 ps, stages g1 g2 th1 th2 ps -> within g1 ps ->
  deps_sound g1 -> deps_sound g2 ->
  exists m, merge [] g1 g2 = Ok m /\ deps_sound m.
Proof.
  intros K g1 g2 th1 th2 ps [S1 W1 F1 W2 Hps Hnd Hl] Hw D1 D2.
  destruct (merge_ok K g1 g2 th1 th2 ps S1 W1 F1 W2 Hps Hnd Hl Hw) as (m & E & _).
  exists m. split; auto.
  exact (merged_sound K g1 g2 th1 th2 ps S1 W1 F1 W2 Hps Hnd Hl D1 D2 Hw m E).
Qed.
Print Assumptions C24_dependencies_sound.

(** Hence at run time: every solve of every history of updates gets the second-stage data
    of the first-stage data of the current parameter values. *)
Theorem C24_solves_use_current_data :
  forall (K : Ring) (g1 g2 : genc K) th1 th2 ps, stages g1 g2 th1 th2 ps -> within g1 ps ->
  forall scr os,
  (g_solver g2 = ECOS -> forall p, In p (owned ECOS) -> length (g_rows g2 p) <> 1) ->
  (keeps (g_solver g2) = true -> forall n p d, scr n p d = d) ->
  Forall (valid_op (g_params g1)) os ->
  exists m s', merge [] g1 g2 = Ok m /\ steps m scr (init_state m) os = Ok s'
    /\ Forall2 (fun e th => forall p, In p (owned (g_solver g2)) ->
         e_data e p = if chg_get (g_chg g2) p
                      then map (dot (stage1 g1 ps (flat (g_params g1) th))) (g_rows g2 p)
                           ++ skipn (length (g_rows g2 p)) (g_baked g2 p)
                      else g_baked g2 p)
         (r_log s') (solve_vals th1 os).
Proof.
  intros K g1 g2 th1 th2 ps [S1 W1 F1 W2 Hps Hnd Hl] Hw scr os He Hk Hv.
  destruct (merge_ok K g1 g2 th1 th2 ps S1 W1 F1 W2 Hps Hnd Hl Hw)
    as (m & E & Wm & Es & Ep & _ & Ec & Eb & _ & _ & _ & H).
  destruct (run_ok K m th1 Wm scr) with (os := os) as (s' & log & E1 & <- & E3).
  - rewrite Es. intros X p Hp. destruct (H p) as (-> & _). auto.
  - rewrite Es. exact Hk.
  - rewrite Ep. exact Hv.
  - exists m, s'. split; auto. split; auto. eapply Forall2_impl; [|exact E3].
    intros e th [He1 _] p Hp. rewrite <- Es in Hp. rewrite (He1 p Hp). unfold canon_spec.
    destruct (H p) as (L & H2 & _). rewrite Ec, Eb, Ep, L.
    destruct (chg_get (g_chg g2) p); [|reflexivity]. f_equal. apply H2.
    rewrite (w_vec0 _ _ _ W1). rewrite (flat_length K _ th1 th). apply flat_last.
Qed.
Print Assumptions C24_solves_use_current_data.

(** Stages produced by the generator qualify: CVXPY's second problem [x2] has the
    parameters of the OSQP problem built from the first, in any order, and no entry of A is
    zero at the values used during generation. *)
Theorem C24_generated_stages :
  forall (K : Ring) (big : K) (x1 x2 : cvx K) th1 th2, wf_cvx x1 th1 -> wf_cvx x2 th2 ->
  forall s order, (forall l, Permutation l (order l)) ->
  exists g1 g2, generate big x1 OSQP order = Ok g1 /\ generate big x2 s order = Ok g2
    /\ (Permutation (osqp_params g1) (x_params x2) -> Forall (fun v => v <> n0) (g_baked g1 pA) ->
        exists ps, Permutation [pq; pA; pl; pu] ps /\ stages g1 g2 th1 th2 ps
                   /\ deps_sound g1 /\ deps_sound g2).
Proof.
  intros K big x1 x2 th1 th2 X1 X2 s order Hord.
  destruct (generate_wf K big x1 th1 X1 OSQP order Hord) as (g1 & E1 & W1 & S1).
  destruct (generate_wf K big x2 th2 X2 s order Hord) as (g2 & E2 & W2 & S2).
  exists g1, g2. split; auto. split; auto. intros Hp Hz.
  destruct (gen_rows K big x2 s order g2 E2) as (_ & _ & _ & _ & Eps & _).
  rewrite <- Eps in Hp.
  destruct (osqp_layout K big x1 order g1 E1 g2 Hp Hz) as (ps & P1 & P2).
  exists ps. split; auto. split; [|split; [exact (gen_sound K big x1 th1 X1 OSQP order g1 E1)|exact (gen_sound K big x2 th2 X2 s order g2 E2)]].
  constructor; auto.
  - exact (gen_flags K big x1 OSQP order g1 E1).
  - intros p Hin. apply (Permutation_in _ (Permutation_sym P1)) in Hin. simpl in *. tauto.
  - apply (Permutation_NoDup P1). repeat constructor; simpl; intuition discriminate.
Qed.
Print Assumptions C24_generated_stages.

(** Concrete stages.  First: the problem of Examples.v with objective
    x0^2 + x1^2 + q x0 + x1 + offset, for OSQP.  Second: that QP with parameters osqp_q (2),
    osqp_A (4 entries), osqp_l (2), osqp_u (4), canonicalized for SCS:
    rows 0,1: A[:2] y >= l, rows 2-5: u - A y >= 0. *)
Definition x_first (p0 : Z) (offset : row ZRing) : cvx ZRing :=
  mkCvx ZRing ex_params [p0; 4; 5; 1]%Z 2 2 2
        (Some ([[(3, 2%Z)]; [(3, 2%Z)]], [0; 1], [0; 1; 2]))
        [[(2, 1%Z)]; [(3, 1%Z)]; offset]
        [[(3, 1%Z)]; [(0, 1%Z)]; [(3, 2%Z)]; [(3, 1%Z)]; [(2, 1%Z)]; [(1, 1%Z)]]
        [0; 2; 1; 3; 0; 3] [0; 2; 4; 6] false.
Definition x_second_params : list (string * nat) :=
  [("osqp_q", 2); ("osqp_A", 4); ("osqp_l", 2); ("osqp_u", 4)].
Definition x_second : cvx ZRing :=
  mkCvx ZRing x_second_params
        [7; 7; 7; 7; 7; 7; 7; 7; 7; 7; 7; 7; 1]%Z 2 6 0
        (Some ([[(12, 2%Z)]; [(12, 2%Z)]], [0; 1], [0; 1; 2]))
        [[(0, 1%Z)]; [(1, 1%Z)]; []]
        [[(2, 1%Z)]; [(2, (-1)%Z)]; [(3, (-1)%Z)]; [(4, 1%Z)]; [(4, (-1)%Z)]; [(5, (-1)%Z)];
         [(6, (-1)%Z)]; [(7, (-1)%Z)]; [(8, 1%Z)]; [(9, 1%Z)]; [(10, 1%Z)]; [(11, 1%Z)]]
        [0; 2; 4; 1; 3; 5; 0; 1; 2; 3; 4; 5] [0; 3; 6; 12] false.
Definition th_first (p0 : Z) : pvals ZRing :=
  fun n i => if String.eqb n "p" then (match i with 0 => p0 | _ => 4%Z end) else 5%Z.
Definition th_second : pvals ZRing := fun _ _ => 7%Z.

Definition dummy (s : solver) : genc ZRing :=
  mkG ZRing s [] [] (fun _ => []) (fun _ => None) (fun _ => []) (fun _ => []) false false UNil.
Definition get {A} (d : A) (r : res A) : A := match r with Ok a => a | Err _ => d end.
Lemma ok_inj : forall A (a b : A), Ok a = Ok b -> a = b.
Proof. congruence. Qed.
Lemma get_ok : forall A (d : A) r, on_ok r (fun _ => true) = true -> r = Ok (get d r).
Proof. intros A d [a|e] H; [reflexivity|discriminate]. Qed.
Definition g_first p0 offset := get (dummy OSQP) (generate (K := ZRing) ex_big (x_first p0 offset) OSQP ex_order).
Definition g_second := get (dummy (SCS false)) (generate (K := ZRing) ex_big x_second (SCS false) ex_order).

Lemma wf_first : forall p0 offset, (forall c w, In (c, w) offset -> c < 4) -> wf_cvx (x_first p0 offset) (th_first p0).
Proof.
  intros p0 offset Ho. constructor.
  - repeat constructor; simpl; intuition discriminate.
  - reflexivity.
  - split; [reflexivity|]. split; [reflexivity|]. split; [reflexivity|].
    intros c Hc. simpl in Hc. destruct c as [|[|[|]]]; simpl; lia.
  - reflexivity.
  - intros i Hi. simpl in *. lia.
  - simpl. repeat constructor; simpl; intuition lia.
  - intros r c w H1 H2. simpl in H1. fin; simpl in H2; fin.
  - reflexivity.
  - intros r c w H1 H2. simpl in H1. destruct H1 as [<-|[<-|[<-|[]]]]; simpl in *; fin. eauto.
  - intros rows idx ip E. simpl in E. inversion E; subst.
    split; [|split; [reflexivity|]].
    + split; [reflexivity|]. split; [reflexivity|]. split; [reflexivity|].
      intros c Hc. simpl in Hc. destruct c as [|[|]]; simpl; lia.
    + intros r c w H1 H2. simpl in H1. fin; simpl in H2; fin.
Qed.

Lemma wf_second : wf_cvx x_second th_second.
Proof.
  constructor.
  - repeat constructor; simpl; intuition discriminate.
  - reflexivity.
  - split; [reflexivity|]. split; [reflexivity|]. split; [reflexivity|].
    intros c Hc. simpl in Hc. destruct c as [|[|[|]]]; simpl; lia.
  - reflexivity.
  - intros i Hi. simpl in *. lia.
  - simpl. repeat constructor; simpl; intuition lia.
  - intros r c w H1 H2. simpl in H1. fin; simpl in H2; fin.
  - reflexivity.
  - intros r c w H1 H2. simpl in H1. fin; simpl in H2; fin.
  - intros rows idx ip E. simpl in E. inversion E; subst.
    split; [|split; [reflexivity|]].
    + split; [reflexivity|]. split; [reflexivity|]. split; [reflexivity|].
      intros c Hc. simpl in Hc. destruct c as [|[|]]; simpl; lia.
    + intros r c w H1 H2. simpl in H1. fin; simpl in H2; fin.
Qed.

Lemma gen_first : forall p0 offset, (forall c w, In (c, w) offset -> c < 4) ->
  generate (K := ZRing) ex_big (x_first p0 offset) OSQP ex_order = Ok (g_first p0 offset).
Proof.
  intros p0 offset Ho. unfold g_first.
  destruct (generate_wf ZRing ex_big _ _ (wf_first p0 offset Ho) OSQP ex_order ex_order_perm) as (g & E & _).
  rewrite E. reflexivity.
Qed.
Lemma gen_second : generate (K := ZRing) ex_big x_second (SCS false) ex_order = Ok g_second.
Proof.
  unfold g_second.
  destruct (generate_wf ZRing ex_big _ _ wf_second (SCS false) ex_order ex_order_perm) as (g & E & _).
  rewrite E. reflexivity.
Qed.

Lemma ex_stages : forall offset, (forall c w, In (c, w) offset -> c < 4) ->
  exists ps, Permutation [pq; pA; pl; pu] ps /\ stages (g_first 3 offset) g_second (th_first 3) th_second ps
             /\ deps_sound (g_first 3 offset) /\ deps_sound g_second.
Proof.
  intros offset Ho.
  destruct (C24_generated_stages ZRing ex_big _ _ _ _ (wf_first 3 offset Ho) wf_second (SCS false) ex_order ex_order_perm)
    as (g1 & g2 & E1 & E2 & H).
  rewrite (gen_first 3 offset Ho) in E1. apply ok_inj in E1. rewrite gen_second in E2. apply ok_inj in E2.
  rewrite E1, E2. apply H; rewrite <- E1.
  - vm_compute. apply Permutation_refl.
  - vm_compute. repeat (apply Forall_cons; [discriminate|]). apply Forall_nil.
Qed.

(** All hypotheses hold for these stages; changing q and p[0] between solves changes the
    SCS data accordingly (A, b). *)
Example C24_example :
  (exists ps, stages (g_first 3 []) g_second (th_first 3) th_second ps /\ within (g_first 3 []) ps
              /\ deps_sound (g_first 3 []) /\ deps_sound g_second)
  /\ match merge [] (g_first 3 []) g_second with
     | Ok m => match steps m (fun _ _ d => d) (init_state m) [OSolve; zupd "q" 0 (-2)%Z; zupd "p" 0 9%Z; OSolve] with
               | Ok s => map (fun e => (e_data e pc, e_data e pA, e_data e pb)) (r_log s)
               | Err _ => [] end
     | Err _ => [] end
     = [([5; 1], [-1; 1; -3; -2; 2; -1], [5; 0; -5; 0; 0; 4]);
        ([-2; 1], [-1; 1; -9; -2; 2; -1], [-2; 0; 2; 0; 0; 4])]%Z.
Proof.
  split.
  - destruct (ex_stages []) as (ps & P & S & D1 & D2); [intros ? ? []|].
    exists ps. split; auto. split; auto.
    assert (E0 : map fst (g_params (g_first 3 [])) = ["p"; "q"]) by (vm_compute; reflexivity).
    assert (E1 : g_outd (g_first 3 []) "p" = [pA; pu]) by (vm_compute; reflexivity).
    assert (E2 : g_outd (g_first 3 []) "q" = [pq; pl; pu]) by (vm_compute; reflexivity).
    intros n p Hn Hp. apply (Permutation_in _ P). rewrite E0 in Hn.
    destruct Hn as [<-|[<-|[]]]; [rewrite E1 in Hp|rewrite E2 in Hp]; cbn [In] in *; tauto.
  - vm_compute. reflexivity.
Qed.

(** ** C25 *)

(** A parameter that enters the objective offset makes the merge fail. *)
Theorem C25_parameter_in_offset_fails :
  forall (K : Ring) (g1 g2 : genc K) th1 th2 ps, stages g1 g2 th1 th2 ps -> ~ In pd ps ->
  forall n, In n (map fst (g_params g1)) -> In pd (g_outd g1 n) ->
  merge [] g1 g2 = Err KeyError.
Proof.
  intros K g1 g2 th1 th2 ps [S1 W1 F1 W2 Hps Hnd Hl] Hd n Hn Hp.
  exact (merge_fails K g1 g2 th2 ps S1 W2 Hps Hl n pd Hn Hp Hd).
Qed.
Print Assumptions C25_parameter_in_offset_fails.

(** Otherwise merging succeeds.  The OSQP problem has no offset, so the second stage's is
    zero.  The value reported for solver objective [so] is then the user's objective
    [so + d] (negated for maximisation) exactly when the first stage's offset d is zero. *)
Theorem C25_reported_objective :
  forall (K : Ring) (g1 g2 : genc K) th1 th2 ps, stages g1 g2 th1 th2 ps -> within g1 ps ->
  chg_get (g_chg g2) pd = false -> g_baked g2 pd = [n0] ->
  forall scr os,
  (g_solver g2 = ECOS -> forall p, In p (owned ECOS) -> length (g_rows g2 p) <> 1) ->
  (keeps (g_solver g2) = true -> forall n p d, scr n p d = d) ->
  Forall (valid_op (g_params g1)) os ->
  exists m s', merge [] g1 g2 = Ok m /\ steps m scr (init_state m) os = Ok s'
    /\ Forall2 (fun e th =>
         let d := nth 0 (map (dot (flat (g_params g1) th)) (g_rows g1 pd)) n0 in
         forall so, retrieve_obj m e so = (if g_max g1 then ropp (nadd so d) else nadd so d) <-> d = n0)
         (r_log s') (solve_vals th1 os).
Proof.
  intros K g1 g2 th1 th2 ps [S1 W1 F1 W2 Hps Hnd Hl] Hw Hc0 Hb0 scr os He Hk Hv.
  destruct (merge_ok K g1 g2 th1 th2 ps S1 W1 F1 W2 Hps Hnd Hl Hw)
    as (m & E & Wm & Es & Ep & _ & Ec & Eb & _ & Em & _ & H).
  destruct (run_ok K m th1 Wm scr) with (os := os) as (s' & log & E1 & <- & E3).
  - rewrite Es. intros X p Hp. destruct (H p) as (-> & _). auto.
  - rewrite Es. exact Hk.
  - rewrite Ep. exact Hv.
  - exists m, s'. split; auto. split; auto. eapply Forall2_impl; [|exact E3].
    intros e th [_ Hd] d so. unfold retrieve_obj. rewrite Hd. unfold canon_spec.
    rewrite Ec, Hc0, Eb, Hb0, Em. simpl nth.
    assert (A1 : forall a b : K, nadd a n0 = nadd a b <-> b = n0).
    { intros a b. destruct (rth K) as [Hz Hcm Has _ _ _ _ Hsub Hopp].
      split; [|intros ->; reflexivity]. intro X.
      assert (nadd (ropp a) (nadd a n0) = nadd (ropp a) (nadd a b)) as Y by (rewrite X; reflexivity).
      rewrite !Has in Y. rewrite (Hcm (ropp a) a), Hopp, !Hz in Y. auto. }
    assert (A0 : forall a : K, nadd a n0 = a).
    { intro a. destruct (rth K) as [Hz Hcm _ _ _ _ _ _ _]. rewrite Hcm. apply Hz. }
    assert (A2 : forall a b : K, ropp a = ropp b <-> a = b).
    { intros a b. split; [|intros ->; reflexivity]. intro X.
      destruct (rth K) as [Hz Hcm Has _ _ _ _ Hsub Hopp].
      assert (nadd (nadd a (ropp a)) b = a).
      { rewrite X. rewrite <- Has, (Hcm (ropp b) b), Hopp. apply A0. }
      rewrite Hopp, Hz in H0. auto. }
    destruct (g_nonzero_d m), (g_max g1); rewrite ?A2, ?A1; try tauto;
      rewrite <- (A0 so) at 1; apply A1.
Qed.
Print Assumptions C25_reported_objective.

Lemma offset_cols : forall c w, In (c, w) [(3, 10%Z)] -> c < 4.
Proof. intros c w [H|[]]. inversion H. lia. Qed.
Lemma offset_cols2 : forall c w, In (c, w) [(2, 2%Z)] -> c < 4.
Proof. intros c w [H|[]]. inversion H. lia. Qed.

(** Constant offset 10: generation succeeds and reports 0 where the objective is 10. *)
Definition g_off : genc ZRing := g_first 3 [(3, 10%Z)].
Definition m_off : genc ZRing := get (dummy (SCS false)) (merge [] g_off g_second).
Definition s_off := get (init_state m_off) (steps m_off (fun _ _ d => d) (init_state m_off) [OSolve]).
Lemma m_off_ok : merge [] g_off g_second = Ok m_off.
Proof. exact (get_ok _ (dummy (SCS false)) (merge [] g_off g_second) ltac:(vm_compute; reflexivity)). Qed.
Lemma s_off_ok : steps m_off (fun _ _ d => d) (init_state m_off) [OSolve] = Ok s_off.
Proof.
  exact (get_ok _ (init_state m_off) (steps m_off (fun _ _ d => d) (init_state m_off) [OSolve])
                ltac:(vm_compute; reflexivity)).
Qed.
Lemma g_off_within : forall n p, In n (map fst (g_params g_off)) -> In p (g_outd g_off n) -> In p [pq; pA; pl; pu].
Proof.
  assert (E0 : map fst (g_params g_off) = ["p"; "q"]) by (vm_compute; reflexivity).
  assert (E1 : g_outd g_off "p" = [pA; pu]) by (vm_compute; reflexivity).
  assert (E2 : g_outd g_off "q" = [pq; pl; pu]) by (vm_compute; reflexivity).
  intros n p Hn Hp. rewrite E0 in Hn.
  destruct Hn as [<-|[<-|[]]]; [rewrite E1 in Hp|rewrite E2 in Hp]; cbn [In] in *; tauto.
Qed.

Theorem C25_constant_offset_refuted :
  exists (g1 g2 : genc ZRing) th1 th2 ps m s,
    stages g1 g2 th1 th2 ps /\ within g1 ps /\ merge [] g1 g2 = Ok m
    /\ map (dot (flat (g_params g1) th1)) (g_rows g1 pd) = [10%Z] /\ g_max g1 = false
    /\ steps m (fun _ _ d => d) (init_state m) [OSolve] = Ok s
    /\ map (fun e => retrieve_obj m e 0%Z) (r_log s) = [0%Z].
Proof.
  destruct (ex_stages [(3, 10%Z)] offset_cols) as (ps & P & S & _).
  exists g_off, g_second, (th_first 3), th_second, ps, m_off, s_off.
  split; [exact S|]. split; [intros n p Hn Hp; exact (Permutation_in _ P (g_off_within n p Hn Hp))|].
  split; [exact m_off_ok|]. split; [vm_compute; reflexivity|]. split; [vm_compute; reflexivity|].
  split; [exact s_off_ok|]. vm_compute. reflexivity.
Qed.
Print Assumptions C25_constant_offset_refuted.

(** Offset 2 q: the stages fit, but merging raises KeyError. *)
Theorem C25_parameter_offset_refuted :
  exists (g1 g2 : genc ZRing) th1 th2 ps,
    stages g1 g2 th1 th2 ps /\ Permutation [pq; pA; pl; pu] ps
    /\ g_outd g1 "q" = [pq; pd; pl; pu] /\ merge [] g1 g2 = Err KeyError.
Proof.
  destruct (ex_stages [(2, 2%Z)] offset_cols2) as (ps & P & S & _).
  exists (g_first 3 [(2, 2%Z)]), g_second, (th_first 3), th_second, ps.
  split; [exact S|]. split; [exact P|]. split; vm_compute; reflexivity.
Qed.
Print Assumptions C25_parameter_offset_refuted.

(** ** C54 *)

(** For a first stage from the generator and any second stage whose parameters are those of
    the OSQP problem: merging succeeds exactly when no entry of A is zero at the parameter
    values used during generation and no parameter enters a block other than q, A, l, u.
    A zero entry gives ValueError whatever the rest. *)
Theorem C54_two_stage_succeeds_iff :
  forall (K : Ring) (big : K) (x1 : cvx K) th1, wf_cvx x1 th1 ->
  forall order g1, (forall l, Permutation l (order l)) -> generate big x1 OSQP order = Ok g1 ->
  forall (g2 : genc K) th2, wf_gen g2 th2 -> Permutation (osqp_params g1) (g_params g2) ->
  ((exists m, merge [] g1 g2 = Ok m)
   <-> Forall (fun v => v <> n0) (g_baked g1 pA) /\ within g1 [pq; pA; pl; pu])
  /\ (Exists (fun v => v = n0) (g_baked g1 pA) -> merge [] g1 g2 = Err ValueError).
Proof.
  intros K big x1 th1 X1 order g1 Hord E1 g2 th2 W2 Hp.
  destruct (generate_wf K big x1 th1 X1 OSQP order Hord) as (g1' & E1' & W1 & S1).
  rewrite E1 in E1'. injection E1' as <-.
  pose proof (zero_entry_fails K big x1 order g1 E1 g2 th2 W2 Hp) as Hz.
  split; [|exact Hz].
  assert (D : Forall (fun v : K => v <> n0) (g_baked g1 pA) \/ Exists (fun v : K => v = n0) (g_baked g1 pA)).
  { generalize (g_baked g1 pA) as l0. induction l0 as [|a l IH]; [left; constructor|].
    destruct (rz a) eqn:Ea.
    - right. left. apply rz_spec. exact Ea.
    - destruct IH as [IH|IH]; [left; constructor; auto|right; right; auto].
      intro X. apply rz_spec in X. congruence. }
  destruct D as [D|D].
  - destruct (osqp_layout K big x1 order g1 E1 g2 Hp D) as (ps & P1 & P2).
    assert (Hps : incl ps (solver_pids OSQP)).
    { intros p Hin. apply (Permutation_in _ (Permutation_sym P1)) in Hin. simpl in *. tauto. }
    assert (Hnd : NoDup ps).
    { apply (Permutation_NoDup P1). repeat constructor; simpl; intuition discriminate. }
    split.
    + intros (m & Em). split; auto. intros n p Hn Hin.
      destruct (in_dec pid_eq_dec p ps) as [I|I]; [exact (Permutation_in _ (Permutation_sym P1) I)|].
      rewrite (merge_fails K g1 g2 th2 ps S1 W2 Hps P2 n p Hn Hin I) in Em. discriminate.
    + intros [_ Hw].
      destruct (merge_ok K g1 g2 th1 th2 ps S1 W1 (gen_flags K big x1 OSQP order g1 E1) W2 Hps Hnd P2) as (m & Em & _).
      * intros n p Hn Hin. apply (Permutation_in _ P1). eapply Hw; eauto.
      * exists m. exact Em.
  - split.
    + intros (m & Em). rewrite (Hz D) in Em. discriminate.
    + intros [F _]. exfalso. apply Exists_exists in D. destruct D as (v & Hv & ->).
      rewrite Forall_forall in F. exact (F n0 Hv eq_refl).
Qed.
Print Assumptions C54_two_stage_succeeds_iff.

(** Generated while p[0] = 0, the OSQP problem's A lacks that entry (3 instead of 4). *)
Definition x_second0 : cvx ZRing :=
  mkCvx ZRing [("osqp_q", 2); ("osqp_A", 3); ("osqp_l", 2); ("osqp_u", 4)]
        [7; 7; 7; 7; 7; 7; 7; 7; 7; 7; 7; 1]%Z 2 6 0
        (Some ([[(11, 2%Z)]; [(11, 2%Z)]], [0; 1], [0; 1; 2]))
        [[(0, 1%Z)]; [(1, 1%Z)]; []]
        [[(2, 1%Z)]; [(2, (-1)%Z)]; [(3, 1%Z)]; [(3, (-1)%Z)]; [(4, (-1)%Z)];
         [(5, (-1)%Z)]; [(6, (-1)%Z)]; [(7, 1%Z)]; [(8, 1%Z)]; [(9, 1%Z)]; [(10, 1%Z)]]
        [0; 2; 1; 3; 5; 0; 1; 2; 3; 4; 5] [0; 2; 5; 11] false.
Example C54_example :
  osqp_params (g_first 0 []) = x_params x_second0
  /\ merge [] (g_first 0 []) (get (dummy (SCS false)) (generate (K := ZRing) ex_big x_second0 (SCS false) ex_order))
     = Err ValueError
  /\ (exists m, merge [] (g_first 3 []) g_second = Ok m).
Proof.
  split; [vm_compute; reflexivity|]. split; [vm_compute; reflexivity|].
  exists (get (dummy OSQP) (merge [] (g_first 3 []) g_second)).
  exact (get_ok _ (dummy OSQP) (merge [] (g_first 3 []) g_second) ltac:(vm_compute; reflexivity)).
Qed.

(** The quadratic term.  Two-stage generation runs through only if the matrix P of the user's
    problem does not depend on the parameters and is diagonal (its stored entries); with a
    parameter in it ValueError is raised, otherwise AssertionError. *)
Definition p_offdiag {K : Ring} (big : K) (x1 : cvx K) (g1 : genc K) : bool :=
  stored_offdiag (x_n x1) (pr_ip (proc big x1 OSQP pP)) (pr_idx (proc big x1 OSQP pP)) (g_baked g1 pP).
Lemma offdiag_entries : forall (K : Ring) (d : list K) nc ip idx, stored_offdiag nc ip idx d = false ->
  forall i j, j < nc -> i <> j -> csc_entry (fun k => nth k d n0) idx ip i j = n0.
Proof.
  intros K d nc ip idx H i j Hj Hij. unfold csc_entry. rewrite (rsum_ext _ _ (fun _ => n0)).
  - apply (rsum_zero K). auto.
  - intros k Hk. destruct (Nat.eqb_spec (nth k idx 0) i) as [E|E]; [|reflexivity].
    destruct (rz (nth k d n0)) eqn:Z; [apply rz_spec in Z; exact Z|]. exfalso.
    assert (T : stored_offdiag nc ip idx d = true); [|congruence]. unfold stored_offdiag. apply existsb_exists. exists j.
    split; [apply in_seq; lia|]. apply existsb_exists. exists k. split; [exact Hk|]. rewrite Z. cbn. apply negb_true_iff, Nat.eqb_neq. congruence.
Qed.

Theorem C54_quadratic_term :
  forall (K : Ring) (big : K) (x1 : cvx K) th1, wf_cvx x1 th1 ->
  forall order g1, (forall l, Permutation l (order l)) -> generate big x1 OSQP order = Ok g1 ->
  forall none2 second,
  let P th := cP x1 (flat (x_params x1) th) in
  let r := two_stage (p_offdiag big x1 g1) none2 g1 second in
  (forall m, r = Ok m -> forall th i j, j < x_n x1 -> P th i j = P th1 i j /\ (i <> j -> P th i j = n0))
  /\ ((exists th i j, j < x_n x1 /\ P th i j <> P th1 i j) -> r = Err ValueError)
  /\ ((exists i j, j < x_n x1 /\ i <> j /\ P th1 i j <> n0) -> r = Err ValueError \/ r = Err AssertionError).
Proof.
  intros K big x1 th1 W order g1 Hord Hg none2 second P r.
  assert (IP : In pP (solver_pids OSQP)) by (cbn; auto 10).
  assert (EB : chg_get (g_chg g1) pP = false -> forall th i j, j < x_n x1 ->
           P th i j = csc_entry (fun k => nth k (g_baked g1 pP) n0) (pr_idx (proc big x1 OSQP pP)) (pr_ip (proc big x1 OSQP pP)) i j).
  { intros Hc th i j Hj. unfold P. rewrite <- (P_ok K big x1 th1 W OSQP (flat (x_params x1) th) i j IP Hj). unfold bentry.
    pose proof (block_const K big x1 th1 W OSQP order g1 pP Hg IP Hc th) as E.
    assert (ER : g_rows g1 pP = pr_rows (proc big x1 OSQP pP) /\ length (g_baked g1 pP) = length (g_rows g1 pP)).
    { unfold generate in Hg. destruct (block_for big x1 OSQP order); [|discriminate]. cbn [bind] in Hg.
      apply (f_equal (fun r => match r with Ok a => a | Err _ => g1 end)) in Hg. cbv beta iota in Hg. rewrite <- Hg. cbn [g_rows g_baked].
      replace (mem_pid pP (solver_pids OSQP)) with true by reflexivity. split; auto.
      destruct (proc_facts K big x1 OSQP pP IP) as (_ & _ & E1 & _). rewrite E1, app_length, map_length. cbn. lia. }
    destruct ER as [E1 E2]. rewrite <- E2, skipn_all, app_nil_r, E1 in E. unfold bval. rewrite E. reflexivity. }
  assert (HA : chg_get (g_chg g1) pP = true -> r = Err ValueError).
  { intro Hc. unfold r, two_stage, osqp_problem. rewrite Hc. reflexivity. }
  assert (HD : p_offdiag big x1 g1 = true -> r = Err ValueError \/ r = Err AssertionError).
  { intro Hc. unfold r, two_stage, osqp_problem. destruct (chg_get (g_chg g1) pP); rewrite ?Hc; auto. }
  split; [|split].
  - intros m Hm th i j Hj. destruct (chg_get (g_chg g1) pP) eqn:Hc; [rewrite HA in Hm by auto; discriminate|].
    destruct (p_offdiag big x1 g1) eqn:Ho; [destruct (HD eq_refl) as [X|X]; rewrite X in Hm; discriminate|].
    rewrite !EB by auto. split; [reflexivity|]. intro Hij. apply (offdiag_entries K _ (x_n x1)); auto.
  - intros (th & i & j & Hj & Hne). apply HA. destruct (chg_get (g_chg g1) pP) eqn:Hc; auto. exfalso. apply Hne. rewrite !EB by auto. reflexivity.
  - intros (i & j & Hj & Hij & Hne). destruct (chg_get (g_chg g1) pP) eqn:Hc; [left; auto|]. apply HD.
    destruct (p_offdiag big x1 g1) eqn:Ho; auto. exfalso. apply Hne. rewrite EB by auto. apply (offdiag_entries K _ (x_n x1)); auto.
Qed.
Print Assumptions C54_quadratic_term.

(** z0^2 + z0 z1 + z1^2 (an off-diagonal entry 1) and p z0^2 (a parameter in P), one equality. *)
Definition x_quad (col : nat) (off : Z) : cvx ZRing :=
  mkCvx ZRing [("p", 1)] [3; 1]%Z 2 1 0
        (Some ([[(col, 2%Z)]; [(1, off)]; [(1, 2%Z)]], [0; 0; 1], [0; 1; 3]))
        [[(1, 2%Z)]; []; []] [[(1, 1%Z)]; [(1, 1%Z)]; [(0, (-1)%Z)]] [0; 0; 0] [0; 1; 2; 3] false.
Definition g_quad col off : genc ZRing := get (dummy OSQP) (generate (K := ZRing) ex_big (x_quad col off) OSQP ex_order).
Definition two_quad col off : res (genc ZRing) := two_stage (K := ZRing) (p_offdiag (K := ZRing) ex_big (x_quad col off) (g_quad col off)) [] (g_quad col off) (fun _ => Err TypeError).
Example C54_quadratic_example :
  two_quad 1 1%Z = Err AssertionError /\ two_quad 0 0%Z = Err ValueError /\ two_quad 1 0%Z = Err TypeError
  /\ cP (x_quad 1 1%Z) [3; 1]%Z 0 1 = 1%Z /\ cP (x_quad 0 0%Z) [5; 1]%Z 0 0 = 10%Z /\ cP (x_quad 0 0%Z) [3; 1]%Z 0 0 = 6%Z.
Proof. vm_compute. auto 10. Qed.
