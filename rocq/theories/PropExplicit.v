(** Explicit mode: properties C26-C32. *)

From Coq Require Import String Arith Bool ZArith Lia List Permutation Ring.
From Verif Require Import Base Pus Machine PusParse PusCheck PusLift Runtime RuntimeSpec RuntimeProofs
     RuntimeMore Retrieve RetrieveProofs Canon CanonSpec CanonProofs CanonMain CanonGen CanonProblem CanonMore Info
     Examples Explicit ExplicitProofs ExplicitVars ExplicitGrad.
Import ListNotations.
Open Scope string_scope.
Open Scope list_scope.

(** ** C26 *)

(** The bounds used are the declared ones, the last declaration of each kind winning;
    undeclared entries get -inf and inf. *)
Theorem C26_bounds_declared : forall (K : ORing) (ps : list (string * nat)), NoDup (map fst ps) ->
  forall inf cs, Forall (simple_bound ps) cs ->
  exists lo hi, bounds inf ps cs = Ok (lo, hi)
    /\ length lo = S (list_sum (map snd ps)) /\ length hi = S (list_sum (map snd ps))
    /\ nth (list_sum (map snd ps)) lo n0 = n1 /\ nth (list_sum (map snd ps)) hi n0 = n1
    /\ (forall m s i c, In (m, s) ps -> i < s -> find_col m (col_to_name 0 ps) = Some c ->
          nth (c + i) lo n0 = last_lower (K := K) cs m i (ropp inf) /\ nth (c + i) hi n0 = last_upper cs m i inf).
Proof. exact bounds_ok. Qed.
Print Assumptions C26_bounds_declared.

Theorem C26_other_rejected : forall (K : ORing) ps inf cs, In (@UOther K) cs -> exists e, bounds inf ps cs = Err e.
Proof. exact bounds_rejects. Qed.
Print Assumptions C26_other_rejected.

(** After any history: an entry never written has its initial value; an entry written last
    with [v] lies within its bounds, equals [v] if [v] does, and is the violated bound
    otherwise. *)
Theorem C26_clamped : forall (K : ORing) (g : genc K) th0 lower upper mask os,
  wf_gen g th0 -> g_solver g = OSQP -> length lower = length (g_vec0 g) -> length upper = length (g_vec0 g) ->
  length mask = length (g_baked g pq) + length (g_baked g pu) ->
  (forall n s i, In (n, s) (g_params g) -> i < s -> ole (lo_of g lower n i) (hi_of g upper n i)) ->
  Forall (valid_op (g_params g)) os ->
  exists s' th, x_steps g lower upper (length (g_baked g pq)) mask (x_init g) os = Ok s'
    /\ xs_vec s' = flat (g_params g) th
    /\ forall n s i, In (n, s) (g_params g) -> i < s ->
         match last_write os n i None with
         | None => th n i = th0 n i
         | Some v => ole (lo_of g lower n i) (th n i) /\ ole (th n i) (hi_of g upper n i)
             /\ (ole (lo_of g lower n i) v -> ole v (hi_of g upper n i) -> th n i = v)
             /\ (~ ole (lo_of g lower n i) v -> th n i = lo_of g lower n i)
             /\ (~ ole v (hi_of g upper n i) -> th n i = hi_of g upper n i)
         end.
Proof.
  intros K g th0 lower upper mask os W Hs Hl Hh Hm Hle HV.
  destruct (x_run_ok K g th0 W Hs lower upper Hl Hh mask os th0 (x_init g) (xinv_init K g th0 W) HV Hm) as (s' & E & I & _).
  exists s', (final_vals th0 (map (clamp_op g lower upper) os)). split; auto. split; [apply (xi_v _ _ _ _ I)|].
  intros n s i Hin Hi. rewrite (final_last K g th0 lower upper os th0 n i None eq_refl).
  destruct (last_write os n i None) as [v|]; auto. apply clamp_ok. eauto.
Qed.
Print Assumptions C26_clamped.


Lemma within_flat : forall (K : ORing) (g : genc K) lower upper (th : pvals K), NoDup (map fst (g_params g)) ->
  length lower = length (flat (g_params g) th) -> length upper = length lower ->
  nth (length lower - 1) lower n0 = n1 -> nth (length lower - 1) upper n0 = n1 ->
  (forall n s i, In (n, s) (g_params g) -> i < s -> ole (lo_of g lower n i) (th n i) /\ ole (th n i) (hi_of g upper n i)) ->
  within lower upper (flat (g_params g) th).
Proof.
  intros K g lower upper th HN HL HU E1 E2 H. split; auto. split; auto. intros k Hk.
  destruct (Nat.eq_dec k (length lower - 1)) as [->|Hne].
  - rewrite E1, E2. rewrite HL, flat_last. split; apply ole_refl.
  - destruct (slices_cover K (g_params g) th k HN) as (n & s & c & Hin & Hc & Hr); [lia|].
    destruct (H n s (k - c) Hin) as [A B]; [lia|].
    assert (Hb : base_col g n = Some c) by exact Hc.
    unfold lo_of, hi_of in A, B. rewrite Hb in A, B. replace (c + (k - c)) with k in A, B by lia.
    rewrite <- (slice_value K g th n s (k - c) c n0 HN Hin) in A, B by (auto; lia).
    replace (c + (k - c)) with k in A, B by lia. auto.
Qed.

(** Once every entry has been written, the whole vector is within the bounds, whatever the
    initial values. *)
Theorem C26_all_written : forall (K : ORing) (g : genc K) th0 lower upper mask os,
  wf_gen g th0 -> g_solver g = OSQP -> length lower = length (g_vec0 g) -> length upper = length (g_vec0 g) ->
  nth (length lower - 1) lower n0 = n1 -> nth (length lower - 1) upper n0 = n1 ->
  length mask = length (g_baked g pq) + length (g_baked g pu) ->
  (forall n s i, In (n, s) (g_params g) -> i < s -> ole (lo_of g lower n i) (hi_of g upper n i)) ->
  Forall (valid_op (g_params g)) os ->
  (forall n s i, In (n, s) (g_params g) -> i < s -> exists v, In (OUpd n i v) os) ->
  exists s', x_steps g lower upper (length (g_baked g pq)) mask (x_init g) os = Ok s'
    /\ within lower upper (xs_vec s').
Proof.
  intros K g th0 lower upper mask os W Hs Hl Hh E1 E2 Hm Hle HV Hall.
  destruct (C26_clamped K g th0 lower upper mask os W Hs Hl Hh Hm Hle HV) as (s' & th & E & Ev & H).
  exists s'. split; auto. rewrite Ev. apply within_flat; auto.
  - apply (w_names _ _ _ W).
  - rewrite Hl, (w_vec0 _ _ _ W). apply flat_length.
  - congruence.
  - intros n s i Hin Hi. specialize (H n s i Hin Hi).
    assert (Hw : exists v, last_write os n i None = Some v).
    { destruct (Hall n s i Hin Hi) as (v & Hv). revert Hv. clear. generalize (@None K).
      assert (G : forall os (a : K), exists w, last_write os n i (Some a) = Some w).
      { induction os0 as [|[m j w|] os0 IH]; simpl; intros; eauto. destruct (String.eqb n m && Nat.eqb i j); auto. }
      induction os as [|o os IH]; intros acc Hv; simpl in Hv; [contradiction|].
      destruct Hv as [->|Hv]; simpl.
      - rewrite String.eqb_refl, Nat.eqb_refl. apply G.
      - destruct o; simpl; auto. }
    destruct Hw as (v & Hw). rewrite Hw in H. tauto.
Qed.
Print Assumptions C26_all_written.

(** Bounds p in [0, 3]^2 and q in [-2, 2]; p == c counts as an upper bound only. *)
Definition x_cons : list (ucon ZORing) :=
  [@UUpper ZORing "p" [3; 3]%Z; @UVars ZORing; @ULower ZORing "p" [0; 0]%Z; @UUpper ZORing "q" [2]%Z; @ULower ZORing "q" [-2]%Z].
Definition x_lower : list Z := [0; 0; -2; 1]%Z.
Definition x_upper : list Z := [3; 3; 2; 1]%Z.
Definition xg : genc ZORing := ex_gen OSQP.
Definition x_mask : list bool := [true; false; true; false; false; true].
Definition x_hist : list (op ZORing) :=
  [@OUpd ZORing "p" 1 9%Z; @OUpd ZORing "q" 0 (-7)%Z; @OUpd ZORing "p" 0 2%Z; @OSolve ZORing].
Example C26_example :
  bounds (K := ZORing) 1000%Z ex_params x_cons = Ok (x_lower, x_upper)
  /\ Forall (simple_bound ex_params) x_cons /\ NoDup (map fst ex_params)
  /\ wf_gen xg ex_th0 /\ g_solver xg = OSQP
  /\ (forall n s i, In (n, s) (g_params xg) -> i < s -> ole (lo_of xg x_lower n i) (hi_of xg x_upper n i))
  /\ Forall (valid_op (g_params xg)) x_hist
  /\ (forall n s i, In (n, s) (g_params xg) -> i < s -> exists v, In (OUpd n i v) x_hist)
  /\ on_ok (x_steps xg x_lower x_upper 2 x_mask (x_init xg) x_hist)
       (fun s => if list_eq_dec Z.eq_dec (xs_vec s) [2; 3; -2; 1]%Z then true else false) = true.
Proof.
  assert (Ep : g_params xg = ex_params) by (vm_compute; reflexivity).
  split; [vm_compute; reflexivity|]. split.
  { repeat (apply Forall_cons; [simpl; auto 10|]). apply Forall_nil. }
  split; [repeat constructor; simpl; intuition discriminate|].
  split; [exact (proj1 (ex_wf_gen OSQP))|]. split; [vm_compute; reflexivity|]. split.
  { rewrite Ep. intros n s i Hin Hi. simpl in Hin.
    destruct Hin as [Hin|[Hin|[]]]; inversion Hin; subst; destruct i as [|[|]]; try lia; vm_compute; discriminate. }
  split.
  { rewrite Ep. repeat (apply Forall_cons; [simpl; eauto 10|]). apply Forall_nil. }
  split.
  { rewrite Ep. intros n s i Hin Hi. simpl in Hin.
    destruct Hin as [Hin|[Hin|[]]]; inversion Hin; subst; destruct i as [|[|]]; try lia; simpl; eauto. }
  vm_compute. reflexivity.
Qed.

(** A constraint p == c between a parameter and a constant only sets the upper bound. *)
Theorem C26_equality_bound_refuted : exists cs : list (ucon ZORing), cs = [@UUpper ZORing "q" [2]%Z]
  /\ on_ok (bounds (K := ZORing) 1000%Z [("q", 1)] cs) (fun b => Z.ltb (nth 0 (fst b) 0%Z) 2) = true.
Proof. eexists. split; [reflexivity|]. vm_compute. reflexivity. Qed.
Print Assumptions C26_equality_bound_refuted.

(** ** C27 *)

Theorem C27_box : forall (K : ORing) lo hi v (C : list (row K)), within lo hi v ->
  (forall r c w, In r C -> In (c, w) r -> c < length lo) -> Forall (one_sign lo hi) C ->
  within (fst (box C lo hi)) (snd (box C lo hi)) (map (dot v) C).
Proof. exact box_ok. Qed.
Print Assumptions C27_box.

Example C27_example : let lo := [0; 0; -2; 1]%Z in let hi := [3; 3; 2; 1]%Z in
  let C : list (row ZORing) := [[(0, 1%Z); (1, 2%Z); (3, (-5)%Z)]; [(2, (-3)%Z); (3, 4%Z)]] in
  within (K := ZORing) lo hi [1; 3; -1; 1]%Z /\ Forall (one_sign (K := ZORing) lo hi) C
  /\ box (K := ZORing) C lo hi = ([-5; -2]%Z, [4; 10]%Z).
Proof.
  cbv zeta. split; [|split; [|vm_compute; reflexivity]].
  - split; [reflexivity|]. split; [reflexivity|]. intros k Hk. simpl in Hk.
    destruct k as [|[|[|[|]]]]; try lia; simpl; lia.
  - repeat apply Forall_cons; [|  |constructor]; simpl.
    + left. intros c w H. simpl in H. destruct H as [H|[H|[H|[]]]]; inversion H; subst; simpl; auto; right; lia.
    + right. intros c w H. simpl in H. destruct H as [H|[H|[]]]; inversion H; subst; simpl; auto; right; lia.
Qed.

(** q = p1 - p2 with both in [-1, 1]: the box is the point 0, the component is eliminated
    and the table is built for q = 0, although q = 2 is reachable. *)
Theorem C27_mixed_signs_refuted : exists (C : list (row ZORing)) (lo hi v : list Z),
  within (K := ZORing) lo hi v
  /\ (forall r c w, In r C -> In (c, w) r -> c < length lo)
  /\ ~ within (fst (box C lo hi)) (snd (box C lo hi)) (map (dot (N := ZORing) v) C)
  /\ (let R := reduce (K := ZORing) 1 [[1%Z]] (fst (box C lo hi)) (snd (box C lo hi)) in
      let q := [dot (N := ZORing) v (nth 0 C [])] in let u := [dot (N := ZORing) v (nth 1 C [])] in
      vadd (xq_f R) (map (fun r => ldot r (mask_sel (xq_mask R) (q ++ u))) (xq_F R)) = [0%Z] /\ q = [2%Z]).
Proof.
  exists [[(0, 1%Z); (1, (-1)%Z)]; [(2, 1%Z)]], [-1; -1; 1]%Z, [1; 1; 1]%Z, [1; -1; 1]%Z.
  split; [|split; [|split]].
  - split; [reflexivity|]. split; [reflexivity|]. intros k Hk. simpl in Hk. destruct k as [|[|[|]]]; try lia; simpl; lia.
  - intros r c w H1 H2. simpl in H1. destruct H1 as [<-|[<-|[]]]; simpl in H2; intuition (try (inversion H; subst); try (inversion H0; subst); simpl; lia).
  - intros (_ & _ & H). specialize (H 0). simpl in H. destruct H as [_ H]; [lia|]. vm_compute in H. apply H. reflexivity.
  - cbv zeta. split; vm_compute; reflexivity.
Qed.
Print Assumptions C27_mixed_signs_refuted.

(** ** C28 *)

Lemma within_mask : forall (K : ORing) m lo hi v, within (K := K) lo hi v -> within (mask_sel m lo) (mask_sel m hi) (mask_sel m v).
Proof.
  intros K. induction m as [|b m IH]; intros lo hi v (L1 & L2 & H).
  - split; auto. split; auto. simpl. intros; lia.
  - destruct lo as [|a lo], hi as [|c hi], v as [|x v]; simpl in L1, L2; try discriminate.
    + unfold within. simpl. repeat split; auto; intros; exfalso; simpl in *; lia.
    + assert (HW : within lo hi v).
      { split; [lia|]. split; [lia|]. intros k Hk. apply (H (S k)). simpl. lia. }
      specialize (IH lo hi v HW). destruct b; simpl; auto. destruct IH as (M1 & M2 & M3).
      split; [simpl; auto|]. split; [simpl; auto|]. intros [|k] Hk; simpl.
      * apply (H 0). simpl. lia.
      * apply M3. simpl in Hk. lia.
Qed.

Lemma reduce_box : forall (K : Ring) n (A : list (list K)) thmin thmax, length thmin = n + length A -> length thmax = n + length A ->
  xq_min (reduce n A thmin thmax) = mask_sel (xq_mask (reduce n A thmin thmax)) thmin
  /\ xq_max (reduce n A thmin thmax) = mask_sel (xq_mask (reduce n A thmin thmax)) thmax.
Proof.
  intros K n A thmin thmax H1 H2. unfold reduce. cbn [xq_min xq_max xq_mask].
  set (msk := map2 neqb thmin thmax).
  assert (Hm : length msk = length thmin) by (unfold msk; apply map2_length; congruence).
  match goal with |- context [mask_set msk ?s] => assert (Hs : length s = cnt_true msk) end.
  { rewrite map2_length; unfold any_col; rewrite !map_length, !seq_length; auto. apply mask_sel_cnt. auto. }
  rewrite !mask_set_sel; auto. congruence.
Qed.

(** The code generated for explicit mode.  [lower], [upper]: parameter bounds; the box and
    the reduced problem are computed from them and the map of (q, u) as in generate_code.
    At every solve of every history at which the (clamped) parameters are within their
    bounds, the theta handed to the table look-up lies in the table's box and the reduced
    parametric problem at theta has exactly the data q, u of these parameter values. *)
Theorem C28_reduction : forall (K : ORing) big (x : cvx K) th0 order g (A : list (list K)) lower upper os,
  wf_cvx x th0 -> (forall l, Permutation l (order l)) -> generate big x OSQP order = Ok g ->
  length lower = length (g_vec0 g) -> length upper = length (g_vec0 g) ->
  length A = length (g_baked g pu) ->
  Forall (one_sign lower upper) (g_rows g pq ++ g_rows g pu) ->
  Forall (valid_op (g_params g)) os ->
  let bx := box (g_rows g pq ++ g_rows g pu) lower upper in
  let R := reduce (length (g_baked g pq)) A (fst bx) (snd bx) in
  exists s', x_steps g lower upper (length (g_baked g pq)) (xq_mask R) (x_init g) os = Ok s'
    /\ Forall2 (fun t theta => within lower upper (flat (g_params g) t) ->
         within (xq_min R) (xq_max R) theta
         /\ vadd (xq_f R) (map (fun r => ldot r theta) (xq_F R)) = canon_spec g t pq
         /\ vadd (xq_b R) (map (fun r => ldot r theta) (xq_B R)) = mask_sel (xq_amask R) (canon_spec g t pu))
       (solve_vals th0 (map (clamp_op g lower upper) os)) (xs_log s').
Proof.
  intros K big x th0 order g A lower upper os WX Hord Hg Hl Hh HA HS HV bx R.
  destruct (generate_wf K big x th0 WX OSQP order Hord) as (g' & Eg & W & Hs). rewrite Hg in Eg. inversion Eg; subst g'; clear Eg.
  assert (HC : forall t p, In p [pq; pu] -> canon_spec g t p = map (dot (flat (g_params g) t)) (g_rows g p)).
  { intros t p Hp.
    assert (Hp' : In p (solver_pids OSQP)) by (simpl in *; intuition (subst; auto)).
    rewrite (canon_spec_meaning K big x th0 WX OSQP order g t p Hord Hg Hp').
    assert (Et : tail_of K big x OSQP p = []) by (simpl in Hp; destruct Hp as [<-|[<-|[]]]; reflexivity).
    rewrite Et, app_nil_r. unfold bval. unfold generate in Hg.
    destruct (block_for big x OSQP order); [|discriminate]. cbn [bind] in Hg. inversion Hg; subst g. simpl g_params.
    simpl in Hp; destruct Hp as [<-|[<-|[]]]; reflexivity. }
  assert (HB : forall p, In p [pq; pu] -> length (g_rows g p) = length (g_baked g p)).
  { intros p Hp. rewrite <- (canon_spec_len K g th0 W lower upper Hl Hh th0 p). rewrite (HC th0 p Hp), map_length. reflexivity. }
  assert (Hbx : length (fst bx) = length (g_baked g pq) + length A /\ length (snd bx) = length (g_baked g pq) + length A).
  { unfold bx, box. cbn [fst snd]. rewrite HA, <- !HB by (simpl; auto).
    split; rewrite map2_length; rewrite ?map_length, ?app_length; auto. }
  destruct Hbx as [Hb1 Hb2].
  assert (Hmask : length (xq_mask R) = length (g_baked g pq) + length (g_baked g pu)).
  { unfold R, reduce. cbn [xq_mask]. rewrite mask_set_length, map2_length; congruence. }
  destruct (x_run_ok K g th0 W Hs lower upper Hl Hh (xq_mask R) os th0 (x_init g) (xinv_init K g th0 W) HV Hmask) as (s' & E & _ & L).
  exists s'. split; auto. rewrite L. cbn [x_init xs_log app]. clear L E.
  match goal with |- Forall2 ?P _ _ => set (Q := P) end.
  assert (HT : forall t, Q t (mask_sel (xq_mask R) (canon_spec g t pq ++ canon_spec g t pu)));
    [|induction (solve_vals th0 (map (clamp_op g lower upper) os)) as [|t ts IH]; cbn [map]; constructor; auto].
  intros t HW.
  assert (Hcols : forall r c w, In r (g_rows g pq ++ g_rows g pu) -> In (c, w) r -> c < length lower).
  { intros r c w Hr Hc. rewrite Hl, (w_vec0 _ _ _ W). apply in_app_or in Hr. destruct Hr as [Hr|Hr]; eapply (w_cols _ _ _ W); eauto. }
  pose proof (box_ok K lower upper (flat (g_params g) t) _ HW Hcols HS) as HWB. fold bx in HWB.
  rewrite map_app, <- !HC in HWB by (simpl; auto).
  pose proof (reduce_ok K (length (g_baked g pq)) A (fst bx) (snd bx) (canon_spec g t pq) (canon_spec g t pu)) as HR.
  rewrite !(canon_spec_len K g th0 W lower upper Hl Hh) in HR.
  specialize (HR eq_refl (eq_sym HA) Hb1 Hb2 (within_fixed K _ _ _ HWB)). cbv zeta in HR. fold R in HR.
  destruct HR as (R1 & R2 & _). split; auto.
  destruct (reduce_box K (length (g_baked g pq)) A (fst bx) (snd bx) Hb1 Hb2) as [M1 M2]. fold R in M1, M2.
  rewrite M1, M2. apply within_mask. exact HWB.
Qed.
Print Assumptions C28_reduction.

(** With initial values within the bounds, every solve is covered. *)
Theorem C28_always_within : forall (K : ORing) (g : genc K) th0 lower upper os t,
  wf_gen g th0 -> length lower = length (g_vec0 g) -> length upper = length (g_vec0 g) ->
  nth (length lower - 1) lower n0 = n1 -> nth (length lower - 1) upper n0 = n1 ->
  (forall n s i, In (n, s) (g_params g) -> i < s ->
     ole (lo_of g lower n i) (th0 n i) /\ ole (th0 n i) (hi_of g upper n i)) ->
  In t (solve_vals th0 (map (clamp_op g lower upper) os)) -> within lower upper (flat (g_params g) t).
Proof.
  intros K g th0 lower upper os t W Hl Hh E1 E2 H0 Ht.
  destruct (solve_vals_prefix _ _ _ _ Ht) as (o1 & o2 & Eo & ->).
  assert (exists os1, o1 = map (clamp_op g lower upper) os1) as (os1 & ->).
  { clear - Eo. revert o1 Eo. induction os as [|o os IH]; intros [|a o1] Eo; simpl in Eo; try discriminate.
    - exists []. reflexivity.
    - inversion Eo; subst. destruct (IH _ H1) as (os1 & ->). exists (o :: os1). reflexivity. }
  apply within_flat; auto.
  - apply (w_names _ _ _ W).
  - rewrite Hl, (w_vec0 _ _ _ W). apply flat_length.
  - congruence.
  - intros n s i Hin Hi. rewrite (final_last K g th0 lower upper os1 th0 n i None eq_refl).
    destruct (H0 n s i Hin Hi) as [A B].
    destruct (last_write os1 n i None) as [v|]; auto.
    destruct (clamp_ok K (lo_of g lower n i) (hi_of g upper n i) v) as (C1 & C2 & _); auto.
    eapply ole_trans; eauto.
Qed.
Print Assumptions C28_always_within.

(** The example problem with two equalities and two inequalities. *)
Definition x_A : list (list Z) := [[1; 0]; [0; 0]; [3; 1]; [0; 1]]%Z.
Example C28_example :
  wf_cvx (ex_for OSQP) ex_th0
  /\ generate (K := ZRing) ex_big (ex_for OSQP) OSQP ex_order = Ok xg
  /\ length x_lower = length (g_vec0 xg) /\ length x_upper = length (g_vec0 xg)
  /\ length x_A = length (g_baked xg pu)
  /\ Forall (one_sign (K := ZORing) x_lower x_upper) (g_rows xg pq ++ g_rows xg pu)
  /\ Forall (valid_op (g_params xg)) x_hist
  /\ (let bx := box (K := ZORing) (g_rows xg pq ++ g_rows xg pu) x_lower x_upper in
      let R := reduce (K := ZORing) (length (g_baked xg pq)) x_A (fst bx) (snd bx) in
      xq_mask R = [true; false; true; false; false; true] /\ xq_f R = [0; 1]%Z).
Proof.
  split; [apply ex_wf|]. split; [apply ex_generate|]. split; [vm_compute; reflexivity|]. split; [vm_compute; reflexivity|].
  split; [vm_compute; reflexivity|]. split; [|split; [exact (proj1 (proj2 (proj2 (proj2 (proj2 (proj2 (proj2 C26_example)))))))|cbv zeta; split; vm_compute; reflexivity]].
  assert (E : g_rows xg pq ++ g_rows xg pu = [[(2, 1%Z)]; [(3, 1%Z)]; [(2, (-1)%Z)]; []; []; [(1, 1%Z)]]) by (vm_compute; reflexivity).
  rewrite E. repeat apply Forall_cons; try apply Forall_nil.
  all: try (left; intros c w H; cbn [In] in H; repeat destruct H as [H|H]; try contradiction; inversion H; subst; simpl; right; lia).
  right; intros c w H; cbn [In] in H; repeat destruct H as [H|H]; try contradiction; inversion H; subst; simpl; right; lia.
Qed.

(** ** C29 *)

(** [m1], [m2]: constraint id maps of the ordinary constraints and of the parameter bounds,
    the latter last; canonical order: equalities, other inequalities, bounds. *)
Theorem C29_bounds_last : forall (K : Type) (eqs oth bnds m1 m2 : list (nat * nat))
    (rest : list (list (nat * nat))) (dl : nat -> list K),
  NoDup (map fst (eqs ++ oth ++ bnds)) ->
  (forall u, In u (map fst m1) -> exists c, chase rest u = Ok c /\ In c (map fst (eqs ++ oth))) ->
  (forall u, In u (map fst m2) -> exists c, chase rest u = Ok c /\ In c (map fst bnds)) ->
  (forall i z, In (i, z) (eqs ++ oth ++ bnds) -> length (dl i) = z) ->
  forall cells, exists cs ds,
    mapM (chase rest) (map fst m1) = Ok cs
    /\ dual_info false "y" "z" eqs (oth ++ bnds) ((m1 ++ m2) :: rest) = Ok ds
    /\ length ds = length m1 + length m2
    /\ x_duals (fun i => Nat.leb (length m1) i)
         (repeat true (list_sum (map snd (eqs ++ oth))) ++ repeat false (list_sum (map snd bnds))) ds
         (dcat K dl (eqs ++ oth ++ bnds)) cells
       = Ok (combine (seq 0 (length m1)) (map dl cs)).
Proof. exact x_duals_ok. Qed.
Print Assumptions C29_bounds_last.

Example C29_example :
  let eqs := [(5, 2)] in let oth := [(6, 1)] in let bnds := [(7, 1)] in
  let m1 := [(6, 6); (5, 5)] in let m2 := [(7, 7)] in
  let dl := fun i => match i with 5 => [10; 20]%Z | 6 => [30]%Z | _ => [40]%Z end in
  NoDup (map fst (eqs ++ oth ++ bnds))
  /\ (forall u, In u (map fst m1) -> exists c, chase [] u = Ok c /\ In c (map fst (eqs ++ oth)))
  /\ (forall u, In u (map fst m2) -> exists c, chase [] u = Ok c /\ In c (map fst bnds))
  /\ (forall i z, In (i, z) (eqs ++ oth ++ bnds) -> length (dl i) = z)
  /\ (ds <- dual_info false "y" "z" eqs (oth ++ bnds) [m1 ++ m2];;
      x_duals (fun i => Nat.leb 2 i) [true; true; true; false] ds [10; 20; 30; 40]%Z (fun _ _ => 0%Z))
     = Ok [(0, [30%Z]); (1, [10%Z; 20%Z])].
Proof.
  cbv zeta. split; [repeat constructor; simpl; intuition discriminate|]. split; [|split; [|split]].
  - simpl. intros u [<-|[<-|[]]]; eexists; (split; [reflexivity|simpl; auto]).
  - simpl. intros u [<-|[]]; eexists; (split; [reflexivity|simpl; auto]).
  - simpl. intros i z [H|[H|[H|[]]]]; inversion H; reflexivity.
  - vm_compute. reflexivity.
Qed.

(** The bound (id 7) is listed first: reading the dual of the other constraint leaves the
    vector, and Python would save the result under position 0, the bound. *)
Theorem C29_bounds_first_refuted : exists (con : list (nat * nat)) (m : list (nat * nat)) ds (y : list Z) amask,
  dual_info false "y" "z" [] con [m] = Ok ds
  /\ map di_name (drop_bounds (fun i => Nat.eqb i 0) ds) = [1]
  /\ map fst (save_list (drop_bounds (fun i => Nat.eqb i 0) ds)) = [0]
  /\ x_duals (fun i => Nat.eqb i 0) amask ds y (fun _ _ => 0%Z) = Err OutOfBounds.
Proof.
  eexists [(7, 1); (5, 2)], [(7, 7); (5, 5)], _, [1; 2; 3]%Z, [false; true; true].
  repeat split; vm_compute; reflexivity.
Qed.
Print Assumptions C29_bounds_first_refuted.

(** ** C30 *)

Definition sel_names (us : list uvar) (sels : option (list (string * option (list Z)))) : list string :=
  match sels with Some l => map fst l | None => map uv_name us end.
Definition sel_of (us : list uvar) (sels : option (list (string * option (list Z)))) (n : string) : option (list Z) :=
  match sels with Some l => match assoc n l with Some i => i | None => None end | None => None end.
(** Selections made of whole variables or lists of distinct valid indices, with at least two
    entries unless the variable is scalar. *)
Definition good_sels (us : list uvar) (sels : option (list (string * option (list Z)))) : Prop :=
  match sels with
  | None => True
  | Some l => NoDup (map fst l) /\ forall n inds, In (n, inds) l ->
      exists u, In u us /\ uv_name u = n /\ good_sel (fsize (uv_shape u)) inds
  end.
(** Positions of the variables that are dropped. *)
Fixpoint dropped (names : list string) (i : nat) (us : list uvar) : list nat :=
  match us with
  | [] => []
  | u :: t => if in_dec string_dec (uv_name u) names then dropped names (S i) t else i :: dropped names (S i) t
  end.

(** Values of a variable of which the entries [inds] are stored. *)
Definition partly {K} (k0 : K) (inds : option (list Z)) (b l : list K) : Prop :=
  length l = length b
  /\ forall i, i < length b ->
       (requested inds i -> nth i l k0 = nth i b k0) /\ (~ requested inds i -> nth i l k0 = k0).

(** How the records of the variables describe the solution vector. *)
Definition plain {K} (x : list K) (blk : nat -> list K) (u : uvar) (p : pinfo) : Prop :=
  pi_name p = uv_name u /\ pi_size p = fsize (uv_shape u) /\ pi_sym p = false
  /\ pi_idx p = seq (pi_off p) (fsize (uv_shape u))
  /\ length (blk (uv_id u)) = fsize (uv_shape u)
  /\ forall i, i < fsize (uv_shape u) -> nth_error x (pi_off p + i) = nth_error (blk (uv_id u)) i.

Lemma prim_plain : forall K red us (blk : nat -> list K) vs, vars_ok red us ->
  (forall i z, In (i, z) red -> length (blk i) = z) -> (forall u, In u us -> uv_sym u = false) ->
  prim_info red us = Ok vs -> Forall2 (plain (concat (map (fun e => blk (fst e)) red)) blk) us vs.
Proof.
  intros K red us blk vs HV HB HS Hp. unfold prim_info in Hp. apply mapM_Forall2 in Hp.
  assert (HZ := vo_size _ _ HV). clear HV. induction Hp as [|u p us vs Hu Hp IH]; constructor; auto.
  - pose proof (HS u (or_introl eq_refl)) as Es. pose proof (HZ u (or_introl eq_refl)) as Ez.
    destruct (offset_blk K blk red 0 _ _ HB Ez) as (o & E1 & E2 & E3). rewrite E1 in Hu. cbn [key bind] in Hu. rewrite Es in Hu.
    cbn [bind] in Hu. injection Hu as <-. unfold packed_size in *. rewrite Es in *.
    unfold plain. cbn. repeat split; auto. apply HB. apply lookup_in. auto.
  - apply IH; intros; [apply HS|apply HZ]; right; auto.
Qed.

Lemma plain_names : forall K x (blk : nat -> list K) us vs, Forall2 (plain x blk) us vs -> map pi_name vs = map uv_name us.
Proof. induction 1 as [|u p us vs H _ IH]; simpl; auto. f_equal; auto. apply H. Qed.

Lemma sel_fst : forall K x (blk : nat -> list K) us vs sels, Forall2 (plain x blk) us vs ->
  map fst (sel_list vs sels) = sel_names us sels.
Proof.
  intros K x blk us vs [l|] H; simpl; auto. rewrite map_map. simpl. eapply plain_names; eauto.
Qed.

Lemma mem_str_dec : forall n l, mem_str n l = if in_dec string_dec n l then true else false.
Proof.
  intros n l. destruct (in_dec string_dec n l) as [H|H].
  - apply mem_str_in; auto.
  - destruct (mem_str n l) eqn:E; auto. apply mem_str_in in E. contradiction.
Qed.

Lemma pdrops_dropped : forall K x (blk : nat -> list K) us vs names i, Forall2 (plain x blk) us vs ->
  pdrops names i vs = dropped names i us.
Proof.
  intros K x blk us vs names i H. revert i. induction H as [|u p us vs Hp H IH]; intro i; auto.
  unfold pdrops in *. simpl. destruct Hp as (-> & _). rewrite mem_str_dec.
  destruct (in_dec string_dec (uv_name u) names); simpl; rewrite IH; auto.
Qed.

Lemma table_out_ok : forall K (k0 : K) (x : list K) out, Forall (fun z => exists i, z = Z.of_nat i /\ i < length x) out ->
  table_out x out = Ok (map (fun z => nth (Z.to_nat z) x k0) out).
Proof.
  intros K k0 x out H. unfold table_out. induction H as [|z out (i & -> & Hi) H IH]; auto.
  cbn [mapM map]. rewrite IH. replace (Z.ltb (Z.of_nat i) 0) with false by (symmetry; apply Z.ltb_ge; lia).
  rewrite Nat2Z.id. rewrite (get_ok _ _ _ k0) by auto. reflexivity.
Qed.

Lemma NoDup_map_filter : forall A B (f : A -> B) b l, NoDup (map f l) -> NoDup (map f (filter b l)).
Proof.
  induction l as [|a l IH]; simpl; intro H; auto. inversion H; subst. destruct (b a); simpl; auto.
  constructor; auto. intro Hin. apply H2. apply in_map_iff in Hin. destruct Hin as (c & <- & Hc).
  apply filter_In in Hc. apply in_map. tauto.
Qed.

Section Stored30.
  Context {K : Type} (k0 : K).
  Variables (red : list (nat * nat)) (us : list uvar) (blk : nat -> list K) (vs : list pinfo).
  Variable sels : option (list (string * option (list Z))).
  Hypothesis HV : vars_ok red us.
  Hypothesis HB : forall i z, In (i, z) red -> length (blk i) = z.
  Hypothesis HS : forall u, In u us -> uv_sym u = false.
  Hypothesis HG : good_sels us sels.
  Hypothesis Hp : prim_info red us = Ok vs.
  Notation x := (concat (map (fun e => blk (fst e)) red)).

  Lemma plain_in : forall p, In p vs -> exists u, In u us /\ plain x blk u p.
  Proof.
    intros p Hin. pose proof (prim_plain K red us blk vs HV HB HS Hp) as F.
    apply In_nth_error in Hin. destruct Hin as (i & Hi). destruct (Forall2_nth_r _ _ _ _ _ i p F Hi) as (u & Hu & P).
    exists u. split; auto. eapply nth_error_In; eauto.
  Qed.

  Lemma store_conds : NoDup (map pi_name vs) /\ NoDup (map fst (sel_list vs sels))
    /\ forall n inds, In (n, inds) (sel_list vs sels) -> exists p, In p vs /\ pi_name p = n /\ good_sel (pi_size p) inds.
  Proof.
    pose proof (prim_plain K red us blk vs HV HB HS Hp) as F.
    assert (HN : NoDup (map pi_name vs)) by (rewrite (plain_names _ _ _ _ _ F); apply (vo_names _ _ HV)).
    split; auto. split.
    - rewrite (sel_fst _ _ _ _ _ sels F). unfold sel_names, good_sels in *. destruct sels; [apply HG|apply (vo_names _ _ HV)].
    - intros n inds Hin. unfold sel_list, good_sels in *. destruct sels as [l|].
      + destruct HG as [_ HG2]. destruct (HG2 n inds Hin) as (u & Hu & En & Hgs).
        apply In_nth_error in Hu. destruct Hu as (i & Hi). destruct (Forall2_nth _ _ _ _ _ i u F Hi) as (p & Hip & P).
        exists p. split; [eapply nth_error_In; eauto|]. destruct P as (-> & -> & _). auto.
      + apply in_map_iff in Hin. destruct Hin as (p & E & Hin). inversion E; subst. exists p. repeat split; auto.
  Qed.

  Lemma nth_of_error : forall (l l' : list K) i j, nth_error l i = nth_error l' j -> nth i l k0 = nth j l' k0.
  Proof.
    intros l l' i j H. destruct (nth_error l' j) eqn:E.
    - rewrite (nth_error_nth _ _ _ H), (nth_error_nth _ _ _ E). auto.
    - apply nth_error_None in H. apply nth_error_None in E. rewrite !nth_overflow by auto. auto.
  Qed.

  Lemma stored_shape : forall xv p v u inds, Forall (fun z => exists p i, In p vs /\ i < pi_size p /\ z = Z.of_nat (pi_off p + i)) (xv_out xv) ->
    plain x blk u p -> xi_name v = pi_name p -> xi_size v = pi_size p -> xi_sym v = pi_sym p ->
    stored (xv_out xv) inds (xi0 p) v -> shaped (length (xv_out xv)) v.
  Proof.
    intros xv p v u inds _ P N Z S (A & B & C). simpl in *. rewrite <- Z in *. split; [|split; [|split]].
    - rewrite S. apply P.
    - auto.
    - auto.
    - intros i pos Hi Hs. specialize (A i Hi). rewrite Hs in A. tauto.
  Qed.

  Theorem stored_ok : (forall k i, nth_error (dropped (sel_names us sels) 0 us) k = Some i -> i + k < length us) ->
    forall nvar cells, exists xv o rs,
      store_vars vs sels = Ok xv /\ table_out x (xv_out xv) = Ok o /\ x_primal k0 nvar xv cells o = Ok rs
      /\ Forall2 (fun u r => fst r = uv_name u /\ partly k0 (sel_of us sels (uv_name u)) (blk (uv_id u)) (snd r))
           (filter (fun u => if in_dec string_dec (uv_name u) (sel_names us sels) then true else false) us) rs.
  Proof.
    intros HD nvar cells. pose proof (prim_plain K red us blk vs HV HB HS Hp) as F.
    destruct store_conds as (C1 & C2 & C3).
    destruct (store_vars_ok vs sels C1 C2 C3) as [HOK _].
    assert (HLen : length vs = length us) by (symmetry; eapply Forall2_length; eauto).
    destruct HOK as (xv & E & Hout & _ & HF).
    { intros k i. rewrite (sel_fst _ _ _ _ _ sels F), (pdrops_dropped _ _ _ _ _ _ 0 F), HLen. apply HD. }
    assert (Hin : Forall (fun z => exists i, z = Z.of_nat i /\ i < length x) (xv_out xv)).
    { eapply Forall_impl; [|exact Hout]. intros z (p & i & Hpin & Hi & ->). exists (pi_off p + i). split; auto.
      destruct (plain_in p Hpin) as (u & _ & _ & Hz & _ & _ & Hl & Hn). rewrite Hz in Hi.
      apply nth_error_Some. rewrite Hn by auto. apply nth_error_Some. rewrite Hl. auto. }
    set (o := map (fun z => nth (Z.to_nat z) x k0) (xv_out xv)).
    exists xv, o. assert (Ho : length o = length (xv_out xv)) by apply map_length.
    rewrite (sel_fst _ _ _ _ _ sels F) in HF.
    assert (HF2 : Forall2 (fun u v => xi_name v = uv_name u /\ shaped (length o) v
                            /\ partly k0 (sel_of us sels (uv_name u)) (blk (uv_id u)) (slot_vals k0 o v))
                    (filter (fun u => if in_dec string_dec (uv_name u) (sel_names us sels) then true else false) us) (xv_vars xv)).
    { assert (FF : Forall2 (fun u p => In p vs /\ plain x blk u p)
                (filter (fun u => if in_dec string_dec (uv_name u) (sel_names us sels) then true else false) us)
                (filter (fun p => mem_str (pi_name p) (sel_names us sels)) vs)).
      { assert (F' : Forall2 (fun u p => In p vs /\ plain x blk u p) us vs).
        { assert (G : forall l l', Forall2 (plain x blk) l l' -> incl l' vs -> Forall2 (fun u p => In p vs /\ plain x blk u p) l l').
          { induction 1; intro Hi; constructor. split; auto. apply Hi; left; auto.
            apply IHForall2. intros a Ha. apply Hi. right; auto. }
          apply G; auto. intro; auto. }
        assert (G : forall nm (Q : uvar -> pinfo -> Prop) l l', Forall2 (fun u p => Q u p /\ plain x blk u p) l l' ->
                  Forall2 (fun u p => Q u p /\ plain x blk u p)
                    (filter (fun u => if in_dec string_dec (uv_name u) nm then true else false) l)
                    (filter (fun p => mem_str (pi_name p) nm) l')).
        { induction 1 as [|u p l l' [Hi Hpl] H IH]; simpl; [constructor|].
          pose proof Hpl as (En & _). rewrite En, mem_str_dec.
          destruct (in_dec string_dec (uv_name u) nm); auto. }
        apply (G _ (fun _ p => In p vs)). auto. }
      revert HF. generalize (xv_vars xv). induction FF as [|u p l l' [Hpin P] FF IH]; intros ws HF; inversion HF; subst; constructor.
      - destruct H1 as (N & Zz & Sy & inds & Ea & St). pose proof P as (P1 & P2 & P3 & P4 & P5 & P6).
        split; [congruence|]. split.
        { rewrite Ho. eapply stored_shape; eauto. }
        assert (Einds : sel_of us sels (uv_name u) = inds).
        { unfold sel_of, sel_list in *. destruct sels as [sl|]; rewrite P1 in Ea.
          - rewrite Ea. auto.
          - revert Ea. clear. induction vs as [|q vs' IHv]; simpl; [discriminate|].
            destruct (String.eqb (uv_name u) (pi_name q)); auto. congruence. }
        rewrite Einds. unfold partly, slot_vals. rewrite map_length, seq_length, Zz, P2. split; auto.
        rewrite P5. intros i Hi. rewrite nth_map_seq' by auto. cbn [Nat.add].
        destruct St as (St1 & _). simpl in St1. rewrite P2 in St1. specialize (St1 i Hi).
        destruct (slot y i) as [pos|].
        + destruct St1 as (A1 & A2 & A3). split; [|tauto]. intros _. unfold o.
          rewrite nth_indep with (d' := (fun z => nth (Z.to_nat z) x k0) 0%Z) by (rewrite map_length; auto).
          rewrite (map_nth (fun z => nth (Z.to_nat z) x k0)). rewrite A2, Nat2Z.id. apply nth_of_error. auto.
        + split; [tauto|]. auto.
      - apply IH. auto. }
    exists (map (fun v => (xi_name v, slot_vals k0 o v)) (xv_vars xv)).
    split; auto. split; [apply table_out_ok; auto|]. split.
    - apply x_primal_ok.
      + clear - HF2. induction HF2; constructor; auto. tauto.
      + assert (En : map xi_name (xv_vars xv) = map uv_name (filter (fun u => if in_dec string_dec (uv_name u) (sel_names us sels) then true else false) us)).
        { clear - HF2. induction HF2; simpl; auto. f_equal; auto. tauto. }
        rewrite En. apply NoDup_map_filter. apply (vo_names _ _ HV).
    - clear - HF2. induction HF2; simpl; constructor; auto. simpl. tauto.
  Qed.

  Theorem dropped_fails : (exists k i, nth_error (dropped (sel_names us sels) 0 us) k = Some i /\ length us <= i + k) ->
    store_vars vs sels = Err IndexError.
  Proof.
    intros (k & i & H1 & H2). pose proof (prim_plain K red us blk vs HV HB HS Hp) as F.
    destruct store_conds as (C1 & C2 & C3).
    destruct (store_vars_ok vs sels C1 C2 C3) as [_ HErr]. apply HErr. exists k, i.
    rewrite (sel_fst _ _ _ _ _ sels F), (pdrops_dropped _ _ _ _ _ _ 0 F), (eq_sym (Forall2_length F)) in *. auto.
  Qed.
End Stored30.

Theorem C30_stored_entries : forall (K : Type) (k0 : K) red us (blk : nat -> list K) vs sels,
  vars_ok red us -> (forall i z, In (i, z) red -> length (blk i) = z) ->
  (forall u, In u us -> uv_sym u = false) -> good_sels us sels -> prim_info red us = Ok vs ->
  (forall k i, nth_error (dropped (sel_names us sels) 0 us) k = Some i -> i + k < length us) ->
  forall nvar cells, exists xv o rs,
    store_vars vs sels = Ok xv
    /\ table_out (concat (map (fun e => blk (fst e)) red)) (xv_out xv) = Ok o
    /\ x_primal k0 nvar xv cells o = Ok rs
    /\ Forall2 (fun u r => fst r = uv_name u /\ partly k0 (sel_of us sels (uv_name u)) (blk (uv_id u)) (snd r))
         (filter (fun u => if in_dec string_dec (uv_name u) (sel_names us sels) then true else false) us) rs.
Proof. intros. eapply stored_ok; eauto. Qed.
Print Assumptions C30_stored_entries.

Lemma in_lookup : forall A (l : list (nat * A)) k v, NoDup (map fst l) -> In (k, v) l -> lookup k l = Some v.
Proof.
  induction l as [|[k' v'] l IH]; simpl; intros k v HN H; [contradiction|]. inversion HN; subst. destruct H as [H|H].
  - inversion H; subst. rewrite Nat.eqb_refl. auto.
  - destruct (Nat.eqb k k') eqn:E; auto. apply Nat.eqb_eq in E. subst. exfalso. apply H2. apply (in_map fst) in H. auto.
Qed.

(** The k-th dropped variable at position i fails when i + k reaches the number of variables. *)
Theorem C30_dropped_fails : forall red us vs sels,
  vars_ok red us -> (forall u, In u us -> uv_sym u = false) -> good_sels us sels -> prim_info red us = Ok vs ->
  (exists k i, nth_error (dropped (sel_names us sels) 0 us) k = Some i /\ length us <= i + k) ->
  NoDup (map fst red) -> store_vars vs sels = Err IndexError.
Proof.
  intros red us vs sels HV HS HG Hp HD HN.
  apply (@dropped_fails nat red us (fun i => match lookup i red with Some z => repeat 0 z | None => [] end) vs sels HV); auto.
  intros i z Hin. rewrite (in_lookup _ red i z HN Hin). apply repeat_length.
Qed.
Print Assumptions C30_dropped_fails.

Definition c30_red := [(1, 3); (4, 2); (2, 1); (3, 2)].
Definition c30_us := [mkUV "a" 1 [3] false; mkUV "b" 2 [] false; mkUV "c" 3 [2] false].
Definition c30_blk (i : nat) : list Z := match i with 1 => [10; 11; 12]%Z | 2 => [20]%Z | 3 => [30; 31]%Z | _ => [90; 91]%Z end.
Definition c30_x : list Z := [10; 11; 12; 90; 91; 20; 30; 31]%Z.
Definition c30_run (sels : option (list (string * option (list Z)))) : res (list (string * list Z)) :=
  vs <- prim_info c30_red c30_us;; xv <- store_vars vs sels;; o <- table_out c30_x (xv_out xv);;
  x_primal 0%Z 8 xv (fun _ _ => 0%Z) o.
Lemma c30_vars : vars_ok c30_red c30_us.
Proof.
  split.
  - repeat constructor; simpl; intuition discriminate.
  - intros u H. simpl in H. destruct H as [<-|[<-|[<-|[]]]]; reflexivity.
  - intros u H. simpl in H. destruct H as [<-|[<-|[<-|[]]]]; discriminate.
Qed.
Example C30_example :
  vars_ok c30_red c30_us /\ (forall i z, In (i, z) c30_red -> length (c30_blk i) = z)
  /\ good_sels c30_us (Some [("b", None); ("a", Some [2; 0]%Z)])
  /\ (forall k i, nth_error (dropped (sel_names c30_us (Some [("b", None); ("a", Some [2; 0]%Z)])) 0 c30_us) k = Some i -> i + k < 3)
  /\ c30_run (Some [("b", None); ("a", Some [2; 0]%Z)]) = Ok [("a", [10; 0; 12]%Z); ("b", [20%Z])].
Proof.
  split; [apply c30_vars|]. split.
  { intros i z H. simpl in H. repeat destruct H as [H|H]; try contradiction; inversion H; reflexivity. }
  split.
  { split; [repeat constructor; simpl; intuition discriminate|]. intros n inds H. simpl in H. destruct H as [H|[H|[]]]; inversion H; subst.
    - exists (mkUV "b" 2 [] false). simpl. auto.
    - exists (mkUV "a" 1 [3] false). split; [simpl; auto|]. split; auto. simpl. split; [|split].
      + repeat constructor; simpl; intuition discriminate.
      + intros y [<-|[<-|[]]]; lia.
      + discriminate. }
  split; [|vm_compute; reflexivity].
  intros k i H. vm_compute in H. destruct k as [|[|]]; inversion H; lia.
Qed.

(** Storing only the middle of three variables. *)
Theorem C30_dropped_refuted : c30_run (Some [("b", None)]) = Err IndexError.
Proof. vm_compute. reflexivity. Qed.
(** One entry of a larger variable: it lands in entry 0, whatever entry was asked for, and
    for any but the first stored variable it is read from the wrong place. *)
Theorem C30_single_entry_refuted :
  c30_run (Some [("c", Some [1]%Z); ("a", None); ("b", None)]) = Err TypeError
  /\ (exists v, (vs <- prim_info c30_red [mkUV "a" 1 [3] false; mkUV "c" 3 [2] false];;
       xv <- store_vars vs (Some [("c", Some [1]%Z); ("a", None)]);; o <- table_out c30_x (xv_out xv);;
       x_primal 0%Z 8 xv (fun _ _ => 0%Z) o) = Ok v /\ v = [("a", [10; 11; 12]%Z); ("c", [31; 0]%Z)])
  /\ (exists v, (vs <- prim_info c30_red [mkUV "a" 1 [3] false; mkUV "c" 3 [2] false];;
       xv <- store_vars vs (Some [("a", Some [0; 1]%Z); ("c", Some [0]%Z)]);; o <- table_out c30_x (xv_out xv);;
       x_primal 0%Z 8 xv (fun _ _ => 0%Z) o) = Err v /\ v = OutOfBounds).
Proof.
  split; [vm_compute; reflexivity|]. split; eexists; (split; [vm_compute; reflexivity|reflexivity]).
Qed.
Print Assumptions C30_single_entry_refuted.

(** A negative index, which NumPy accepts, reads the entry before the variable: c[-1] is the
    value of b. *)
Theorem C30_negative_index_refuted :
  c30_run (Some [("a", None); ("b", None); ("c", Some [0; -1]%Z)])
  = Ok [("a", [10; 11; 12]%Z); ("b", [20%Z]); ("c", [30; 20]%Z)].
Proof. vm_compute. reflexivity. Qed.
Print Assumptions C30_negative_index_refuted.

(** A symmetric variable is read through the expanded array with the packed indices. *)
Theorem C30_symmetric_refuted : exists l : list Z,
  (vs <- prim_info [(1, 3)] [mkUV "S" 1 [2; 2] true];; xv <- store_vars vs None;;
   o <- table_out [1; 2; 3; 0]%Z (xv_out xv);; x_primal 0%Z 3 xv (fun _ _ => 0%Z) o) = Ok [("S", l)]
  /\ l <> [1; 2; 2; 3]%Z.
Proof. eexists. split; [vm_compute; reflexivity|discriminate]. Qed.
Print Assumptions C30_symmetric_refuted.

(** ** C31 *)

(** [dp] is the gradient of the affine law of region [r] composed with canonicalization:
    [vd] applied to the change of the values that Python stores is [dp] applied to the change
    of the parameters. *)
Definition adjoint_of {K : Ring} (g : genc K) mask nvar xv (t : table K) (r : nat) (vd : string -> list K) (dp : list K) : Prop :=
  length dp = length (g_vec0 g)
  /\ forall p p' cells, exists o o' rs rs',
       t_eval t r (mask_sel mask (canon_spec g p pq ++ canon_spec g p pu)) = Ok o
       /\ t_eval t r (mask_sel mask (canon_spec g p' pq ++ canon_spec g p' pu)) = Ok o'
       /\ x_primal n0 nvar xv cells o = Ok rs /\ x_primal n0 nvar xv cells o' = Ok rs'
       /\ map fst rs = map fst rs'
       /\ rsum (map (fun e => ldot (vd (fst (fst e))) (vsub K (snd (snd e)) (snd (fst e)))) (combine rs rs'))
          = ldot dp (vsub K (flat (g_params g) p') (flat (g_params g) p)).

Lemma combine_map2 : forall A B C (f : A -> B) (h : A -> C) l, combine (map f l) (map h l) = map (fun a => (f a, h a)) l.
Proof. induction l; simpl; auto. f_equal. auto. Qed.

Lemma dropped_nil : forall names i us, (forall u, In u us -> In (uv_name u) names) -> dropped names i us = [].
Proof.
  intros names i us. revert i. induction us as [|u us IH]; simpl; intros i H; auto.
  destruct (in_dec string_dec (uv_name u) names) as [_|N]; [auto|]. exfalso. apply N. auto.
Qed.

(** All variables are stored (in part at least); the table has one law per leaf; all calls
    come after a solve or name a region. *)
Theorem C31_explicit_gradient : forall (K : Ring) big (x : cvx K) th0 order g mask red us vs sels xv (t : table K),
  wf_cvx x th0 -> (forall l, Permutation l (order l)) -> generate big x OSQP order = Ok g ->
  length mask = length (g_baked g pq) + length (g_baked g pu) ->
  vars_ok red us -> NoDup (map fst red) -> NoDup (map uv_id us) ->
  (forall u, In u us -> uv_sym u = false) -> good_sels us sels -> prim_info red us = Ok vs ->
  (forall u, In u us -> In (uv_name u) (sel_names us sels)) ->
  store_vars vs sels = Ok xv ->
  t_np t = length (mask_pos mask) -> t_nsol t = length (xv_out xv) ->
  (forall h, In h (t_hp t) -> (h + 1) * ((t_np t + 1) * t_nsol t) <= length (t_feed t)) ->
  forall os,
  (forall c vd, In (c, vd) (call_regions K None os) ->
     (exists r, c = Some r /\ r < length (t_hp t))
     /\ forall u, In u us -> length (vd (uv_name u)) = fsize (uv_shape u)) ->
  let nsol := list_sum (map snd (xv_rsize xv)) in
  exists dps, grad_run (xg_of K g mask nsol) t (xv_vars xv) (None, repeat n0 nsol) os = Ok dps
    /\ forall nvar, Forall2 (fun c dp => exists r, fst c = Some r /\ adjoint_of g mask nvar xv t r (snd c) dp)
         (call_regions K None os) dps.
Proof.
  intros K big x th0 order g mask red us vs sels xv t WX Hord Hg Hmask HV HN HU HS HG Hp Hall Est Hnp Hnsol Hhp os Hcalls nsol.
  destruct (generate_wf K big x th0 WX OSQP order Hord) as (g' & Eg & W & Hs). rewrite Hg in Eg. inversion Eg; subst g'; clear Eg.
  assert (Hrows : forall p, In p [pq; pu] -> length (g_rows g p) = length (g_baked g p)).
  { intros p Hpp.
    assert (Hlen : length (canon_spec g th0 p) = length (g_baked g p)).
    { unfold canon_spec. destruct (chg_get (g_chg g) p) eqn:Ec; auto.
      rewrite app_length, map_length, skipn_length. pose proof (w_len _ _ _ W p). lia. }
    assert (Hp' : In p (solver_pids OSQP)) by (simpl in *; intuition (subst; auto)).
    rewrite <- Hlen, (canon_spec_meaning K big x th0 WX OSQP order g th0 p Hord Hg Hp').
    assert (Et : tail_of K big x OSQP p = []) by (simpl in Hpp; destruct Hpp as [<-|[<-|[]]]; reflexivity).
    rewrite Et, app_nil_r. unfold bval. rewrite map_length. unfold generate in Hg.
    destruct (block_for big x OSQP order); [|discriminate]. cbn [bind] in Hg. inversion Hg; subst g.
    simpl in Hpp; destruct Hpp as [<-|[<-|[]]]; reflexivity. }
  assert (HB : forall i z, In (i, z) red -> length ((fun i => match lookup i red with Some z => repeat tt z | None => [] end) i) = z).
  { intros i z Hin. cbv beta. rewrite (in_lookup _ red i z HN Hin). apply repeat_length. }
  pose proof (prim_plain unit red us _ vs HV HB HS Hp) as F.
  destruct (store_conds red us _ vs sels HV HB HS HG Hp) as (C1 & C2 & C3).
  destruct (store_vars_ok vs sels C1 C2 C3) as [HOK _].
  destruct HOK as (xv' & E & Hout & Hsz & HF).
  { intros k i. rewrite (sel_fst _ _ _ _ _ sels F), (pdrops_dropped _ _ _ _ _ _ 0 F), dropped_nil by auto.
    destruct k; discriminate. }
  rewrite Est in E. inversion E; subst xv'; clear E. rewrite (sel_fst _ _ _ _ _ sels F) in HF, Hsz.
  assert (Hmem : forall p, In p vs -> mem_str (pi_name p) (sel_names us sels) = true).
  { intros p Hin. rewrite mem_str_dec. destruct (in_dec string_dec (pi_name p) (sel_names us sels)) as [_|N]; auto.
    exfalso. apply N. destruct (plain_in red us _ vs HV HB HS Hp p Hin) as (u & Hu & -> & _). auto. }
  assert (Ff : filter (fun p => mem_str (pi_name p) (sel_names us sels)) vs = vs).
  { revert Hmem. clear. induction vs; simpl; intro H; auto. rewrite (H a) by auto. f_equal. auto. }
  assert (Fn : filter (fun p => negb (mem_str (pi_name p) (sel_names us sels))) vs = []).
  { revert Hmem. clear. induction vs; simpl; intro H; auto. rewrite (H a) by auto. simpl. auto. }
  rewrite Ff in HF. rewrite Fn in Hsz. simpl in Hsz. rewrite Nat.add_0_r in Hsz. fold nsol in Hsz.
  assert (Hv : forall v, In v (xv_vars xv) -> exists u p inds, In u us /\ In p vs /\ plain (concat (map (fun e => match lookup (fst e) red with Some z => repeat tt z | None => [] end) red)) (fun i => match lookup i red with Some z => repeat tt z | None => [] end) u p
            /\ xi_name v = pi_name p /\ xi_size v = pi_size p /\ xi_sym v = pi_sym p /\ stored (xv_out xv) inds (xi0 p) v).
  { intros v Hin. apply In_nth_error in Hin. destruct Hin as (i & Hi).
    destruct (Forall2_nth_r _ _ _ _ _ i v HF Hi) as (p & Hpi & A1 & A2 & A3 & inds & _ & A4).
    apply nth_error_In in Hpi. destruct (plain_in red us _ vs HV HB HS Hp p Hpi) as (u & Hu & P).
    exists u, p, inds. repeat (split; auto). }
  assert (Hnames : map xi_name (xv_vars xv) = map pi_name vs).
  { clear - HF. induction HF as [|p v l l' H _ IH]; simpl; auto. f_equal; auto. apply H. }
  assert (Hsh : Forall (shaped (length (xv_out xv))) (xv_vars xv)).
  { apply Forall_forall. intros v Hin. destruct (Hv v Hin) as (u & p & inds & _ & _ & P & A1 & A2 & A3 & A4).
    refine (stored_shape _ _ _ xv p v u inds Hout P A1 A2 A3 A4). }
  assert (HNv : NoDup (map xi_name (xv_vars xv))) by (rewrite Hnames; auto).
  assert (Hinj : slots_inj (xv_vars xv)).
  { intros v w i j pos Hvi Hwi Hi Hj Sv Sw.
    destruct (Hv v Hvi) as (u & p & inds & Hu & Hpin & (P1 & P2 & P3 & P4 & _) & A1 & A2 & A3 & (A4 & _)).
    destruct (Hv w Hwi) as (u' & p' & inds' & Hu' & Hpin' & (P1' & P2' & P3' & P4' & _) & B1 & B2 & B3 & (B4 & _)).
    simpl in A4, B4. rewrite A2 in Hi. rewrite B2 in Hj. specialize (A4 i Hi). specialize (B4 j Hj).
    rewrite Sv in A4. rewrite Sw in B4. destruct A4 as (_ & A4 & _). destruct B4 as (_ & B4 & _).
    assert (Eq : pi_off p + i = pi_off p' + j) by lia.
    apply In_nth_error in Hpin. destruct Hpin as (a & Ha). apply In_nth_error in Hpin'. destruct Hpin' as (b & Hb).
    assert (a = b).
    { destruct (Nat.eq_dec a b) as [|Hne]; auto. exfalso.
      apply (prim_disjoint red us vs HV HN HU Hp a b p p' (pi_off p + i) Hne Ha Hb).
      - rewrite P4. apply in_seq. lia.
      - rewrite P4', Eq. apply in_seq. lia. }
    subst b. rewrite Ha in Hb. inversion Hb; subst p'. split; [|lia].
    assert (En : xi_name v = xi_name w) by congruence.
    revert En Hvi Hwi HNv. clear. induction (xv_vars xv) as [|z l IH]; simpl; intros En H1 H2 HN; [contradiction|].
    inversion HN; subst. destruct H1 as [->|H1], H2 as [->|H2]; auto.
    - exfalso. apply H3. rewrite En. apply in_map. auto.
    - exfalso. apply H3. rewrite <- En. apply in_map. auto. }
  destruct (grad_run_ok K g mask nsol t (xv_vars xv) th0 W Hmask) with (os := os) (cur := @None nat) as (dps & E & FD); auto.
  - rewrite Hnsol. auto.
  - eapply NoDup_map_inv; eauto.
  - lia.
  - intros c vd Hin. destruct (Hcalls c vd Hin) as ((r & -> & Hr) & Hl). split.
    + exists r. unfold t_base. destruct (nth_error (t_hp t) r) as [h|] eqn:Eh.
      * pose proof (nth_error_In _ _ Eh) as Hin'. specialize (Hhp h Hin').
        rewrite (get_ok _ _ _ 0) by auto. cbn [bind]. rewrite (nth_error_nth _ _ 0 Eh).
        eexists. split; auto. split; [reflexivity|]. rewrite Hsz, <- Hnsol. nia.
      * apply nth_error_None in Eh. lia.
    + intros v Hin'. destruct (Hv v Hin') as (u & p & inds & Hu & _ & (P1 & P2 & _) & A1 & A2 & _).
      rewrite A1, A2, P1, P2. auto.
  - exists dps. split; auto. intro nvar. revert FD. generalize (call_regions K None os). clear - Hsh HNv Hnsol Hhp.
    intros cs FD. induction FD as [|c dp cs dps (r & Er & L & A) FD IH]; constructor; auto.
    exists r. split; auto. split; auto. intros p p' cells. destruct (A p p') as (o & o' & E1 & E2 & E3).
    assert (Lo : forall z o, t_eval t r z = Ok o -> length o = length (xv_out xv)).
    { intros z oo Hz. unfold t_eval in Hz. destruct (t_base t r) as [bs|]; [|discriminate]. cbn [bind] in Hz.
      apply mapM_length in Hz. rewrite seq_length in Hz. congruence. }
    exists o, o', (map (fun v => (xi_name v, slot_vals n0 o v)) (xv_vars xv)), (map (fun v => (xi_name v, slot_vals n0 o' v)) (xv_vars xv)).
    split; [exact E1|]. split; [exact E2|].
    split; [apply x_primal_ok; auto; rewrite (Lo _ _ E1); auto|].
    split; [apply x_primal_ok; auto; rewrite (Lo _ _ E2); auto|].
    split; [rewrite !map_map; reflexivity|].
    rewrite combine_map2, map_map. exact E3.
Qed.
Print Assumptions C31_explicit_gradient.

Definition c31_sels : option (list (string * option (list Z))) := Some [("c", None); ("a", Some [2; 0]%Z); ("b", None)].
Definition c31_t (nsol : nat) : table ZRing := mkT (K := ZRing) (map Z.of_nat (seq 0 (2 * (4 * nsol)))) [0; 1; 0] 3 nsol.
Definition c31_vd (n : string) : list Z :=
  if String.eqb n "a" then [1; 5; 2]%Z else if String.eqb n "b" then [3]%Z else [-1; 4]%Z.
Definition c31_os : list (gop ZRing) :=
  [@GSolve ZRing 2; @GGrad ZRing None c31_vd; @GSolve ZRing 0; @GGrad ZRing (Some 1) c31_vd; @GGrad ZRing None c31_vd].
Definition c31_run (sels : option (list (string * option (list Z)))) (nsol : nat) os : res (list (list Z)) :=
  vs <- prim_info c30_red c30_us;; xv <- store_vars vs sels;;
  let n := list_sum (map snd (xv_rsize xv)) in
  grad_run (xg_of ZRing xg x_mask n) (c31_t nsol) (xv_vars xv) (None, repeat 0%Z n) os.
Example C31_example :
  wf_cvx (ex_for OSQP) ex_th0 /\ generate (K := ZRing) ex_big (ex_for OSQP) OSQP ex_order = Ok xg
  /\ length x_mask = length (g_baked xg pq) + length (g_baked xg pu)
  /\ vars_ok c30_red c30_us /\ good_sels c30_us c31_sels
  /\ (forall u, In u c30_us -> In (uv_name u) (sel_names c30_us c31_sels))
  /\ t_np (c31_t 5) = length (mask_pos x_mask)
  /\ (vs <- prim_info c30_red c30_us;; xv <- store_vars vs c31_sels;; Ok (length (xv_out xv))) = Ok 5
  /\ (forall h, In h (t_hp (c31_t 5)) -> (h + 1) * ((t_np (c31_t 5) + 1) * t_nsol (c31_t 5)) <= length (t_feed (c31_t 5)))
  /\ (forall c vd, In (c, vd) (call_regions ZRing None c31_os) ->
        (exists r, c = Some r /\ r < 3) /\ forall u, In u c30_us -> length (vd (uv_name u)) = fsize (uv_shape u))
  /\ c31_run c31_sels 5 c31_os = Ok [[0; 110; -9; 0]; [0; 290; -9; 0]; [0; 290; -9; 0]]%Z.
Proof.
  split; [apply ex_wf|]. split; [apply ex_generate|]. split; [vm_compute; reflexivity|]. split; [apply c30_vars|].
  split.
  { split; [repeat constructor; simpl; intuition discriminate|]. intros n inds H. simpl in H. destruct H as [H|[H|[H|[]]]]; inversion H; subst.
    - exists (mkUV "c" 3 [2] false). simpl. auto.
    - exists (mkUV "a" 1 [3] false). split; [simpl; auto|]. split; auto. simpl. split; [|split].
      + repeat constructor; simpl; intuition discriminate.
      + intros y [<-|[<-|[]]]; lia.
      + discriminate.
    - exists (mkUV "b" 2 [] false). simpl. auto. }
  split.
  { intros u H. simpl in H. destruct H as [<-|[<-|[<-|[]]]]; simpl; auto. }
  split; [vm_compute; reflexivity|]. split; [vm_compute; reflexivity|]. split.
  { intros h H. cbn [c31_t t_hp In] in H. cbn [c31_t t_np t_nsol t_feed]. rewrite map_length, seq_length. destruct H as [<-|[<-|[<-|[]]]]; lia. }
  split; [|vm_compute; reflexivity].
  intros c vd H. cbn [call_regions c31_os In] in H.
  destruct H as [H|[H|[H|[]]]]; inversion H; subst; (split; [eexists; split; [reflexivity|lia]|
    intros u Hu; simpl in Hu; destruct Hu as [<-|[<-|[<-|[]]]]; reflexivity]).
Qed.

(** With a variable dropped, n_sol still counts it and the loop runs past the table. *)
Theorem C31_dropped_refuted : c31_run (Some [("a", None); ("b", None)]) 4 [@GSolve ZRing 1; @GGrad ZRing None c31_vd] = Err OutOfBounds
  /\ exists d, c31_run c31_sels 5 [@GSolve ZRing 1; @GGrad ZRing None c31_vd] = Ok d.
Proof. split; [vm_compute; reflexivity|eexists; vm_compute; reflexivity]. Qed.
Print Assumptions C31_dropped_refuted.
(** A gradient before any solve uses region -1. *)
Theorem C31_before_solve_refuted : c31_run c31_sels 5 [@GGrad ZRing None c31_vd] = Err OutOfBounds.
Proof. vm_compute. reflexivity. Qed.
Print Assumptions C31_before_solve_refuted.

(** ** C32 *)

(** cpg_obj on the whole canonical solution: the objective without sign and offset. *)
Theorem C32_objective : forall (K : Ring) (half : K) (x : cvx K) v P q sx,
  length P = x_n x -> length q = x_n x -> length sx = x_n x ->
  (forall (c : row K) (r : nat) (p : K), In c P -> In (r, p) c -> r < x_n x) ->
  (forall r c, r < x_n x -> c < x_n x -> col_entry K P r c = cP x v r c) ->
  (forall j, j < x_n x -> nth j q n0 = cq x v j) ->
  exists o, x_obj half P q sx = Ok o
    /\ user_obj x half v (fun i => nth i sx n0)
       = if x_max x then ropp (nadd o (cd x v)) else nadd o (cd x v).
Proof.
  intros K half x v P q sx L1 L2 L3 HP E1 E2. rewrite (x_obj_ok K half P q sx (x_n x)) by auto.
  eexists. split; [reflexivity|]. unfold user_obj.
  assert (A1 : qf (x_n x) (col_entry K P) (fun i => nth i sx n0) = qf (x_n x) (cP x v) (fun i => nth i sx n0)).
  { unfold qf. apply rsum_ext. intros i Hi. apply in_seq in Hi. apply rsum_ext. intros j Hj. apply in_seq in Hj.
    rewrite E1 by lia. auto. }
  assert (A2 : lf (x_n x) (fun i => nth i q n0) (fun i => nth i sx n0) = lf (x_n x) (cq x v) (fun i => nth i sx n0)).
  { unfold lf. apply rsum_ext. intros j Hj. apply in_seq in Hj. rewrite E2 by lia. auto. }
  rewrite A1, A2. reflexivity.
Qed.
Print Assumptions C32_objective.

Section R32.
  Variable K : Ring.
  Add Ring r32 : (rth K).
  Lemma add_zero : forall o d : K, o = nadd o d -> d = n0.
  Proof. intros o d H. transitivity (nadd (nadd o d) (ropp o)); [ring|]. rewrite <- H. ring. Qed.
  Lemma zero_add : forall o : K, o = nadd o n0.
  Proof. intro. ring. Qed.
  Lemma neg_add : forall o d : K, o = ropp (nadd o d) -> nadd (nadd o o) d = n0.
  Proof. intros o d H. transitivity (nadd (nadd o d) o); [ring|]. rewrite H at 2. ring. Qed.
  Lemma add_neg : forall o d : K, nadd (nadd o o) d = n0 -> o = ropp (nadd o d).
  Proof. intros o d H. transitivity (nadd (nadd (nadd o o) d) (ropp (nadd o d))); [ring|]. rewrite H. ring. Qed.
End R32.

(** For a minimisation it is the user's objective iff the offset is zero. *)
Theorem C32_minimise_iff : forall (K : Ring) (half : K) (x : cvx K) v P q sx,
  length P = x_n x -> length q = x_n x -> length sx = x_n x ->
  (forall (c : row K) (r : nat) (p : K), In c P -> In (r, p) c -> r < x_n x) ->
  (forall r c, r < x_n x -> c < x_n x -> col_entry K P r c = cP x v r c) ->
  (forall j, j < x_n x -> nth j q n0 = cq x v j) -> x_max x = false ->
  (x_obj half P q sx = Ok (user_obj x half v (fun i => nth i sx n0)) <-> cd x v = n0).
Proof.
  intros K half x v P q sx L1 L2 L3 HP E1 E2 Hm.
  destruct (C32_objective K half x v P q sx L1 L2 L3 HP E1 E2) as (o & Eo & Eu). rewrite Hm in Eu. rewrite Eo, Eu.
  split; intro H.
  - inversion H as [H']. apply add_zero in H'. auto.
  - f_equal. rewrite H. apply zero_add.
Qed.
Print Assumptions C32_minimise_iff.

(** For a maximisation it is the user's objective iff twice the returned value and the offset
    cancel. *)
Theorem C32_maximise_iff : forall (K : Ring) (half : K) (x : cvx K) v P q sx,
  length P = x_n x -> length q = x_n x -> length sx = x_n x ->
  (forall (c : row K) (r : nat) (p : K), In c P -> In (r, p) c -> r < x_n x) ->
  (forall r c, r < x_n x -> c < x_n x -> col_entry K P r c = cP x v r c) ->
  (forall j, j < x_n x -> nth j q n0 = cq x v j) -> x_max x = true ->
  exists o, x_obj half P q sx = Ok o
    /\ (o = user_obj x half v (fun i => nth i sx n0) <-> nadd (nadd o o) (cd x v) = n0).
Proof.
  intros K half x v P q sx L1 L2 L3 HP E1 E2 Hm.
  destruct (C32_objective K half x v P q sx L1 L2 L3 HP E1 E2) as (o & Eo & Eu). rewrite Hm in Eu. exists o.
  split; auto. rewrite Eu. split; [apply neg_add|apply add_neg].
Qed.
Print Assumptions C32_maximise_iff.

(** The objective p[0]*y1^2/2 + y0^2 + q*y0 + y1 + 2*q of the example, at p = (3, 4), q = 5 and y = (1, 2). *)
Definition c32_flat : list Z := [3; 4; 5; 1]%Z.
Example C32_example :
  let x := ex_for OSQP in let P : list (row ZRing) := [[(0, 2%Z)]; [(1, 3%Z)]] in let q := [5; 1]%Z in let sx := [1; 2]%Z in
  length P = x_n x /\ (forall c r p, In c P -> In (r, p) c -> r < x_n x)
  /\ (forall r c, r < x_n x -> c < x_n x -> col_entry ZRing P r c = cP x c32_flat r c)
  /\ (forall j, j < x_n x -> nth j q 0%Z = cq x c32_flat j)
  /\ x_max x = false
  /\ x_obj (K := ZRing) 1%Z P q sx = Ok 21%Z /\ user_obj x 1%Z c32_flat (fun i => nth i sx 0%Z) = 31%Z.
Proof.
  cbv zeta. split; [reflexivity|]. split.
  { intros c r p H1 H2. cbn [In] in H1. destruct H1 as [<-|[<-|[]]]; cbn [In] in H2; destruct H2 as [H2|[]]; inversion H2; simpl; lia. }
  split.
  { intros r c Hr Hc. simpl in Hr, Hc. destruct r as [|[|]], c as [|[|]]; try lia; vm_compute; reflexivity. }
  split.
  { intros j Hj. simpl in Hj. destruct j as [|[|]]; try lia; vm_compute; reflexivity. }
  split; [reflexivity|]. split; vm_compute; reflexivity.
Qed.

(** The same example shows the offset missing: 21 instead of 31. *)
Theorem C32_offset_refuted : exists (x : cvx ZRing) v P q sx o,
  x_obj (K := ZRing) 1%Z P q sx = Ok o
  /\ (forall r c, r < x_n x -> c < x_n x -> col_entry ZRing P r c = cP x v r c)
  /\ (forall j, j < x_n x -> nth j q 0%Z = cq x v j)
  /\ o <> user_obj x 1%Z v (fun i => nth i sx 0%Z).
Proof.
  destruct C32_example as (_ & _ & A & B & _ & C & D).
  exists (ex_for OSQP), c32_flat, [[(0, 2%Z)]; [(1, 3%Z)]], [5; 1]%Z, [1; 2]%Z, 21%Z.
  split; [exact C|]. split; [exact A|]. split; [exact B|]. intro H. pose proof (eq_trans H D) as E. discriminate E.
Qed.
Print Assumptions C32_offset_refuted.

(** ** C55: what cpg_obj sees in sol_x *)

Lemma find_set_other : forall n m off idx vs, n <> m -> xi_find n (xi_set m off idx vs) = xi_find n vs.
Proof.
  induction vs as [|v vs IH]; simpl; intro H; auto.
  destruct (String.eqb (xi_name v) m) eqn:E; simpl.
  - apply String.eqb_eq in E. rewrite E. assert (En : String.eqb n m = false) by (apply String.eqb_neq; auto). rewrite En. auto.
  - rewrite IH by auto. auto.
Qed.

Lemma seq_from : forall n o, seq o n = map (fun i => o + i) (seq 0 n).
Proof.
  induction n as [|n IH]; simpl; intro o; auto. f_equal; [lia|]. rewrite IH, <- seq_shift, map_map. apply map_ext. intro; lia.
Qed.

Definition whole (l : list pinfo) : list Z := flat_map (fun p => map (fun i => Z.of_nat (pi_off p + i)) (seq 0 (pi_size p))) l.

Lemma store_whole : forall l s s', store_steps s (map (fun p => (pi_name p, None)) l) = Ok s' -> NoDup (map pi_name l) ->
  (forall p, In p l -> exists v, xi_find (pi_name p) (st_vars s) = Some v /\ xi_off v = pi_off p /\ xi_size v = pi_size p) ->
  st_out s' = st_out s ++ whole l.
Proof.
  induction l as [|p l IH]; cbn [map store_steps]; intros s s' H HN HF.
  - inversion H. rewrite app_nil_r. reflexivity.
  - destruct (HF p (or_introl eq_refl)) as (v & Ev & Eo & Es). unfold store_step in H. rewrite Ev in H.
    match type of H with context [bind (bind ?i _) _] => destruct i as [idx|]; [|discriminate] end. cbn [bind] in H.
    inversion HN; subst. apply IH in H; auto.
    + rewrite H. cbn [st_out]. rewrite <- app_assoc. f_equal. unfold whole. cbn [flat_map]. f_equal.
      rewrite Es, Eo, map_map. apply map_ext. intro. lia.
    + intros q Hq. destruct (HF q (or_intror Hq)) as (w & Ew & Ewo & Ews). exists w. cbn [st_vars]. split; auto.
      rewrite find_set_other; auto. intro En. apply H2. rewrite <- En. apply in_map. auto.
Qed.

Lemma find_xi0 : forall vs p, NoDup (map pi_name vs) -> In p vs -> xi_find (pi_name p) (map xi0 vs) = Some (xi0 p).
Proof.
  induction vs as [|q vs IH]; simpl; intros p HN H; [contradiction|]. inversion HN; subst. destruct H as [->|H].
  - rewrite String.eqb_refl. auto.
  - destruct (String.eqb (pi_name p) (pi_name q)) eqn:E; auto. apply String.eqb_eq in E.
    exfalso. apply H2. rewrite <- E. apply in_map. auto.
Qed.

(** No selection, and the variables laid out one after the other cover the canonical
    vector in its order: sol_x is the canonical solution. *)
Theorem C55_plain_order : forall (K : Type) (k0 : K) vs xv (x : list K), NoDup (map pi_name vs) ->
  store_vars vs None = Ok xv -> flat_map (fun p => seq (pi_off p) (pi_size p)) vs = seq 0 (length x) ->
  exists o, table_out x (xv_out xv) = Ok o /\ sol_x k0 (solx_len (length x) xv) o = x.
Proof.
  intros K k0 vs xv x HN E0 HC.
  assert (Hfst : map fst (sel_list vs None) = map pi_name vs) by (simpl; rewrite map_map; auto).
  assert (Hnone : forall i, pdrops (map pi_name vs) i vs = []).
  { intro i. unfold pdrops. assert (G : forall l i, incl l vs -> drops (map pi_name vs) i (map xi0 l) = []).
    { induction l as [|p l IH]; simpl; intros k Hi; auto.
      rewrite (proj2 (mem_str_in _ _)) by (apply in_map; apply Hi; left; auto). apply IH. intros a Ha. apply Hi. right; auto. }
    apply G. intro; auto. }
  destruct (store_vars_ok vs None HN) as [HOK _].
  { rewrite Hfst. auto. }
  { intros n inds Hin. simpl in Hin. apply in_map_iff in Hin. destruct Hin as (p & Ep & Hp). inversion Ep; subst. exists p. simpl. auto. }
  destruct HOK as (xv' & E' & _ & HSz & _).
  { intros k i. rewrite Hfst, Hnone. destruct k; discriminate. }
  rewrite E0 in E'. inversion E'; subst xv'; clear E'. rewrite Hfst in HSz.
  assert (Fn : filter (fun p => negb (mem_str (pi_name p) (map pi_name vs))) vs = []).
  { assert (G : forall l, incl l vs -> filter (fun p => negb (mem_str (pi_name p) (map pi_name vs))) l = []).
    { induction l as [|p l IH]; simpl; intros Hi; auto.
      rewrite (proj2 (mem_str_in _ _)) by (apply in_map; apply Hi; left; auto). simpl. apply IH. intros a Ha. apply Hi. right; auto. }
    apply G. intro; auto. }
  rewrite Fn in HSz. simpl in HSz. rewrite Nat.add_0_r in HSz.
  pose proof E0 as E. unfold store_vars in E.
  match type of E with bind ?a _ = _ => destruct a as [s|] eqn:Es; [|discriminate] end. cbn [bind] in E.
  match type of E with bind ?a _ = _ => destruct a as [[[vs' sym'] r]|] eqn:Er; [|discriminate] end. cbn [bind] in E.
  assert (Es' : xv_out xv = st_out s) by (inversion E; reflexivity). clear E.
  apply store_whole in Es; auto.
  2:{ intros p Hp. exists (xi0 p). cbn [st_vars]. split; [apply find_xi0; auto|]. auto. }
  cbn [st_out app] in Es.
  assert (Ew : whole vs = map Z.of_nat (seq 0 (length x))).
  { rewrite <- HC. unfold whole. clear. induction vs as [|p vs IH]; simpl; auto. rewrite map_app, IH. f_equal.
    rewrite (seq_from (pi_size p) (pi_off p)), map_map. auto. }
  rewrite Es, Ew in Es'. exists x. split.
  - rewrite Es'. rewrite (table_out_ok K k0).
    + f_equal. rewrite map_map. rewrite (map_ext _ (fun i => nth i x k0)); [|intro; rewrite Nat2Z.id; auto].
      rewrite map_nth_seq by lia. cbn [skipn]. apply firstn_all.
    + apply Forall_forall. intros z Hz. apply in_map_iff in Hz. destruct Hz as (i & <- & Hi). apply in_seq in Hi. exists i. split; auto. lia.
  - unfold sol_x. match goal with |- x ++ repeat _ ?n = _ => assert (En : n = 0) end; [|rewrite En; apply app_nil_r].
    unfold solx_len. destruct (xv_red xv); [|lia]. rewrite HSz, Es', map_length, seq_length. lia.
Qed.
Print Assumptions C55_plain_order.

(** A scalar a and a scalar b, minimise a + 10 b at a = 1, b = 2: stored as b, a the returned
    value is 12 instead of 21; with only one of them reported by the problem, 1. *)
Theorem C55_reordered_refuted :
  let vs := [mkPI "a" 0 [0] 1 [] false; mkPI "b" 1 [1] 1 [] false] in
  (xv <- store_vars vs None;; o <- table_out [1; 2]%Z (xv_out xv);;
   x_obj (K := ZRing) 1%Z [[]; []] [1; 10]%Z (sol_x 0%Z (solx_len 2 xv) o)) = Ok 21%Z
  /\ (xv <- store_vars vs (Some [("b", None); ("a", None)]);; o <- table_out [1; 2]%Z (xv_out xv);;
      x_obj (K := ZRing) 1%Z [[]; []] [1; 10]%Z (sol_x 0%Z (solx_len 2 xv) o)) = Ok 12%Z
  /\ (xv <- store_vars [mkPI "b" 1 [1] 1 [] false] None;; o <- table_out [1; 2]%Z (xv_out xv);;
      x_obj (K := ZRing) 1%Z [[]; []] [1; 10]%Z (sol_x 0%Z (solx_len 2 xv) o)) = Ok 2%Z.
Proof. cbv zeta. repeat split; vm_compute; reflexivity. Qed.
Print Assumptions C55_reordered_refuted.
Example C55_example :
  let vs := [mkPI "a" 0 [0; 1] 2 [2] false; mkPI "b" 2 [2] 1 [] false] in
  NoDup (map pi_name vs) /\ flat_map (fun p => seq (pi_off p) (pi_size p)) vs = seq 0 3
  /\ exists xv, store_vars vs None = Ok xv /\ xv_out xv = [0; 1; 2]%Z.
Proof.
  cbv zeta. split; [repeat constructor; simpl; intuition discriminate|]. split; [reflexivity|].
  eexists. split; [vm_compute; reflexivity|reflexivity].
Qed.
