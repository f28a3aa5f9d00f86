(** Facts about explicit mode from generation to stored values (ExplicitEnd.v). *)

From Coq Require Import String Arith Bool ZArith Lia List Permutation Ring.
From Verif Require Import Base Pus Machine PusParse PusCheck PusLift Runtime RuntimeSpec RuntimeProofs RuntimeMore
     Canon CanonSpec CanonProofs CanonMain CanonGen CanonProblem CanonMore Info Retrieve RetrieveProofs
     Wrapper WrapperProofs Params ParamsProofs Explicit ExplicitProofs ExplicitVars ExplicitGrad EndToEnd EndSpec EndProofs
     ExplicitEnd ExplicitEndSpec PropExplicit.
Import ListNotations.
Open Scope list_scope.

(** ** Positions under a mask *)

Definition rank (m : list bool) (i : nat) : nat := cnt_true (firstn i m).

Lemma sel_rank : forall A (d : A) m l i, length l = length m -> nth i m false = true ->
  rank m i < cnt_true m /\ nth (rank m i) (mask_sel m l) d = nth i l d.
Proof.
  induction m as [|b m IH]; intros l i HL Hi; [destruct i; discriminate|].
  destruct l as [|a l]; [discriminate|]. simpl in HL.
  destruct i as [|i].
  - simpl in Hi. subst b. cbn [rank firstn cnt_true mask_sel nth]. split; [lia|reflexivity].
  - cbn [nth] in Hi. destruct (IH l i ltac:(lia) Hi) as (A1 & A2). unfold rank in *. cbn [firstn cnt_true mask_sel].
    destruct b; cbn [Nat.add]; [|auto]. split; [lia|]. exact A2.
Qed.

Lemma rank_onto : forall m k, k < cnt_true m -> exists i, i < length m /\ nth i m false = true /\ rank m i = k.
Proof.
  induction m as [|b m IH]; intros k Hk; [simpl in Hk; lia|]. destruct b; cbn [cnt_true] in Hk.
  - destruct k as [|k].
    + exists 0. simpl. auto with arith.
    + destruct (IH k ltac:(lia)) as (i & A1 & A2 & A3). exists (S i). unfold rank in *. simpl. repeat split; auto; lia.
  - destruct (IH k ltac:(lia)) as (i & A1 & A2 & A3). exists (S i). unfold rank in *. simpl. repeat split; auto; lia.
Qed.

Lemma rank_mono : forall m i j, i <= j -> rank m i <= rank m j.
Proof.
  unfold rank. induction m as [|b m IH]; intros [|i] [|j] H; cbn [firstn cnt_true]; try lia. specialize (IH i j ltac:(lia)). lia.
Qed.

Lemma cnt_repeat : forall b n, cnt_true (repeat b n) = if b then n else 0.
Proof. induction n; destruct b; simpl; auto. Qed.
Lemma cnt_app : forall a b, cnt_true (a ++ b) = cnt_true a + cnt_true b.
Proof. induction a as [|[] a IH]; intros; simpl; auto. Qed.

Lemma all_false : forall m, (forall j, j < length m -> nth j m true = false) -> m = repeat false (length m).
Proof.
  induction m as [|b m IH]; intro H; auto. cbn [length repeat]. f_equal.
  - apply (H 0). simpl; lia.
  - apply IH. intros j Hj. apply (H (S j)). simpl. lia.
Qed.
Lemma ones_first : forall m, (forall i j, i < j < length m -> nth i m false = false -> nth j m true = false) ->
  m = repeat true (cnt_true m) ++ repeat false (length m - cnt_true m).
Proof.
  induction m as [|b m IH]; intro H; auto. destruct b.
  - cbn [cnt_true length Nat.add Nat.sub repeat app]. f_equal. apply IH. intros i j Hij Hi. apply (H (S i) (S j)); auto. simpl; lia.
  - assert (E : m = repeat false (length m)).
    { apply all_false. intros j Hj. apply (H 0 (S j)); auto. simpl; lia. }
    rewrite E. cbn [cnt_true]. rewrite cnt_repeat. cbn [Nat.add repeat app length Nat.sub]. rewrite repeat_length. reflexivity.
Qed.

Lemma sel_ones : forall c d a, mask_sel (repeat true c ++ repeat false d) (seq a (c + d)) = seq a c.
Proof.
  induction c as [|c IH]; intros d a.
  - cbn [repeat app Nat.add]. revert a. induction d; intros; [reflexivity|]. apply (IHd (S a)).
  - cbn [repeat app Nat.add seq mask_sel]. f_equal. apply IH.
Qed.

(** With zero rows last among the equalities, the marked rows are the equality rows. *)
Lemma eq_inds_ok : forall eqm m, eqm <= length m ->
  (forall i j, i < j < eqm -> nth i m false = false -> nth j m true = false) ->
  forall i, i < length m -> nth i m false = true -> (In (rank m i) (eq_inds eqm m) <-> i < eqm).
Proof.
  intros eqm m He H i Hi Ht.
  assert (HL : length (firstn eqm m) = eqm) by (rewrite firstn_length; lia).
  assert (Hn : forall j d, j < eqm -> nth j (firstn eqm m) d = nth j m d).
  { intros j d Hj. rewrite <- (firstn_skipn eqm m) at 2. rewrite app_nth1 by lia. reflexivity. }
  assert (E : firstn eqm m = repeat true (cnt_true (firstn eqm m)) ++ repeat false (eqm - cnt_true (firstn eqm m))).
  { rewrite <- HL at 3. apply ones_first. rewrite HL. intros a b Hab Ha. rewrite Hn in * by lia. apply (H a b); auto. }
  set (c := cnt_true (firstn eqm m)) in *.
  assert (Hc : c <= eqm).
  { rewrite <- HL, E, app_length, !repeat_length. lia. }
  assert (Ei : eq_inds eqm m = seq 0 c).
  { unfold eq_inds. rewrite E. replace eqm with (c + (eqm - c)) at 2 by lia. apply sel_ones. }
  rewrite Ei, in_seq. split; intro L.
  - destruct (Nat.lt_ge_cases i eqm) as [|G]; auto. pose proof (rank_mono m eqm i G) as M. unfold rank at 1 in M. fold c in M. lia.
  - split; [lia|]. assert (Hic : i < c).
    { rewrite <- (Hn i false L), E in Ht. destruct (Nat.lt_ge_cases i c) as [|G]; auto.
      rewrite app_nth2 in Ht by (rewrite repeat_length; lia). rewrite repeat_length, nth_repeat in Ht. discriminate. }
    assert (Er : rank m i = i).
    { unfold rank. assert (E1 : firstn i m = firstn i (firstn eqm m)) by (rewrite firstn_firstn; f_equal; lia).
      rewrite E1, E, firstn_app, repeat_length. replace (i - c) with 0 by lia. cbn [firstn]. rewrite app_nil_r.
      assert (Ef : firstn i (repeat true c) = repeat true i).
      { clear - Hic. revert i Hic. induction c; intros [|i] H; simpl; auto; try lia. f_equal. apply IHc. lia. }
      rewrite Ef, cnt_repeat. reflexivity. }
    lia.
Qed.

(** ** Calls *)

Section Call.
  Variable K : ORing.
  Variable g : genc K.
  Variable th0 : pvals K.
  Hypothesis W : wf_gen g th0.
  Hypothesis Hosqp : g_solver g = OSQP.
  Variables lower upper : list K.
  Hypothesis Hlo : length lower = length (g_vec0 g).
  Hypothesis Hhi : length upper = length (g_vec0 g).
  Variable mask : list bool.
  Hypothesis Hm : length mask = length (g_baked g pq) + length (g_baked g pu).

  Definition clampth (th : pvals K) : pvals K := fun n i => clamp (lo_of g lower n i) (hi_of g upper n i) (th n i).

  Lemma final_clamp : forall os (t1 t2 : pvals K),
    (forall n i, t1 n i = clamp (lo_of g lower n i) (hi_of g upper n i) (t2 n i)) ->
    forall n i, final_vals t1 (map (clamp_op g lower upper) os) n i
                = clamp (lo_of g lower n i) (hi_of g upper n i) (final_vals t2 os n i).
  Proof.
    induction os as [|[m j v|] os IH]; intros t1 t2 H n i; cbn [map clamp_op final_vals]; auto.
    apply IH. intros n' i'. unfold set_val. destruct (String.eqb n' m) eqn:E1; cbn [andb]; auto.
    destruct (Nat.eqb i' j) eqn:E2; auto. apply String.eqb_eq in E1. apply Nat.eqb_eq in E2. subst. reflexivity.
  Qed.

  Lemma xinv_flat : forall t t' s, flat (g_params g) t = flat (g_params g) t' -> XInv K g t s -> XInv K g t' s.
  Proof.
    intros t t' s E [A1 A2 A3 A4]. constructor; auto.
    - congruence.
    - intros p Hp Hf. rewrite (A3 p Hp Hf). apply canon_spec_flat. exact E.
  Qed.

  Variable sv : Type.
  Variable c : pcall K sv.

  Lemma x_call_step : forall s th, XInv K g (clampth th) s ->
    (forall p, In p (updated_of K g sv c) -> In p (map fst (g_params g))) -> vals_ok K g sv c -> covers K g sv th c ->
    exists s1 s2, x_steps g lower upper (length (g_baked g pq)) mask s
                    (upd_ops K (fun n => mem_str n (updated_of K g sv c))
                       (map (fun ns => (fst ns, map (vals_of K sv c (fst ns)) (seq 0 (snd ns)))) (g_params g))) = Ok s1
      /\ x_solve g (length (g_baked g pq)) mask s1 = Ok s2
      /\ XInv K g (clampth (vals_of K sv c)) s2
      /\ xs_log s2 = xs_log s ++ [mask_sel mask (canon_spec g (clampth (vals_of K sv c)) pq
                                                 ++ canon_spec g (clampth (vals_of K sv c)) pu)].
  Proof.
    intros s th I Hn Hv Hc. rewrite upd_ops_is. set (flag := fun n => mem_str n (updated_of K g sv c)).
    set (os := ops_of K sv flag c (g_params g)).
    destruct (x_run_ok K g th0 W Hosqp lower upper Hlo Hhi mask os (clampth th) s I (ops_of_valid K g sv flag c) Hm)
      as (s1 & E1 & I1 & L1).
    assert (Es : solve_vals (clampth th) (map (clamp_op g lower upper) os) = []).
    { assert (G : forall t, solve_vals t (map (clamp_op g lower upper) os) = []); [|auto].
      assert (Ho : Forall (fun o => match o with OSolve => False | _ => True end) os).
      { unfold os, ops_of. apply Forall_forall. intros o Ho. apply in_flat_map in Ho. destruct Ho as (ns & _ & Ho).
        destruct (flag (fst ns)); [|contradiction]. unfold par_ops in Ho. apply in_map_iff in Ho. destruct Ho as (i & <- & _). exact Logic.I. }
      clear - Ho. induction Ho as [|o os Ho1 Ho IH]; intro t; auto. destruct o; [|contradiction]. cbn [map clamp_op solve_vals]. auto. }
    rewrite Es in L1. cbn [map] in L1. rewrite app_nil_r in L1.
    assert (I2 : XInv K g (clampth (vals_of K sv c)) s1).
    { eapply xinv_flat; [|exact I1]. apply flat_agree. intros n z i Hin Hi.
      rewrite (final_clamp os (clampth th) th) by (intros; reflexivity). unfold clampth. f_equal.
      unfold os. rewrite ops_of_final by apply (w_names _ _ _ W).
      rewrite (assoc_in _ _ _ _ (w_names _ _ _ W) Hin).
      destruct (flag n) eqn:Ef; simpl.
      - destruct (Nat.ltb_spec i z); auto; lia.
      - symmetry. apply (Hc n z Hin); auto. intro HI. apply mem_str_In in HI. unfold flag in Ef. congruence. }
    destruct (xinv_solve K g th0 W Hosqp lower upper Hlo Hhi mask (clampth (vals_of K sv c)) s1 I2 Hm) as (s2 & E2 & I3 & L2).
    exists s1, s2. split; [exact E1|]. split; [exact E2|]. split; [exact I3|]. rewrite L2, L1. reflexivity.
  Qed.
End Call.

(** ** Sessions *)
Section Session.
  Variable K : ORing.
  Variable k : xpkg K.
  Notation g := (xp_gen k).
  Variable th0 : pvals K.
  Hypothesis W : wf_gen g th0.
  Hypothesis Hosqp : g_solver g = OSQP.
  Hypothesis Hlo : length (xp_lo k) = length (g_vec0 g).
  Hypothesis Hhi : length (xp_hi k) = length (g_vec0 g).
  Hypothesis Hnn : xp_n k = length (g_baked g pq).
  Hypothesis Hm : length (xq_mask (xp_qp k)) = length (g_baked g pq) + length (g_baked g pu).
  Variable dual : bool.
  Variable tab : list K -> list K * list K.
  Variable sv : Type.
  Variable ups : list uparam.
  Variable cells : nat -> string -> nat -> K.
  Notation cl th := (clampth K g (xp_lo k) (xp_hi k) th).
  Notation theta_of th := (mask_sel (xq_mask (xp_qp k)) (canon_spec g th pq ++ canon_spec g th pu)).

  Lemma x_session_ok : forall cs s i th, XInv K g (cl th) s ->
    Forall (fun c => (forall p, In p (updated_of K g sv c) -> In p (map fst (g_params g))) /\ vals_ok K g sv c) (map (to_call ups) cs) ->
    all_cover K g sv th (map (to_call ups) cs) ->
    exists s' outs, x_session k dual tab sv ups cells s i cs = (s', outs) /\ length outs = length cs
      /\ forall j c, nth_error cs j = Some c ->
           nth_error outs j = Some (x_outcome k dual tab (cells (i + j)) (theta_of (cl (vals_of K sv (to_call ups c))))).
  Proof.
    induction cs as [|c cs IH]; intros s i th I Hok Hc; cbn [x_session map all_cover] in *.
    - exists s, []. split; auto. split; auto. intros [|j] c H; discriminate.
    - inversion Hok as [|? ? [Hn Hv] Hok2]; subst. destruct Hc as [Hc1 Hc2].
      destruct (x_call_step K g th0 W Hosqp (xp_lo k) (xp_hi k) Hlo Hhi (xq_mask (xp_qp k)) Hm sv (to_call ups c) s th I Hn Hv Hc1)
        as (s1 & s2 & E1 & E2 & I2 & L2).
      destruct (IH s2 (S i) _ I2 Hok2 Hc2) as (s' & outs & E3 & N3 & R3).
      exists s', (x_outcome k dual tab (cells i) (theta_of (cl (vals_of K sv (to_call ups c)))) :: outs).
      assert (Ec : x_call k dual tab sv ups cells s i c
                   = (s2, x_outcome k dual tab (cells i) (theta_of (cl (vals_of K sv (to_call ups c)))))).
      { unfold x_call. cbv zeta. fold (updated_of K g sv (to_call ups c)).
        assert (Ef : forallb (fun p => mem_str p (map fst (g_params g))) (updated_of K g sv (to_call ups c)) = true).
        { apply forallb_forall. intros p Hp. apply mem_str_In. auto. }
        rewrite Ef. rewrite set_par_ok by exact Hv. rewrite Hnn, E1, E2, L2, rev_app_distr. reflexivity. }
      rewrite Ec, E3. split; [reflexivity|]. split; [cbn [length]; congruence|].
      intros [|j] c' H.
      + injection H as <-. rewrite Nat.add_0_r. reflexivity.
      + replace (i + S j) with (S i + j) by lia. apply R3. exact H.
  Qed.
End Session.

(** ** The parametric problem at theta is the user's problem *)

Lemma reduce_lengths : forall (K : Ring) n (A : list (list K)) thmin thmax,
  let R := reduce n A thmin thmax in
  xq_A R = mask_sel (xq_amask R) A /\ xq_amask R = map (existsb (fun a => neqb a n0)) A
  /\ length (xq_f R) = n /\ length (xq_F R) = n
  /\ length (xq_b R) = cnt_true (xq_amask R) /\ length (xq_B R) = cnt_true (xq_amask R)
  /\ length (xq_A R) = cnt_true (xq_amask R).
Proof.
  intros K n A thmin thmax. cbv zeta. unfold reduce. cbn [xq_f xq_F xq_A xq_b xq_B xq_amask].
  set (am := map (existsb (fun a : K => neqb a n0)) A).
  assert (La : length am = length A) by apply map_length.
  assert (L1 : forall w o, length (mask_sel am (map (@unit_row K w o) (seq 0 (length A)))) = cnt_true am).
  { intros. apply mask_sel_cnt. rewrite map_length, seq_length. auto. }
  split; [reflexivity|]. split; [reflexivity|]. split; [|split; [|split; [|split]]].
  - unfold vadd. rewrite map2_length; rewrite repeat_length; auto. rewrite !map_length, seq_length. auto.
  - rewrite !map_length, seq_length. reflexivity.
  - unfold vadd. rewrite map2_length.
    + apply mask_sel_cnt. rewrite repeat_length. auto.
    + rewrite map_length, L1. apply mask_sel_cnt. rewrite repeat_length. auto.
  - rewrite !map_length. apply L1.
  - apply mask_sel_cnt. auto.
Qed.

Lemma rsum_rank : forall (K : Ring) am (h : nat -> K),
  rsum (map (fun i => if nth i am false then h (rank am i) else n0) (seq 0 (length am))) = rsum (map h (seq 0 (cnt_true am))).
Proof.
  induction am as [|b am IH]; intro h; [reflexivity|].
  cbn [length seq]. rewrite <- seq_shift, map_cons, map_map. cbn [nth]. unfold rank at 1. cbn [firstn cnt_true].
  destruct b; cbn [cnt_true Nat.add].
  - cbn [seq map]. rewrite <- seq_shift, map_map. cbn [rsum]. f_equal. rewrite <- (IH (fun i => h (S i))). reflexivity.
  - rewrite <- (IH h). cbn [rsum]. rewrite (Radd_0_l (rth K)). reflexivity.
Qed.

Section Same.
  Variable K : ORing.
  Add Ring Kring3 : (rth K).
  Local Open Scope num_scope.
  Variables big eps : K.
  Variable x : cvx K.
  Variable th0 : pvals K.
  Hypothesis W : wf_cvx x th0.
  Variable order : list string -> list string.
  Variable g : genc K.
  Hypothesis Hord : forall l, Permutation l (order l).
  Hypothesis Hg : generate big x OSQP order = Ok g.
  Hypothesis HcP : chg_get (g_chg g) pP = false.
  Hypothesis HcA : chg_get (g_chg g) pA = false.
  Variables lower upper : list K.
  Hypothesis Hlo : length lower = length (g_vec0 g).
  Hypothesis Hhi : length upper = length (g_vec0 g).
  Hypothesis HS : Forall (one_sign lower upper) (g_rows g pq ++ g_rows g pu).
  Variable t : pvals K.
  Hypothesis HW : within lower upper (flat (g_params g) t).
  Notation v := (flat (x_params x) t).
  Notation n := (x_n x).
  Notation m := (x_neq x + x_nineq x)%nat.
  Let e : entry K := mkE (canon_spec g t) (canon_spec g t pd).
  Let mat (p : pid) (r : nat) := toarray r n (g_baked g p) (pr_idx (proc big x OSQP p)) (pr_ip (proc big x OSQP p)).
  Let bx := box (g_rows g pq ++ g_rows g pu) lower upper.
  Let R := reduce n (mat pA m) (fst bx) (snd bx).
  Let H := add_eye eps n (mat pP n).
  Let th := mask_sel (xq_mask R) (canon_spec g t pq ++ canon_spec g t pu).
  Let am := xq_amask R.

  Lemma e_qp : qp_means K big x e v.
  Proof. apply (qp_ok K big x th0 W order g Hord Hg e t); reflexivity. Qed.

  Lemma len_q : length (g_baked g pq) = n.
  Proof.
    destruct e_qp as ((_ & L & _) & _). cbn [e_data e qc_of] in L.
    destruct (generate_wf K big x th0 W OSQP order Hord) as (g' & Eg & Wg & _). rewrite Hg in Eg. injection Eg as <-.
    rewrite (canon_spec_len K g th0 Wg lower upper Hlo Hhi) in L. exact L.
  Qed.
  Lemma len_u : length (g_baked g pu) = m.
  Proof.
    destruct e_qp as (_ & _ & _ & L & _). cbn [e_data e] in L.
    destruct (generate_wf K big x th0 W OSQP order Hord) as (g' & Eg & Wg & _). rewrite Hg in Eg. injection Eg as <-.
    rewrite (canon_spec_len K g th0 Wg lower upper Hlo Hhi) in L. exact L.
  Qed.
  Lemma mat_len : forall p r, length (mat p r) = r.
  Proof. intros. unfold mat, toarray. rewrite map_length, seq_length. reflexivity. Qed.

  Lemma mat_at : forall p r i j, chg_get (g_chg g) p = false -> (i < r)%nat -> (j < n)%nat ->
    at2 (mat p r) i j = dmat K big x OSQP e p i j.
  Proof.
    intros p r i j Hc Hi Hj. unfold at2, mat, toarray.
    rewrite (nth_map_seq' _ _ 0 r i) by auto. rewrite (nth_map_seq' _ _ 0 n j) by auto. cbn [Nat.add].
    unfold dmat. cbn [e_data e]. unfold canon_spec. rewrite Hc. reflexivity.
  Qed.

  Lemma theta_facts :
    within (xq_min R) (xq_max R) th
    /\ (forall j, (j < n)%nat -> mp_lin R th j = nth j (canon_spec g t pq) n0)
    /\ (forall i, (i < m)%nat -> nth i am false = true -> mp_rhs R th (rank am i) = nth i (canon_spec g t pu) n0)
    /\ length (xq_mask R) = (n + m)%nat.
  Proof.
    destruct (generate_wf K big x th0 W OSQP order Hord) as (g' & Eg & Wg & Hs). rewrite Hg in Eg. injection Eg as <-.
    assert (HC : forall p, In p [pq; pu] -> canon_spec g t p = map (dot (flat (g_params g) t)) (g_rows g p)).
    { intros p Hp.
      assert (Hp' : In p (solver_pids OSQP)) by (simpl in *; intuition (subst; auto)).
      rewrite (canon_spec_meaning K big x th0 W OSQP order g t p Hord Hg Hp').
      assert (Et : tail_of K big x OSQP p = []) by (simpl in Hp; destruct Hp as [<-|[<-|[]]]; reflexivity).
      rewrite Et, app_nil_r. unfold bval.
      destruct (gen_parts K big x OSQP order g Hg) as (Ep & Er). rewrite Ep, Er by auto. reflexivity. }
    pose proof (canon_spec_len K g th0 Wg lower upper Hlo Hhi) as CL.
    assert (HB : forall p, In p [pq; pu] -> length (g_rows g p) = length (g_baked g p)).
    { intros p Hp. rewrite <- (CL t p), (HC p Hp), map_length. reflexivity. }
    assert (Hb : length (fst bx) = (n + length (mat pA m))%nat /\ length (snd bx) = (n + length (mat pA m))%nat).
    { assert (E1 : length (mat pA m) = length (g_rows g pu)) by (rewrite mat_len, (HB pu), len_u by (simpl; auto); reflexivity).
      assert (E2 : length (g_rows g pq) = n) by (rewrite (HB pq), len_q by (simpl; auto); reflexivity).
      rewrite E1, <- E2. unfold bx, box. cbn [fst snd].
      split; rewrite map2_length; rewrite ?map_length, ?app_length; auto. }
    destruct Hb as [Hb1 Hb2].
    assert (Hcols : forall r c w, In r (g_rows g pq ++ g_rows g pu) -> In (c, w) r -> (c < length lower)%nat).
    { intros r c w Hr Hc. rewrite Hlo, (w_vec0 _ _ _ Wg). apply in_app_or in Hr. destruct Hr as [Hr|Hr]; eapply (w_cols _ _ _ Wg); eauto. }
    pose proof (box_ok K lower upper (flat (g_params g) t) _ HW Hcols HS) as HWB. fold bx in HWB.
    rewrite map_app, <- !HC in HWB by (simpl; auto).
    assert (Lq : length (canon_spec g t pq) = n) by (rewrite CL; apply len_q).
    assert (Lu : length (canon_spec g t pu) = length (mat pA m)) by (rewrite CL, mat_len; apply len_u).
    pose proof (reduce_ok K n (mat pA m) (fst bx) (snd bx) (canon_spec g t pq) (canon_spec g t pu) Lq Lu Hb1 Hb2 (within_fixed K _ _ _ HWB)) as HR.
    cbv zeta in HR. fold R in HR. fold th in HR. destruct HR as (R1 & R2 & R3 & _).
    destruct (reduce_lengths K n (mat pA m) (fst bx) (snd bx)) as (S1 & S2 & S3 & S4 & S5 & S6 & S7). fold R in S1, S2, S3, S4, S5, S6, S7.
    split; [|split; [|split; [|rewrite R3, mat_len; reflexivity]]].
    - destruct (reduce_box K n (mat pA m) (fst bx) (snd bx) Hb1 Hb2) as [M1 M2]. fold R in M1, M2.
      rewrite M1, M2. apply within_mask. exact HWB.
    - intros j Hj. rewrite <- R1. unfold vadd, mp_lin.
      rewrite (nth_map2 _ _ _ _ _ _ j n0 (ldot [] th)) by (rewrite ?map_length; lia).
      rewrite (map_nth (fun r => ldot r th)). reflexivity.
    - intros i Hi Ht. assert (La : length am = m) by (unfold am; rewrite S2, map_length; apply mat_len).
      destruct (sel_rank K n0 am (canon_spec g t pu) i) as (Q1 & Q2); auto.
      { rewrite Lu, mat_len. auto. }
      rewrite <- Q2. unfold am at 3. rewrite <- R2. unfold vadd, mp_rhs. fold am in S5, S6.
      rewrite (nth_map2 _ _ _ _ _ _ (rank am i) n0 (ldot [] th)) by (rewrite ?map_length; lia).
      rewrite (map_nth (fun r => ldot r th)). reflexivity.
  Qed.

  (** Rows: the reduced rows are the rows with a nonzero entry, in order. *)
  Lemma am_len : length am = m.
  Proof.
    destruct (reduce_lengths K n (mat pA m) (fst bx) (snd bx)) as (_ & S2 & _). fold R in S2. unfold am. rewrite S2, map_length. apply mat_len.
  Qed.
  Lemma am_at : forall i d, (i < m)%nat -> nth i am d = existsb (fun a => neqb a n0) (nth i (mat pA m) []).
  Proof.
    intros i d Hi. destruct (reduce_lengths K n (mat pA m) (fst bx) (snd bx)) as (_ & S2 & _). fold R in S2. unfold am. rewrite S2.
    rewrite nth_indep with (d' := existsb (fun a : K => neqb a n0) []) by (rewrite map_length, mat_len; auto).
    apply map_nth.
  Qed.
  Lemma row_len : forall i, (i < m)%nat -> length (nth i (mat pA m) []) = n.
  Proof.
    intros i Hi. unfold mat, toarray. rewrite (nth_map_seq' _ _ 0 m i) by auto. rewrite map_length, seq_length. reflexivity.
  Qed.
  Lemma am_zero : forall i d, (i < m)%nat -> (nth i am d = false <-> forall j, (j < n)%nat -> dmat K big x OSQP e pA i j = n0).
  Proof.
    intros i d Hi. rewrite am_at by auto. split.
    - intros Hf j Hj. rewrite <- (mat_at pA m) by auto. unfold at2.
      destruct (neqb (nth j (nth i (mat pA m) []) n0) n0) eqn:E; [|apply neqb_false; auto].
      assert (existsb (fun a => neqb a n0) (nth i (mat pA m) []) = true); [|congruence].
      apply existsb_exists. eexists. split; [|exact E]. apply nth_In. rewrite row_len; auto.
    - intro Hz. destruct (existsb (fun a => neqb a n0) (nth i (mat pA m) [])) eqn:E; auto.
      apply existsb_exists in E. destruct E as (a & Ha & Ea). apply (In_nth _ _ n0) in Ha. destruct Ha as (j & Hj & Ej).
      rewrite row_len in Hj by auto. specialize (Hz j Hj). rewrite <- (mat_at pA m) in Hz by auto. unfold at2 in Hz.
      rewrite Ej in Hz. subst a. rewrite neqb_refl in Ea. discriminate.
  Qed.
  Lemma row_at : forall i j, (i < m)%nat -> (j < n)%nat -> nth i am false = true ->
    at2 (xq_A R) (rank am i) j = dmat K big x OSQP e pA i j.
  Proof.
    intros i j Hi Hj Ht. destruct (reduce_lengths K n (mat pA m) (fst bx) (snd bx)) as (S1 & _). fold R in S1. fold am in S1.
    destruct (sel_rank (list K) [] am (mat pA m) i) as (_ & Q2); auto.
    { rewrite am_len. apply mat_len. }
    unfold at2. rewrite S1, Q2. apply (mat_at pA m); auto.
  Qed.
  Lemma A_at : forall i j, (j < n)%nat -> dmat K big x OSQP e pA i j = if Nat.ltb i (x_neq x) then cA x v i j else - cA x v i j.
  Proof. intros i j Hj. destruct e_qp as (_ & MA & _). apply MA. exact Hj. Qed.
  Lemma u_at : forall i, (i < m)%nat -> nth i (canon_spec g t pu) n0 = if Nat.ltb i (x_neq x) then - cb x v i else cb x v i.
  Proof.
    intros i Hi. destruct e_qp as (_ & _ & _ & _ & Me & Mi). unfold dvec in Me, Mi. cbn [e_data e] in Me, Mi.
    destruct (Nat.ltb_spec i (x_neq x)) as [L|L]; [apply (Me i L)|apply (Mi i ltac:(lia))].
  Qed.

  Lemma zero_row_am : forall i d, (i < m)%nat -> (nth i am d = false <-> zero_row x v i).
  Proof.
    intros i d Hi. rewrite am_zero by auto. unfold zero_row. split; intros Z j Hj; specialize (Z j Hj).
    - rewrite A_at in Z by auto. destruct (Nat.ltb i (x_neq x)); auto.
      replace (cA x v i j) with (- - cA x v i j) by ring. rewrite Z. ring.
    - rewrite A_at by auto. rewrite Z. destruct (Nat.ltb i (x_neq x)); ring.
  Qed.

  Lemma row_val : forall i y, (i < m)%nat -> nth i am false = true ->
    mp_row n R (rank am i) y = if Nat.ltb i (x_neq x) then resid x v y i - cb x v i else cb x v i - resid x v y i.
  Proof.
    intros i y Hi Ht. unfold mp_row.
    transitivity (rsum (map (fun j => (if Nat.ltb i (x_neq x) then cA x v i j else - cA x v i j) * y j) (seq 0 n))).
    - apply rsum_ext. intros j Hj. apply in_seq in Hj. rewrite row_at, A_at by (auto; lia). reflexivity.
    - unfold resid. destruct (Nat.ltb i (x_neq x)); [ring|].
      assert (E : rsum (map (fun j => - cA x v i j * y j) (seq 0 n)) = - rsum (map (fun j => cA x v i j * y j) (seq 0 n))).
      { apply (mv_neg K x (fun i j => - cA x v i j) (cA x v) y i i). intros; reflexivity. }
      rewrite E. ring.
  Qed.
  Lemma resid_zero : forall i y y', zero_row x v i -> resid x v y i = resid x v y' i.
  Proof.
    intros i y y' Z. unfold resid. f_equal. transitivity (n0 : K); [|symmetry]; apply rsum_zero; intros j Hj;
      apply in_seq in Hj; rewrite Z by lia; ring.
  Qed.

  Lemma rows_pl : length (g_rows g pl) = x_neq x.
  Proof.
    destruct (gen_parts K big x OSQP order g Hg) as (_ & Er). rewrite Er by (simpl; tauto).
    destruct (osqp_l K big x th0 W v) as [L1 _]. unfold bval in L1. rewrite map_length in L1. exact L1.
  Qed.

  Let eq := eq_inds (length (g_rows g pl)) am.
  Hypothesis HZ : zero_eqs_last x v.

  Lemma eq_rows : forall i, (i < m)%nat -> nth i am false = true -> (In (rank am i) eq <-> (i < x_neq x)%nat).
  Proof.
    intros i Hi Ht. unfold eq. rewrite rows_pl. apply eq_inds_ok; auto.
    - rewrite am_len. lia.
    - intros a b Hab Ha. apply zero_row_am; [lia|]. apply (HZ a b); [lia|]. apply (zero_row_am a false); auto. lia.
    - rewrite am_len. auto.
  Qed.

  Lemma A_len : length (xq_A R) = cnt_true am.
  Proof. destruct (reduce_lengths K n (mat pA m) (fst bx) (snd bx)) as (_ & _ & _ & _ & _ & _ & S7). exact S7. Qed.

  (** Row by row: the constraint of the table's problem is the user's constraint. *)
  Lemma row_means : forall i y, (i < m)%nat -> nth i am false = true ->
    (((In (rank am i) eq -> mp_row n R (rank am i) y = mp_rhs R th (rank am i))
      /\ (~ In (rank am i) eq -> ole (mp_row n R (rank am i) y) (mp_rhs R th (rank am i))))
     <-> if Nat.ltb i (x_neq x) then resid x v y i = n0 else ole n0 (resid x v y i)).
  Proof.
    intros i y Hi Ht. destruct theta_facts as (_ & _ & F3 & _). rewrite F3, u_at, row_val by auto.
    rewrite eq_rows by auto. destruct (Nat.ltb_spec i (x_neq x)) as [L|L]; split.
    - intros (A1 & _). specialize (A1 L). transitivity (resid x v y i - cb x v i + cb x v i); [ring|]. rewrite A1. ring.
    - intro A1. split; [intros _; rewrite A1; ring|lia].
    - intros (_ & A2). specialize (A2 ltac:(lia)). apply le_sub0 in A2.
      replace (cb x v i - (cb x v i - resid x v y i)) with (resid x v y i) in A2 by ring. exact A2.
    - intro A1. split; [lia|]. intros _. apply le_sub0. replace (cb x v i - (cb x v i - resid x v y i)) with (resid x v y i) by ring. exact A1.
  Qed.

  Notation ufeas := (u_feas x OSQP (fun _ => True) v).
  Lemma ufeas_rows : forall y, ufeas y <-> forall i, (i < m)%nat -> if Nat.ltb i (x_neq x) then resid x v y i = n0 else ole n0 (resid x v y i).
  Proof.
    intro y. unfold u_feas. cbn [is_qp]. unfold qp_set.
    assert (Nu : forall i, (i < m)%nat -> nth i (u_slacks x v y) n0 = resid x v y i).
    { intros i Hi. unfold u_slacks. rewrite (nth_map_seq' _ _ 0 m i) by auto. reflexivity. }
    split; intros A i Hi; specialize (A i Hi); rewrite Nu in * by auto; exact A.
  Qed.

  Lemma feas_to : forall y, ufeas y -> mp_feas n R eq th y.
  Proof.
    intros y Hy k Hk. rewrite A_len in Hk. destruct (rank_onto am k Hk) as (i & Hi & Ht & <-). rewrite am_len in Hi.
    apply row_means; auto. rewrite ufeas_rows in Hy. apply Hy. auto.
  Qed.
  Lemma feas_from : forall y0 y, ufeas y0 -> mp_feas n R eq th y -> ufeas y.
  Proof.
    intros y0 y H0 Hy. rewrite ufeas_rows in *. intros i Hi. destruct (nth i am false) eqn:Ht.
    - apply row_means; auto. apply Hy. rewrite A_len. destruct (sel_rank bool false am am i) as (Q & _); auto.
    - apply zero_row_am in Ht; auto. rewrite (resid_zero i y y0 Ht). apply H0. auto.
  Qed.

  (** Objectives. *)
  Lemma H_at : forall i j, (i < n)%nat -> (j < n)%nat -> at2 H i j = cP x v i j + (if Nat.eqb i j then eps else n0).
  Proof.
    intros i j Hi Hj. unfold at2, H, add_eye.
    rewrite (nth_map2 _ _ _ _ _ _ i 0%nat []) by (rewrite ?seq_length, ?mat_len; auto). rewrite seq_nth by auto. cbn [Nat.add].
    assert (Lr : length (nth i (mat pP n) []) = n).
    { unfold mat, toarray. rewrite (nth_map_seq' _ _ 0 n i) by auto. rewrite map_length, seq_length. reflexivity. }
    rewrite (nth_map2 _ _ _ _ _ _ j 0%nat n0) by (rewrite ?seq_length, ?Lr; auto). rewrite seq_nth by auto. cbn [Nat.add].
    fold (at2 (mat pP n) i j). rewrite (mat_at pP n) by auto.
    destruct e_qp as ((MP & _) & _). rewrite MP by (simpl; auto). destruct (Nat.eqb i j); reflexivity.
  Qed.
  Lemma rsum_plus : forall A (f h : A -> K) l, rsum (map (fun a => f a + h a) l) = rsum (map f l) + rsum (map h l).
  Proof. induction l; simpl; [ring|]. rewrite IHl. ring. Qed.
  Lemma rsum_scale : forall A (c : K) (f : A -> K) l, rsum (map (fun a => c * f a) l) = c * rsum (map f l).
  Proof. induction l; simpl; [ring|]. rewrite IHl. ring. Qed.

  Lemma qf_reg : forall y, qf n (at2 H) y = qf n (cP x v) y + eps * sqn x y.
  Proof.
    intro y. unfold qf, sqn. rewrite <- rsum_scale, <- rsum_plus. apply rsum_ext. intros i Hi. apply in_seq in Hi.
    transitivity (rsum (map (fun j => y i * cP x v i j * y j + (if Nat.eqb i j then eps * (y i * y j) else n0)) (seq 0 n))).
    - apply rsum_ext. intros j Hj. apply in_seq in Hj. rewrite H_at by lia. destruct (Nat.eqb i j); ring.
    - rewrite rsum_plus. f_equal. rewrite (rsum_single K) with (k := i) by
        (try lia; intros j _ Hne; apply Nat.eqb_neq in Hne; rewrite (Nat.eqb_sym i j), Hne; reflexivity).
      rewrite Nat.eqb_refl. reflexivity.
  Qed.

  Lemma obj_reg : forall half y, mp_obj n H R half th y + cd x v = reg_obj x half eps v y.
  Proof.
    intros half y. unfold mp_obj, reg_obj, canon_obj. rewrite qf_reg. destruct theta_facts as (_ & F2 & _).
    rewrite (lf_ext _ _ (mp_lin R th) (cq x v)).
    - ring.
    - intros j Hj. rewrite F2 by auto. destruct e_qp as ((_ & _ & Mq & _) & _). unfold dvec in Mq. cbn [e_data e] in Mq. apply Mq. auto.
  Qed.

  Theorem opt_reg : forall half y, (exists y0, ufeas y0) -> (mp_opt n H R eq half th y <-> reg_opt x half eps v y).
  Proof.
    intros half y (y0 & H0). unfold mp_opt, reg_opt. split; intros (A1 & A2); (split; [|intros y' Hy']).
    - eapply feas_from; eauto.
    - specialize (A2 y' (feas_to y' Hy')). rewrite <- !obj_reg. apply (le_shift K). exact A2.
    - apply feas_to. exact A1.
    - specialize (A2 y' (feas_from _ _ H0 Hy')). rewrite <- !obj_reg in A2. apply (le_shift K) in A2. exact A2.
  Qed.

  (** Multipliers of all rows: zero for the removed ones. *)
  Definition lam_full (lam : list K) : list K :=
    map (fun i => if nth i am false then nth (rank am i) lam n0 else n0) (seq 0 m).
  Lemma lam_full_at : forall lam i, (i < m)%nat -> nth i (lam_full lam) n0 = if nth i am false then nth (rank am i) lam n0 else n0.
  Proof. intros lam i Hi. unfold lam_full. rewrite (nth_map_seq' _ _ 0 m i) by auto. reflexivity. Qed.
  Lemma lam_full_sel : forall lam, length lam = cnt_true am -> mask_sel am (lam_full lam) = lam.
  Proof.
    intros lam HL. assert (Lf : length (lam_full lam) = length am) by (unfold lam_full; rewrite map_length, seq_length, am_len; auto).
    apply (nth_ext _ _ n0 n0).
    - rewrite mask_sel_cnt; auto.
    - intros k Hk. rewrite mask_sel_cnt in Hk by auto. destruct (rank_onto am k Hk) as (i & Hi & Ht & <-).
      destruct (sel_rank K n0 am (lam_full lam) i Lf Ht) as (_ & ->). rewrite lam_full_at by (rewrite <- am_len; auto).
      rewrite Ht. reflexivity.
  Qed.

  Lemma grad_reg : forall half y j, (j < n)%nat ->
    half * rsum (map (fun i => (at2 H i j + at2 H j i) * y i) (seq 0 n)) + mp_lin R th j
    = u_grad x half v y j + half * (eps + eps) * y j.
  Proof.
    intros half y j Hj. unfold u_grad. destruct theta_facts as (_ & F2 & _). rewrite F2 by auto.
    destruct e_qp as ((_ & _ & Mq & _) & _). unfold dvec in Mq. cbn [e_data e] in Mq. rewrite Mq by auto.
    assert (E1 : rsum (map (fun i => (at2 H i j + at2 H j i) * y i) (seq 0 n))
                 = rsum (map (fun i => (cP x v i j + cP x v j i) * y i) (seq 0 n)) + (eps + eps) * y j).
    { transitivity (rsum (map (fun i => (cP x v i j + cP x v j i) * y i + (if Nat.eqb i j then (eps + eps) * y i else n0)) (seq 0 n))).
      - apply rsum_ext. intros i Hi. apply in_seq in Hi. rewrite !H_at by lia. rewrite (Nat.eqb_sym j i).
        destruct (Nat.eqb i j); ring.
      - rewrite rsum_plus. f_equal. rewrite (rsum_single K) with (k := j) by
          (try lia; intros i _ Hne; apply Nat.eqb_neq in Hne; rewrite Hne; reflexivity).
        rewrite Nat.eqb_refl. reflexivity. }
    rewrite E1. ring.
  Qed.

  (** Stationarity of the table's problem and of the user's, for multipliers that agree on the kept rows. *)
  Lemma stat_reg : forall lam full j, (j < n)%nat ->
    (forall i, (i < m)%nat -> nth i am false = true -> nth (rank am i) lam n0 = nth i full n0) ->
    rsum (map (fun i => at2 (xq_A R) i j * nth i lam n0) (seq 0 (length (xq_A R))))
    = rsum (map (fun i => (if Nat.ltb i (x_neq x) then nth i full n0 else - nth i full n0) * cA x v i j) (seq 0 m)).
  Proof.
    intros lam full j Hj Hl. rewrite A_len, <- (rsum_rank K am (fun i => at2 (xq_A R) i j * nth i lam n0)), am_len.
    apply rsum_ext. intros i Hi. apply in_seq in Hi. destruct (nth i am false) eqn:Ht.
    - rewrite row_at, Hl, A_at by (auto; lia). destruct (Nat.ltb i (x_neq x)); ring.
    - apply zero_row_am in Ht; [|lia]. rewrite (Ht j Hj). ring.
  Qed.

  Notation slack_at := (fun y i => nth i (u_slacks x v y) n0).
  Lemma u_slack : forall y i, (i < m)%nat -> nth i (u_slacks x v y) n0 = resid x v y i.
  Proof. intros y i Hi. unfold u_slacks. rewrite (nth_map_seq' _ _ 0 m i) by auto. reflexivity. Qed.
  Lemma active_at : forall i y, (x_neq x <= i < m)%nat -> nth i am false = true ->
    (mp_row n R (rank am i) y = mp_rhs R th (rank am i) <-> resid x v y i = n0).
  Proof.
    intros i y Hi Ht. destruct theta_facts as (_ & _ & F3 & _). rewrite F3, u_at, row_val by (auto; lia).
    replace (Nat.ltb i (x_neq x)) with false by (symmetry; apply Nat.ltb_ge; lia). split; intro E1.
    - transitivity (cb x v i - (cb x v i - resid x v y i)); [ring|]. rewrite E1. ring.
    - rewrite E1. ring.
  Qed.

  Theorem kkt_to : forall half y full, reg_kkt x half eps v y full -> length full = m ->
    length (mask_sel am full) = length (xq_A R) /\ mp_kkt n H R eq half th y (mask_sel am full).
  Proof.
    intros half y full ((F1 & F2) & F3) HL. rewrite A_len. rewrite <- am_len in HL.
    split; [apply mask_sel_cnt; auto|]. 
    assert (HM : forall i, (i < m)%nat -> nth i am false = true -> nth (rank am i) (mask_sel am full) n0 = nth i full n0).
    { intros i Hi Ht. apply (sel_rank K n0 am full i HL Ht). }
    split; [|split].
    - apply feas_to. exact F1.
    - intros j Hj. rewrite grad_reg, (stat_reg _ full) by auto. apply F3. exact Hj.
    - intros k Hk Hne. rewrite A_len in Hk. destruct (rank_onto am k Hk) as (i & Hi & Ht & <-). rewrite am_len in Hi.
      rewrite eq_rows in Hne by auto. rewrite HM by auto. destruct (F2 i ltac:(lia)) as (G1 & G2). split; [exact G1|].
      rewrite u_slack in G2 by auto. rewrite active_at by (auto; lia). exact G2.
  Qed.
  Theorem kkt_from : forall half y lam, (exists y0, ufeas y0) -> mp_kkt n H R eq half th y lam ->
    reg_kkt x half eps v y (lam_full lam).
  Proof.
    intros half y lam (y0 & H0) (F1 & F2 & F3). split; [split|].
    - apply (feas_from y0 y H0 F1).
    - intros i Hi. rewrite lam_full_at, u_slack by lia. destruct (nth i am false) eqn:Ht; [|split; [apply ole_refl|left; reflexivity]].
      destruct (sel_rank bool false am am i eq_refl Ht) as (Q & _).
      destruct (F3 (rank am i)) as (G1 & G2).
      + rewrite A_len. exact Q.
      + rewrite eq_rows by (auto; lia). lia.
      + split; [exact G1|]. rewrite active_at in G2 by auto. exact G2.
    - intros j Hj. rewrite <- grad_reg by auto. rewrite <- (stat_reg lam) by (auto; intros i Hi Ht; rewrite lam_full_at, Ht by auto; reflexivity).
      apply F2. exact Hj.
  Qed.
End Same.
