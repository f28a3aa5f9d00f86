(** Facts about whole sessions (EndToEnd.v): the solver's problem and the user's problem have the same
    optimal points and multipliers, and what is stored is cut out of the solver's answer. *)

From Coq Require Import String Arith Bool Lia List Permutation Ring.
From Verif Require Import Base Pus Machine PusParse PusCheck PusLift Runtime RuntimeSpec RuntimeProofs RuntimeMore
     Canon CanonSpec CanonProofs CanonMain CanonGen CanonProblem CanonMore Info Retrieve RetrieveProofs
     Wrapper WrapperProofs Params ParamsProofs EndToEnd EndSpec.
Import ListNotations.
Open Scope list_scope.

(** ** Cutting vectors into blocks *)

Lemma NoDup_parts : forall A (a b : list A), NoDup (a ++ b) -> NoDup a /\ NoDup b.
Proof.
  induction a as [|h a IH]; intros b H; [split; [constructor|exact H]|].
  inversion H as [|? ? H1 H2]; subst. destruct (IH b H2). split; auto. constructor; auto.
  intro C. apply H1. apply in_or_app. auto.
Qed.

Lemma cut_cons_eq : forall K i z l (v : list K), cut ((i, z) :: l) i v = firstn z v.
Proof. intros. unfold cut. simpl. rewrite Nat.eqb_refl. reflexivity. Qed.

Lemma var_offsets_shift : forall l o z id,
  lookup id (var_offsets (o + z) l) = option_map (fun a => z + a) (lookup id (var_offsets o l)).
Proof.
  induction l as [|[i s] l IH]; intros o z id; simpl; auto.
  destruct (Nat.eqb id i); simpl; [f_equal; lia|].
  replace (o + z + s) with (o + s + z) by lia. apply IH.
Qed.

Lemma skipn_add : forall A (v : list A) a b, skipn a (skipn b v) = skipn (b + a) v.
Proof. induction v as [|h v IH]; intros a [|b]; simpl; auto. destruct a; auto. Qed.

Lemma cut_cons_ne : forall K i z l id (v : list K), id <> i -> cut ((i, z) :: l) id v = cut l id (skipn z v).
Proof.
  intros K i z l id v H. unfold cut. simpl. apply Nat.eqb_neq in H. rewrite H.
  pose proof (var_offsets_shift l 0 z id) as E. simpl in E. rewrite E.
  destruct (lookup id (var_offsets 0 l)) as [o|]; simpl; auto.
  destruct (lookup id l); auto. rewrite skipn_add. reflexivity.
Qed.

Lemma cut_concat : forall K l (v : list K), NoDup (map fst l) -> length v = total l ->
  concat (map (fun e => cut l (fst e) v) l) = v.
Proof.
  induction l as [|[i z] l IH]; intros v Hn Hl.
  - destruct v; [reflexivity|discriminate].
  - cbn [total fold_right snd] in Hl. cbn [map concat fst]. rewrite cut_cons_eq. inversion Hn as [|a b Hni Hn']; subst.
    transitivity (firstn z v ++ skipn z v); [|apply firstn_skipn]. f_equal.
    transitivity (concat (map (fun e => cut l (fst e) (skipn z v)) l)).
    + f_equal. apply map_ext_in. intros [j s] Hj. apply cut_cons_ne. intro E. apply Hni. cbn [fst] in E. subst j.
      apply (in_map fst) in Hj. exact Hj.
    + apply IH; auto. rewrite skipn_length. fold (total l) in Hl. lia.
Qed.

Lemma cut_length : forall K l (v : list K), NoDup (map fst l) -> length v = total l ->
  forall i z, In (i, z) l -> length (cut l i v) = z.
Proof.
  induction l as [|[j s] l IH]; intros v Hn Hl i z Hi; [destruct Hi|].
  cbn [total fold_right snd] in Hl. fold (total l) in Hl. inversion Hn as [|a b Hni Hn']; subst.
  destruct Hi as [E|Hi].
  - injection E as -> ->. rewrite cut_cons_eq, firstn_length. lia.
  - rewrite cut_cons_ne.
    + apply IH; auto. rewrite skipn_length. lia.
    + intro E. subst i. apply Hni. apply (in_map fst) in Hi. exact Hi.
Qed.

Lemma total_app : forall a b, total (a ++ b) = total a + total b.
Proof. induction a as [|[i z] a IH]; intro b; simpl; auto. rewrite IH. lia. Qed.

Lemma cut_app_l : forall K a b (v w : list K), NoDup (map fst (a ++ b)) -> length v = total a ->
  forall e, In e a -> cut (a ++ b) (fst e) (v ++ w) = cut a (fst e) v.
Proof.
  induction a as [|[j s] a IH]; intros b v w Hn Hl e He; [destruct He|].
  cbn [total fold_right snd] in Hl. fold (total a) in Hl. cbn [app] in *. inversion Hn as [|? ? Hni Hn']; subst.
  destruct (Nat.eq_dec (fst e) j) as [E|E].
  - rewrite E, !cut_cons_eq. rewrite firstn_app. replace (s - length v) with 0 by lia. cbn [firstn]. apply app_nil_r.
  - rewrite !cut_cons_ne by auto. rewrite skipn_app. replace (s - length v) with 0 by lia. cbn [skipn].
    destruct He as [<-|He]; [contradiction|].
    apply IH; auto. rewrite skipn_length. lia.
Qed.

Lemma cut_app_r : forall K a b (v w : list K), NoDup (map fst (a ++ b)) -> length v = total a ->
  forall e, In e b -> cut (a ++ b) (fst e) (v ++ w) = cut b (fst e) w.
Proof.
  induction a as [|[j s] a IH]; intros b v w Hn Hl e He.
  - destruct v; [reflexivity|discriminate].
  - cbn [total fold_right snd] in Hl. fold (total a) in Hl. cbn [app] in *. inversion Hn as [|? ? Hni Hn']; subst.
    rewrite cut_cons_ne.
    + rewrite skipn_app. replace (s - length v) with 0 by lia. cbn [skipn]. apply IH; auto. rewrite skipn_length. lia.
    + intro E. apply Hni. rewrite <- E, map_app. apply in_or_app. right. apply in_map. exact He.
Qed.

(** ** The value Python stores *)

Section Value.
  Variable K : ORing.
  Add Ring Kring : (rth K).
  Local Open Scope num_scope.

  Lemma num_eqb_spec : forall a b : K, num_eqb a b = true <-> a = b.
  Proof.
    intros a b. unfold num_eqb. rewrite andb_true_iff, !oleb_spec. split.
    - intros [H1 H2]. apply ole_antisym; auto.
    - intros ->. split; apply ole_refl.
  Qed.
  Lemma py_value_fin : forall lim v : K, v <> lim -> v <> - lim -> py_value lim v = Fin v.
  Proof.
    intros lim v H1 H2. unfold py_value.
    destruct (num_eqb v lim) eqn:E1; [apply num_eqb_spec in E1; contradiction|].
    destruct (num_eqb v (- lim)) eqn:E2; [apply num_eqb_spec in E2; contradiction|]. reflexivity.
  Qed.
  Lemma py_value_inf : forall lim : K, ole n0 lim -> lim <> n0 ->
    py_value lim lim = PosInf /\ py_value lim (- lim) = NegInf.
  Proof.
    intros lim H1 H2. unfold py_value.
    assert (num_eqb lim lim = true) as -> by (apply num_eqb_spec; auto).
    assert (num_eqb (- lim) (- lim) = true) as -> by (apply num_eqb_spec; auto).
    rewrite orb_true_r. cbn [orb]. apply oleb_spec in H1 as H3. rewrite H3. split; auto.
    destruct (oleb n0 (- lim)) eqn:E; auto. apply oleb_spec in E. exfalso. apply H2.
    apply ole_antisym; auto. apply le_opp in E. replace (- - lim) with lim in E by ring.
    replace (- n0 : K) with (n0 : K) in E by ring. exact E.
  Qed.
End Value.

(** ** Sessions *)

Section Session.
  Variable K : ORing.
  Variable lim : K.
  Variable k : package K.
  Variable scr : nat -> pid -> list K -> list K.
  Variable sv : Type.
  Variable enabled : list string.
  Variable translation : list (string * string).
  Variable dflt : string -> sv.
  Variable converts : string -> sv -> bool.
  Variable ups : list uparam.
  Variable ans : nat -> entry K -> answer K.
  Variable cells : nat -> string -> nat -> K.
  Notation g := (pk_gen k).
  Notation full := (full_session K lim k scr sv enabled translation dflt converts ups ans cells).
  Variable th0 : pvals K.
  Hypothesis W : wf_gen g th0.
  Hypothesis He : g_solver g = ECOS -> forall p, In p (owned ECOS) -> length (g_rows g p) <> 1.
  Hypothesis Hk : keeps (g_solver g) = true -> forall n p d, scr n p d = d.

  (** Every call completes its solve; the i-th outcome is computed from the i-th log entry. *)
  Lemma full_ok : forall cs w i th, Inv K g scr th (w_rst w) ->
    Forall (call_ok K g sv enabled translation dflt converts) (map (to_call ups) cs) ->
    all_cover K g sv th (map (to_call ups) cs) ->
    exists w' log outs, full w i cs = (w', outs) /\ r_log (w_rst w') = r_log (w_rst w) ++ log
      /\ length outs = length cs
      /\ Forall2 (fun e c => entry_ok K g e (vals_of K sv (to_call ups c))) log cs
      /\ forall j e, nth_error log j = Some e ->
           nth_error outs j = Some (outcome_of lim k (cells (i + j)) e (ans (i + j) e)).
  Proof.
    induction cs as [|c cs IH]; intros w i th I Hok Hc; cbn [full_session map all_cover] in *.
    - exists w, [], []. rewrite app_nil_r. split; auto. split; auto. split; auto. split; [constructor|].
      intros [|j] e H; discriminate.
    - inversion Hok as [|a b Hok1 Hok2]; subst. destruct Hc as [Hc1 Hc2].
      destruct (call_step K g scr sv enabled translation dflt converts th0 W He Hk w th (to_call ups c) I Hok1 Hc1)
        as (w1 & e & E1 & I1 & L1 & D1).
      destruct (IH w1 (S i) _ I1 Hok2 Hc2) as (w' & log & outs & E2 & L2 & N2 & F2 & R2).
      exists w', (e :: log), (outcome_of lim k (cells i) e (ans i e) :: outs).
      unfold full_call. rewrite E1, L1, rev_app_distr. cbn [rev app]. rewrite E2.
      split; [reflexivity|]. split; [rewrite L2, L1, <- app_assoc; reflexivity|].
      split; [cbn [length]; rewrite N2; reflexivity|]. split; [constructor; auto|].
      intros [|j] e' H.
      + injection H as <-. rewrite Nat.add_0_r. reflexivity.
      + replace (i + S j) with (S i + j) by lia. apply R2. exact H.
  Qed.
End Session.

(** ** Parts of a generated package *)

Lemma gen_solver : forall (K : Ring) (big : K) x s order g, generate big x s order = Ok g -> g_solver g = s.
Proof.
  intros K big x s order g Hg. unfold generate in Hg. destruct (block_for big x s order); [|discriminate].
  cbn [bind] in Hg. inversion Hg; subst g; reflexivity.
Qed.
Lemma gen_parts : forall (K : Ring) (big : K) x s order g, generate big x s order = Ok g ->
  g_params g = x_params x /\ forall p, In p (solver_pids s) -> g_rows g p = pr_rows (proc big x s p).
Proof.
  intros K big x s order g Hg. unfold generate in Hg. destruct (block_for big x s order); [|discriminate].
  cbn [bind] in Hg. inversion Hg; subst g; simpl. split; auto. intros p Hp. apply mem_pid_In in Hp. rewrite Hp. auto.
Qed.
Lemma gen_all_gen : forall (K : ORing) (big : K) x s order red us eqs neqs maps k,
  generate_all big x s order red us eqs neqs maps = Ok k -> generate big x s order = Ok (pk_gen k).
Proof.
  intros K big x s order red us eqs neqs maps k H. unfold generate_all in H.
  destruct (prim_info red us); [|discriminate]. cbn [bind] in H. destruct (dual_info _ _ _ _ _ _); [|discriminate]. cbn [bind] in H.
  destruct (generate big x s order); [|discriminate]. cbn [bind] in H. injection H as <-. reflexivity.
Qed.

(** ** The solver's problem is the user's problem *)

Section Same.
  Variable K : ORing.
  Add Ring Kring2 : (rth K).
  Local Open Scope num_scope.
  Variable big : K.
  Variable x : cvx K.
  Variable th0 : pvals K.
  Hypothesis W : wf_cvx x th0.
  Variable s : solver.
  Variable order : list string -> list string.
  Variable g : genc K.
  Hypothesis Hord : forall l, Permutation l (order l).
  Hypothesis Hg : generate big x s order = Ok g.
  Hypothesis Hwf : wf_for x s.
  Variable e : entry K.
  Variable th : pvals K.
  Hypothesis H1 : forall p, In p (owned s) -> e_data e p = canon_spec g th p.
  Hypothesis H2 : e_d e = canon_spec g th pd.
  Notation v := (flat (x_params x) th).
  Notation n := (x_n x).
  Notation m := (x_neq x + x_nineq x)%nat.

  Lemma e_means : means K big x s e v.
  Proof.
    unfold means. destruct (is_qp s) eqn:Eq.
    - destruct s; try discriminate. eapply qp_ok; eauto.
    - pose proof (conic_ok K big x th0 W s order g Hord Hg Hwf Eq _ _ H1 H2) as HC. destruct s; try discriminate; exact HC.
  Qed.
  Lemma e_obj : obj_means K big x s (qc_of s) e v.
  Proof. pose proof e_means as M. destruct s as [|[]| |[]|[]|[]]; simpl in M; apply M. Qed.

  Lemma nolp : mem_pid pP (solver_pids s) = false -> x_P x = None.
  Proof. intro Em. destruct s as [|[]| |[]|[]|[]]; simpl in Em, Hwf; try discriminate; try tauto. Qed.

  (** Objectives: the user's is the solver's plus the offset, negated for maximisation. *)
  Lemma obj_same : forall half y, canon_obj x half v y = solver_obj big x half s e y + cd x v.
  Proof.
    intros half y. destruct e_obj as (HP & HL & Hq & Hd). unfold canon_obj, solver_obj.
    rewrite (lf_ext _ _ (dvec K e (qc_of s)) (cq x v)) by auto.
    destruct (mem_pid pP (solver_pids s)) eqn:Em.
    - apply mem_pid_In in Em. rewrite (qf_ext _ _ (dmat K big x s e pP) (cP x v)) by auto. reflexivity.
    - rewrite (qf_zero K n (cP x v)); [ring|]. intros i j. unfold cP. rewrite (nolp Em). reflexivity.
  Qed.

  Lemma small_no : forall b c : K, ~ ole big c -> ~ ole c (- big) -> c = - b \/ c = b -> ~ ole big b /\ ~ ole big (- b).
  Proof.
    intros b c S1 S2 [E|E]; subst c; split; intro H.
    - apply S2. apply le_opp. exact H.
    - apply S1. exact H.
    - apply S1. exact H.
    - apply S2. apply le_opp in H. replace (- - b) with b in H by ring. exact H.
  Qed.

  (** The rows of the solver's matrix. *)
  Lemma rows_same : forall i j, (i < m)%nat -> (j < n)%nat ->
    s_row big x s e i j = (if is_qp s && Nat.ltb i (x_neq x) then cA x v i j else - cA x v i j).
  Proof.
    intros i j Hi Hj. unfold s_row. destruct (is_qp s) eqn:Eq.
    - pose proof e_means as M. assert (Es : s = OSQP) by (destruct s; try discriminate; auto).
      cbn [andb]. revert M. rewrite Es. intros (_ & MA & _). apply MA. exact Hj.
    - cbn [andb]. destruct (Nat.ltb_spec i (x_neq x)) as [L|L].
      + assert (HA : In pA (owned s)) by (destruct s as [|[]| |[]|[]|[]]; simpl; try discriminate; tauto).
        unfold dmat. rewrite (data_is K big x th0 W s order g Hord Hg e th pA H1 HA).
        rewrite tail_nil by discriminate. rewrite app_nil_r. apply (conic_A K big x th0 W); auto.
      + assert (Hsp : is_split s = true).
        { destruct s as [|[]| |[]|[]|[]]; simpl in *; try discriminate; auto; exfalso; lia. }
        assert (HG : In pG (owned s)) by (destruct s as [|[]| |[]|[]|[]]; simpl; try discriminate; tauto).
        unfold dmat. rewrite (data_is K big x th0 W s order g Hord Hg e th pG H1 HG).
        rewrite tail_nil by discriminate. rewrite app_nil_r.
        pose proof (conic_G K big x th0 W s v (i - x_neq x)%nat j) as E.
        replace (x_neq x + (i - x_neq x))%nat with i in E by lia. apply E; auto. lia.
  Qed.

  Lemma rhs_same : forall i, (i < m)%nat -> is_qp s = false -> s_rhs x e i = cb x v i.
  Proof.
    intros i Hi Eq. unfold s_rhs. pose proof e_means as M. unfold means in M.
    assert (MC : conic_means K big x s (qc_of s) e v) by (destruct s; try discriminate; exact M).
    destruct MC as (_ & _ & Mb & Mh).
    assert (Z : forall A : nat -> nat -> K, forall i, mv K x A (fun _ => n0) i = n0).
    { intros A i'. unfold mv. apply rsum_zero. intros j _. ring. }
    assert (R : forall i, resid x v (fun _ => n0) i = cb x v i).
    { intro i'. unfold resid. pose proof (Z (cA x v) i') as E. unfold mv in E. rewrite E. ring. }
    destruct (Nat.ltb_spec i (x_neq x)) as [L|L].
    - specialize (Mb (fun _ => n0) i L). rewrite Z, R in Mb. rewrite <- Mb. ring.
    - assert (Hsp : is_split s = true).
      { destruct s as [|[]| |[]|[]|[]]; simpl in *; try discriminate; auto; exfalso; lia. }
      destruct (Mh Hsp) as (_ & Mh'). specialize (Mh' (fun _ => n0) (i - x_neq x)%nat ltac:(lia)). rewrite Z, R in Mh'.
      replace (x_neq x + (i - x_neq x))%nat with i in Mh' by lia. rewrite <- Mh'. ring.
  Qed.

  Lemma s_mv : forall y i, (i < m)%nat ->
    mv K x (s_row big x s e) y i
    = (if is_qp s && Nat.ltb i (x_neq x) then mv K x (cA x v) y i else - mv K x (cA x v) y i).
  Proof.
    intros y i Hi. destruct (is_qp s && Nat.ltb i (x_neq x)) eqn:Eb.
    - apply rsum_ext. intros j Hj. apply in_seq in Hj. rewrite rows_same by lia. rewrite Eb. reflexivity.
    - apply mv_neg with (i' := i). intros j Hj. rewrite rows_same by lia. rewrite Eb. reflexivity.
  Qed.

  (** Slacks of the conic form. *)
  Lemma slack_same : is_qp s = false -> forall y, s_slacks big x s e y = u_slacks x v y.
  Proof.
    intros Eq y. unfold s_slacks, u_slacks. apply map_ext_in. intros i Hi. apply in_seq in Hi.
    rewrite rhs_same by (auto; lia). rewrite s_mv by lia. rewrite Eq. cbn [andb]. unfold resid, mv. ring.
  Qed.

  Variable cone : list K -> Prop.

  Lemma feas_same : (s = OSQP -> small big x v) -> forall y, s_feas big x s cone e y <-> u_feas x s cone v y.
  Proof.
    intros HS y. destruct (is_qp s) eqn:Eq.
    - assert (Es : s = OSQP) by (destruct s; try discriminate; auto). specialize (HS Es).
      pose proof e_means as M. unfold means in M. unfold s_feas, u_feas. rewrite Eq.
      assert (M' : qp_means K big x e v) by (revert M; rewrite Es; auto). clear M.
      destruct M' as (_ & _ & _ & _ & Me & Mi). unfold qp_set, bounds_hold.
      assert (Nu : forall i, (i < m)%nat -> nth i (u_slacks x v y) n0 = resid x v y i).
      { intros i Hi. unfold u_slacks. rewrite nth_indep with (d' := resid x v y 0%nat) by (rewrite map_length, seq_length; auto).
        rewrite map_nth, seq_nth by auto. reflexivity. }
      split.
      + intros H i Hi. rewrite Nu by auto. specialize (H i Hi). rewrite s_mv in H by auto. rewrite Eq in H. cbn [andb] in H.
        destruct (HS i Hi) as (S1 & S2).
        destruct (Nat.ltb_spec i (x_neq x)) as [L|L].
        * destruct (Me i L) as (E1 & E2). rewrite E1, E2 in H. destruct H as ([B1|B1] & [B2|B2]).
          -- exfalso. apply S1. apply le_opp in B1. replace (- - big) with big in B1 by ring. replace (- - cb x v i) with (cb x v i) in B1 by ring. exact B1.
          -- exfalso. apply S1. apply le_opp in B1. replace (- - big) with big in B1 by ring. replace (- - cb x v i) with (cb x v i) in B1 by ring. exact B1.
          -- exfalso. apply S2. apply le_opp in B2. replace (- - cb x v i) with (cb x v i) in B2 by ring. exact B2.
          -- pose proof (ole_antisym K _ _ B2 B1) as E. unfold resid. unfold mv in E. rewrite E. ring.
        * destruct (Mi i (conj L Hi)) as (E1 & E2). rewrite E2 in H. destruct H as (_ & [B|B]); [contradiction|].
          apply le_sub0 in B. replace (cb x v i - - mv K x (cA x v) y i) with (mv K x (cA x v) y i + cb x v i) in B by ring. exact B.
      + intros H i Hi. specialize (H i Hi). rewrite Nu in H by auto. rewrite s_mv by auto. rewrite Eq. cbn [andb].
        destruct (Nat.ltb_spec i (x_neq x)) as [L|L].
        * destruct (Me i L) as (E1 & E2). rewrite E1, E2.
          assert (E : mv K x (cA x v) y i = - cb x v i).
          { transitivity (resid x v y i - cb x v i); [unfold resid, mv; ring|]. rewrite H. ring. }
          rewrite E. split; right; apply ole_refl.
        * destruct (Mi i (conj L Hi)) as (E1 & E2). rewrite E1, E2. split; [left; apply ole_refl|]. right.
          apply le_sub0. replace (cb x v i - - mv K x (cA x v) y i) with (mv K x (cA x v) y i + cb x v i) by ring. exact H.
    - unfold s_feas, u_feas. rewrite Eq, slack_same by auto. tauto.
  Qed.

  Lemma le_shift : forall a b c : K, ole a b <-> ole (a + c) (b + c).
  Proof.
    intros a b c. split; intro H.
    - pose proof (ole_add K _ _ c H) as H'. replace (c + a) with (a + c) in H' by ring. replace (c + b) with (b + c) in H' by ring. exact H'.
    - pose proof (ole_add K _ _ (- c) H) as H'. replace (- c + (a + c)) with a in H' by ring. replace (- c + (b + c)) with b in H' by ring. exact H'.
  Qed.

  Lemma opt_same : (s = OSQP -> small big x v) -> forall half y,
    s_opt big x s cone half e y <-> u_opt x s cone half v y.
  Proof.
    intros HS half y. unfold s_opt, u_opt. pose proof (feas_same HS) as HF. split; intros (A & B); split.
    - apply HF; auto.
    - intros y' Hy'. apply HF in Hy'. specialize (B y' Hy'). unfold user_obj. fold (canon_obj x half v y) (canon_obj x half v y').
      rewrite !obj_same. apply (le_shift _ _ (cd x v)) in B. destruct (x_max x); auto. apply le_opp. exact B.
    - apply HF; auto.
    - intros y' Hy'. apply HF in Hy'. specialize (B y' Hy'). unfold user_obj in B. fold (canon_obj x half v y) (canon_obj x half v y') in B.
      rewrite !obj_same in B. apply (le_shift _ _ (cd x v)). destruct (x_max x); auto. apply le_opp in B.
      replace (- - (solver_obj big x half s e y + cd x v)) with (solver_obj big x half s e y + cd x v) in B by ring.
      replace (- - (solver_obj big x half s e y' + cd x v)) with (solver_obj big x half s e y' + cd x v) in B by ring. exact B.
  Qed.

  (** ** Multipliers *)

  Lemma grad_same : forall half y j, (j < n)%nat -> s_grad big x s half e y j = u_grad x half v y j.
  Proof.
    intros half y j Hj. destruct e_obj as (HP & HL & Hq & Hd). unfold s_grad, u_grad. rewrite Hq by auto.
    destruct (mem_pid pP (solver_pids s)) eqn:Em.
    - apply mem_pid_In in Em. f_equal. f_equal. apply rsum_ext. intros i Hi. apply in_seq in Hi.
      rewrite !HP by (auto; lia). reflexivity.
    - assert (E : rsum (map (fun i => (cP x v i j + cP x v j i) * y i) (seq 0 n)) = n0).
      { apply rsum_zero. intros i _. unfold cP. rewrite (nolp Em). ring. }
      rewrite E. ring.
  Qed.

  Lemma stat_same : forall half y lam, s_stat big x s half e y lam <-> u_stat x s half v y lam.
  Proof.
    intros half y lam. unfold s_stat, u_stat.
    assert (E : forall j, (j < n)%nat -> rsum (map (fun i => s_row big x s e i j * nth i lam n0) (seq 0 m))
              = rsum (map (fun i => (if is_qp s && Nat.ltb i (x_neq x) then nth i lam n0 else - nth i lam n0) * cA x v i j) (seq 0 m))).
    { intros j Hj. apply rsum_ext. intros i Hi. apply in_seq in Hi. rewrite rows_same by lia.
      destruct (is_qp s && Nat.ltb i (x_neq x)); ring. }
    split; intros H j Hj; specialize (H j Hj); rewrite ?grad_same, ?E in * by auto; exact H.
  Qed.

  Variable rel : list K -> list K -> Prop.

  Lemma rel_same : (s = OSQP -> small big x v) -> forall y lam,
    s_rel big x s rel e y lam <-> u_rel x s rel v y lam.
  Proof.
    intros HS y lam. unfold s_rel, u_rel. destruct (is_qp s) eqn:Eq.
    - assert (Es : s = OSQP) by (destruct s; try discriminate; auto). specialize (HS Es).
      pose proof (feas_same (fun _ => HS) y) as HF. unfold s_feas, u_feas in HF. rewrite Eq in HF.
      pose proof e_means as M. unfold means in M.
      assert (M' : qp_means K big x e v) by (revert M; rewrite Es; auto). clear M.
      destruct M' as (_ & _ & _ & _ & Me & Mi).
      assert (Nu : forall i, (i < m)%nat -> nth i (u_slacks x v y) n0 = resid x v y i).
      { intros i Hi. unfold u_slacks. rewrite nth_indep with (d' := resid x v y 0%nat) by (rewrite map_length, seq_length; auto).
        rewrite map_nth, seq_nth by auto. reflexivity. }
      assert (Hnle : forall a b : K, ~ ole a b -> ole b a) by (intros a b Hab; destruct (ole_total K a b); [contradiction|auto]).
      assert (Hdec : forall a b : K, ole a b \/ ~ ole a b).
      { intros a b. destruct (oleb a b) eqn:Eo; [left; apply oleb_spec; auto|]. right. intro C. apply oleb_spec in C. congruence. }
      unfold qp_signs, qp_rel. split; intros (A & B).
      + apply HF in A. split; auto. intros i Hi. specialize (B i (proj2 Hi)). destruct B as (B1 & B2).
        destruct (Mi i Hi) as (E1 & E2). rewrite E1 in B2. rewrite E2 in B1.
        assert (P : ole n0 (nth i lam n0)).
        { destruct (Hdec n0 (nth i lam n0)) as [C|C]; auto. exfalso. destruct (B2 C) as (C1 & _). apply C1. apply ole_refl. }
        split; auto. destruct (Hdec (nth i lam n0) n0) as [C|C].
        * left. apply ole_antisym; auto.
        * right. rewrite Nu by apply Hi. destruct (B1 C) as (_ & C1). rewrite s_mv in C1 by apply Hi. rewrite Eq in C1.
          cbn [andb] in C1. assert (Nat.ltb i (x_neq x) = false) as Ef by (apply Nat.ltb_ge; apply Hi). rewrite Ef in C1.
          unfold resid. fold (mv K x (cA x v) y i). rewrite <- C1. ring.
      + split; [apply HF; auto|]. intros i Hi. destruct (HS i Hi) as (S1 & S2).
        specialize (A i Hi). rewrite Nu in A by auto. rewrite s_mv by auto. rewrite Eq. cbn [andb].
        destruct (Nat.ltb_spec i (x_neq x)) as [L|L].
        * destruct (Me i L) as (E1 & E2). rewrite E1, E2.
          assert (E : mv K x (cA x v) y i = - cb x v i).
          { transitivity (resid x v y i - cb x v i); [unfold resid, mv; ring|]. rewrite A. ring. }
          split; intros _; (split; [|exact E]); intro C.
          -- apply S2. apply le_opp in C. replace (- - cb x v i) with (cb x v i) in C by ring. exact C.
          -- apply S1. apply le_opp in C. replace (- - cb x v i) with (cb x v i) in C by ring. replace (- - big) with big in C by ring. exact C.
        * destruct (Mi i (conj L Hi)) as (E1 & E2). rewrite E1, E2. destruct (B i (conj L Hi)) as (B1 & B2). split; intro C.
          -- split; auto. destruct B2 as [B2|B2]; [exfalso; apply C; rewrite B2; apply ole_refl|].
             rewrite Nu in B2 by auto.
             transitivity (- (resid x v y i - cb x v i)); [unfold resid, mv; ring|]. rewrite B2. ring.
          -- contradiction.
    - rewrite slack_same by auto. tauto.
  Qed.

  Lemma kkt_same : (s = OSQP -> small big x v) -> forall half y lam,
    s_kkt big x s rel half e y lam <-> u_kkt x s rel half v y lam.
  Proof. intros HS half y lam. unfold s_kkt, u_kkt. rewrite stat_same, rel_same by auto. tauto. Qed.
End Same.
