(** Proofs about solver objects. *)

From Coq Require Import String Arith Bool Lia List Permutation.
From Verif Require Import Base Pus Machine PusParse PusCheck PusLift Runtime RuntimeSpec RuntimeProofs PusMore
     Objects ObjectsSpec.
Import ListNotations.

(** ** The order of the calls, by a sweep over all generated update codes *)

Definition ok1 (s : solver) (ini : bool) (a : action) : bool :=
  match s, a with
  | CLARABEL lp, ACopy _ => negb lp && ini
  | CLARABEL _, AInit _ _ | CLARABEL _, APush _ _ => false
  | (SCS _ | ECOS | QOCO _), APush _ _ => ini
  | _, _ => true
  end.

Fixpoint okseq (s : solver) (ini : bool) (acts : list action) : bool :=
  match acts with
  | [] => true
  | a :: t => ok1 s ini a && okseq s (ini || sets_init a) t
  end.

Lemma okseq_app : forall s a1 a2 ini, okseq s ini (a1 ++ a2) = true ->
  okseq s ini a1 = true /\ okseq s (ini || existsb sets_init a1) a2 = true.
Proof.
  induction a1 as [|a a1 IH]; intros a2 ini H; cbn [app okseq existsb] in *.
  - rewrite orb_false_r. auto.
  - apply andb_true_iff in H. destruct H as [H1 H2]. apply IH in H2. destruct H2 as [H2 H3].
    rewrite H1, H2. split; auto. rewrite orb_assoc. exact H3.
Qed.

Definition cnt1 (s : solver) (a : action) : nat :=
  match s, a with
  | CLARABEL _, ACopyAll => 1
  | CLARABEL _, _ => 0
  | _, AInit _ _ => 1
  | _, _ => 0
  end.

Definition cnt (s : solver) (acts : list action) : nat := list_sum (map (cnt1 s) acts).

Lemma cnt_cons : forall s a l, cnt s (a :: l) = cnt1 s a + cnt s l.
Proof. reflexivity. Qed.

Lemma cnt_app : forall s a b, cnt s (a ++ b) = cnt s a + cnt s b.
Proof. intros. unfold cnt. rewrite map_app, list_sum_app. reflexivity. Qed.

(** Set-ups per solve: [S] the changing blocks, [F] the outdated ones. *)
Definition wanted (s : solver) (chg out : pid -> bool) (ini : bool) : nat :=
  let ms := (if solver_quad s then [pP] else []) ++ [pA] in
  match s with
  | SCS _ => if negb ini || (existsb chg ms && existsb (fun q => negb (chg q) || out q) ms) then 1 else 0
  | CLARABEL true => 1
  | _ => if ini then 0 else 1
  end.

Definition chk_obj (s : solver) (S : list pid) (b : ublock) : bool :=
  forallb (fun F =>
    forallb (fun ini =>
      let acts := fst (run b (fun p => negb (mem_pid p S) || mem_pid p F) ini) in
      okseq s ini acts
      && (match s with OSQP => true | _ => Nat.eqb (cnt s acts) (wanted s (fun p => mem_pid p S) (fun p => mem_pid p F) ini) end))
      (if solver_init0 s then [true] else [true; false]))
    (subsets (owned s)).

Lemma obj_sweep : forall s, sweep (chk_obj s) s = true.
Proof. intros [|[]| |[]|[]|[]]; vm_compute; reflexivity. Qed.

Lemma obj_code : forall s chg b fl ini (t : pid -> bool), chg_wf s chg -> is_code s chg b ->
  (ini = false -> solver_init0 s = false) ->
  (forall p, In p (owned s) -> fl p = negb (changing chg p) || t p) ->
  okseq s ini (fst (run b fl ini)) = true
  /\ (s = OSQP \/ cnt s (fst (run b fl ini)) = wanted s (changing chg) t ini).
Proof.
  intros s chg b fl ini t Hw Hc Hi Hf.
  destruct (sweep_lift (chk_obj s) s chg b (obj_sweep s) Hw Hc) as [Hat HC].
  assert (HS : forall p, In p (solver_pids s) -> mem_pid p (chg_set s chg) = changing chg p).
  { intros p Hp. unfold chg_set. rewrite mem_filter. apply mem_pid_In in Hp. rewrite Hp. auto. }
  unfold chk_obj in HC. rewrite forallb_forall in HC. specialize (HC (filter t (owned s)) (filter_in_subsets _ _ _)).
  rewrite forallb_forall in HC. specialize (HC ini).
  assert (In ini (if solver_init0 s then [true] else [true; false])) as Hin.
  { destruct ini; [destruct (solver_init0 s); cbn; auto|]. rewrite Hi by reflexivity. cbn. auto. }
  specialize (HC Hin). cbv zeta in HC.
  rewrite (run_ext b _ fl ini) in HC.
  2: { intros p Hp. apply Hat in Hp. rewrite Hf by auto. rewrite HS by (apply owned_pids in Hp; tauto).
       rewrite mem_filter. apply mem_pid_In in Hp. rewrite Hp. reflexivity. }
  apply andb_true_iff in HC. destruct HC as [H1 H2]. split; auto.
  assert (E : wanted s (fun p => mem_pid p (chg_set s chg)) (fun p => mem_pid p (filter t (owned s))) ini
              = wanted s (changing chg) t ini).
  { destruct s as [|[]| |[]|[]|[]]; cbn [wanted]; auto; cbn [solver_quad negb app existsb]; rewrite ?mem_filter, !HS by (simpl; tauto); reflexivity. }
  destruct s as [|[]| |[]|[]|[]]; [left; reflexivity|..]; right; apply Nat.eqb_eq in H2; rewrite H2; exact E.
Qed.

(** ** What the statements do, memory never being refused *)

Definition LH : obj := mkObj true true.
Definition DL : obj := mkObj false false.
Definition top (n : nat) : place := match n with 0 => Null | S k => At k end.
Definition stat (n : nat) : place := match n with 0 => Null | S _ => Static end.

Definition env_is (o : ost) (w sol vp va ld : place) : Prop :=
  o_env o VWork = w /\ o_env o VSolution = sol /\ o_env o VP = vp /\ o_env o VA = va
  /\ o_env o VG = Null /\ o_env o VStgs = Null /\ o_env o VLoaded = ld.

Fixpoint pairs (n : nat) : list obj := match n with 0 => [] | S k => pairs k ++ [DL; LH] end.

Lemma pairs_length : forall n, length (pairs n) = 2 * n.
Proof. induction n; cbn [pairs]; auto. rewrite app_length, IHn. cbn. lia. Qed.

(** [n] solver objects exist, [c] set-ups have run since the beginning of the current solve (for
    Clarabel, whose object is created by the solve call). *)
Definition Mid (p : prog) (n c : nat) (o : ost) : Prop :=
  match p_solver p with
  | OSQP => env_is o Static Null Null Null Null /\ o_objs o = [] /\ o_faults o = []
  | QOCOGEN _ => env_is o Static Null Null Null (stat (n + c)) /\ o_objs o = [] /\ o_faults o = []
  | SCS _ | ECOS => env_is o (top (n + c)) Null Null Null Null /\ o_objs o = repeat LH (n + c) /\ o_faults o = []
  | QOCO _ => env_is o (top (5 * (n + c))) Null Null Null Null /\ o_objs o = repeat LH (5 * (n + c)) /\ o_faults o = []
  | CLARABEL false => env_is o (top n) (top n) (stat (n + c)) (stat (n + c)) Null /\ o_objs o = repeat LH n /\ o_faults o = []
  | CLARABEL true =>
    env_is o (top (2 * n)) (top (2 * n))
           (match c, n with S j, _ => At (2 * n + j) | 0, S k => At (2 * k) | 0, 0 => Null end) (stat (n + c)) Null
    /\ o_objs o = pairs n ++ repeat DL c /\ o_faults o = repeat (DeadRead VP) n
  end.

Definition ini_of (p : prog) (n c : nat) : bool :=
  match p_solver p with
  | OSQP => true
  | CLARABEL _ => Nat.ltb 0 n
  | _ => Nat.ltb 0 (n + c)
  end.

Lemma Mid_ini : forall p n c o, Mid p n c o -> inited (p_solver p) o = ini_of p n c.
Proof.
  intros p n c o H. unfold Mid, inited, ini_of in *. destruct (p_solver p) as [|lp| |[]|lp|lp]; destruct H as [(E1 & E2 & E3 & E4 & E5 & E6 & E7) _];
    rewrite ?E1, ?E7; auto.
  all: first [destruct (n + c); reflexivity | destruct n; reflexivity].
Qed.

Lemma top_live : forall n o w, o_objs o = repeat LH (S n) -> w = At n -> is_live o n = true.
Proof.
  intros n o w H _. unfold is_live. rewrite H. rewrite nth_error_repeat by lia. reflexivity.
Qed.

Lemma leave_LH : forall k m, firstn k (repeat LH m) ++ map leave (skipn k (repeat LH m)) = repeat LH m.
Proof.
  intros. rewrite <- (firstn_skipn k (repeat LH m)) at 3. f_equal.
  assert (H : Forall (fun x => x = LH) (skipn k (repeat LH m))).
  { apply Forall_forall. intros x Hx. apply (repeat_spec m LH). rewrite <- (firstn_skipn k). apply in_or_app. auto. }
  induction H; cbn [map]; auto. rewrite IHForall. subst. reflexivity.
Qed.

Section Plenty.
  Variable give : nat -> bool.
  Hypothesis Hg : plenty give.

  Lemma new_ok : forall o v, o_new give o v =
    mkO (vset (o_env o) v (At (length (o_objs o)))) (o_objs o ++ [LH]) (S (o_tries o)) (o_faults o).
  Proof. intros. unfold o_new. rewrite Hg. reflexivity. Qed.

  Lemma read_live : forall b o v k, o_env o v = At k -> is_live o k = true -> o_read b o v = o.
  Proof. intros b o v k H1 H2. unfold o_read. rewrite H1, H2. reflexivity. Qed.

  Lemma read_static : forall b o v, o_env o v = Static -> o_read b o v = o.
  Proof. intros b o v H1. unfold o_read. rewrite H1. reflexivity. Qed.

  Lemma exec_app : forall l1 l2 o, exec_stmts give o (l1 ++ l2) = exec_stmts give (exec_stmts give o l1) l2.
  Proof. intros. unfold exec_stmts. apply fold_left_app. Qed.

  Lemma declared_app : forall l1 l2, declared (l1 ++ l2) = declared l1 ++ declared l2.
  Proof. intros. unfold declared. apply flat_map_app. Qed.

  Lemma no_decl : forall p acts, (forall lp, p_solver p <> QOCO lp) -> declared (flat_map (stmts_of p) acts) = [].
  Proof.
    intros p acts H. induction acts as [|a acts IH]; cbn [flat_map]; auto. rewrite declared_app, IH, app_nil_r.
    unfold stmts_of. destruct (p_solver p) as [|lp| |[]|lp|lp] eqn:Hp; try (exfalso; apply (H lp); first [exact Hp | reflexivity]); destruct a as [|[]| |]; reflexivity.
  Qed.

  (** *** Static workspaces, SCS and ECOS: the statements of a block keep [Mid] themselves *)
  Definition plain (s : solver) : bool := match s with QOCO _ | CLARABEL _ => false | _ => true end.

  Lemma plain_acts : forall p, plain (p_solver p) = true ->
    forall acts n c o, Mid p n c o -> okseq (p_solver p) (ini_of p n c) acts = true ->
    Mid p n (c + cnt (p_solver p) acts) (exec_stmts give o (flat_map (stmts_of p) acts)).
  Proof.
    intros p Hp. induction acts as [|a acts IH]; intros n c o HM Hok.
    - cbn. rewrite Nat.add_0_r. exact HM.
    - cbn [flat_map]. rewrite exec_app. cbn [okseq] in Hok. apply andb_true_iff in Hok. destruct Hok as [H1 H2].
      replace (c + cnt (p_solver p) (a :: acts)) with ((c + cnt1 (p_solver p) a) + cnt (p_solver p) acts) by (rewrite cnt_cons; lia).
      assert (HM' : Mid p n (c + cnt1 (p_solver p) a) (exec_stmts give o (stmts_of p a))).
      { clear IH H2. unfold Mid, ini_of, stmts_of in *. destruct (p_solver p) as [|lp| |lp|lp|lp]; try discriminate Hp.
        - destruct HM as (E & HO & HF). destruct a; cbn [exec_stmts fold_left exec_stmt]; auto. destruct E as (E1 & E). rewrite read_static by auto. unfold env_is. auto.
        - destruct HM as (E & HO & HF). destruct a; cbn [exec_stmts fold_left exec_stmt cnt1]; rewrite ?Nat.add_0_r; auto.
          + rewrite new_ok. destruct E as (E1 & E2 & E3 & E4 & E5 & E6 & E7).
            replace (n + (c + 1)) with (S (n + c)) by lia.
            split; [|split]; cbn [o_objs o_faults].
            * unfold env_is. cbn [o_env vset var_eqb]. unfold vset. cbn [var_eqb top]. rewrite HO, repeat_length. auto 8.
            * rewrite HO. symmetry. replace (S (n + c)) with (n + c + 1) by lia. apply repeat_app.
            * auto.
          + cbn [ok1] in H1. apply Nat.ltb_lt in H1. destruct (n + c) as [|m] eqn:Em; [lia|].
            destruct E as (E1 & E). cbn [top] in E1. rewrite (read_live _ _ _ _ E1) by (eapply top_live; eauto). split; [split|]; auto.
        - destruct HM as (E & HO & HF). destruct a; cbn [exec_stmts fold_left exec_stmt cnt1]; rewrite ?Nat.add_0_r; auto.
          + rewrite new_ok. destruct E as (E1 & E2 & E3 & E4 & E5 & E6 & E7).
            replace (n + (c + 1)) with (S (n + c)) by lia.
            split; [|split]; cbn [o_objs o_faults].
            * unfold env_is. cbn [o_env]. unfold vset. cbn [var_eqb top]. rewrite HO, repeat_length. auto 8.
            * rewrite HO. symmetry. replace (S (n + c)) with (n + c + 1) by lia. apply repeat_app.
            * auto.
          + cbn [ok1] in H1. apply Nat.ltb_lt in H1. destruct (n + c) as [|m] eqn:Em; [lia|].
            destruct E as (E1 & E). cbn [top] in E1. rewrite (read_live _ _ _ _ E1) by (eapply top_live; eauto). split; [split|]; auto.
        - destruct HM as (E & HO & HF). destruct a; cbn [exec_stmts fold_left exec_stmt cnt1]; rewrite ?Nat.add_0_r; auto.
          + destruct E as (E1 & E2 & E3 & E4 & E5 & E6 & E7). rewrite read_static by auto.
            split; [|split]; cbn [o_objs o_faults o_set]; auto.
            unfold env_is. cbn [o_env o_set]. unfold vset. cbn [var_eqb]. replace (n + (c + 1)) with (S (n + c)) by lia. cbn [stat]. auto 8.
          + destruct E as (E1 & E). rewrite read_static by auto. unfold env_is. auto. }
      apply IH; auto.
      assert (E : ini_of p n (c + cnt1 (p_solver p) a) = ini_of p n c || sets_init a).
      { unfold ini_of. destruct (p_solver p) as [|lp| |lp|lp|lp]; try discriminate Hp; destruct a; cbn [cnt1 sets_init]; rewrite ?Nat.add_0_r, ?orb_false_r, ?orb_true_r; auto;
        apply Nat.ltb_lt; lia. }
      rewrite E. exact H2.
  Qed.

  Lemma end_plain : forall p k n c o, plain (p_solver p) = true -> Mid p n c o -> Mid p n c (end_block k [] o).
  Proof.
    intros p k n c o Hp HM. unfold Mid, env_is in *. unfold end_block. cbn [o_env o_objs o_faults existsb].
    destruct (p_solver p) as [|lp| |lp|lp|lp]; try discriminate Hp; destruct HM as (E & HO & HF); rewrite HO; rewrite ?leave_LH; auto.
    - rewrite firstn_nil, skipn_nil. auto.
    - rewrite firstn_nil, skipn_nil. auto.
  Qed.

  (** *** QOCO *)
  Definition Loc (ds : list var) (o : ost) : Prop :=
    forall v, In v [VP; VA; VG; VStgs] -> o_env o v = Null \/ In v ds.

  Definition QMid (n : nat) (o : ost) : Prop :=
    o_env o VWork = top (5 * n) /\ o_env o VSolution = Null /\ o_env o VLoaded = Null
    /\ o_objs o = repeat LH (5 * n) /\ o_faults o = [].

  Lemma repeat_snoc : forall (x : obj) m, repeat x m ++ [x] = repeat x (S m).
  Proof. intros. replace (S m) with (m + 1) by lia. symmetry. apply repeat_app. Qed.

  Lemma rl : forall o v k m b, o_env o v = At k -> o_objs o = repeat LH m -> k < m -> o_read b o v = o.
  Proof. intros o v k m b E HO Hk. apply (read_live _ _ _ _ E). unfold is_live. rewrite HO, nth_error_repeat; auto. Qed.

  Lemma qoco_setup_ok : forall lp eq ineq n o, QMid n o ->
    QMid (S n) (exec_stmts give o (qoco_setup_stmts lp eq ineq)).
  Proof.
    intros lp eq ineq n o (E1 & E2 & E3 & HO & HF). unfold qoco_setup_stmts.
    set (m := 5 * n) in *. replace (5 * S n) with (S (S (S (S (S m))))) by (unfold m; lia).
    assert (E0 : exec_stmts give o [SDecl VP; SDecl VA; SDecl VG]
       = mkO (vset (vset (vset (o_env o) VP (At m)) VA (At (S m))) VG (At (S (S m)))) (repeat LH (S (S (S m)))) (S (S (S (o_tries o)))) (o_faults o)).
    { unfold exec_stmts. cbn [fold_left exec_stmt]. rewrite !new_ok. cbn [o_env o_objs o_tries o_faults].
      rewrite !HO. rewrite !repeat_snoc, !repeat_length. reflexivity. }
    rewrite !exec_app, E0. clear E0.
    assert (Hst : forall lp eq ineq : bool, exists e, 
       exec_stmt give (exec_stmt give (exec_stmt give (mkO (vset (vset (vset (o_env o) VP (At m)) VA (At (S m))) VG (At (S (S m)))) (repeat LH (S (S (S m)))) (S (S (S (o_tries o)))) (o_faults o))
         (if lp then SNull VP else SRead VP)) (if eq : bool then SRead VA else SNull VA)) (if ineq : bool then SRead VG else SNull VG)
       = mkO e (repeat LH (S (S (S m)))) (S (S (S (o_tries o)))) (o_faults o)
       /\ e VWork = o_env o VWork /\ e VSolution = o_env o VSolution /\ e VLoaded = o_env o VLoaded
       /\ (e VP = Null \/ e VP = At m) /\ (e VA = Null \/ e VA = At (S m)) /\ (e VG = Null \/ e VG = At (S (S m)))).
    { clear. intros lp eq ineq.
      assert (R : forall (b : bool) v k e t f, e v = At k -> k < S (S (S m)) -> exists e',
               exec_stmt give (mkO e (repeat LH (S (S (S m)))) t f) (if b then SNull v else SRead v) = mkO e' (repeat LH (S (S (S m)))) t f
               /\ (forall w, var_eqb w v = false -> e' w = e w) /\ (e' v = Null \/ e' v = At k)).
      { intros b v k e t f Ev Hk. destruct b.
        - exists (vset e v Null). split; [reflexivity|]. unfold vset. split; [intros w Hw; rewrite Hw; auto|]. left. destruct v; reflexivity.
        - exists e. cbn [exec_stmt]. rewrite (rl _ _ k (S (S (S m)))); auto. }
      destruct (R lp VP m (vset (vset (vset (o_env o) VP (At m)) VA (At (S m))) VG (At (S (S m)))) (S (S (S (o_tries o)))) (o_faults o)) as (e1 & X1 & Y1 & Z1); [reflexivity|lia|].
      destruct (R (negb eq) VA (S m) e1 (S (S (S (o_tries o)))) (o_faults o)) as (e2 & X2 & Y2 & Z2); [rewrite Y1 by reflexivity; reflexivity|lia|].
      destruct (R (negb ineq) VG (S (S m)) e2 (S (S (S (o_tries o)))) (o_faults o)) as (e3 & X3 & Y3 & Z3); [rewrite Y2, Y1 by reflexivity; reflexivity|lia|].
      exists e3. split.
      - rewrite X1. destruct eq; cbn [negb] in X2; rewrite X2; destruct ineq; cbn [negb] in X3; exact X3.
      - repeat split.
        + rewrite Y3, Y2, Y1 by reflexivity. reflexivity.
        + rewrite Y3, Y2, Y1 by reflexivity. reflexivity.
        + rewrite Y3, Y2, Y1 by reflexivity. reflexivity.
        + rewrite Y3, Y2 by reflexivity. auto.
        + rewrite Y3 by reflexivity. auto.
        + auto. }
    destruct (Hst lp eq ineq) as (e & X & A1 & A2 & A3 & A4 & A5 & A6).
    clear Hst. unfold exec_stmts at 2 3 4. cbn [fold_left].
    rewrite X. clear X. unfold exec_stmts. cbn [fold_left exec_stmt].
    rewrite (new_ok _ VStgs). cbn [o_env o_objs o_tries o_faults]. rewrite repeat_snoc, repeat_length.
    match goal with |- context [o_read false (mkO ?e0 ?l0 ?t0 ?f0) VStgs] => rewrite (rl (mkO e0 l0 t0 f0) VStgs (S (S (S m))) (S (S (S (S m)))) false) by first [reflexivity | lia] end.
    rewrite (new_ok _ VWork). cbn [o_env o_objs o_tries o_faults]. rewrite repeat_snoc, repeat_length.
    rewrite (rl _ VWork (S (S (S (S m)))) (S (S (S (S (S m))))) false) by first [reflexivity | lia].
    match goal with |- QMid _ (o_read _ (o_read _ (o_read _ (o_read _ ?x _) _) _) _) => set (o2 := x) end.
    assert (RA : forall v k, (o_env o2 v = Null \/ o_env o2 v = At k) -> k < S (S (S m)) -> o_read true o2 v = o2).
    { intros v k [N|N] Hk; [unfold o_read; rewrite N; reflexivity|]. apply (rl _ _ k (S (S (S (S (S m)))))); [exact N|reflexivity|lia]. }
    rewrite (RA VP m) by first [lia | exact A4]. rewrite (RA VA (S m)) by first [lia | exact A5]. rewrite (RA VG (S (S m))) by first [lia | exact A6].
    rewrite (rl _ VStgs (S (S (S m))) (S (S (S (S (S m))))) false) by first [reflexivity | lia].
    unfold QMid. replace (5 * S n) with (S (S (S (S (S m))))) by (unfold m; lia). unfold o2; cbn [o_env o_objs o_faults]; unfold vset; cbn [var_eqb top].
    rewrite A2, A3. auto.
  Qed.

  Lemma qoco_env : forall p lp eq ineq n o ds, p_solver p = QOCO lp -> QMid n o -> Loc ds o ->
    Loc (ds ++ [VP; VA; VG; VStgs]) (exec_stmts give o (qoco_setup_stmts lp eq ineq)).
  Proof. intros p lp eq ineq n o ds _ _ _ v Hv. right. apply in_or_app. auto. Qed.

  Lemma qoco_acts : forall p lp, p_solver p = QOCO lp ->
    forall acts n o ds, QMid n o -> Loc ds o -> okseq (p_solver p) (Nat.ltb 0 n) acts = true ->
    QMid (n + cnt (p_solver p) acts) (exec_stmts give o (flat_map (stmts_of p) acts))
    /\ Loc (ds ++ declared (flat_map (stmts_of p) acts)) (exec_stmts give o (flat_map (stmts_of p) acts)).
  Proof.
    intros p lp Hp. induction acts as [|a acts IH]; intros n o ds HM HL Hok.
    - cbn. rewrite Nat.add_0_r, app_nil_r. auto.
    - cbn [flat_map]. rewrite exec_app, declared_app, app_assoc. cbn [okseq] in Hok. apply andb_true_iff in Hok. destruct Hok as [H1 H2].
      replace (n + cnt (p_solver p) (a :: acts)) with ((n + cnt1 (p_solver p) a) + cnt (p_solver p) acts) by (rewrite cnt_cons; lia).
      rewrite Hp in H1, H2. rewrite Hp in IH |- *. 
      assert (E : stmts_of p a = match a with AInit _ _ => qoco_setup_stmts lp (p_eq p) (p_ineq p) | APush _ _ => [SRead VWork] | _ => [] end)
        by (unfold stmts_of; rewrite Hp; destruct a; reflexivity).
      rewrite E. destruct a; cbn [cnt1 sets_init ok1] in *.
      + rewrite Nat.add_0_r, app_nil_r. rewrite orb_false_r in H2. cbn [exec_stmts fold_left declared flat_map]. apply IH; auto.
      + rewrite Nat.add_0_r, app_nil_r. rewrite orb_false_r in H2. cbn [exec_stmts fold_left declared flat_map]. apply IH; auto.
      + apply IH.
        * replace (n + 1) with (S n) by lia. apply qoco_setup_ok; auto.
        * intros v Hv. right. apply in_or_app. right. destruct (p_eq p), (p_ineq p), lp; exact Hv.
        * replace (Nat.ltb 0 (n + 1)) with true by (symmetry; apply Nat.ltb_lt; lia). rewrite orb_true_r in H2. exact H2.
      + rewrite Nat.add_0_r. rewrite orb_false_r in H2. cbn [exec_stmts fold_left declared flat_map exec_stmt]. rewrite !app_nil_r.
        destruct HM as (E1 & HM). apply Nat.ltb_lt in H1. destruct n as [|k]; [lia|].
        assert (R : o_read false o VWork = o).
        { destruct HM as (_ & _ & HO & _). apply (rl _ _ (4 + 5 * k) (5 * S k)); auto; [|lia]. rewrite E1. replace (5 * S k) with (S (4 + 5 * k)) by lia. reflexivity. }
        rewrite R. apply IH; auto. split; auto.
  Qed.

  Lemma qoco_block : forall p lp n c o acts, p_solver p = QOCO lp -> Mid p n c o -> okseq (p_solver p) (ini_of p n c) acts = true ->
    Mid p n (c + cnt (p_solver p) acts) (in_block give o (flat_map (stmts_of p) acts)).
  Proof.
    intros p lp n c o acts Hp HM Hok.
    assert (Hi : ini_of p n c = Nat.ltb 0 (n + c)) by (unfold ini_of; rewrite Hp; reflexivity). rewrite Hi in Hok.
    unfold Mid in HM. rewrite Hp in HM. destruct HM as ((E1 & E2 & E3 & E4 & E5 & E6 & E7) & HO & HF).
    destruct (qoco_acts p lp Hp acts (n + c) o []) as [HQ HL]; auto.
    { repeat split; auto. }
    { intros v Hv. left. cbn in Hv. intuition (subst; auto). }
    unfold Mid. rewrite Hp. rewrite Hp in HQ. destruct HQ as (Q1 & Q2 & Q3 & Q4 & Q5). rewrite Nat.add_assoc.
    unfold in_block, end_block. cbn [o_env o_objs o_faults app] in *. rewrite Q4, leave_LH.
    assert (HD : forall v, In v [VP; VA; VG; VStgs] ->
       (if existsb (var_eqb v) (declared (flat_map (stmts_of p) acts)) then Null else o_env (exec_stmts give o (flat_map (stmts_of p) acts)) v) = Null).
    { intros v Hv. destruct (existsb (var_eqb v) _) eqn:Ex; auto. destruct (HL v Hv) as [N|N]; auto.
      exfalso. assert (existsb (var_eqb v) (declared (flat_map (stmts_of p) acts)) = true); [|congruence].
      apply existsb_exists. exists v. split; auto. destruct v; reflexivity. }
    assert (HN : forall v, ~ In v [VP; VA; VG; VStgs] -> existsb (var_eqb v) (declared (flat_map (stmts_of p) acts)) = false).
    { intros v Hv. apply not_true_iff_false. intro Ex. apply existsb_exists in Ex. destruct Ex as (w & H1 & H2).
      assert (v = w) by (destruct v, w; try discriminate; reflexivity). subst w.
      unfold declared in H1. apply in_flat_map in H1. destruct H1 as (st & H1 & H3). apply in_flat_map in H1. destruct H1 as (a & _ & H1).
      unfold stmts_of in H1. rewrite Hp in H1. destruct a; cbn in H1; try tauto.
      - unfold qoco_setup_stmts in H1. destruct lp, (p_eq p), (p_ineq p); cbn in H1; repeat (destruct H1 as [<-|H1]; [cbn in H3; destruct H3 as [<-|[]] || destruct H3; apply Hv; cbn; auto|]); contradiction.
      - destruct H1 as [<-|[]]. destruct H3. }
    split; [|split]; auto. unfold env_is. cbn [o_env].
    rewrite (HD VP), (HD VA), (HD VG), (HD VStgs) by (cbn; auto).
    rewrite (HN VWork), (HN VSolution), (HN VLoaded) by (cbn; intuition discriminate). auto 8.
  Qed.

  (** *** Clarabel *)
  Lemma clar_block : forall p lp n c o acts, p_solver p = CLARABEL lp -> Mid p n c o -> okseq (p_solver p) (ini_of p n c) acts = true ->
    Mid p n (c + cnt (p_solver p) acts) (in_block give o (flat_map (stmts_of p) acts)).
  Proof.
    intros p lp n c o acts Hp HM Hok. unfold in_block. rewrite no_decl by (intros l H; congruence).
    destruct lp.
    - (* linear programs *)
      assert (G : forall acts m o', okseq (p_solver p) (ini_of p n c) acts = true ->
         env_is o' (top (2 * n)) (top (2 * n))
           (match c + m, n with S j, _ => At (2 * n + j) | 0, S k => At (2 * k) | 0, 0 => Null end) (stat (n + (c + m))) Null
         /\ o_objs o' = pairs n ++ repeat DL c ++ repeat (mkObj false true) m /\ o_faults o' = repeat (DeadRead VP) n ->
         let o'' := exec_stmts give o' (flat_map (stmts_of p) acts) in
         let m' := m + cnt (p_solver p) acts in
         env_is o'' (top (2 * n)) (top (2 * n))
           (match c + m', n with S j, _ => At (2 * n + j) | 0, S k => At (2 * k) | 0, 0 => Null end) (stat (n + (c + m'))) Null
         /\ o_objs o'' = pairs n ++ repeat DL c ++ repeat (mkObj false true) m' /\ o_faults o'' = repeat (DeadRead VP) n).
      { clear HM Hok acts o. induction acts as [|a acts IH]; intros m o Hok HM; cbv zeta.
        - cbn [flat_map exec_stmts fold_left]. replace (m + cnt (p_solver p) []) with m by (cbn; lia). exact HM.
        - cbn [flat_map]. rewrite exec_app. cbn [okseq] in Hok. apply andb_true_iff in Hok. destruct Hok as [H1 H2].
          replace (m + cnt (p_solver p) (a :: acts)) with ((m + cnt1 (p_solver p) a) + cnt (p_solver p) acts) by (rewrite cnt_cons; lia).
          rewrite Hp in H1. destruct a; cbn [ok1 negb andb] in H1; try discriminate. cbn [sets_init] in H2. rewrite orb_false_r in H2.
          apply IH; auto. destruct HM as ((E1 & E2 & E3 & E4 & E5 & E6 & E7) & HO & HF).
          unfold stmts_of. rewrite Hp. cbn [cnt1 exec_stmts fold_left exec_stmt o_set o_env o_objs o_faults].
          rewrite HO. split; [|split]; auto.
          + unfold env_is. cbn [o_env]. unfold vset. cbn [var_eqb]. replace (c + (m + 1)) with (S (c + m)) by lia.
            rewrite !app_length, !repeat_length, pairs_length. replace (n + S (c + m)) with (S (n + (c + m))) by lia. cbn [stat]. auto 8.
          + replace (m + 1) with (S m) by lia. rewrite <- !app_assoc. do 2 f_equal. replace (S m) with (m + 1) by lia. symmetry. apply repeat_app. }
      unfold Mid in HM. rewrite Hp in HM. destruct (G acts 0 o Hok) as (E & HO & HF).
      { rewrite Nat.add_0_r. cbn [repeat]. rewrite app_nil_r. exact HM. }
      destruct HM as (_ & HO0 & _). unfold Mid. rewrite Hp in *. cbn [Nat.add] in E, HO. 
      unfold end_block. cbn [o_env o_objs o_faults]. split; [|split]; auto.
      rewrite HO, HO0. rewrite app_assoc, firstn_app, firstn_all, skipn_app, skipn_all, Nat.sub_diag. cbn [firstn skipn app]. rewrite app_nil_r.
      rewrite repeat_app, app_assoc. f_equal. clear. induction (cnt (CLARABEL true) acts); cbn [repeat map]; [reflexivity|]. rewrite IHn. reflexivity.
    - (* quadratic objective *)
      assert (G : forall acts m o', okseq (p_solver p) (ini_of p n m) acts = true -> Mid p n m o' ->
         Mid p n (m + cnt (p_solver p) acts) (exec_stmts give o' (flat_map (stmts_of p) acts))).
      { clear HM Hok acts o. induction acts as [|a acts IH]; intros m o Hok HM.
        - cbn [flat_map exec_stmts fold_left]. replace (m + cnt (p_solver p) []) with m by (cbn; lia). exact HM.
        - cbn [flat_map]. rewrite exec_app. cbn [okseq] in Hok. apply andb_true_iff in Hok. destruct Hok as [H1 H2].
          replace (m + cnt (p_solver p) (a :: acts)) with ((m + cnt1 (p_solver p) a) + cnt (p_solver p) acts) by (rewrite cnt_cons; lia).
          apply IH.
          + unfold ini_of in *. rewrite Hp in *. destruct a; cbn [ok1] in H1; try discriminate; cbn [sets_init] in H2; rewrite orb_false_r in H2; exact H2.
          + unfold Mid in *. rewrite Hp in *. destruct HM as ((E1 & E2 & E3 & E4 & E5 & E6 & E7) & HO & HF).
            unfold stmts_of. rewrite Hp. destruct a as [|q| |]; cbn [ok1 negb andb] in H1; try discriminate; cbn [cnt1].
            * cbn [exec_stmts fold_left exec_stmt o_set o_env o_objs o_faults]. split; [|split]; auto.
              unfold env_is. cbn [o_env]. unfold vset. cbn [var_eqb]. replace (n + (m + 1)) with (S (n + m)) by lia. cbn [stat]. auto 8.
            * rewrite Nat.add_0_r. unfold ini_of in H1. rewrite Hp in H1. apply Nat.ltb_lt in H1. destruct n as [|k]; [lia|].
              destruct q; cbn [exec_stmts fold_left exec_stmt o_set o_env o_objs o_faults]; (split; [|split]; auto);
                unfold env_is; cbn [o_env]; unfold vset; cbn [var_eqb Nat.add stat] in *; auto 8. }
      pose proof (G acts c o Hok HM) as GM. clear G. unfold Mid in *. rewrite Hp in *.
      unfold end_block. cbn [o_env o_objs o_faults existsb]. destruct GM as (E & HO & HF). rewrite HO. rewrite leave_LH. auto.
  Qed.

  Lemma block_ok : forall p n c o acts, Mid p n c o -> okseq (p_solver p) (ini_of p n c) acts = true ->
    Mid p n (c + cnt (p_solver p) acts) (in_block give o (flat_map (stmts_of p) acts)).
  Proof.
    intros p n c o acts HM Hok. destruct (p_solver p) as [|lp| |lp|lp|lp] eqn:Hp; rewrite <- Hp in *;
      try (unfold in_block; rewrite no_decl by (intros l H; congruence); apply end_plain; [rewrite Hp; reflexivity|]; apply plain_acts; auto; rewrite Hp; reflexivity).
    - eapply clar_block; eauto.
    - eapply qoco_block; eauto.
  Qed.

  Lemma ini_step : forall p n c acts, okseq (p_solver p) (ini_of p n c) acts = true ->
    ini_of p n (c + cnt (p_solver p) acts) = ini_of p n c || existsb sets_init acts.
  Proof.
    intros p n c acts. revert c. induction acts as [|a acts IH]; intros c H.
    - cbn. rewrite Nat.add_0_r, orb_false_r. reflexivity.
    - cbn [okseq] in H. apply andb_true_iff in H. destruct H as [H1 H2].
      replace (c + cnt (p_solver p) (a :: acts)) with ((c + cnt1 (p_solver p) a) + cnt (p_solver p) acts) by (rewrite cnt_cons; lia).
      assert (E : ini_of p n (c + cnt1 (p_solver p) a) = ini_of p n c || sets_init a).
      { unfold ini_of in *. destruct (p_solver p) as [|lp| |lp|lp|lp]; destruct a; cbn [cnt1 sets_init ok1] in *; try discriminate; rewrite ?Nat.add_0_r, ?orb_false_r, ?orb_true_r; auto;
        apply Nat.ltb_lt; lia. }
      rewrite IH by (rewrite E; exact H2). rewrite E. cbn [existsb]. rewrite orb_assoc. reflexivity.
  Qed.

  Lemma code_ok : forall p b fl n c o, Mid p n c o ->
    okseq (p_solver p) (ini_of p n c) (fst (run b fl (ini_of p n c))) = true ->
    let acts := fst (run b fl (ini_of p n c)) in
    Mid p n (c + cnt (p_solver p) acts) (exec_code give p b fl o)
    /\ snd (run b fl (ini_of p n c)) = ini_of p n (c + cnt (p_solver p) acts).
  Proof.
    intros p. induction b as [|cd acts els IHe rest IHr]; intros fl n c o HM Hok; cbv zeta.
    - cbn [run exec_code fst snd]. replace (c + cnt (p_solver p) []) with c by (cbn; lia). auto.
    - cbn [run exec_code] in *. rewrite (Mid_ini _ _ _ _ HM).
      destruct (eval_cond fl (ini_of p n c) cd).
      + destruct (run rest fl (ini_of p n c || existsb sets_init acts)) as [a2 i2] eqn:E2. cbn [fst snd] in *.
        apply okseq_app in Hok. destruct Hok as [H1 H2].
        pose proof (ini_step p n c acts H1) as Hi. rewrite <- Hi in H2, E2.
        destruct (IHr fl n (c + cnt (p_solver p) acts) (in_block give o (flat_map (stmts_of p) acts)) (block_ok p n c o acts HM H1)) as [A B]; [rewrite E2; exact H2|].
        rewrite E2 in A, B. cbn [fst snd] in A, B. rewrite cnt_app, Nat.add_assoc. auto.
      + destruct (run els fl (ini_of p n c)) as [a1 i1] eqn:E1. destruct (run rest fl i1) as [a2 i2] eqn:E2. cbn [fst snd] in *.
        apply okseq_app in Hok. destruct Hok as [H1 H2].
        specialize (IHe fl n c o HM). rewrite E1 in IHe. cbn [fst snd] in IHe. specialize (IHe H1). cbv zeta in IHe. destruct IHe as [A B].
        specialize (IHr fl n (c + cnt (p_solver p) a1) _ A). rewrite <- B, E2 in IHr. cbn [fst snd] in IHr.
        rewrite <- (ini_step p n c a1 H1), <- B in H2. specialize (IHr H2). cbv zeta in IHr. destruct IHr as [C D].
        rewrite cnt_app, Nat.add_assoc. auto.
  Qed.
End Plenty.

(** ** cpg_solve and histories *)
Section Histories.
  Variable give : nat -> bool.
  Hypothesis Hg : plenty give.

  Lemma Mid_shift : forall p n c o, (forall lp, p_solver p <> CLARABEL lp) -> Mid p n c o -> Mid p (n + c) 0 o.
  Proof.
    intros p n c o H HM. unfold Mid in *. destruct (p_solver p) as [|lp| |lp|lp|lp]; rewrite ?Nat.add_0_r; auto.
    exfalso. apply (H lp). reflexivity.
  Qed.

  (** Set-ups of one solve after updates of [w]. *)
  Definition adds (p : prog) (first : bool) (w : list string) : nat :=
    match p_solver p with
    | OSQP => 0
    | CLARABEL _ => 1
    | SCS _ => if first || rebuild p w then 1 else 0
    | _ => if first then 1 else 0
    end.

  Lemma read_work : forall p n o, dynamic (p_solver p) -> (forall lp, p_solver p <> CLARABEL lp) ->
    Mid p (S n) 0 o -> o_read false o VWork = o.
  Proof.
    intros p n o Hd Hc HM. unfold Mid in HM. destruct (p_solver p) as [|lp| |lp|lp|lp]; try destruct Hd; rewrite ?Nat.add_0_r in HM.
    - destruct HM as ((E1 & _) & HO & _). apply (rl _ _ n (S n)); auto.
    - destruct HM as ((E1 & _) & HO & _). apply (rl _ _ n (S n)); auto.
    - exfalso. apply (Hc lp). reflexivity.
    - destruct HM as ((E1 & _) & HO & _). apply (rl _ _ (4 + 5 * n) (5 * S n)); auto; [|lia].
      rewrite E1. replace (5 * S n) with (S (4 + 5 * n)) by lia. reflexivity.
  Qed.

  Lemma clar_call : forall p lp n o, p_solver p = CLARABEL lp ->
    (if lp then Mid p n 1 o else exists c, 1 <= n + c /\ Mid p n c o) ->
    Mid p (S n) 0 (exec_stmts give o (settings_stmts (p_solver p) ++ call_stmts p ++ result_stmts (p_solver p))).
  Proof.
    intros p lp n o Hp HM. unfold call_stmts. rewrite Hp. cbn [settings_stmts result_stmts solver_solve_acts clarabel_solve_acts app flat_map].
    unfold stmts_of. rewrite Hp. cbn [app]. destruct lp.
    - unfold Mid in *. rewrite Hp in *. destruct HM as ((E1 & E2 & E3 & E4 & E5 & E6 & E7) & HO & HF).
      replace (n + 1) with (S n) in * by lia. cbn [stat] in E4. rewrite Nat.add_0_r in E3.
      assert (HL : is_live o (2 * n) = false).
      { unfold is_live. rewrite HO. rewrite nth_error_app2 by (rewrite pairs_length; lia). rewrite pairs_length, Nat.sub_diag. reflexivity. }
      unfold exec_stmts. cbn [fold_left exec_stmt]. assert (RP : o_read false o VP = o_fault o (DeadRead VP)) by (unfold o_read; rewrite E3, HL; reflexivity). rewrite RP.
      rewrite (read_static false (o_fault o (DeadRead VP)) VA) by (cbn; exact E4).
      rewrite (new_ok give Hg). cbn [o_fault o_env o_objs o_tries o_faults].
      match goal with |- context [o_read false ?x VWork] => match x with mkO _ _ _ _ => set (o1 := x) end end.
      assert (L1 : is_live o1 (length (o_objs o)) = true).
      { unfold is_live, o1. cbn [o_objs]. rewrite nth_error_app2, Nat.sub_diag by lia. reflexivity. }
      assert (R1 : o_read false o1 VWork = o1) by (apply (read_live _ _ _ (length (o_objs o))); auto).
      rewrite !R1. unfold o_set. cbn [o_env].
      match goal with |- context [o_read false ?x VSolution] => set (o2 := x) end.
      assert (R2 : o_read false o2 VSolution = o2) by (apply (read_live _ _ _ (length (o_objs o))); auto).
      rewrite R2. unfold o2, o1. cbn [o_env o_objs o_tries o_faults].
      assert (LE : length (o_objs o) = 2 * n + 1) by (rewrite HO, app_length, pairs_length; cbn; lia).
      split; [|split].
      + unfold env_is. cbn [o_env]. unfold vset. cbn [var_eqb]. rewrite LE, E3, E4, E5, E6, E7.
        replace (2 * S n) with (S (2 * n + 1)) by lia. replace (S n + 0) with (S n) by lia. cbn [top stat]. auto 8.
      + rewrite HO. cbn [pairs repeat]. rewrite <- app_assoc, app_nil_r. reflexivity.
      + rewrite HF. replace (S n) with (n + 1) by lia. symmetry. apply repeat_app.
    - destruct HM as (c & Hc & HM). unfold Mid in *. rewrite Hp in *. destruct HM as ((E1 & E2 & E3 & E4 & E5 & E6 & E7) & HO & HF).
      destruct (n + c) as [|m] eqn:Em; [lia|]. cbn [stat] in E3, E4.
      unfold exec_stmts. cbn [fold_left exec_stmt]. rewrite (read_static false o VP) by auto. rewrite (read_static false o VA) by auto.
      rewrite (new_ok give Hg). cbn [o_env o_objs o_tries o_faults].
      match goal with |- context [o_read false ?x VWork] => match x with mkO _ _ _ _ => set (o1 := x) end end.
      assert (L1 : is_live o1 (length (o_objs o)) = true).
      { unfold is_live, o1. cbn [o_objs]. rewrite nth_error_app2, Nat.sub_diag by lia. reflexivity. }
      assert (R1 : o_read false o1 VWork = o1) by (apply (read_live _ _ _ (length (o_objs o))); auto).
      rewrite !R1. unfold o_set. cbn [o_env].
      match goal with |- context [o_read false ?x VSolution] => set (o2 := x) end.
      assert (R2 : o_read false o2 VSolution = o2) by (apply (read_live _ _ _ (length (o_objs o))); auto).
      rewrite R2. unfold o2, o1. cbn [o_env o_objs o_tries o_faults].
      assert (LE : length (o_objs o) = n) by (rewrite HO, repeat_length; reflexivity).
      split; [|split].
      + unfold env_is. cbn [o_env]. unfold vset. cbn [var_eqb]. rewrite LE, E3, E4, E5, E6, E7. replace (S n + 0) with (S n) by lia. cbn [top stat]. auto 8.
      + rewrite HO. apply repeat_snoc.
      + auto.
  Qed.

  Definition flags_are (p : prog) (first : bool) (w : list string) (fl : pid -> bool) : Prop :=
    forall q, In q (owned (p_solver p)) -> fl q = negb (chg_get (p_chg p) q) || (first || written p w q).

  Definition count_ok (p : prog) (first : bool) (n : nat) : Prop :=
    p_solver p = OSQP \/ first = Nat.eqb n 0.

  Lemma solve_ok : forall p first w n fl o, generated p -> flags_are p first w fl -> count_ok p first n ->
    Mid p n 0 o -> Mid p (n + adds p first w) 0 (solve_objs give p fl o).
  Proof.
    intros p first w n fl o [Hw Hc] Hf Hn HM.
    assert (Hini : ini_of p n 0 = false -> solver_init0 (p_solver p) = false).
    { unfold ini_of. destruct (p_solver p); auto; discriminate. }
    destruct (obj_code (p_solver p) (p_chg p) (p_code p) fl (ini_of p n 0) (fun q => first || written p w q) Hw Hc Hini) as [Hok Hcnt].
    { intros q Hq. apply Hf. auto. }
    destruct (code_ok give Hg p (p_code p) fl n 0 o HM Hok) as [A _]. cbv zeta in A. cbn [Nat.add] in A.
    set (acts := fst (run (p_code p) fl (ini_of p n 0))) in *.
    unfold solve_objs. set (o1 := exec_code give p (p_code p) fl o) in *.
    destruct Hcnt as [Hs|Hcnt].
    { (* OSQP *)
      unfold call_stmts, adds, Mid in *. rewrite Hs in *. cbn [settings_stmts result_stmts app].
      unfold exec_stmts. cbn [fold_left exec_stmt]. destruct A as ((E1 & E) & HO & HF). rewrite !(read_static false o1 VWork) by auto. unfold env_is. auto. }
    destruct Hn as [Hs|Hn]. { unfold cnt, wanted in *. rewrite Hs in *.
      unfold call_stmts, adds, Mid in *. rewrite Hs in *. cbn [settings_stmts result_stmts app].
      unfold exec_stmts. cbn [fold_left exec_stmt]. destruct A as ((E1 & E) & HO & HF). rewrite !(read_static false o1 VWork) by auto. unfold env_is. auto. }
    destruct (p_solver p) as [|lp| |lp|lp|lp] eqn:Hp.
    - unfold call_stmts, adds, Mid in *. rewrite Hp in *. cbn [settings_stmts result_stmts app].
      unfold exec_stmts. cbn [fold_left exec_stmt]. destruct A as ((E1 & E) & HO & HF). rewrite !(read_static false o1 VWork) by auto. unfold env_is. auto.
    - (* SCS *)
      assert (EC : cnt (SCS lp) acts = adds p first w).
      { rewrite Hcnt. unfold adds, wanted, ini_of, rebuild, matrices, changing. rewrite Hp. rewrite Nat.add_0_r, Hn. destruct n; destruct lp; reflexivity. }
      rewrite EC in A. apply Mid_shift in A; [|intros l H; rewrite Hp in H; discriminate].
      assert (1 <= n + adds p first w) as HN.
      { unfold adds. rewrite Hp, Hn. destruct n; cbn; lia. }
      destruct (n + adds p first w) as [|m] eqn:Em; [lia|].
      unfold call_stmts. rewrite Hp. cbn [settings_stmts result_stmts app]. unfold exec_stmts. cbn [fold_left exec_stmt].
      rewrite (read_work p m) by first [exact A | rewrite Hp; cbn; exact I | intros l Hl; rewrite Hp in Hl; discriminate Hl]. exact A.
    - assert (EC : cnt ECOS acts = adds p first w).
      { rewrite Hcnt. unfold adds, wanted, ini_of. rewrite Hp. rewrite Nat.add_0_r, Hn. destruct n; reflexivity. }
      rewrite EC in A. apply Mid_shift in A; [|intros l H; rewrite Hp in H; discriminate].
      assert (1 <= n + adds p first w) as HN.
      { unfold adds. rewrite Hp, Hn. destruct n; cbn; lia. }
      destruct (n + adds p first w) as [|m] eqn:Em; [lia|].
      unfold call_stmts. rewrite Hp. cbn [settings_stmts result_stmts app]. unfold exec_stmts. cbn [fold_left exec_stmt].
      rewrite !(read_work p m o1) by first [exact A | rewrite Hp; cbn; exact I | intros l Hl; rewrite Hp in Hl; discriminate Hl]. exact A.
    - replace (n + adds p first w) with (S n) by (unfold adds; rewrite Hp; lia).
      rewrite <- Hp. apply (clar_call p lp n o1 Hp). destruct lp.
      + rewrite Hcnt in A. exact A.
      + exists (cnt (CLARABEL false) acts). split; auto. rewrite Hcnt. unfold wanted, ini_of. rewrite Hp. destruct n; cbn; lia.
    - assert (EC : cnt (QOCO lp) acts = adds p first w).
      { rewrite Hcnt. unfold adds, wanted, ini_of. rewrite Hp. rewrite Nat.add_0_r, Hn. destruct n; reflexivity. }
      rewrite EC in A. apply Mid_shift in A; [|intros l H; rewrite Hp in H; discriminate].
      assert (1 <= n + adds p first w) as HN.
      { unfold adds. rewrite Hp, Hn. destruct n; cbn; lia. }
      destruct (n + adds p first w) as [|m] eqn:Em; [lia|].
      unfold call_stmts. rewrite Hp. cbn [settings_stmts result_stmts app]. unfold exec_stmts. cbn [fold_left exec_stmt].
      rewrite !(read_work p m o1) by first [exact A | rewrite Hp; cbn; exact I | intros l Hl; rewrite Hp in Hl; discriminate Hl]. exact A.
    - assert (EC : cnt (QOCOGEN lp) acts = adds p first w).
      { rewrite Hcnt. unfold adds, wanted, ini_of. rewrite Hp. rewrite Nat.add_0_r, Hn. destruct n; reflexivity. }
      rewrite EC in A. apply Mid_shift in A; [|intros l H; rewrite Hp in H; discriminate].
      unfold call_stmts. rewrite Hp. cbn [settings_stmts result_stmts app]. unfold exec_stmts. cbn [fold_left exec_stmt].
      assert (E1 : o_env o1 VWork = Static) by (unfold Mid in A; rewrite Hp in A; destruct A as ((E1 & _) & _); exact E1).
      rewrite !(read_static false o1 VWork) by auto. exact A.
  Qed.

  Fixpoint total (p : prog) (first : bool) (w : list string) (os : list hop) : nat :=
    match os with
    | [] => 0
    | HUpd n :: t => total p first (n :: w) t
    | HSolve :: t => adds p first w + total p false [] t
    | HSet :: t => total p first w t
    end.

  Lemma run_ok : forall p, generated p -> forall os first w n h,
    flags_are p first w (h_flag h) -> count_ok p first n -> Mid p n 0 (h_obj h) ->
    Mid p (n + total p first w os) 0 (h_obj (h_run give p h os)).
  Proof.
    intros p G. induction os as [|[nm| |] os IH]; intros first w n h Hf Hn HM; cbn [total].
    - rewrite Nat.add_0_r. exact HM.
    - change (h_run give p h (HUpd nm :: os)) with (h_run give p (h_step give p h (HUpd nm)) os). apply IH; auto.
      intros q Hq. cbn [h_step h_flag]. rewrite (Hf q Hq). unfold written. cbn [existsb].
      destruct (mem_pid q (p_outd p nm)), (negb (chg_get (p_chg p) q)), first; reflexivity.
    - change (h_run give p h (HSolve :: os)) with (h_run give p (h_step give p h HSolve) os). rewrite Nat.add_assoc. apply IH.
      + intros q Hq. cbn [h_step h_flag]. apply owned_pids in Hq as Hq'. destruct Hq' as [Hq' _]. apply mem_pid_In in Hq'. rewrite Hq'. cbn [andb].
        destruct (chg_get (p_chg p) q) eqn:Ec; cbn [negb orb written existsb]; auto. rewrite (Hf q Hq), Ec. reflexivity.
      + destruct Hn as [Hn|Hn]; [left; auto|]. unfold count_ok, adds. destruct (p_solver p); auto; right; symmetry; apply Nat.eqb_neq; subst first; destruct n; cbn; lia.
      + cbn [h_step h_obj]. apply solve_ok; auto.
    - change (h_run give p h (HSet :: os)) with (h_run give p (h_step give p h HSet) os). apply IH; auto. cbn [h_step h_obj].
      unfold Mid in *. destruct (p_solver p) as [|lp| |[]|lp|lp]; cbn [exec_stmts fold_left exec_stmt]; auto.
      + destruct HM as ((E1 & E) & HO & HF). rewrite read_static by auto. unfold env_is. auto.
      + destruct HM as ((E1 & E) & HO & HF). rewrite read_static by auto. unfold env_is. auto.
  Qed.

  Lemma init_ok : forall p, flags_are p true [] (h_flag (h_init p)) /\ count_ok p true 0 /\ Mid p 0 0 (h_obj (h_init p)).
  Proof.
    intro p. split; [|split].
    - intros q _. cbn. rewrite orb_true_r. reflexivity.
    - right. reflexivity.
    - unfold Mid, h_init, env_is. destruct (p_solver p) as [|lp| |[]|lp|lp]; cbn; auto 12.
  Qed.

  Lemma history_ok : forall p os, generated p -> Mid p (total p true [] os) 0 (h_obj (h_run give p (h_init p) os)).
  Proof. intros p os G. destruct (init_ok p) as (A & B & C). exact (run_ok p G os true [] 0 (h_init p) A B C). Qed.

  Lemma total_spec : forall p os first w,
    total p first w os =
    match p_solver p with
    | OSQP => 0
    | CLARABEL _ => solves os
    | SCS _ => rebuilds p first w os
    | _ => if first then Nat.min 1 (solves os) else 0
    end.
  Proof.
    intros p. induction os as [|[nm| |] os IH]; intros first w; cbn [total solves rebuilds].
    - destruct (p_solver p), first; reflexivity.
    - rewrite IH. reflexivity.
    - rewrite IH. unfold adds. destruct (p_solver p), first; auto; destruct (solves os); reflexivity.
    - rewrite IH. reflexivity.
  Qed.
End Histories.
