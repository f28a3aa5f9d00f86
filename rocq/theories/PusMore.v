(** More about the emitted update code: bound validation by OSQP, idle solves, and
    generations that share a table within one Python process. *)

From Coq Require Import String Arith Bool Lia List Permutation.
From Verif Require Import Base Pus Machine PusParse PusCheck PusLift Runtime RuntimeSpec RuntimeProofs.
Import ListNotations.

(** ** A generic sweep over change patterns and iteration orders *)

Definition sweep_gen (chk : list pid -> ublock -> bool) (s : solver) (S : list pid)
           (order : list string) : bool :=
  match gen_update (solver_pus s) (solver_quad s) (chg_of (solver_pids s) S) order with
  | Err _ => false
  | Ok (t', toks) =>
    match parse_all toks with
    | None => false
    | Some b => forallb (fun p => mem_pid p (owned s)) (block_atoms b) && chk S b
    end
  end.

Definition sweep (chk : list pid -> ublock -> bool) (s : solver) : bool :=
  forallb (fun S =>
    match analyze_pus (solver_pus s) (chg_of (solver_pids s) S) with
    | Err _ => false
    | Ok (top, _) => forallb (sweep_gen chk s S) (orders top)
    end) (subsets (solver_pids s)).

(** [b] is the update code of solver [s] for change pattern [chg]. *)
Definition is_code (s : solver) (chg : changes) (b : ublock) : Prop :=
  exists top never order t' toks,
    analyze_pus (solver_pus s) chg = Ok (top, never) /\ Permutation top order
    /\ gen_update (solver_pus s) (solver_quad s) chg order = Ok (t', toks) /\ Parses toks b.

Lemma sweep_lift : forall chk s chg b, sweep chk s = true -> chg_wf s chg -> is_code s chg b ->
    (forall p, In p (block_atoms b) -> In p (owned s)) /\ chk (chg_set s chg) b = true.
Proof.
  intros chk s chg b HC H (top & never & order & t' & toks & Ha & Hp & Hg & Hps).
  unfold sweep in HC. rewrite forallb_forall in HC.
  specialize (HC (chg_set s chg) (filter_in_subsets _ _ _)).
  rewrite (analyze_pus_ext _ _ _ (chg_of_set s chg H)) in Ha. rewrite Ha in HC.
  rewrite forallb_forall in HC. specialize (HC _ (orders_complete _ _ Hp)).
  unfold sweep_gen in HC. rewrite <- gen_update_init_first in HC.
  rewrite (gen_update_ext _ _ _ _ order (chg_of_set s chg H)) in Hg. rewrite Hg in HC.
  destruct (parse_all toks) as [b'|] eqn:E; [|discriminate].
  apply parse_all_sound in E. rewrite (Parses_det _ _ _ Hps E).
  apply andb_true_iff in HC. destruct HC as [HC1 HC2]. split; auto.
  rewrite forallb_forall in HC1. intros p Hpa. apply mem_pid_In. auto.
Qed.

(** ** OSQP with validation of the bounds (C10) *)

Definition is_bound (p : pid) : bool := pid_eqb p pl || pid_eqb p pu.

Section Validation.
  Variable D : Type.
  Variable valid : D -> D -> bool.     (* l <= u entrywise, as OSQP checks it *)
  Variable can : pid -> D.             (* Canon_Params at the solve *)

  (** One update call with blocks [ps] on solver data [sol] (osqp.py 20-61 calls
      osqp_update_data_vec / osqp_update_data_mat).  If the bounds that would result are
      invalid the call returns an error, which the generated code ignores: bounds keep
      their old values; for other arguments of the same call either outcome is allowed. *)
  Definition new_of (sol : pid -> D) (ps : list pid) (p : pid) : D :=
    if mem_pid p ps then can p else sol p.

  Definition accepts (sol : pid -> D) (ps : list pid) : bool :=
    negb (mem_pid pl ps || mem_pid pu ps) || valid (new_of sol ps pl) (new_of sol ps pu).

  Inductive vcall (sol : pid -> D) (ps : list pid) : (pid -> D) -> Prop :=
  | VAcc : forall sol', accepts sol ps = true ->
                        (forall p, sol' p = new_of sol ps p) -> vcall sol ps sol'
  | VRej : forall sol', accepts sol ps = false ->
                        (forall p, is_bound p = true -> sol' p = sol p) ->
                        (forall p, sol' p = sol p \/ sol' p = new_of sol ps p) ->
                        vcall sol ps sol'.

  Inductive vexec : (pid -> D) -> list action -> (pid -> D) -> Prop :=
  | VNil : forall sol sol', (forall p, sol' p = sol p) -> vexec sol [] sol'
  | VCons : forall sol ps acts sol1 sol', vcall sol ps sol1 -> vexec sol1 acts sol' ->
                                         vexec sol (APush Canon ps :: acts) sol'.

  (** Abstract state: which blocks hold the new data. *)
  Variable vOO vON vNO : bool.
  Definition vtab (l u : bool) : bool :=
    match l, u with
    | true, true => true | true, false => vNO | false, true => vON | false, false => vOO
    end.
  Definition astate := pid -> bool.
  Definition anew (a : astate) (ps : list pid) (p : pid) : bool := mem_pid p ps || a p.
  Definition acall (a : astate) (ps : list pid) : astate :=
    if negb (mem_pid pl ps || mem_pid pu ps) || vtab (anew a ps pl) (anew a ps pu)
    then anew a ps else a.
  Fixpoint aexec_v (a : astate) (acts : list action) : option astate :=
    match acts with
    | [] => Some a
    | APush Canon ps :: t => aexec_v (acall a ps) t
    | _ => None
    end.
End Validation.

Section ValSound.
  Variable D : Type.
  Variable valid : D -> D -> bool.
  Variable can sol0 : pid -> D.
  Hypothesis Hv : valid (can pl) (can pu) = true.
  Let vOO := valid (sol0 pl) (sol0 pu).
  Let vON := valid (sol0 pl) (can pu).
  Let vNO := valid (can pl) (sol0 pu).

  Definition gam (a : astate) (sol : pid -> D) : Prop :=
    forall p, (a p = true -> sol p = can p)
              /\ (a p = false -> is_bound p = true -> sol p = sol0 p).

  Lemma vtab_ok : forall a sol ps, gam a sol ->
      vtab vOO vON vNO (anew a ps pl) (anew a ps pu)
      = valid (new_of D can sol ps pl) (new_of D can sol ps pu).
  Proof.
    intros a sol ps G. unfold anew, new_of.
    assert (forall p, is_bound p = true ->
             (if mem_pid p ps then can p else sol p)
             = if mem_pid p ps || a p then can p else sol0 p) as E.
    { intros p Hp. destruct (G p) as [G1 G2]. destruct (mem_pid p ps); simpl; auto.
      destruct (a p); auto. }
    rewrite !E by reflexivity.
    destruct (mem_pid pl ps || a pl), (mem_pid pu ps || a pu); simpl; auto.
  Qed.

  Lemma acall_sound : forall a sol ps sol', gam a sol -> vcall D valid can sol ps sol' ->
      gam (acall vOO vON vNO a ps) sol'.
  Proof.
    intros a sol ps sol' G H.
    assert (E : accepts D valid can sol ps =
                negb (mem_pid pl ps || mem_pid pu ps) || vtab vOO vON vNO (anew a ps pl) (anew a ps pu)).
    { unfold accepts. rewrite vtab_ok with (sol := sol); auto. }
    unfold acall. inversion H as [? Ha Hn|? Ha Hb Ho]; subst; rewrite E in Ha; rewrite Ha.
    - intro p. rewrite Hn. unfold anew, new_of. destruct (G p) as [G1 G2].
      destruct (mem_pid p ps); simpl; split; intros; auto; discriminate.
    - intro p. destruct (G p) as [G1 G2]. split; intro Ea.
      + destruct (Ho p) as [Hp|Hp]; rewrite Hp; auto.
        unfold new_of. destruct (mem_pid p ps); auto.
      + intro Hbp. rewrite Hb by auto. auto.
  Qed.

  Lemma aexec_v_sound : forall acts a a' sol sol', gam a sol ->
      aexec_v vOO vON vNO a acts = Some a' -> vexec D valid can sol acts sol' -> gam a' sol'.
  Proof.
    induction acts as [|act acts IH]; intros a a' sol sol' G E H.
    - simpl in E. inversion E; subst. inversion H; subst. intro p. rewrite H0. apply G.
    - inversion H as [|? ? ? s1 ? Hc Hr]; subst. simpl in E.
      eapply (IH _ _ s1); [eapply acall_sound; eauto|exact E|exact Hr].
  Qed.
End ValSound.

Definition chk_valid (S : list pid) (b : ublock) : bool :=
  forallb (fun F =>
    forallb (fun v : bool * bool * bool =>
      let '(v1, v2, v3) := v in
      match aexec_v v1 v2 v3 (fun p => negb (mem_pid p S && mem_pid p F))
                    (fst (run b (fun p => mem_pid p F) true)) with
      | None => false
      | Some a => forallb a (owned OSQP)
      end)
      [(true,true,true); (true,true,false); (true,false,true); (true,false,false);
       (false,true,true); (false,true,false); (false,false,true); (false,false,false)])
    (subsets (owned OSQP)).

Lemma valid_sweep : sweep chk_valid OSQP = true.
Proof. vm_compute. reflexivity. Qed.

Lemma aexec_v_ext : forall v1 v2 v3 acts a a' r, (forall p, a p = a' p) ->
    aexec_v v1 v2 v3 a acts = Some r ->
    exists r', aexec_v v1 v2 v3 a' acts = Some r' /\ forall p, r p = r' p.
Proof.
  induction acts as [|act acts IH]; intros a a' r H E.
  - simpl in *. inversion E; subst. exists a'. auto.
  - destruct act as [| |x ps|[] ps]; simpl in *; try discriminate.
    eapply IH; [|exact E]. intro p. unfold acall, anew. rewrite !H.
    destruct (negb _ || _); simpl; rewrite ?H; auto.
Qed.

Lemma bounds_survive : forall chg b, chg_wf OSQP chg -> is_code OSQP chg b ->
    forall D (valid : D -> D -> bool) can sol fl sol',
      valid (can pl) (can pu) = true ->
      (forall p, In p (owned OSQP) -> changing chg p && fl p = false -> sol p = can p) ->
      vexec D valid can sol (fst (run b fl true)) sol' ->
      forall p, In p (owned OSQP) -> sol' p = can p.
Proof.
  intros chg b Hw Hc D valid can sol fl sol' Hv Hs He p Hp.
  destruct (sweep_lift chk_valid OSQP chg b valid_sweep Hw Hc) as [Hat HC].
  unfold chk_valid in HC. rewrite forallb_forall in HC.
  specialize (HC (filter fl (owned OSQP)) (filter_in_subsets _ _ _)).
  rewrite forallb_forall in HC.
  specialize (HC (valid (sol pl) (sol pu), valid (sol pl) (can pu), valid (can pl) (sol pu))).
  rewrite (run_ext b (fun p => mem_pid p (filter fl (owned OSQP))) fl true) in HC.
  2: { intros q Hq. rewrite mem_filter. apply Hat in Hq. apply mem_pid_In in Hq. rewrite Hq. auto. }
  destruct (aexec_v _ _ _ _ _) as [a|] eqn:E in HC.
  2: { discriminate HC. destruct (valid (sol pl) (sol pu)), (valid (sol pl) (can pu)),
         (valid (can pl) (sol pu)); simpl; tauto. }
  assert (HC' : forallb a (owned OSQP) = true).
  { apply HC. destruct (valid (sol pl) (sol pu)), (valid (sol pl) (can pu)),
         (valid (can pl) (sol pu)); simpl; tauto. }
  rewrite forallb_forall in HC'.
  (* outside the owned blocks the abstract start state is made exact *)
  set (st := fun q => negb (mem_pid q (chg_set OSQP chg) && mem_pid q (filter fl (owned OSQP)))) in *.
  assert (G0 : gam D can (fun q => if mem_pid q (owned OSQP) then sol q else can q) st
                   (fun q => if mem_pid q (owned OSQP) then sol q else can q)).
  { intro q. unfold st. split; intro H.
    - destruct (mem_pid q (owned OSQP)) eqn:Eq; auto. apply mem_pid_In in Eq. apply Hs; auto.
      apply negb_true_iff in H. unfold chg_set in H. rewrite !mem_filter in H.
      pose proof (owned_pids _ _ Eq) as [Eq1 _]. apply mem_pid_In in Eq. apply mem_pid_In in Eq1.
      rewrite Eq, Eq1 in H. exact H.
    - auto. }
  (* run the concrete execution on the restricted data *)
  assert (Hrun : forall acts s1 s2, vexec D valid can s1 acts s2 ->
            vexec D valid can (fun q => if mem_pid q (owned OSQP) then s1 q else can q) acts
                  (fun q => if mem_pid q (owned OSQP) then s2 q else can q)).
  { clear. induction 1 as [sol sol' H|sol ps acts s1 s' H1 H2 IH].
    - constructor. intro p. rewrite H. reflexivity.
    - econstructor; [|exact IH]. inversion H1 as [? Ha Hn|? Ha Hb Ho]; subst.
      + apply VAcc.
        * exact Ha.
        * intro p. rewrite Hn. unfold new_of. destruct (mem_pid p ps), (mem_pid p (owned OSQP)); auto.
      + apply VRej.
        * exact Ha.
        * intros p Hp. rewrite Hb by auto. reflexivity.
        * intro p. specialize (Ho p). unfold new_of in *.
          destruct (mem_pid p (owned OSQP)), (mem_pid p ps); auto. }
  pose proof (aexec_v_sound D valid can (fun q => if mem_pid q (owned OSQP) then sol q else can q) Hv
                _ _ _ _ _ G0 E (Hrun _ _ _ He) p) as [G1 _].
  rewrite (proj2 (mem_pid_In p (owned OSQP)) Hp) in G1. apply G1. apply HC'. exact Hp.
Qed.

(** ** Idle solves (C11) *)

Definition idle_ok (s : solver) (chgp : pid -> bool) : bool :=
  match s with
  | OSQP | QOCO _ | QOCOGEN _ => true
  | CLARABEL lp => negb lp
  | SCS lp => lp || Bool.eqb (chgp pP) (chgp pA)
  | ECOS => Bool.eqb (chgp pA) (chgp pb) && Bool.eqb (chgp pA) (chgp pG)
  end.

Definition is_nil {A} (l : list A) : bool := match l with [] => true | _ => false end.

Definition chk_idle (s : solver) (S : list pid) (b : ublock) : bool :=
  Bool.eqb (is_nil (fst (run b (fun p => negb (mem_pid p S)) true)))
           (idle_ok s (fun p => mem_pid p S)).

Lemma idle_sweep : forall s, sweep (chk_idle s) s = true.
Proof. intros [|[]| |[]|[]|[]]; vm_compute; reflexivity. Qed.

Lemma idle_lemma : forall s chg b fl, chg_wf s chg -> is_code s chg b ->
    (forall p, In p (owned s) -> fl p = negb (changing chg p)) ->
    (fst (run b fl true) = [] <-> idle_ok s (changing chg) = true).
Proof.
  intros s chg b fl Hw Hc Hf.
  destruct (sweep_lift (chk_idle s) s chg b (idle_sweep s) Hw Hc) as [Hat HC].
  unfold chk_idle in HC. apply Bool.eqb_prop in HC.
  assert (HS : forall p, In p (solver_pids s) -> mem_pid p (chg_set s chg) = changing chg p).
  { intros p Hp. unfold chg_set. rewrite mem_filter. apply mem_pid_In in Hp. rewrite Hp. auto. }
  rewrite (run_ext b (fun p => negb (mem_pid p (chg_set s chg))) fl true) in HC.
  2: { intros p Hp. apply Hat in Hp. rewrite Hf by auto.
       apply owned_pids in Hp. rewrite HS by tauto. auto. }
  assert (E : idle_ok s (fun p => mem_pid p (chg_set s chg)) = idle_ok s (changing chg)).
  { destruct s as [|[]| |[]|[]|[]]; simpl idle_ok; auto; rewrite !HS by (simpl; tauto); auto. }
  rewrite E in HC. rewrite <- HC. destruct (fst (run b fl true)); simpl; split; auto; discriminate.
Qed.

(** ** Several generations in one process (C46) *)

(** Update tables as module-level / class-level state of the Python process: scs.py 24-45
    is a class attribute and osqp.py 20-61 too, so all generations of a process share
    them; the other interfaces build their table in [__init__] (ecos.py 88-117,
    clarabel.py 158-193, qoco.py 98-129, 314-344). *)
Record proc_tables := mkPT { pt_osqp : pus; pt_scs : pus }.
Definition fresh_process : proc_tables := mkPT osqp_pus scs_pus.

Definition table_of (pt : proc_tables) (s : solver) : pus :=
  match s with OSQP => pt_osqp pt | SCS _ => pt_scs pt | _ => solver_pus s end.

Definition store_table (pt : proc_tables) (s : solver) (t : pus) : proc_tables :=
  match s with
  | OSQP => mkPT t (pt_scs pt)
  | SCS _ => mkPT (pt_osqp pt) t
  | _ => pt
  end.

(** One generation: solver, change pattern, iteration order (utils.py 1033-1034). *)
Record job := mkJob { j_solver : solver; j_chg : changes; j_order : list string }.

Definition gen_in (pt : proc_tables) (j : job) : res (proc_tables * list tok) :=
  ' (t', toks) <- gen_update (table_of pt (j_solver j)) (solver_quad (j_solver j)) (j_chg j) (j_order j) ;;
  Ok (store_table pt (j_solver j) t', toks).

(** The process after a list of generations; a failed one leaves the tables as they are
    here (the exception is raised by the analysis, before any table is touched). *)
Fixpoint gens (pt : proc_tables) (js : list job) : proc_tables :=
  match js with
  | [] => pt
  | j :: t => match gen_in pt j with Ok (pt', _) => gens pt' t | Err _ => gens pt t end
  end.

Lemma dict_set_same : forall A k (v : A) l, assoc k l = Some v -> dict_set k v l = l.
Proof.
  induction l as [|[k' v'] t IH]; simpl; intro H; [discriminate|].
  destruct (String.eqb k k') eqn:E.
  - inversion H; subst. reflexivity.
  - rewrite IH by auto. reflexivity.
Qed.

Lemma write_update_quad : forall fuel never t fs d t' toks,
    write_update fuel true never t fs d = Ok (t', toks) -> t' = t.
Proof.
  induction fuel as [|fuel IH]; intros never t fs d t' toks H; destruct fs as [fs|]; simpl in H;
    try discriminate; try (inversion H; subst; reflexivity).
  assert (HL : forall l t0 t1 tk,
    (fix loop (t : pus) (l : list string) {struct l} : res (pus * list tok) :=
           match l with
           | [] => Ok (t, [])
           | f :: l' =>
             match assoc f t with
             | None => Err KeyError
             | Some lg0 =>
               let lg := drop_P true lg0 in
               let t1 := dict_set f lg t in
               let called := negb (mem_str f never) in
               ' (t2, sub) <- write_update fuel true never t1 (up_iff (ul_up lg))
                                (if called then S d else d) ;;
               ' (t3, rest) <- loop t2 l' ;;
               Ok (t3, (if called then [TIf (mk_cond (ul_up lg)); TCall (ul_acts lg); TClose] else [])
                         ++ sub ++ rest)
             end
           end) t0 l = Ok (t1, tk) -> t1 = t0).
  { induction l as [|f l IHl]; intros t0 t1 tk E.
    - inversion E; reflexivity.
    - destruct (assoc f t0) as [lg0|] eqn:Ea; [|discriminate].
      assert (Ed : drop_P true lg0 = lg0) by (unfold drop_P; rewrite andb_false_r; reflexivity).
      cbv zeta in E. rewrite Ed in E. rewrite dict_set_same in E by auto.
      destruct (write_update fuel true never t0 (up_iff (ul_up lg0)) _) as [[t2 sub]|] eqn:Ew;
        [|discriminate].
      cbn [bind] in E. apply IH in Ew. subst t2.
      match type of E with context[bind ?X _] => destruct X as [[t3 rest]|] eqn:El end; [|discriminate].
      cbn [bind] in E. inversion E; subst. eapply IHl; eauto. }
  match type of H with context[bind ?X _] => destruct X as [[t2 body]|] eqn:El end; [|discriminate].
  cbn [bind] in H. inversion H; subst. eapply HL; eauto.
Qed.

Lemma gen_update_quad : forall t chg order t' toks,
    gen_update t true chg order = Ok (t', toks) -> t' = t.
Proof.
  intros t chg order t' toks H. unfold gen_update in H.
  destruct (analyze_pus t chg) as [[top never]|]; [|discriminate].
  cbn [bind] in H. eapply write_update_quad; eauto.
Qed.

(** A job that leaves the process as it found it. *)
Definition harmless (j : job) : Prop := j_solver j <> SCS true.

Lemma gens_harmless : forall js, Forall harmless js -> gens fresh_process js = fresh_process.
Proof.
  induction js as [|j js IH]; intros H; simpl; auto.
  inversion H; subst. destruct (gen_in fresh_process j) as [[pt' toks]|] eqn:E; auto.
  replace pt' with fresh_process; auto.
  unfold gen_in in E.
  destruct (gen_update _ _ _ _) as [[t' tk]|] eqn:Eg in E; [|discriminate].
  cbn [bind] in E. inversion E; subst. unfold store_table, harmless in *.
  destruct (j_solver j) as [|[]| | | |] eqn:Es; auto; try congruence;
    simpl in Eg; apply gen_update_quad in Eg; subst t'; reflexivity.
Qed.

Lemma gens_osqp : forall js pt, pt_osqp pt = osqp_pus -> pt_osqp (gens pt js) = osqp_pus.
Proof.
  induction js as [|j js IH]; intros pt H; simpl; auto.
  destruct (gen_in pt j) as [[pt' toks]|] eqn:E; auto. apply IH.
  unfold gen_in in E.
  destruct (gen_update _ _ _ _) as [[t' tk]|] eqn:Eg in E; [|discriminate].
  cbn [bind] in E. inversion E; subst. unfold store_table.
  destruct (j_solver j); simpl in *; auto. apply gen_update_quad in Eg. congruence.
Qed.
