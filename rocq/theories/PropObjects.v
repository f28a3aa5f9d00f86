(** Property C77: solver objects and pointers over repeated calls. *)

From Coq Require Import String Arith Bool Lia List Permutation ZArith.
From Verif Require Import Base Pus Machine PusParse PusCheck PusLift Runtime RuntimeSpec RuntimeProofs
     PusMore RuntimeMore Canon CanonSpec CanonGen Examples Objects ObjectsSpec ObjectsProofs.
Import ListNotations.
Open Scope string_scope.
Open Scope list_scope.

(** ** Pointers *)

(** No call ever follows a null pointer or a pointer to storage that is gone, memory never being
    refused — for every solver except Clarabel with a linear objective. *)
Theorem C77_pointers : forall p give os, generated p -> plenty give -> p_solver p <> CLARABEL true ->
  o_faults (h_obj (h_run give p (h_init p) os)) = [].
Proof.
  intros p give os G P H. pose proof (history_ok give P p os G) as M. unfold Mid in M.
  destruct (p_solver p) as [|lp| |[]|lp|lp]; try (exfalso; apply H; reflexivity); destruct M as (_ & _ & M); exact M.
Qed.
Print Assumptions C77_pointers.

(** Clarabel with a linear objective: each solve hands clarabel_DefaultSolver_new a matrix P whose
    column pointers are a compound literal of a block that has been left; nothing else goes wrong. *)
Theorem C77_literal : forall p give os, generated p -> plenty give -> p_solver p = CLARABEL true ->
  o_faults (h_obj (h_run give p (h_init p) os)) = repeat (DeadRead VP) (solves os).
Proof.
  intros p give os G P H. pose proof (history_ok give P p os G) as M. rewrite total_spec in M. unfold Mid in M. rewrite H in M.
  destruct M as (_ & _ & M). exact M.
Qed.
Print Assumptions C77_literal.

(** ** How many objects exist *)
Lemma held_LH : forall n, length (filter (fun o => ob_heap o && ob_live o) (repeat LH n)) = n.
Proof. induction n; cbn; auto. Qed.
Lemma held_pairs : forall n, length (filter (fun o => ob_heap o && ob_live o) (pairs n)) = n.
Proof. induction n; cbn [pairs]; auto. rewrite filter_app, app_length, IHn. cbn. lia. Qed.

(** The objects allocated and not freed after any calls, counted from the calls alone. *)
Theorem C77_count : forall p give os, generated p -> plenty give ->
  held (h_run give p (h_init p) os) = objects p os.
Proof.
  intros p give os G P. pose proof (history_ok give P p os G) as M. rewrite total_spec in M. unfold Mid in M. unfold held, objects.
  destruct (p_solver p) as [|lp| |[]|lp|lp]; destruct M as (_ & M & _); rewrite M, ?Nat.add_0_r; cbn [repeat]; rewrite ?app_nil_r, ?held_LH, ?held_pairs; reflexivity.
Qed.
Print Assumptions C77_count.

(** After a solve the workspace pointer refers to the youngest object, which is alive, and no
    pointer of the program refers to any other object that is alive. *)
Theorem C77_newest : forall p give os, generated p -> plenty give -> dynamic (p_solver p) -> 0 < solves os ->
  let h := h_run give p (h_init p) os in
  exists k, o_env (h_obj h) VWork = At k /\ alive h k /\ (forall j, alive h j -> j <= k) /\ forall j, alive h j -> named h j -> j = k.
Proof.
  intros p give os G P D HSolved h. pose proof (history_ok give P p os G) as M. rewrite total_spec in M. fold h in M. unfold Mid in M.
  assert (HS : forall p os first w, first = true -> 0 < solves os -> 0 < rebuilds p first w os).
  { clear. intros p. induction os as [|[nm| |] os IH]; intros first w -> H; cbn [solves rebuilds] in *; [lia|apply IH; auto| |apply IH; auto].
    cbn [orb]. lia. }
  assert (GEN : forall m, 0 < m -> o_env (h_obj h) VWork = top m -> o_objs (h_obj h) = repeat LH m ->
           (forall v j, o_env (h_obj h) v = At j -> top m = At j) ->
           exists k, o_env (h_obj h) VWork = At k /\ alive h k /\ (forall j, alive h j -> j <= k) /\ forall j, alive h j -> named h j -> j = k).
  { intros [|k] Hm E O V; [lia|]. exists k. unfold alive. rewrite O. split; [exact E|]. split; [apply nth_error_repeat; lia|]. split.
    - intros j Hj. assert (nth_error (repeat LH (S k)) j <> None) by congruence. apply nth_error_Some in H. rewrite repeat_length in H. lia.
    - intros j _ (v & Hv). apply V in Hv. cbn in Hv. congruence. }
  destruct (p_solver p) as [|lp| |[]|lp|lp]; try destruct D; destruct M as ((E1 & E2 & E3 & E4 & E5 & E6 & E7) & O & F); rewrite ?Nat.add_0_r in *.
  - apply (GEN (rebuilds p true [] os)); auto. intros [] j Hv; congruence.
  - apply (GEN (Nat.min 1 (solves os))); auto; [lia|]. intros [] j Hv; congruence.
  - destruct (solves os) as [|n] eqn:En; [lia|]. exists (S (2 * n)).
    replace (2 * S n) with (S (S (2 * n))) in * by lia. cbn [top repeat stat pairs] in *. rewrite app_nil_r in O.
    unfold alive. rewrite O. split; [exact E1|]. split.
    { rewrite nth_error_app2 by (rewrite pairs_length; lia). rewrite pairs_length. replace (S (2 * n) - 2 * n) with 1 by lia. reflexivity. }
    split.
    { intros j Hj. assert (X : nth_error (pairs n ++ [DL; LH]) j <> None) by congruence. apply nth_error_Some in X. rewrite app_length, pairs_length in X. cbn in X. lia. }
    intros j Hj (v & Hv). destruct v; try congruence. rewrite E3 in Hv. injection Hv as <-. exfalso.
    rewrite nth_error_app2 in Hj by (rewrite pairs_length; lia). rewrite pairs_length, Nat.sub_diag in Hj. discriminate Hj.
  - apply (GEN (solves os)); auto. intros [] j Hv; try congruence; destruct (solves os); cbn in *; congruence.
  - apply (GEN (5 * Nat.min 1 (solves os))); auto; [lia|]. intros [] j Hv; congruence.
Qed.
Print Assumptions C77_newest.

(** ** Bounded or not *)

(** OSQP, QOCOGEN, ECOS and QOCO: never more than five objects; SCS: one, if neither matrix depends
    on parameters. *)
Theorem C77_bounded : forall p give os, generated p -> plenty give ->
  match p_solver p with
  | OSQP | QOCOGEN _ => held (h_run give p (h_init p) os) = 0
  | ECOS => held (h_run give p (h_init p) os) <= 1
  | QOCO _ => held (h_run give p (h_init p) os) <= 5
  | SCS _ => (forall q, In q (matrices p) -> chg_get (p_chg p) q = false) -> held (h_run give p (h_init p) os) <= 1
  | CLARABEL _ => True
  end.
Proof.
  intros p give os G P. rewrite (C77_count p give os G P). unfold objects. destruct (p_solver p) eqn:Hp; auto; try lia.
  intros H.
  assert (N : forall os w, rebuilds p false w os = 0).
  { assert (R : forall w, rebuild p w = false).
    { intro w. unfold rebuild. apply andb_false_iff. left. apply not_true_iff_false. intro X. apply existsb_exists in X. destruct X as (q & H1 & H2). rewrite H in H2; auto. discriminate. }
    clear os. induction os as [|[nm| |] os IH]; intro w; cbn [rebuilds]; auto. rewrite R, IH. reflexivity. }
  assert (O : forall os w, rebuilds p true w os <= 1).
  { clear os. induction os as [|[nm| |] os IH]; intro w; cbn [rebuilds]; auto. rewrite N. cbn. lia. }
  apply O.
Qed.
Print Assumptions C77_bounded.

(** SCS with exactly one of P and A depending on parameters: a new workspace at every solve, whether
    or not anything has been updated. *)
Theorem C77_scs_every_solve : forall p give os, generated p -> plenty give -> p_solver p = SCS false ->
  chg_get (p_chg p) pP <> chg_get (p_chg p) pA ->
  held (h_run give p (h_init p) os) = solves os.
Proof.
  intros p give os G P Hs Hx. rewrite (C77_count p give os G P). unfold objects. rewrite Hs.
  assert (R : forall w, rebuild p w = true).
  { intro w. unfold rebuild, matrices. rewrite Hs. cbn [solver_quad negb app existsb].
    destruct (chg_get (p_chg p) pP), (chg_get (p_chg p) pA); try (exfalso; apply Hx; reflexivity); cbn [negb orb andb]; rewrite ?orb_true_r; reflexivity. }
  assert (N : forall os f w, rebuilds p f w os = solves os).
  { clear os. induction os as [|[nm| |] os IH]; intros f w; cbn [rebuilds solves]; auto. rewrite R, orb_true_r, IH. reflexivity. }
  apply N.
Qed.
Print Assumptions C77_scs_every_solve.

(** No bound holds for Clarabel (one object per solve), nor for SCS once a parameter enters a
    matrix (one object per solve after an update of that parameter). *)
Definition update_and_solve (name : string) (k : nat) : list hop := concat (repeat [HUpd name; HSolve] k).

Theorem C77_grows : forall p give, generated p -> plenty give ->
  (forall lp k, p_solver p = CLARABEL lp -> held (h_run give p (h_init p) (repeat HSolve k)) = k)
  /\ (forall lp k name q, p_solver p = SCS lp -> In q (matrices p) -> chg_get (p_chg p) q = true -> In q (p_outd p name) ->
        held (h_run give p (h_init p) (update_and_solve name k)) = k).
Proof.
  intros p give G P. split.
  - intros lp k Hs. rewrite (C77_count p give _ G P). unfold objects. rewrite Hs. induction k; cbn [repeat solves]; auto.
  - intros lp k name q Hs Hq Hc Ho. rewrite (C77_count p give _ G P). unfold objects. rewrite Hs.
    assert (R : forall w, rebuild p (name :: w) = true).
    { intro w. unfold rebuild. apply andb_true_iff. split; apply existsb_exists; exists q; split; auto.
      apply orb_true_iff. right. unfold written. cbn [existsb]. apply orb_true_iff. left. apply mem_pid_In. auto. }
    assert (N : forall k f w, rebuilds p f w (update_and_solve name k) = k).
    { clear k. induction k as [|k IH]; intros f w; [reflexivity|]. unfold update_and_solve in *. cbn [repeat concat app rebuilds]. rewrite R, orb_true_r, IH. reflexivity. }
    apply N.
Qed.
Print Assumptions C77_grows.

(** ** Memory refused *)

(** Whatever requests for memory are refused, from any state: if the workspace pointer is null after
    cpg_solve, that call has followed it. *)
Lemma faults_grow1 : forall give o c, exists l, o_faults (exec_stmt give o c) = o_faults o ++ l.
Proof.
  intros give o c. destruct c; cbn [exec_stmt]; try (exists []; cbn; rewrite app_nil_r; reflexivity);
    unfold o_new, o_read; repeat match goal with |- context [if ?b then _ else _] => destruct b | |- context [match ?x with Null => _ | _ => _ end] => destruct x end;
    cbn [o_fault o_faults]; try (exists []; rewrite app_nil_r; reflexivity); eexists; reflexivity.
Qed.
Lemma faults_grow : forall give l o, exists e, o_faults (exec_stmts give o l) = o_faults o ++ e.
Proof.
  intros give. induction l as [|c l IH]; intro o; [exists []; cbn; rewrite app_nil_r; reflexivity|].
  destruct (IH (exec_stmt give o c)) as [e E]. destruct (faults_grow1 give o c) as [e1 E1]. cbn [exec_stmts fold_left] in *. unfold exec_stmts in E. rewrite E, E1, <- app_assoc. eauto.
Qed.
Lemma faults_code : forall give p b fl o, exists e, o_faults (exec_code give p b fl o) = o_faults o ++ e.
Proof.
  intros give p. induction b as [|cd acts els IHe rest IHr]; intros fl o; cbn [exec_code]; [exists []; rewrite app_nil_r; reflexivity|].
  destruct (eval_cond fl (inited (p_solver p) o) cd).
  - destruct (IHr fl (in_block give o (flat_map (stmts_of p) acts))) as [e E]. destruct (faults_grow give (flat_map (stmts_of p) acts) o) as [e1 E1].
    rewrite E. unfold in_block, end_block. cbn [o_faults]. rewrite E1, <- app_assoc. eauto.
  - destruct (IHr fl (exec_code give p els fl o)) as [e E]. destruct (IHe fl o) as [e1 E1]. rewrite E, E1, <- app_assoc. eauto.
Qed.

Lemma read_env : forall b o v w, o_env (o_read b o v) w = o_env o w.
Proof. intros. unfold o_read. destruct (o_env o v); auto; [destruct b|destruct (is_live o k)]; reflexivity. Qed.

Theorem C77_refused : forall p give h, dynamic (p_solver p) ->
  let h' := h_step give p h HSolve in
  o_env (h_obj h') VWork = Null ->
  exists e, o_faults (h_obj h') = o_faults (h_obj h) ++ e /\ In (NullRead VWork) e.
Proof.
  intros p give h D h' N. cbn [h_step h_obj] in *. unfold h', solve_objs in *. cbn [h_step h_obj] in *. unfold solve_objs in *.
  destruct (faults_code give p (p_code p) (h_flag h) (h_obj h)) as [e0 E0].
  set (o := exec_code give p (p_code p) (h_flag h) (h_obj h)) in *.
  assert (X : exists l1 l2, settings_stmts (p_solver p) ++ call_stmts p ++ result_stmts (p_solver p) = l1 ++ SRead VWork :: l2
              /\ forall o', o_env (exec_stmts give o' l2) VWork = o_env o' VWork).
  { unfold call_stmts. destruct (p_solver p) as [|lp| |lp|lp|lp] eqn:Hp; try destruct D.
    - exists [], []. split; reflexivity.
    - exists [], [SRead VWork; SRead VWork]. split; [reflexivity|]. intro o'. unfold exec_stmts. cbn [fold_left exec_stmt]. rewrite !read_env. reflexivity.
    - exists [SRead VP; SRead VA; SNew VWork], [SRead VWork; SAlias VSolution VWork; SRead VSolution]. split.
      + cbn [solver_solve_acts clarabel_solve_acts flat_map]. unfold stmts_of. rewrite Hp. reflexivity.
      + intro o'. unfold exec_stmts. cbn [fold_left exec_stmt]. rewrite read_env. unfold o_set. cbn [o_env]. unfold vset. cbn [var_eqb]. rewrite read_env. reflexivity.
    - exists [], [SRead VWork; SRead VWork]. split; [reflexivity|]. intro o'. unfold exec_stmts. cbn [fold_left exec_stmt]. rewrite !read_env. reflexivity. }
  destruct X as (l1 & l2 & E & X). rewrite E in *.
  destruct (faults_grow give l1 o) as [e1 E1].
  assert (SP : exec_stmts give o (l1 ++ SRead VWork :: l2) = exec_stmts give (o_read false (exec_stmts give o l1) VWork) l2).
  { unfold exec_stmts. rewrite fold_left_app. reflexivity. }
  rewrite SP in *. rewrite X, read_env in N.
  destruct (faults_grow give l2 (o_read false (exec_stmts give o l1) VWork)) as [e2 E2].
  rewrite E2. unfold o_read at 1. rewrite N. cbn [o_fault o_faults]. rewrite E1, E0, <- !app_assoc.
  exists (e0 ++ e1 ++ [NullRead VWork] ++ e2). split; [reflexivity|]. apply in_or_app. right. apply in_or_app. right. left. reflexivity.
Qed.
Print Assumptions C77_refused.

(** A refused request leaves no pointer to an earlier object: Clarabel, which asks at every solve, from any state. *)
Theorem C77_refused_again : forall p give h lp, p_solver p = CLARABEL lp -> (forall k, give k = false) ->
  let h' := h_step give p h HSolve in
  o_env (h_obj h') VWork = Null
  /\ exists e, o_faults (h_obj h') = o_faults (h_obj h) ++ e /\ In (NullRead VWork) e.
Proof.
  intros p give h lp Hp Hg h'.
  assert (N : o_env (h_obj h') VWork = Null).
  { unfold h'. cbn [h_step h_obj]. unfold solve_objs, call_stmts. rewrite Hp. cbn [settings_stmts app solver_solve_acts clarabel_solve_acts flat_map].
    unfold stmts_of. rewrite Hp. cbn [app result_stmts]. unfold exec_stmts. cbn [fold_left exec_stmt].
    rewrite read_env. unfold o_set. cbn [o_env]. unfold vset at 1. cbn [var_eqb]. rewrite !read_env. unfold o_new. rewrite Hg. cbn [o_env].
    unfold vset. reflexivity. }
  split; [exact N|]. apply C77_refused; [rewrite Hp; exact I|exact N].
Qed.
Print Assumptions C77_refused_again.

(** ** The same calls as in the data model (C01-C05) *)
Definition erase {N : Num} (o : op N) : hop := match o with OUpd n _ _ => HUpd n | OSolve => HSolve end.
Definition prog_of {N : Num} (g : genc N) (eq ineq : bool) : prog :=
  mkProg (g_solver g) (g_chg g) (g_outd g) (g_block g) eq ineq.

(** Flags and the test for the workspace agree with the states of Runtime.v after any calls. *)
Theorem C77_same : forall (N : Num) (g : genc N) th0, wf_gen g th0 -> forall scr give eq ineq, plenty give ->
  forall os s', steps g scr (init_state g) os = Ok s' ->
  let h := h_run give (prog_of g eq ineq) (h_init (prog_of g eq ineq)) (map erase os) in
  (forall q, h_flag h q = r_flag s' q) /\ inited (g_solver g) (h_obj h) = r_ini s'.
Proof.
  intros N g th0 W scr give eq ineq P. set (p := prog_of g eq ineq).
  assert (G : generated p) by (split; [exact (w_chg _ _ _ W)|exact (gen_is_code N g th0 W)]).
  assert (IND : forall os s s' first w n h, steps g scr s os = Ok s' ->
     (forall q, h_flag h q = r_flag s q) -> flags_are p first w (h_flag h) -> count_ok p first n -> Mid p n 0 (h_obj h) -> ini_of p n 0 = r_ini s ->
     (forall q, h_flag (h_run give p h (map erase os)) q = r_flag s' q) /\ inited (g_solver g) (h_obj (h_run give p h (map erase os))) = r_ini s').
  { induction os as [|o os IH]; intros s s' first w n h E HF FA C M I.
    - cbn in E. injection E as <-. split; auto. rewrite <- I. exact (Mid_ini p n 0 _ M).
    - cbn [steps] in E. destruct (step g scr s o) as [s1|] eqn:E1; [|discriminate]. cbn [bind] in E.
      change (h_run give p h (map erase (o :: os))) with (h_run give p (h_step give p h (erase o)) (map erase os)).
      destruct o as [nm i v|]; cbn [erase].
      + cbn [step] in E1. unfold do_update in E1. destruct (base_col g nm) as [c|]; [|discriminate]. destruct (put _ _ _) as [vec|]; [|discriminate]. cbn [bind] in E1. injection E1 as <-.
        refine (IH _ s' first (nm :: w) n _ E _ _ _ _ _); auto.
        * intro q. cbn. rewrite HF. reflexivity.
        * intros q Hq. cbn [h_step h_flag]. rewrite (FA q Hq). unfold written. cbn [existsb].
          destruct (mem_pid q (p_outd p nm)), (negb (chg_get (p_chg p) q)), first; reflexivity.
      + cbn [step] in E1. unfold do_solve in E1. destruct (canon_blocks _ _ _ _ _) as [can|]; [|discriminate]. cbn [bind] in E1.
        destruct (run (g_block g) (r_flag s) (r_ini s)) as [acts ini] eqn:ER. injection E1 as <-.
        refine (IH _ s' false [] (n + adds p first w) _ E _ _ _ _ _); auto.
        * intro q. cbn. rewrite HF. reflexivity.
        * intros q Hq. cbn [h_step h_flag]. apply owned_pids in Hq as Hq'. destruct Hq' as [Hq' _]. apply mem_pid_In in Hq'. rewrite Hq'. cbn [andb].
          destruct (chg_get (p_chg p) q) eqn:Ec; cbn [negb orb written existsb]; auto. rewrite (FA q Hq), Ec. reflexivity.
        * destruct C as [C|C]; [left; auto|]. unfold count_ok, adds. destruct (p_solver p); auto; right; symmetry; apply Nat.eqb_neq; subst first; destruct n; cbn; lia.
        * cbn [h_step h_obj]. apply solve_ok; auto.
        * cbn [r_ini].
          assert (Hini : ini_of p n 0 = false -> solver_init0 (p_solver p) = false) by (unfold ini_of; destruct (p_solver p); auto; discriminate).
          destruct G as [Gw Gc].
          destruct (obj_code (p_solver p) (p_chg p) (p_code p) (h_flag h) (ini_of p n 0) (fun q => first || written p w q) Gw Gc Hini FA) as [Hok Hcnt].
          destruct (code_ok give P p (p_code p) (h_flag h) n 0 (h_obj h) M Hok) as [_ B]. cbv zeta in B. cbn [Nat.add] in B.
          assert (ER' : run (p_code p) (h_flag h) (ini_of p n 0) = (acts, ini)).
          { rewrite I, <- ER. apply run_ext. intros q _. apply HF. }
          rewrite ER' in B, Hcnt. cbn [fst snd] in B, Hcnt. rewrite B. unfold ini_of, adds in *. change (g_solver g) with (p_solver p).
          destruct (p_solver p) as [|lp| |lp|lp|lp] eqn:Hp; cbn [solver_solve_acts existsb]; rewrite ?orb_false_r, ?orb_true_r, ?Nat.add_0_r in *; try reflexivity.
          -- destruct Hcnt as [Hcnt|Hcnt]; [discriminate|]. destruct C as [C|C]; [congruence|]. rewrite Hcnt. unfold wanted, rebuild, matrices, changing. rewrite Hp, C.
             destruct lp, n; reflexivity.
          -- destruct Hcnt as [Hcnt|Hcnt]; [discriminate|]. destruct C as [C|C]; [congruence|]. rewrite Hcnt. unfold wanted. rewrite C. destruct n; reflexivity.
          -- replace (Nat.ltb 0 (n + 1)) with true by (symmetry; apply Nat.ltb_lt; lia). destruct (Nat.ltb 0 n); reflexivity.
          -- destruct Hcnt as [Hcnt|Hcnt]; [discriminate|]. destruct C as [C|C]; [congruence|]. rewrite Hcnt. unfold wanted. rewrite C. destruct n; reflexivity.
          -- destruct Hcnt as [Hcnt|Hcnt]; [discriminate|]. destruct C as [C|C]; [congruence|]. rewrite Hcnt. unfold wanted. rewrite C. destruct n; reflexivity. }
  intros os s' E. cbv zeta. destruct (init_ok p) as (A & B & C).
  apply (IND os (init_state g) s' true [] 0 (h_init p)); auto.
Qed.
Print Assumptions C77_same.

(** ** Examples and counterexamples *)
Definition ex_prog (s : solver) : prog := prog_of (ex_gen s) true true.
Lemma ex_generated : forall s, generated (ex_prog s).
Proof. intro s. destruct (ex_wf_gen s) as [W _]. split; [exact (w_chg _ _ _ W)|exact (gen_is_code _ _ _ W)]. Qed.
Lemma ex_prog_solver : forall s, p_solver (ex_prog s) = s.
Proof. intro s. exact (proj2 (ex_wf_gen s)). Qed.
Definition ok_mem : nat -> bool := fun _ => true.
Definition ex_calls : list hop := [HSet; HSolve; HUpd "p"; HSolve; HUpd "q"; HSolve; HSolve].

(** p enters the matrices, q does not: the example program after four solves. *)
Example C77_example :
  plenty ok_mem /\ (forall s, generated (ex_prog s)) /\ (forall s, p_solver (ex_prog s) = s)
  /\ map (fun s => held (h_run ok_mem (ex_prog s) (h_init (ex_prog s)) ex_calls))
         [OSQP; SCS false; SCS true; ECOS; CLARABEL false; CLARABEL true; QOCO false; QOCOGEN false] = [0; 2; 2; 1; 4; 4; 5; 0]
  /\ map (fun s => length (o_faults (h_obj (h_run ok_mem (ex_prog s) (h_init (ex_prog s)) ex_calls))))
         [OSQP; SCS false; SCS true; ECOS; CLARABEL false; CLARABEL true; QOCO false; QOCOGEN false] = [0; 0; 0; 0; 0; 4; 0; 0].
Proof. split; [intro; reflexivity|]. split; [exact ex_generated|]. split; [exact ex_prog_solver|]. split; vm_compute; reflexivity. Qed.

(** "No generated program follows a pointer to storage that is gone" is false. *)
Theorem C77_literal_refuted : exists p os, generated p /\ o_faults (h_obj (h_run ok_mem p (h_init p) os)) = [DeadRead VP].
Proof. exists (ex_prog (CLARABEL true)), [HSolve]. split; [apply ex_generated|vm_compute; reflexivity]. Qed.
Print Assumptions C77_literal_refuted.

(** "The number of objects stays bounded" is false, even without any update. *)
Theorem C77_bounded_refuted : exists p, generated p /\ forall bound, exists os, ~ (exists n, In (HUpd n) os) /\ bound < held (h_run ok_mem p (h_init p) os).
Proof.
  exists (ex_prog (CLARABEL false)). split; [apply ex_generated|]. intro bound. exists (repeat HSolve (S bound)). split.
  - intros (n & H). apply repeat_spec in H. discriminate.
  - destruct (C77_grows (ex_prog (CLARABEL false)) ok_mem (ex_generated _) ltac:(intro; reflexivity)) as [H _].
    rewrite (H false (S bound) (ex_prog_solver _)). lia.
Qed.
Print Assumptions C77_bounded_refuted.

(** "A failed set-up is noticed" is false: with no memory the first solve follows the null pointer. *)
Theorem C77_refused_refuted : exists p, generated p /\ In (NullRead VWork) (o_faults (h_obj (h_run (fun _ => false) p (h_init p) [HSolve]))).
Proof. exists (ex_prog ECOS). split; [apply ex_generated|vm_compute; auto]. Qed.
Print Assumptions C77_refused_refuted.
