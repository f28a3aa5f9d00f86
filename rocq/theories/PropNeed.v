(** Property C59: update calls send only what is outdated. *)

From Coq Require Import String Arith Bool Lia List Permutation ZArith.
From Verif Require Import Base Pus Machine PusParse PusCheck PusLift Runtime RuntimeSpec RuntimeProofs
     PusMore RuntimeMore Canon CanonSpec CanonGen Examples PropRuntime.
Import ListNotations.
Open Scope string_scope.
Open Scope list_scope.

(** The data blocks a call hands over (or copies for handing over). *)
Definition sends (s : solver) (a : action) : list pid :=
  match a with ACopyAll => owned s | ACopy p => [p] | AInit _ ps | APush _ ps => ps end.
(** Blocks whose change makes the library take over everything again: the matrices of SCS (a new
    factorisation), A, b, G of ECOS (ECOS_updateData). *)
Definition whole (s : solver) : list pid :=
  match s with SCS _ => [pP; pA] | ECOS => [pA; pb; pG] | _ => [] end.
(** Block [p] depends on a parameter entry written by one of the operations [us]. *)
Definition touched {N : Num} (g : genc N) (us : list (op N)) (p : pid) : Prop :=
  chg_get (g_chg g) p = true /\ exists name i v, In (OUpd name i v) us /\ In p (g_outd g name).

(** *** The sweep *)
Definition needed_b (s : solver) (t : pid -> bool) (a : action) : bool := forallb t (sends s a) || existsb t (whole s).
Definition chk_need (s : solver) (S : list pid) (b : ublock) : bool :=
  forallb (fun F => negb (idle_ok s (fun p => mem_pid p S))
                    || forallb (needed_b s (fun p => mem_pid p S && mem_pid p F)) (fst (run b (fun p => negb (mem_pid p S) || mem_pid p F) true)))
          (subsets (owned s)).
Lemma need_sweep : forall s, sweep (chk_need s) s = true.
Proof. intros [|[]| |[]|[]|[]]; vm_compute; reflexivity. Qed.

Lemma need_code : forall s chg b fl (t : pid -> bool), chg_wf s chg -> is_code s chg b ->
  idle_ok s (changing chg) = true ->
  (forall p, In p (owned s) -> fl p = negb (changing chg p) || t p) ->
  (forall p, t p = true -> In p (owned s)) ->
  forall a, In a (fst (run b fl true)) -> needed_b s (fun p => changing chg p && t p) a = true.
Proof.
  intros s chg b fl t Hw Hc Hi Hf Ht a Ha.
  destruct (sweep_lift (chk_need s) s chg b (need_sweep s) Hw Hc) as [Hat HC].
  assert (HS : forall p, In p (solver_pids s) -> mem_pid p (chg_set s chg) = changing chg p).
  { intros p Hp. unfold chg_set. rewrite mem_filter. apply mem_pid_In in Hp. rewrite Hp. auto. }
  unfold chk_need in HC. rewrite forallb_forall in HC. specialize (HC (filter t (owned s)) (filter_in_subsets _ _ _)).
  assert (E : idle_ok s (fun p => mem_pid p (chg_set s chg)) = idle_ok s (changing chg)).
  { destruct s as [|[]| |[]|[]|[]]; simpl idle_ok; auto; rewrite !HS by (simpl; tauto); auto. }
  rewrite E, Hi in HC. cbn [negb orb] in HC.
  rewrite (run_ext b _ fl true) in HC.
  2: { intros p Hp. apply Hat in Hp. rewrite Hf by auto. rewrite HS by (apply owned_pids in Hp; tauto).
       rewrite mem_filter. apply mem_pid_In in Hp. rewrite Hp. reflexivity. }
  rewrite forallb_forall in HC. specialize (HC a Ha).
  assert (EM : forall p, mem_pid p (chg_set s chg) && mem_pid p (filter t (owned s)) = true -> changing chg p && t p = true).
  { intros p Hp. apply andb_true_iff in Hp. destruct Hp as [H1 H2]. rewrite mem_filter in H2. apply andb_true_iff in H2. destruct H2 as [H2 H3].
    rewrite H3. apply mem_pid_In in H2. rewrite HS in H1 by (apply owned_pids in H2; tauto). rewrite H1. reflexivity. }
  unfold needed_b in *. apply orb_true_iff in HC. apply orb_true_iff. destruct HC as [HC|HC].
  - left. rewrite forallb_forall in *. auto.
  - right. apply existsb_exists in HC. destruct HC as (p & H1 & H2). apply existsb_exists. eauto.
Qed.

(** ** C59 *)

(** After any history that ends with a solve and some updates [us] since: every call of the next
    solve's update code hands over only blocks that depend on a parameter written since then, or
    (SCS, ECOS) hands over everything because one of the triggering blocks does.  [quiet] is the
    condition of C11. *)
Theorem C59_calls_are_needed :
  forall (N : Num) (g : genc N) th0, wf_gen g th0 ->
  forall scr, (g_solver g = ECOS -> forall p, In p (owned ECOS) -> length (g_rows g p) <> 1) ->
  (keeps (g_solver g) = true -> forall n p d, scr n p d = d) ->
  quiet (g_solver g) (chg_get (g_chg g)) ->
  forall os us s', Forall (valid_op (g_params g)) (os ++ us) -> ~ In OSolve us ->
  steps g scr (init_state g) (os ++ OSolve :: us) = Ok s' ->
  forall a, In a (fst (run (g_block g) (r_flag s') (r_ini s'))) ->
  (forall p, In p (sends (g_solver g) a) -> touched g us p) \/ exists p, In p (whole (g_solver g)) /\ touched g us p.
Proof.
  intros N g th0 W scr He Hk Hq os us s' Hv Hn Hs a Ha.
  assert (Hidle : idle_ok (g_solver g) (chg_get (g_chg g)) = true).
  { unfold idle_ok, quiet in *. destruct (g_solver g) as [|[]| |[]|[]|[]]; auto; try discriminate.
    - destruct Hq as [Hq|Hq]; [discriminate|]. rewrite Hq. apply eqb_reflx.
    - destruct Hq as [H1 H2]. rewrite <- H1, <- H2. rewrite !eqb_reflx. auto. }
  apply Forall_app in Hv. destruct Hv as [Hv Hu].
  change (OSolve :: us) with ([OSolve] ++ us) in Hs. rewrite app_assoc, (RuntimeMore.steps_app N g scr) in Hs.
  destruct (steps g scr (init_state g) (os ++ [OSolve])) as [s1|] eqn:E1; [|discriminate]. cbn [bind] in Hs.
  (* state after the solve *)
  assert (F1 : r_ini s1 = true /\ forall p, In p (owned (g_solver g)) -> r_flag s1 p = negb (chg_get (g_chg g) p)).
  { pose proof E1 as E. rewrite (RuntimeMore.steps_app N g scr) in E.
    destruct (steps_ok N g th0 W scr He Hk os th0 _ (inv_init N g th0 W scr He Hk) Hv) as (s0 & log & E0 & _ & _ & I0).
    rewrite E0 in E. cbn [bind steps step] in E. destruct (do_solve g scr s0) as [s2|] eqn:E2; [|discriminate]. cbn [bind] in E. injection E as ->.
    split; [exact (ini_after_solve N g th0 W scr He Hk _ _ I0 _ E2)|].
    intros p Hp. destruct (chg_get (g_chg g) p) eqn:Ec.
    - unfold do_solve in E2. destruct (canon_blocks _ _ _ _ _); [|discriminate]. cbn [bind] in E2.
      destruct (run (g_block g) (r_flag s0) (r_ini s0)) as [acts ini]. injection E2 as <-. cbn.
      apply owned_pids in Hp. destruct Hp as [Hp _]. apply mem_pid_In in Hp. rewrite Hp, Ec. reflexivity.
    - apply (const_flags N g scr (os ++ [OSolve]) (init_state g) s1); auto. }
  destruct F1 as [I1 F1].
  (* the updates *)
  set (t := fun (us : list (op N)) p => existsb (fun o => match o with OUpd name _ _ => mem_pid p (g_outd g name) | OSolve => false end) us).
  assert (F2 : forall us s1 s', ~ In OSolve us -> steps g scr s1 us = Ok s' -> r_ini s' = r_ini s1 /\ forall p, r_flag s' p = r_flag s1 p || t us p).
  { clear. induction us as [|[name i v|] us IH]; intros s1 s' Hn E; cbn [steps] in E.
    - injection E as <-. split; auto. intro p. cbn. rewrite orb_false_r. auto.
    - destruct (step g scr s1 (OUpd name i v)) as [s2|] eqn:E2; [|discriminate]. cbn [bind] in E.
      destruct (IH s2 s' ltac:(intro; apply Hn; right; auto) E) as [H1 H2].
      cbn [step] in E2. unfold do_update in E2. destruct (base_col g name) as [c|]; [|discriminate]. destruct (put _ _ _) as [vec|]; [|discriminate].
      cbn [bind] in E2. injection E2 as <-. cbn in H1, H2. split; auto. intro p. rewrite H2. cbn.
      destruct (mem_pid p (g_outd g name)), (r_flag s1 p); auto.
    - exfalso. apply Hn. left. auto. }
  destruct (F2 us s1 s' Hn Hs) as [I2 F3]. rewrite I2, I1 in Ha.
  assert (HT : forall p, chg_get (g_chg g) p && (mem_pid p (owned (g_solver g)) && t us p) = true -> touched g us p).
  { intros p Hp. apply andb_true_iff in Hp. destruct Hp as [H1 H2]. apply andb_true_iff in H2. destruct H2 as [_ H2]. split; auto.
    unfold t in H2. apply existsb_exists in H2. destruct H2 as ([name i v|] & H3 & H4); [|discriminate]. exists name, i, v. split; auto. apply mem_pid_In. auto. }
  pose proof (need_code (g_solver g) (g_chg g) (g_block g) (r_flag s') (fun p => mem_pid p (owned (g_solver g)) && t us p) (w_chg _ _ _ W) (gen_is_code N g th0 W) Hidle) as H.
  specialize (H ltac:(intros p Hp; rewrite F3, F1 by auto; rewrite (proj2 (mem_pid_In p _) Hp); reflexivity)
                ltac:(intros p Hp; apply andb_true_iff in Hp; apply mem_pid_In; tauto) a Ha).
  unfold needed_b in H. apply orb_true_iff in H. destruct H as [H|H].
  - left. intros p Hp. rewrite forallb_forall in H. apply HT, H, Hp.
  - right. apply existsb_exists in H. destruct H as (p & H1 & H2). exists p. split; auto.
Qed.
Print Assumptions C59_calls_are_needed.

(** The example problem, one parameter written after a solve: q enters q, l, u (and the offset),
    p enters P, A, u. *)
Definition need_acts (s : solver) (us : list (op ZRing)) : list action :=
  match steps (ex_gen s) (fun _ _ d => d) (init_state (ex_gen s)) (OSolve :: us) with
  | Ok s' => fst (run (g_block (ex_gen s)) (r_flag s') (r_ini s'))
  | Err _ => []
  end.
Definition upd_q : list (op ZRing) := [OUpd (N := ZRing) "q" 0 6%Z].
Definition upd_p : list (op ZRing) := [OUpd (N := ZRing) "p" 0 6%Z].
Example C59_example :
  quiet OSQP (chg_get (g_chg (ex_gen OSQP))) /\ Forall (valid_op (g_params (ex_gen OSQP))) upd_q
  /\ need_acts OSQP upd_q = [APush Canon [pq; pl; pu]]
  /\ quiet (SCS false) (chg_get (g_chg (ex_gen (SCS false))))
  /\ need_acts (SCS false) upd_q = [APush Canon [pb; pc]] /\ need_acts (SCS false) upd_p = [AInit Canon [pP; pA; pb; pc]]
  /\ need_acts (CLARABEL false) upd_q = [ACopy pq; ACopy pb]
  /\ need_acts (QOCO false) upd_p = [APush Canon [pP]; APush Canon [ph]; APush Canon [pG]].
Proof.
  split; [exact I|]. split.
  { constructor; [|constructor]. exists 1. replace (g_params (ex_gen OSQP)) with ex_params by (vm_compute; reflexivity). split; [cbn; auto|lia]. }
  split; [vm_compute; reflexivity|]. split; [right; vm_compute; reflexivity|].
  repeat split; vm_compute; reflexivity.
Qed.

(** A needed block may be sent more than once: with q, l and u all depending on parameters but only
    u outdated, OSQP's update code sends u twice (fallbacks of qu and of lu). *)
Theorem C59_once_refuted :
  need_acts OSQP upd_p = [APush Canon [pu]; APush Canon [pu]; APush Canon [pP; pA]].
Proof. vm_compute. reflexivity. Qed.
Print Assumptions C59_once_refuted.
