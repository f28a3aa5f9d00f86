(** Properties that span several calls or several generations: C46 (update code), C50, C51. *)

From Coq Require Import String Arith Bool Lia List Permutation ZArith.
From Verif Require Import Base Pus Machine PusParse PusCheck PusLift Runtime RuntimeSpec RuntimeProofs
     PusMore Wrapper WrapperProofs Canon CanonGen Examples PropRuntime.
Import ListNotations.
Open Scope string_scope.
Open Scope list_scope.

(** ** C46: generations in one process *)

Definition tokens (r : res (proc_tables * list tok)) : res (list tok) :=
  x <- r ;; Ok (snd x).

(** Everything but SCS: the emitted update code is the same as in a fresh process. *)
Theorem C46_update_code_independent_of_history :
  forall js j, (forall lp, j_solver j <> SCS lp) ->
  tokens (gen_in (gens fresh_process js) j) = tokens (gen_in fresh_process j).
Proof.
  intros js j H. unfold gen_in.
  assert (E : table_of (gens fresh_process js) (j_solver j) = table_of fresh_process (j_solver j)).
  { destruct (j_solver j) eqn:Es; simpl; auto.
    - apply gens_osqp. reflexivity.
    - exfalso. eapply H. reflexivity. }
  rewrite E. destruct (gen_update _ _ _ _) as [[t toks]|]; reflexivity.
Qed.
Print Assumptions C46_update_code_independent_of_history.

(** SCS: the same as long as no earlier generation was an SCS problem without quadratic
    objective. *)
Theorem C46_scs_independent_without_lp :
  forall js j, Forall (fun j => j_solver j <> SCS true) js ->
  tokens (gen_in (gens fresh_process js) j) = tokens (gen_in fresh_process j).
Proof. intros js j H. rewrite (gens_harmless js H). reflexivity. Qed.
Print Assumptions C46_scs_independent_without_lp.

Definition scs_lp_job : job :=
  mkJob (SCS true) (fun p => match p with pc | pA | pb | pd => Some true | _ => None end)
        ["init"].
(** A QP in which only P depends on parameters. *)
Definition scs_qp_job : job :=
  mkJob (SCS false) (fun p => match p with pP => Some true | pc | pA | pb | pd => Some false | _ => None end)
        ["init"].

Definition code_acts (r : res (list tok)) (fl : pid -> bool) (ini : bool) : option (list action) :=
  match r with
  | Ok toks => option_map (fun b => fst (run b fl ini)) (parse_all toks)
  | Err _ => None
  end.

(** After an SCS LP the update code of a QP has no action at all when P is outdated, while
    in a fresh process it hands P to the solver. *)
Theorem C46_scs_refuted :
  exists js j acts,
    code_acts (tokens (gen_in fresh_process j)) (fun p => mem_pid p [pP]) true = Some acts
    /\ existsb (fun a => match a with APush _ ps | AInit _ ps => mem_pid pP ps | _ => false end) acts = true
    /\ is_ok (tokens (gen_in (gens fresh_process js) j)) = true
    /\ code_acts (tokens (gen_in (gens fresh_process js) j)) (fun p => mem_pid p [pP]) true = Some [].
Proof.
  exists [scs_lp_job], scs_qp_job.
  destruct (code_acts (tokens (gen_in fresh_process scs_qp_job)) (fun p => mem_pid p [pP]) true) as [acts|] eqn:E.
  2: { vm_compute in E. discriminate. }
  exists acts. vm_compute in E. injection E as <-. split; [reflexivity|]. split; [reflexivity|].
  split; [vm_compute; reflexivity|].
  vm_compute. reflexivity.
Qed.
Print Assumptions C46_scs_refuted.

Example C46_example :
  is_ok (gen_in (gens fresh_process [scs_lp_job; mkJob (ECOS) (fun _ => None) []])
                (mkJob OSQP chg_lA ["init"])) = is_ok (gen_in fresh_process (mkJob OSQP chg_lA ["init"]))
  /\ j_solver scs_lp_job = SCS true.
Proof. vm_compute. auto. Qed.

(** ** C50: settings of a call *)

(** Defaults overridden by the keywords of the call, in order. *)
Theorem C50_settings_of_the_call :
  forall (N : Num) (g : genc N) scr (sv : Type) enabled translation (dflt : string -> sv) converts w c w',
  (forall lp, g_solver g <> SCS lp) ->
  py_solve N g scr sv enabled translation dflt converts w c = (w', None) ->
  forall n, In n enabled -> w_eff w' n = overridden sv translation (c_kw c) n (dflt n).
Proof.
  intros. eapply settings_per_call; eauto. destruct (g_solver g) eqn:E; simpl; try discriminate.
  exfalso. eapply H. reflexivity.
Qed.
Print Assumptions C50_settings_of_the_call.

(** Two calls that raise different settings with SCS. *)
Definition scs_call (kw : list (string * nat)) : pcall ZRing nat :=
  @mkCall ZRing nat None kw
    (fun n => if String.eqb n "p" then Ok [3; 4]%Z else if String.eqb n "q" then Ok [5]%Z else Err AttributeError).

(** The example problem with constant matrices: only vectors change. *)
Definition vec_x (neq nineq : nat) : cvx ZRing :=
  let x := ex_x neq nineq false in
  mkCvx ZRing (x_params x) (x_flat x) (x_n x) (x_neq x) (x_nineq x) None
        (x_q x) [[(3, 1%Z)]; [(3, 1%Z)]; [(3, 2%Z)]; [(3, 1%Z)]; [(2, 1%Z)]; [(1, 1%Z)]]
        (x_Ai x) (x_Ap x) (x_max x).
Definition vec_gen : genc ZRing :=
  match generate (K := ZRing) ex_big (vec_x 4 0) (SCS true) ex_order with Ok g => g | Err _ => ex_gen (SCS true) end.

Definition scs_two_calls : wst ZRing nat * list (option exn) :=
  session ZRing vec_gen (fun _ _ d => d) nat ["max_iters"] [] (fun _ => 100) (fun _ _ => true)
          (w_init ZRing vec_gen nat (fun _ => 100)) [scs_call [("max_iters", 7)]; scs_call [("max_iters", 9)]].

Theorem C50_scs_refuted :
  exists (g : genc ZRing) scr cs,
    g_solver g = SCS true
    /\ let r := session ZRing g scr nat ["max_iters"] [] (fun _ => 100) (fun _ _ => true)
                        (w_init ZRing g nat (fun _ => 100)) cs in
       cs = [scs_call [("max_iters", 7)]; scs_call [("max_iters", 9)]]
       /\ snd r = [None; None]
       /\ w_eff (fst r) "max_iters" = 7
       /\ overridden nat [] (c_kw (scs_call [("max_iters", 9)])) "max_iters" 100 = 9.
Proof.
  exists vec_gen, (fun _ _ d => d), [scs_call [("max_iters", 7)]; scs_call [("max_iters", 9)]].
  split; [vm_compute; reflexivity|]. cbv zeta. split; [reflexivity|]. vm_compute. auto.
Qed.
Print Assumptions C50_scs_refuted.

(** What does hold for SCS: the settings are those of the call or those in effect before. *)
Theorem C50_scs_settings :
  forall (N : Num) (g : genc N) scr (sv : Type) enabled translation (dflt : string -> sv) converts w c w' lp,
  g_solver g = SCS lp ->
  py_solve N g scr sv enabled translation dflt converts w c = (w', None) ->
  forall n, In n enabled ->
  w_eff w' n = overridden sv translation (c_kw c) n (dflt n) \/ w_eff w' n = w_eff w n.
Proof. intros. eapply settings_at_init; eauto. rewrite H. reflexivity. Qed.
Print Assumptions C50_scs_settings.

Definition two_calls (s : solver) : wst ZRing nat * list (option exn) :=
  session ZRing (ex_gen s) (fun _ _ d => d) nat ["max_iter"; "eps_abs"] [("warm", "max_iter")]
          (fun n => if String.eqb n "max_iter" then 100 else 5) (fun _ _ => true)
          (w_init ZRing (ex_gen s) nat (fun n => if String.eqb n "max_iter" then 100 else 5))
          [scs_call [("eps_abs", 1)]; scs_call [("warm", 9)]].

(** The first call's eps_abs is back at its default in the second call. *)
Example C50_example :
  snd (two_calls OSQP) = [None; None] /\ w_eff (fst (two_calls OSQP)) "max_iter" = 9
  /\ w_eff (fst (two_calls OSQP)) "eps_abs" = 5
  /\ w_eff (fst (two_calls ECOS)) "max_iter" = 9 /\ w_eff (fst (two_calls ECOS)) "eps_abs" = 5.
Proof. vm_compute. auto. Qed.

(** ** C51: rejected calls *)

Theorem C51_rejected_call_has_no_effect :
  forall (N : Num) (g : genc N) scr (sv : Type) enabled translation (dflt : string -> sv) converts th0,
  wf_gen g th0 ->
  (g_solver g = ECOS -> forall p, In p (owned ECOS) -> length (g_rows g p) <> 1) ->
  (keeps (g_solver g) = true -> forall n p d, scr n p d = d) ->
  forall cs1 c cs2 w' e,
  let run := session N g scr sv enabled translation dflt converts in
  let w := fst (run (w_init N g sv dflt) cs1) in
  py_solve N g scr sv enabled translation dflt converts w c = (w', Some e) ->
  w_rst w' = w_rst w
  /\ snd (run w' cs2) = snd (run w cs2)
  /\ w_rst (fst (run w' cs2)) = w_rst (fst (run w cs2))
  /\ forall n, w_eff (fst (run w' cs2)) n = w_eff (fst (run w cs2)) n.
Proof. intros. eapply rejected_calls; eauto. Qed.
Print Assumptions C51_rejected_call_has_no_effect.

(** Unknown parameter name, unknown setting: AttributeError; and such calls exist. *)
Theorem C51_unknown_names_are_rejected :
  forall (N : Num) (g : genc N) scr (sv : Type) enabled translation (dflt : string -> sv) converts w c,
  (forall l, c_upd c = Some l -> (exists n, In n l /\ ~ In n (map fst (g_params g))) ->
     snd (py_solve N g scr sv enabled translation dflt converts w c) = Some AttributeError)
  /\ (c_upd c = None -> forall k v t, c_kw c = (k, v) :: t ->
      ~ In (own_name translation k) enabled -> own_name translation k <> "default_settings" ->
      snd (py_solve N g scr sv enabled translation dflt converts w c) = Some AttributeError).
Proof.
  intros. split.
  - intros l El (n & H1 & H2). unfold py_solve. rewrite El.
    destruct (forallb _ l) eqn:E; [|reflexivity].
    rewrite forallb_forall in E. specialize (E n H1). apply mem_str_In in E. contradiction.
  - intros El k v t Ek H1 H2. rewrite <- own_name_ok in H1, H2. unfold py_solve. rewrite El, Ek.
    destruct (forallb _ _); [|reflexivity]. cbn [set_kw].
    destruct (mem_str (setting_name translation k) enabled) eqn:E; [apply mem_str_In in E; contradiction|].
    apply String.eqb_neq in H2. rewrite H2. reflexivity.
Qed.
Print Assumptions C51_unknown_names_are_rejected.

Example C51_example :
  snd (py_solve ZRing (ex_gen OSQP) (fun _ _ d => d) nat ["max_iter"] [] (fun _ => 100) (fun _ _ => true)
         (w_init ZRing (ex_gen OSQP) nat (fun _ => 100)) (call_p [1; 1]%Z [1]%Z (Some ["nope"])))
  = Some AttributeError
  /\ snd (py_solve ZRing (ex_gen OSQP) (fun _ _ d => d) nat ["max_iter"] [] (fun _ => 100) (fun _ _ => true)
         (w_init ZRing (ex_gen OSQP) nat (fun _ => 100)) (scs_call [("max_iter", 3); ("rho", 1)]))
     = Some AttributeError.
Proof. vm_compute. auto. Qed.
