(** Property C72: the Python binding. *)

From Coq Require Import String Ascii Arith Bool Lia List ZArith.
From Verif Require Import Base Pus Machine Runtime RuntimeProofs Retrieve RetrieveProofs Config Symbols SymbolsProofs CTypes Wrapper ExplicitVars CExampleProofs.
From Verif Require Import Binding BindingSpec BindingProofs BindingProofs2 BindingProofs3 BindingProofs4.
Import ListNotations.
Open Scope string_scope.
Open Scope list_scope.

(** ** Compilation *)

(** The C++ file compiles exactly if all names are identifiers C++ does not reserve, no parameter is
    empty, no variable (explicit mode: it may be) or returned dual variable is empty, and the
    gradient code is not two-stage. *)
Theorem C72_compiles : forall x, binding_ok x -> (compiles x = true <-> binding_cond x).
Proof. intros x H. now apply compiles_iff. Qed.

(** Then the attributes of the module and of its classes that cpg_solver.py uses exist. *)
Theorem C72_uses : forall x,
  (forall n, In n (uses_module x) -> In n (offers x))
  /\ (forall c l a, In (c, l) (uses_attrs x) -> In a l -> In a (attrs_of x c)).
Proof. exact uses_offered. Qed.

Definition b_grad : bin :=
  mkBin IOSQP "p_" 0 true [("A", 2); ("b", 1)] [("x", 2); ("s", 1)] (fun _ => []) [("d0", 1)] 3 1 ["max_iter"].
Definition b_expl : bin :=
  mkBin IOSQP "" 1 true [("b", 1); ("c", 2)] [("x", 3); ("s", 1)]
        (fun n => if String.eqb n "x" then [Some 1; None; Some 0] else [Some 0]) [("d0", 2)] 3 1 [].

Example C72_example_compiles : compiles b_grad = true /\ binding_cond b_grad /\ compiles b_expl = true.
Proof.
  split; [vm_compute; reflexivity|]. split; [|vm_compute; reflexivity].
  unfold binding_cond. cbn. split; [|split; [|split; [|split]]].
  - intros n k H. repeat destruct H as [[= <- <-]|H]; try reflexivity. destruct H.
  - intros n k H. repeat destruct H as [[= <- <-]|H]; try discriminate. destruct H.
  - intros _ n k H. repeat destruct H as [[= <- <-]|H]; try discriminate. destruct H.
  - intros _ n k H. repeat destruct H as [[= <- <-]|H]; try discriminate. destruct H.
  - reflexivity.
Qed.
Lemma nodup_dec : forall l, distinct l = true -> NoDup l.
Proof.
  induction l as [|a l IH]; cbn; intro H; constructor.
  - apply andb_true_iff in H as [H _]. apply negb_true_iff in H. intro Q. apply mem_str_In in Q. congruence.
  - apply andb_true_iff in H as [_ H]. auto.
Qed.
Example C72_example_ok : binding_ok b_expl.
Proof.
  split; try (apply nodup_dec; reflexivity).
  - intros _ v p Hv Hp. cbn in Hv, Hp. repeat destruct Hv as [<-|Hv]; try destruct Hv; repeat destruct Hp as [<-|Hp]; try destruct Hp; discriminate.
  - intros v Hv. cbn in Hv. repeat destruct Hv as [<-|Hv]; try destruct Hv; reflexivity.
Qed.

(** Gradients with any solver but OSQP, outside explicit mode: the binding never compiles (it
    uses sol_x and sol_y, but gradient_<prefix>sol_x and gradient_<prefix>sol_y are declared). *)
Theorem C72_two_stage_never : forall x, binding_ok x ->
  n_gradient x = true -> n_explicit x = 0 -> n_if x <> IOSQP -> compiles x = false.
Proof.
  intros x HX G E N. destruct (compiles x) eqn:C; [|reflexivity]. apply C72_compiles in C; auto.
  destruct C as (_ & _ & _ & _ & C). exfalso. auto.
Qed.
Definition b_two : bin :=
  mkBin ISCS "" 0 true [("b", 1)] [("x", 2)] (fun n => [None; None]) [("d0", 1)] 3 1 [].
Lemma b_two_ok : binding_ok b_two.
Proof.
  split; try (apply nodup_dec; reflexivity).
  - intros _ v p Hv Hp. cbn in Hv, Hp. repeat destruct Hv as [<-|Hv]; try destruct Hv; repeat destruct Hp as [<-|Hp]; try destruct Hp; discriminate.
  - intros v Hv. cbn in Hv. repeat destruct Hv as [<-|Hv]; try destruct Hv; reflexivity.
Qed.
Theorem C72_two_stage_refuted : exists x, binding_ok x /\ n_gradient x = true
  /\ (forall n k, In (n, k) (n_params x ++ n_vars x ++ n_duals x) -> cpp_name n = true /\ k <> 0) /\ compiles x = false.
Proof.
  exists b_two. split; [exact b_two_ok|]. split; [reflexivity|]. split; [|vm_compute; reflexivity].
  intros n k H. cbn in H. repeat destruct H as [[= <- <-]|H]; try (split; [reflexivity|discriminate]). destruct H.
Qed.

Definition b_params (ps : list (string * nat)) : bin := mkBin IOSQP "" 0 false ps [("x", 2)] (fun n => [None; None]) [("d0", 1)] 0 0 [].
Lemma b_params_ok : forall ps, distinct (map fst ps) = true -> binding_ok (b_params ps).
Proof.
  intros ps H. split.
  - now apply nodup_dec.
  - apply nodup_dec; reflexivity.
  - apply nodup_dec; reflexivity.
  - discriminate.
  - intros v Hv. cbn in Hv. repeat destruct Hv as [<-|Hv]; try destruct Hv; reflexivity.
Qed.
(** An empty parameter, or one with the name of a C++ keyword, and the file does not compile. *)
Theorem C72_empty_refuted : exists x, binding_ok x /\ In ("b", 0) (n_params x) /\ n_gradient x = false /\ compiles x = false.
Proof. exists (b_params [("b", 0)]). split; [now apply b_params_ok|]. split; [now left|]. split; vm_compute; reflexivity. Qed.
Theorem C72_keyword_refuted : exists x, binding_ok x /\ In ("new", 1) (n_params x) /\ n_gradient x = false /\ compiles x = false.
Proof. exists (b_params [("new", 1)]). split; [now apply b_params_ok|]. split; [now left|]. split; vm_compute; reflexivity. Qed.
(** A parameter called lambda: the C++ file compiles, cpg_solver.py cannot be parsed. *)
Theorem C72_lambda_refuted : exists x, binding_ok x /\ In ("lambda", 1) (n_params x) /\ compiles x = true /\ parses x = false.
Proof. exists (b_params [("lambda", 1)]). split; [now apply b_params_ok|]. split; [now left|]. split; vm_compute; reflexivity. Qed.

(** ** solve *)

(** solve makes exactly the calls [solve_calls] and returns what the C program then holds; it fails
    only if one of them fails. *)
Theorem C72_solve : forall x V (v0 : V) S (L : clib V S) clock flag vals upd par s s' r,
  binding_ok x ->
  (forall n k, In (n, k) (n_vars x ++ n_duals x) -> k <> 0) ->
  holds_flags V (n_params x) flag upd -> holds_fields V (n_params x) vals par ->
  (run_solve x v0 L clock upd par s = Ok (s', r)
   <-> do_calls V S L (solve_calls x V flag vals) s = Ok s' /\ solve_holds x V v0 S L clock s' r).
Proof.
  intros x V v0 S L clock flag vals upd par s s' r HX HS -> [-> HP].
  rewrite (solve_run x HX V v0 S L clock flag vals).
  - rewrite bind_ok. split.
    + intros (s1 & H1 & H). apply bind_ok in H as (w & H2 & H). injection H as -> ->. split; auto. now apply result_ok.
    + intros [H1 H2]. exists s'. split; auto. apply bind_ok. exists r. split; auto. now apply result_ok.
  - exact HP.
  - intros [n k] H. apply (HS n k). apply in_app_iff. now left.
  - intros [n k] H. apply (HS n k). apply in_app_iff. now right.
Qed.
Theorem C72_solve_fails : forall x V (v0 : V) S (L : clib V S) clock flag vals upd par s e,
  binding_ok x ->
  (forall n k, In (n, k) (n_vars x ++ n_duals x) -> k <> 0) ->
  holds_flags V (n_params x) flag upd -> holds_fields V (n_params x) vals par ->
  do_calls V S L (solve_calls x V flag vals) s = Err e -> run_solve x v0 L clock upd par s = Err e.
Proof.
  intros x V v0 S L clock flag vals upd par s e HX HS -> [-> HP] HC.
  rewrite (solve_run x HX V v0 S L clock flag vals).
  - now rewrite HC.
  - exact HP.
  - intros [n k] H. apply (HS n k). apply in_app_iff. now left.
  - intros [n k] H. apply (HS n k). apply in_app_iff. now right.
Qed.

(** With the functions of a generated program, these calls are the update and solve operations of
    Wrapper.v. *)
Theorem C72_program : forall x (N : Num) (g : genc N) scr (L : clib (car N) (rst N)) (v0 clock : car N) flag vals upd par s s' r,
  binding_ok x -> program_lib x N g scr L ->
  (forall n k, In (n, k) (n_vars x ++ n_duals x) -> k <> 0) ->
  holds_flags (car N) (n_params x) flag upd -> holds_fields (car N) (n_params x) vals par ->
  (run_solve x v0 L clock upd par s = Ok (s', r)
   <-> steps g scr s (upd_ops N flag (map (fun p => (fst p, vals (fst p))) (n_params x)) ++ [OSolve]) = Ok s'
       /\ solve_holds x (car N) v0 (rst N) L clock s' r).
Proof.
  intros x N g scr L v0 clock flag vals upd par s s' r HX (P1 & P2 & P3) HS HF HP.
  rewrite (C72_solve x (car N) v0 (rst N) L clock flag vals upd par s s' r HX HS HF HP).
  assert (E : do_calls (car N) (rst N) L (solve_calls x (car N) flag vals) s
              = steps g scr s (upd_ops N flag (map (fun p => (fst p, vals (fst p))) (n_params x)) ++ [OSolve])); [|now rewrite E].
  destruct HP as [_ HL]. unfold solve_calls, upd_ops.
  assert (SA : forall a b t, steps g scr t (a ++ b) = (t' <- steps g scr t a;; steps g scr t' b)).
  { induction a as [|o a IH]; intros; [reflexivity|]. cbn [app steps]. rewrite bind_assoc3. apply bind_ext3. auto. }
  rewrite calls_app, SA.
  assert (HO : forall p, In p (n_params x) -> forall t,
    do_calls (car N) (rst N) L (hand_over (car N) (n_prefix x ++ "cpg_update_" ++ fst p)%string (vals (fst p))) t
    = steps g scr t (map (fun iv => OUpd (fst p) (fst iv) (snd iv)) (combine (seq 0 (length (vals (fst p)))) (vals (fst p))))).
  { intros p Hp. destruct (Nat.eq_dec (snd p) 1) as [E|E].
    - destruct (one_or _ (vals (fst p))) as [a Ha]; [rewrite HL; auto|]. rewrite Ha. intro t. cbn [hand_over do_calls length seq combine map steps step fst snd]. now rewrite P1.
    - rewrite hand_more by (rewrite HL; auto). intro t.
      generalize (combine (seq 0 (length (vals (fst p)))) (vals (fst p))). intro l. revert t.
      induction l as [|[k v] l IH]; intro t; [reflexivity|]. cbn [map do_calls steps step fst snd]. rewrite P2 by auto. apply bind_ext3. apply IH. }
  assert (G : forall ps, (forall p, In p ps -> In p (n_params x)) -> forall t,
    do_calls (car N) (rst N) L (flat_map (fun p => if flag (fst p) then hand_over (car N) (n_prefix x ++ "cpg_update_" ++ fst p)%string (vals (fst p)) else []) ps) t
    = steps g scr t (flat_map (fun nl : string * list (car N) => if flag (fst nl)
                        then map (fun iv => OUpd (fst nl) (fst iv) (snd iv)) (combine (seq 0 (length (snd nl))) (snd nl))
                        else []) (map (fun p => (fst p, vals (fst p))) ps))).
  { induction ps as [|p ps IH]; intros HI t; [reflexivity|]. cbn [flat_map map fst snd]. rewrite calls_app, SA.
    destruct (flag (fst p)).
    - rewrite HO by auto with datatypes. apply bind_ext3. intro t'. apply IH. auto with datatypes.
    - cbn [do_calls steps bind]. apply IH. auto with datatypes. }
  rewrite G by auto. apply bind_ext3. intro t. cbn [do_calls steps step]. rewrite P3. reflexivity.
Qed.

(** ** gradient *)

(** In the other modes gradient first writes the solution it was given (if any) into sol_x and
    sol_y, then hands over the derivatives of all variables, runs the gradient, and returns
    CPG_Delta. *)
Theorem C72_gradient : forall x V (v0 : V) S (L : clib V S) clock vals a b use vdelta s s' r,
  binding_ok x -> n_gradient x = true -> n_explicit x = 0 ->
  (forall n k, In (n, k) (n_params x) -> k <> 0) ->
  holds_fields V (n_vars x) vals vdelta -> length a = n_nvar x -> length b = n_ncon x ->
  (run_gradient x v0 L clock vdelta (VRec [("primal", VArr a); ("dual", VArr b)]) use s = Ok (s', r)
   <-> exists s1,
       (if use then do_sets V S L (set_all V "sol_x" a ++ set_all V "sol_y" b) s = Ok s1 else s1 = s)
       /\ do_calls V S L (gradient_calls x V vals) s1 = Ok s'
       /\ c_record V v0 S L (n_prefix x ++ "CPG_Delta")%string (n_params x) (Some 0) (fun p => all_of (snd p)) s' r).
Proof.
  intros x V v0 S L clock vals a b use vdelta s s' r HX HG HE HP [-> HV] Ha Hb.
  assert (E : expl x = false) by now apply expl_false.
  fold (vrec x V vals).
  rewrite (gradient_run x HX V v0 S L clock vals use HV HG).
  2:{ intros [n k] Hp. now apply (HP n k). }
  2:{ intros _. eauto. }
  unfold sol_sets. rewrite E. rewrite bind_ok. split.
  - intros (s1 & H1 & H). exists s1. apply bind_ok in H as (s2 & H2 & H). apply bind_ok in H as (ws & H3 & H). injection H as -> <-.
    split; [destruct use; [exact H1|now injection H1]|]. split; [exact H2|].
    apply (proj1 (rec_holds V v0 S L _ _ (Some 0) (fun p => all_of (snd p)) s' _ (fun n _ _ => all_len (snd n)))). eauto.
  - intros (s1 & H1 & H2 & H3). exists s1. split; [destruct use; [exact H1|now subst]|].
    apply bind_ok. exists s'. split; [exact H2|].
    apply (proj2 (rec_holds V v0 S L _ _ (Some 0) (fun p => all_of (snd p)) s' _ (fun n _ _ => all_len (snd n)))) in H3 as (ws & H3 & ->).
    apply bind_ok. eauto.
Qed.
(** In explicit mode it writes the region it was given, and hands over the stored entries only. *)
Theorem C72_gradient_explicit : forall x V (v0 : V) S (L : clib V S) clock vals region use vdelta s s' r,
  binding_ok x -> n_gradient x = true -> n_explicit x <> 0 ->
  (forall n k, In (n, k) (n_params x) -> k <> 0) ->
  holds_fields V (n_vars x) vals vdelta ->
  (run_gradient x v0 L clock vdelta region use s = Ok (s', r)
   <-> exists s1,
       (if use then c_set L "pdaqp_active_region" None region s = Ok s1 else s1 = s)
       /\ do_calls V S L (gradient_calls x V vals) s1 = Ok s'
       /\ c_record V v0 S L (n_prefix x ++ "CPG_Delta")%string (n_params x) (Some 0) (fun p => all_of (snd p)) s' r).
Proof.
  intros x V v0 S L clock vals region use vdelta s s' r HX HG HE HP [-> HV].
  assert (E : expl x = true) by now apply expl_true.
  fold (vrec x V vals).
  rewrite (gradient_run x HX V v0 S L clock vals use HV HG).
  2:{ intros [n k] Hp. now apply (HP n k). }
  2:{ intro Q. congruence. }
  unfold sol_sets. rewrite E. cbn [do_sets]. rewrite bind_ok. split.
  - intros (s1 & H1 & H). exists s1. apply bind_ok in H as (s2 & H2 & H). apply bind_ok in H as (ws & H3 & H). injection H as -> <-.
    split; [destruct use; [now apply bind_ok in H1 as (t & H1 & [= <-])|now injection H1]|]. split; [exact H2|].
    apply (proj1 (rec_holds V v0 S L _ _ (Some 0) (fun p => all_of (snd p)) s' _ (fun n _ _ => all_len (snd n)))). eauto.
  - intros (s1 & H1 & H2 & H3). exists s1. split; [destruct use; [rewrite H1; reflexivity|now subst]|].
    apply bind_ok. exists s'. split; [exact H2|].
    apply (proj2 (rec_holds V v0 S L _ _ (Some 0) (fun p => all_of (snd p)) s' _ (fun n _ _ => all_len (snd n)))) in H3 as (ws & H3 & ->).
    apply bind_ok. eauto.
Qed.

(** ** Examples *)

(** A C program that records its calls; entry k of any object is the number of calls times 10 plus k. *)
Definition tlog := list (string * list (cval nat)).
Definition tlib : clib nat tlog :=
  mkLib (fun f l s => Ok (s ++ [(f, l)]))
        (fun o m k s => Ok (VNum (length s * 10 + match k with Some j => j | None => 0 end)))
        (fun o k v s => Ok (s ++ [(append "set " o, [CVal v])])).

Example C72_example_solve :
  run_solve b_expl 0 tlib 7 (VRec [("b", VBool false); ("c", VBool true)]) (VRec [("b", VNum 5); ("c", VArr [8; 9])]) []
  = Ok ([("cpg_update_c", [CIx 0; CVal (VNum 8)]); ("cpg_update_c", [CIx 1; CVal (VNum 9)]); ("cpg_solve", [])],
        VRec [("prim", VRec [("x", VArr [31; 0; 30]); ("s", VNum 30)]); ("info", VRec [("time", VNum 7); ("region", VNum 30)])]).
Proof. vm_compute. reflexivity. Qed.
Example C72_example_holds :
  holds_flags nat (n_params b_expl) (fun n => String.eqb n "c") (VRec [("b", VBool false); ("c", VBool true)])
  /\ holds_fields nat (n_params b_expl) (fun n => if String.eqb n "b" then [5] else [8; 9]) (VRec [("b", VNum 5); ("c", VArr [8; 9])])
  /\ forall n k, In (n, k) (n_vars b_expl ++ n_duals b_expl) -> k <> 0.
Proof.
  split; [reflexivity|]. split.
  - split; [reflexivity|]. intros n H. cbn in H. repeat destruct H as [<-|H]; try destruct H; reflexivity.
  - intros n k H. cbn in H. repeat destruct H as [[= <- <-]|H]; try discriminate. destruct H.
Qed.
Example C72_example_gradient :
  run_gradient b_grad 0 tlib 7 (VRec [("x", VArr [1; 2]); ("s", VNum 3)]) (VRec [("primal", VArr [4; 5; 6]); ("dual", VArr [7])]) true []
  = Ok ([("set sol_x", [CVal (VNum 4)]); ("set sol_x", [CVal (VNum 5)]); ("set sol_x", [CVal (VNum 6)]); ("set sol_y", [CVal (VNum 7)]);
         ("p_cpg_update_dx", [CIx 0; CVal (VNum 1)]); ("p_cpg_update_dx", [CIx 1; CVal (VNum 2)]); ("p_cpg_update_ds", [CVal (VNum 3)]);
         ("p_cpg_gradient", [])],
        VRec [("A", VArr [80; 81]); ("b", VNum 80)])
  /\ run_gradient b_expl 0 tlib 7 (VRec [("x", VArr [1; 2; 3]); ("s", VNum 4)]) (VNum 2) false []
     = Ok ([("cpg_update_dx", [CIx 1; CVal (VNum 1)]); ("cpg_update_dx", [CIx 0; CVal (VNum 3)]); ("cpg_update_ds", [CVal (VNum 4)]); ("cpg_gradient", [])],
           VRec [("b", VNum 40); ("c", VArr [40; 41])]).
Proof. split; vm_compute; reflexivity. Qed.

(** The functions of any generated program can be called by the binding. *)
Definition prog_lib (x : bin) (N : Num) (g : genc N) scr : clib (car N) (rst N) :=
  mkLib (fun f l s =>
           if String.eqb f (n_prefix x ++ "cpg_solve")%string then do_solve g scr s
           else match find (fun p => String.eqb f (n_prefix x ++ "cpg_update_" ++ fst p)%string) (n_params x) with
                | Some p => match l with
                            | [CVal (VNum v)] => do_update g s (fst p) 0 v
                            | [CIx k; CVal (VNum v)] => do_update g s (fst p) k v
                            | _ => Err TypeError
                            end
                | None => Err TypeError
                end)
        (fun o m k s => Ok (VNum n0)) (fun o k v s => Ok s).
Example C72_example_program : forall x N g scr, binding_ok x -> program_lib x N g scr (prog_lib x N g scr).
Proof.
  intros x N g scr HX.
  assert (F : forall p, In p (n_params x) ->
    find (fun q => String.eqb (n_prefix x ++ "cpg_update_" ++ fst p)%string (n_prefix x ++ "cpg_update_" ++ fst q)%string) (n_params x) = Some p).
  { intros p Hp. pose proof (bo_params x HX) as ND. induction (n_params x) as [|q l IH]; [destruct Hp|].
    cbn [map] in ND. inversion ND as [|? ? N1 N2]; subst. cbn [find]. rewrite !pfx_eqb.
    destruct Hp as [->|Hp]; [now rewrite String.eqb_refl|].
    destruct (String.eqb_spec (fst p) (fst q)) as [E|E]; [exfalso; apply N1; rewrite <- E; now apply in_map|auto]. }
  assert (U : forall n, String.eqb (n_prefix x ++ "cpg_update_" ++ n)%string (n_prefix x ++ "cpg_solve")%string = false) by (intro; rewrite pfx_eqb; reflexivity).
  split; [|split].
  - intros p v s Hp _. cbn [c_call prog_lib]. now rewrite U, F.
  - intros p k v s Hp _. cbn [c_call prog_lib]. now rewrite U, F.
  - intro s. cbn [c_call prog_lib]. now rewrite String.eqb_refl.
Qed.

Print Assumptions C72_compiles.
Print Assumptions C72_uses.
Print Assumptions C72_two_stage_never.
Print Assumptions C72_two_stage_refuted.
Print Assumptions C72_empty_refuted.
Print Assumptions C72_keyword_refuted.
Print Assumptions C72_lambda_refuted.
Print Assumptions C72_solve.
Print Assumptions C72_solve_fails.
Print Assumptions C72_program.
Print Assumptions C72_gradient.
Print Assumptions C72_gradient_explicit.
