(** C80: the templates and the contexts they are rendered with. *)

From Coq Require Import String Ascii Arith Bool List Lia.
From Verif Require Import Base Config Template TemplateText TemplateSpec TemplateCheck TemplateCtx TemplateKinds TemplateProofs TemplateAll TemplateDefs.
Import ListNotations.
Open Scope string_scope.
Open Scope list_scope.

(** No file of any configuration uses a name its context does not hold: every template renders. *)
Theorem C80_renders : forall c, t_explicit c <= 2 ->
  forall f t x, In (f, t, x) (rendered c) -> exists s, render x t = Done s.
Proof. exact all_render. Qed.

(** Every rendered file has nesting brackets if the strings of the configuration have. *)
Theorem C80_brackets : forall c, t_explicit c <= 2 -> given nested c ->
  forall f t x s, In (f, t, x) (rendered c) -> render x t = Done s -> nested s.
Proof. exact all_nested. Qed.

(** The Python files are laid out in blocks. *)
Theorem C80_python : forall c, t_explicit c <= 2 -> python_fine c ->
  forall f t x s, In (f, t, x) (rendered c) -> In f ["__init__.py"; "setup.py"; "cpg_solver.py"] -> render x t = Done s -> py_layout s.
Proof. exact python_layout. Qed.

(** cpg_solver.py defines, at the beginning of lines, exactly the functions that compiler.py 38-40 registers (cpg_solve) and, with
    gradients, the ones a CVXPYlayers program imports (forward, backward), each once. *)
Theorem C80_functions : forall c, t_explicit c <= 2 -> one_line c ->
  exists s, render (solver_ctx c) solver_t = Done s /\ defs s = functions (t_gradient c).
Proof. exact solver_functions. Qed.

(** The entries of a solver never replace the ones of the configuration, and every solver gives the same names. *)
Lemma get_in : forall A (l : list (string * A)) x, get x l <> None <-> In x (map fst l).
Proof.
  induction l as [|[y v] l IH]; intros x; cbn [get map fst In]; [tauto|]. destruct (String.eqb y x) eqn:E.
  - apply String.eqb_eq in E. subst. split; [auto|discriminate].
  - rewrite IH. apply String.eqb_neq in E. tauto.
Qed.
Theorem C80_merge : forall c,
  (forall x v, In (x, v) (cmake_base c) -> get x (cmake_ctx c) = Some v) /\
  (forall x v, In (x, v) (setup_base c) -> get x (setup_ctx c) = Some v) /\
  (forall x, get x (cmake_extra c) <> None <-> get x cmake_default <> None) /\
  (forall x, get x (setup_extra c) <> None <-> get x setup_default <> None).
Proof.
  intros c. split; [|split; [|split]].
  - intros x v H. unfold cmake_ctx, cmake_extra. cbn [cmake_base In] in H.
    destruct H as [H|[H|[H|[H|[H|[]]]]]]; injection H as <- <-; destruct (t_if c); reflexivity.
  - intros x v [H|[]]. injection H as <- <-. unfold setup_ctx, setup_extra. destruct (t_if c); reflexivity.
  - intros x. rewrite !get_in. unfold cmake_extra, merge. destruct (t_if c); cbn [map app fst In cmake_default]; tauto.
  - intros x. rewrite !get_in. unfold setup_extra, merge. destruct (t_if c); cbn [map app fst In setup_default]; tauto.
Qed.

(** A name that is printed outside conditions and loops is needed: without it the file is not written. *)
Theorem C80_needed : forall l c x, In (Out (Nm x)) l -> get x c = None -> exists e, render c l = Fail e.
Proof.
  induction l as [|n l IH]; intros c x H G; [destruct H|]. cbn [render]. destruct H as [->|H].
  - cbn. rewrite G. cbn. eauto.
  - destruct (IH c x H G) as [e E]. destruct (rnode c n) as [s|e']; cbn [tbind]; [|eauto]. rewrite E. cbn. eauto.
Qed.

(** ** Concrete cases *)

Definition demo : tcfg :=
  mkT IOSQP "my_" true false 0 "my_code" "my_code" "OSQP" "November 16, 2026 at 20:23:15"
    [mkInfo "G" 6 (Some [2; 3]); mkInfo "h" 2 (Some [2])] [("G", false, "1.0"); ("h", false, "0.5")]
    [mkInfo "x" 3 (Some [3]); mkInfo "t" 1 (Some [])] [mkInfo "d0" 2 None; mkInfo "d1" 4 (Some [2; 2])]
    false false true 4 2 4 2 (fun _ => "void f(int a[]) { return; }"%string).

Example C80_given_example : given nested demo.
Proof.
  constructor; try (apply nested_word; reflexivity).
  - intros i H. cbn in H. repeat (destruct H as [H|H]); try contradiction; subst; apply nested_word; reflexivity.
  - intros n b v H. cbn in H. repeat (destruct H as [H|H]); try contradiction; injection H as <- <- <-; split; apply nested_word; reflexivity.
  - intros k. apply scan_nested. reflexivity.
Qed.
Lemma word_b : forall t, pplain t = true -> word t.
Proof.
  intros t H c I1 X. unfold pplain in H. rewrite forallb_forall in H. specialize (H c I1).
  cbn in X. repeat (destruct X as [<-|X]; [discriminate|]). exact X.
Qed.
Example C80_python_example : python_fine demo.
Proof.
  constructor; try (apply word_b; reflexivity).
  - cbn. intros H. repeat (destruct H as [H|H]; [discriminate|]). exact H.
  - intros i H. cbn in H. repeat (destruct H as [H|H]); try contradiction; subst; (split; [apply word_b; reflexivity|discriminate]).
  - intros n b v H. cbn in H. repeat (destruct H as [H|H]); try contradiction; injection H as <- <- <-;
      (split; [apply word_b; reflexivity|split; [discriminate|apply word_b; reflexivity]]).
Qed.
Example C80_one_line_example : one_line demo.
Proof.
  assert (X : forall t, dplain t = true -> no_newline t).
  { intros t H I1. unfold dplain in H. rewrite forallb_forall in H. specialize (H _ I1). discriminate. }
  constructor; try (apply X; reflexivity).
  - intros i H. cbn in H. repeat (destruct H as [H|H]); try contradiction; subst; apply X; reflexivity.
  - intros n b v H. cbn in H. repeat (destruct H as [H|H]); try contradiction; injection H as <- <- <-; split; apply X; reflexivity.
Qed.
(** All eleven files of the example are rendered. *)
Example C80_files_example : map (fun x => fst (fst x)) (rendered demo) =
  ["LICENSE"; "__init__.py"; "CMakeLists.txt"; "setup.py"; "cpg_osqp_grad_compute.c"; "cpg_osqp_grad_compute.h"; "cpg_osqp_grad_workspace.h";
   "cpg_example.c"; "cpg_module.hpp"; "cpg_solver.py"; "README.html"].
Proof. reflexivity. Qed.

(** The names for gradients are needed if the template is told so: rendering fails with a context that says gradient and
    lacks them. *)
Theorem C80_gradient_keys_refuted : exists c d,
  solver_ctx c = [("n_grad_var", VN (t_gn c)); ("n_grad_constr", VN (t_gcon c)); ("prim_name_to_size", sizes (t_vars c));
                  ("param_name_to_shape", shapes (t_params c))] ++ d
  /\ get "gradient" d = Some (VB true) /\ render d solver_t = Fail (Undefined "n_grad_var").
Proof. exists demo. eexists. split; [reflexivity|]. split; vm_compute; reflexivity. Qed.

(** Without the conditions on the strings the layout fails: a directory whose name has an apostrophe gives a Python file with
    a string that is not closed on its line. *)
Theorem C80_apostrophe_refuted : exists c s, t_explicit c <= 2 /\ t_dir_py c = "it's"%string
  /\ render (solver_ctx c) solver_t = Done s /\ ~ py_layout s.
Proof.
  exists (mkT IOSQP "" false false 0 "it's" "it's" "OSQP" "today" [] [] [] [] false false false 0 0 0 0 (fun _ => ""%string)).
  eexists. split; [cbn; lia|]. split; [reflexivity|]. split; [vm_compute; reflexivity|].
  intros [st [H _]]. vm_compute in H. discriminate.
Qed.
(** And a bracket in a given string that is not closed is not closed in the file. *)
Theorem C80_bracket_refuted : exists c s, t_explicit c <= 2 /\ render (example_ctx c) example_t = Done s /\ ~ nested s.
Proof.
  exists (mkT IOSQP "" false false 0 "" "" "OSQP" "today (" [] [] [] [] false false false 0 0 0 0 (fun _ => ""%string)).
  eexists. split; [cbn; lia|]. split; [vm_compute; reflexivity|].
  intros H. apply scan_nested in H. vm_compute in H. discriminate.
Qed.

Print Assumptions C80_renders.
Print Assumptions C80_brackets.
Print Assumptions C80_python.
Print Assumptions C80_functions.
Print Assumptions C80_merge.
Print Assumptions C80_needed.
Print Assumptions C80_gradient_keys_refuted.
Print Assumptions C80_apostrophe_refuted.
Print Assumptions C80_bracket_refuted.
