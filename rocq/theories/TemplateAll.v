(** Every file of every configuration passes the checks; what the contexts merge. *)

From Coq Require Import String Ascii Arith Bool List Lia.
From Verif Require Import Base Config Template TemplateText TemplateSpec TemplateCheck TemplateCtx TemplateKinds TemplateProofs.
Import ListNotations.
Open Scope string_scope.
Open Scope list_scope.

Definition explicits : list nat := [0; 1; 2].
Definition bools : list bool := [true; false].
Definition ifaces : list iface := [IOSQP; ISCS; IECOS; ICLARABEL; IQOCO; IQOCOGEN; IPDAQP].
Lemma in_explicits : forall e, e <= 2 -> In e explicits.
Proof. intros e H. cbn. lia. Qed.
Lemma in_bools : forall b, In b bools.
Proof. intros []; cbn; auto. Qed.
Lemma in_ifaces : forall i, In i ifaces.
Proof. intros []; cbn; auto 10. Qed.

(** The kinds of every file; the extra keys of CMakeLists.txt and setup.py depend on few entries of the configuration. *)
Definition cmakes : list (list (string * val)) :=
  flat_map (fun i => flat_map (fun s => map (fun v => cmake_extra (mkT i "" false false 0 "" "" "" "" [] [] [] [] s false v 0 0 0 0 (fun _ => ""%string))) bools) bools) ifaces.
Definition setups : list (list (string * val)) :=
  flat_map (fun i => map (fun m => setup_extra (mkT i "" false false 0 "" "" "" "" [] [] [] [] false m false 0 0 0 0 (fun _ => ""%string))) bools) ifaces.
Lemma in_cmakes : forall c, In (cmake_extra c) cmakes.
Proof.
  intros c. unfold cmakes. apply in_flat_map. exists (t_if c). split; [apply in_ifaces|]. apply in_flat_map. exists (t_sdp c).
  split; [apply in_bools|]. apply in_map_iff. exists (t_verbose c). split; [reflexivity|apply in_bools].
Qed.
Lemma in_setups : forall c, In (setup_extra c) setups.
Proof.
  intros c. unfold setups. apply in_flat_map. exists (t_if c). split; [apply in_ifaces|]. apply in_map_iff. exists (t_mac c).
  split; [reflexivity|apply in_bools].
Qed.

Section Scan.
  Variables (St : Type) (chk1 : kctx -> list node -> St -> option St) (s0 : St) (good : option St -> bool).
  Definition all_cmake : bool :=
    forallb (fun x => forallb (fun g => forallb (fun ts => forallb (fun e => good (chk1 (k_cmake g ts e x) cmake_t s0)) explicits) bools) bools) cmakes.
  Definition all_setup : bool := forallb (fun x => good (chk1 (k_setup x) setup_t s0)) setups.
  Definition all_example : bool := forallb (fun g => forallb (fun e => good (chk1 (k_example g e) example_t s0)) explicits) bools.
  Definition all_hpp : bool := forallb (fun g => forallb (fun e => forallb (fun b => good (chk1 (k_hpp g e b) hpp_t s0)) bools) explicits) bools.
  Definition all_solver : bool := forallb (fun i => forallb (fun g => forallb (fun e => good (chk1 (k_solver i g e) solver_t s0)) explicits) bools) ifaces.
  Definition all_readme : bool := forallb (fun g => forallb (fun b => good (chk1 (k_readme g b) readme_t s0)) bools) bools.
  Definition all_grad : bool := forallb (fun b => good (chk1 (k_gradc b) gradc_t s0)) bools && good (chk1 [] gradh_t s0) && good (chk1 k_gradws gradws_t s0).
  Definition all_plain : bool := good (chk1 [] license_t s0) && good (chk1 [] init_t s0).

  Lemma use_cmake : all_cmake = true -> forall c, t_explicit c <= 2 ->
    good (chk1 (k_cmake (t_gradient c) (t_two c) (t_explicit c) (cmake_extra c)) cmake_t s0) = true.
  Proof.
    intros H c E. unfold all_cmake in H. rewrite forallb_forall in H. specialize (H _ (in_cmakes c)).
    rewrite forallb_forall in H. specialize (H _ (in_bools (t_gradient c))). rewrite forallb_forall in H.
    specialize (H _ (in_bools (t_two c))). rewrite forallb_forall in H. exact (H _ (in_explicits _ E)).
  Qed.
  Lemma use_setup : all_setup = true -> forall c, good (chk1 (k_setup (setup_extra c)) setup_t s0) = true.
  Proof. intros H c. unfold all_setup in H. rewrite forallb_forall in H. exact (H _ (in_setups c)). Qed.
  Lemma use_example : all_example = true -> forall c, t_explicit c <= 2 -> good (chk1 (k_example (t_gradient c) (t_explicit c)) example_t s0) = true.
  Proof.
    intros H c E. unfold all_example in H. rewrite forallb_forall in H. specialize (H _ (in_bools (t_gradient c))).
    rewrite forallb_forall in H. exact (H _ (in_explicits _ E)).
  Qed.
  Lemma use_hpp : all_hpp = true -> forall c, t_explicit c <= 2 ->
    good (chk1 (k_hpp (t_gradient c) (t_explicit c) (status_is_int (t_if c))) hpp_t s0) = true.
  Proof.
    intros H c E. unfold all_hpp in H. rewrite forallb_forall in H. specialize (H _ (in_bools (t_gradient c))).
    rewrite forallb_forall in H. specialize (H _ (in_explicits _ E)). rewrite forallb_forall in H. exact (H _ (in_bools _)).
  Qed.
  Lemma use_solver : all_solver = true -> forall c, t_explicit c <= 2 ->
    good (chk1 (k_solver (t_if c) (t_gradient c) (t_explicit c)) solver_t s0) = true.
  Proof.
    intros H c E. unfold all_solver in H. rewrite forallb_forall in H. specialize (H _ (in_ifaces (t_if c))).
    rewrite forallb_forall in H. specialize (H _ (in_bools (t_gradient c))). rewrite forallb_forall in H. exact (H _ (in_explicits _ E)).
  Qed.
  Lemma use_readme : all_readme = true -> forall c, good (chk1 (k_readme (t_gradient c) (t_two c)) readme_t s0) = true.
  Proof.
    intros H c. unfold all_readme in H. rewrite forallb_forall in H. specialize (H _ (in_bools (t_gradient c))).
    rewrite forallb_forall in H. exact (H _ (in_bools _)).
  Qed.
  Lemma use_gradc : all_grad = true -> forall c, good (chk1 (k_gradc (t_two c)) gradc_t s0) = true.
  Proof.
    intros H c. unfold all_grad in H. apply andb_true_iff in H. destruct H as [H _]. apply andb_true_iff in H. destruct H as [H _].
    rewrite forallb_forall in H. exact (H _ (in_bools _)).
  Qed.
  Lemma use_gradh : all_grad = true -> good (chk1 [] gradh_t s0) = true.
  Proof. intros H. unfold all_grad in H. apply andb_true_iff in H. destruct H as [H _]. now apply andb_true_iff in H. Qed.
  Lemma use_gradws : all_grad = true -> good (chk1 k_gradws gradws_t s0) = true.
  Proof. intros H. unfold all_grad in H. now apply andb_true_iff in H. Qed.
End Scan.

(** ** Rendering *)

Definition isSome {A} (o : option A) : bool := match o with Some _ => true | None => false end.
Notation U := (abs unit (fun _ s => Some s) (fun _ _ => true) (fun _ s => s)).
Notation UP := (plain_in unit (fun _ s => Some s) (fun _ _ => true) (fun _ s => s)).
Lemma u_plain : forall n t, UP n t.
Proof. intros n t s _. reflexivity. Qed.
Lemma u_sound : forall l c k, U c k -> isSome (uchk k l tt) = true -> exists s, render c l = Done s.
Proof.
  intros l c k A H. destruct (uchk k l tt) as [st|] eqn:E; [|discriminate].
  edestruct (chk_sound unit (fun _ s => Some s) (fun _ _ => true) (fun _ s => s) (fun _ => true) unit_dec) with (trims := true) (l := l)
    as [s [R _]]; try exact E; try exact A; eauto using u_plain.
Qed.
Lemma u_fine : forall c, fine unit (fun _ s => Some s) (fun _ _ => true) (fun _ s => s) c.
Proof. intros c. constructor; intros; repeat split; intros ?; reflexivity. Qed.
Lemma u_fine_readme : forall c, fine_readme unit (fun _ s => Some s) (fun _ _ => true) (fun _ s => s) c.
Proof. intros c. constructor; intros; intros ?; reflexivity. Qed.

Theorem all_render : forall c, t_explicit c <= 2 -> forall f t x, In (f, t, x) (rendered c) -> exists s, render x t = Done s.
Proof.
  intros c E f t x H.
  assert (X : all_cmake unit uchk tt isSome = true /\ all_setup unit uchk tt isSome = true /\ all_example unit uchk tt isSome = true
    /\ all_hpp unit uchk tt isSome = true /\ all_solver unit uchk tt isSome = true /\ all_readme unit uchk tt isSome = true
    /\ all_grad unit uchk tt isSome = true /\ all_plain unit uchk tt isSome = true) by (vm_compute; auto 20).
  destruct X as [X1 [X2 [X3 [X4 [X5 [X6 [X7 X8]]]]]]]. pose proof (u_fine c) as F. pose proof (u_fine_readme c) as R.
  assert (SO : UP 0 "sol_x"%string /\ UP 0 "sol_y"%string) by (split; apply u_plain).
  assert (E0 : U [] []) by (intros ? ?; discriminate).
  apply andb_true_iff in X8.
  unfold rendered in H. apply in_app_or in H. destruct H as [H|H]; [|apply in_app_or in H; destruct H as [H|H]].
  - cbn [In] in H. destruct H as [H|[H|[H|[H|[]]]]]; injection H as <- <- <-.
    + exact (u_sound _ _ _ E0 (proj1 X8)).
    + exact (u_sound _ _ _ E0 (proj2 X8)).
    + exact (u_sound _ _ _ (fits_abs _ _ _ _ _ _ (fits_cmake _ _ _ _ c F)) (use_cmake _ _ _ _ X1 c E)).
    + exact (u_sound _ _ _ (fits_abs _ _ _ _ _ _ (fits_setup _ _ _ _ c F)) (use_setup _ _ _ _ X2 c)).
  - destruct (t_gradient c && (t_explicit c =? 0)%nat); [|destruct H]. cbn [In] in H. destruct H as [H|[H|[H|[]]]]; injection H as <- <- <-.
    + exact (u_sound _ _ _ (fits_abs _ _ _ _ _ _ (fits_gradc _ _ _ _ c F SO)) (use_gradc _ _ _ _ X7 c)).
    + exact (u_sound _ _ _ E0 (use_gradh _ _ _ _ X7)).
    + exact (u_sound _ _ _ (fits_abs _ _ _ _ _ _ (fits_gradws _ _ _ _ c F)) (use_gradws _ _ _ _ X7)).
  - cbn [In] in H. destruct H as [H|[H|[H|[H|[]]]]]; injection H as <- <- <-.
    + exact (u_sound _ _ _ (fits_abs _ _ _ _ _ _ (fits_example _ _ _ _ c F)) (use_example _ _ _ _ X3 c E)).
    + exact (u_sound _ _ _ (fits_abs _ _ _ _ _ _ (fits_hpp _ _ _ _ c F)) (use_hpp _ _ _ _ X4 c E)).
    + exact (u_sound _ _ _ (fits_abs _ _ _ _ _ _ (fits_solver _ _ _ _ c F)) (use_solver _ _ _ _ X5 c E)).
    + exact (u_sound _ _ _ (fits_abs _ _ _ _ _ _ (fits_readme _ _ _ _ c F R)) (use_readme _ _ _ _ X6 c)).
Qed.

(** ** Brackets *)

Notation BP := (plain_in (list ascii) bscan bcls (fun _ s => s)).
Notation B := (abs (list ascii) bscan bcls (fun _ s => s)).
Lemma b_plain : forall n t, nested t -> BP n t.
Proof. intros n t H s _. now apply nested_scan. Qed.
Definition isNil (o : option (list ascii)) : bool := match o with Some [] => true | _ => false end.
Lemma b_sound : forall l c k s, render c l = Done s -> B c k -> isNil (bchk k l []) = true -> nested s.
Proof.
  intros l c k s0 D A H. destruct (bchk k l []) as [[|]|] eqn:E; try discriminate.
  edestruct (chk_sound (list ascii) bscan bcls (fun _ s => s) bplain list_ascii_dec) with (trims := true) (l := l)
    as [s [R Q]]; try exact E; try exact A.
  - reflexivity.
  - apply bscan_app.
  - reflexivity.
  - intros t P1 st _. now apply bplain_ok.
  - intros n st _. apply bdec.
  - intros _ t P1 st _. rewrite brtrim, bltrim. now apply P1.
  - rewrite D in R. injection R as ->. now apply scan_nested.
Qed.
Lemma nested_app : forall a b, nested a -> nested b -> nested (a ++ b)%string.
Proof. intros a b H1 H2. apply scan_nested. rewrite bscan_app, (nested_scan a H1). now apply nested_scan. Qed.
Lemma nested_word : forall t, bplain t = true -> nested t.
Proof. intros t H. apply scan_nested. now apply bplain_ok. Qed.
Lemma nested_joined : forall l, (forall t, In t l -> nested t) -> nested (joined l).
Proof.
  induction l as [|t [|u l] IH]; intros H.
  - constructor.
  - apply H. now left.
  - change (joined (t :: u :: l)) with (t ++ ", " ++ joined (u :: l))%string. apply nested_app; [apply H; now left|].
    apply nested_app; [now apply nested_word|]. apply IH. intros x I1. apply H. now right.
Qed.
Lemma nested_paren : forall t, nested t -> nested ("(" ++ t ++ ")")%string.
Proof. intros t H. apply (nested_pair "(" ")" t ""); auto. constructor. Qed.
Lemma nested_dec : forall n, nested (dec n).
Proof. intros n. apply nested_word. now apply dec_chars. Qed.
Lemma nested_shape : forall s, nested (pystr (shape_val s)).
Proof.
  intros [l|]; [|now apply nested_word]. destruct l as [|a [|b l]].
  - apply (nested_paren ""). constructor.
  - change (nested ("(" ++ dec a ++ ",)")%string). replace ("(" ++ dec a ++ ",)")%string with ("(" ++ (dec a ++ ",") ++ ")")%string.
    + apply nested_paren, nested_app; [apply nested_dec|now apply nested_word].
    + cbn. f_equal. induction (dec a) as [|x t IH]; [reflexivity|cbn; now rewrite IH].
  - cbn [shape_val map pystr]. apply (nested_paren (joined _)), nested_joined. intros t I1.
    assert (X : exists n, t = dec n).
    { destruct I1 as [<-|[<-|I1]]; [now exists a|now exists b|]. rewrite map_map in I1. apply in_map_iff in I1.
      destruct I1 as [n [<- _]]. now exists n. }
    destruct X as [n ->]. apply nested_dec.
Qed.
Lemma nested_reshape : forall s, nested (reshape_text s).
Proof.
  intros [[|a l]|]; [constructor| |constructor]. unfold reshape_text.
  pose proof (nested_shape (Some (a :: l))) as NX. set (x := pystr (shape_val (Some (a :: l)))) in *. clearbody x.
  replace (".reshape(" ++ x ++ ", order='F')")%string with (".reshape" ++ ("(" ++ (x ++ ", order='F'") ++ ")"))%string.
  - apply nested_app; [now apply nested_word|]. apply nested_paren, nested_app; [exact NX|]. now apply nested_word.
  - cbn. do 9 f_equal. clear. induction x as [|c x IH]; [reflexivity|cbn; now rewrite IH].
Qed.

(** The strings a configuration brings in. *)
Record given (Q : string -> Prop) (c : tcfg) : Prop := mkGiven {
  g_date : Q (t_date c); g_prefix : Q (t_prefix c); g_dir : Q (t_dir c); g_dir_py : Q (t_dir_py c); g_solver : Q (t_solver c);
  g_names : forall i, In i (t_params c) \/ In i (t_vars c) \/ In i (t_duals c) -> Q (i_name i);
  g_write : forall n b v, In (n, b, v) (t_write c) -> Q n /\ Q v;
  g_text : forall k, Q (t_text c k) }.

Lemma b_fine : forall c, given nested c -> fine (list ascii) bscan bcls (fun _ s => s) c.
Proof.
  intros c G. constructor.
  - apply b_plain, (g_date _ _ G).
  - intros s H. apply b_plain, nested_app; [apply (g_prefix _ _ G)|]. apply nested_word. now repeat (destruct H as [->|H]; [reflexivity|]); subst.
  - apply b_plain, (g_dir_py _ _ G).
  - apply b_plain, (g_solver _ _ G).
  - intros i H. split; [apply b_plain, (g_names _ _ G); exact H|]. split; apply b_plain; [apply nested_shape|apply nested_reshape].
  - intros n b v H. destruct (g_write _ _ G n b v H) as [H1 H2]. split; now apply b_plain.
  - apply b_plain, nested_joined. intros t H. apply in_map_iff in H. destruct H as [i [<- H]].
    constructor; [reflexivity|reflexivity|]. apply nested_app; [apply (g_names _ _ G); auto|now apply nested_word].
Qed.
Lemma b_fine_readme : forall c, given nested c -> fine_readme (list ascii) bscan bcls (fun _ s => s) c.
Proof.
  intros c G. constructor.
  - apply b_plain, (g_date _ _ G).
  - apply b_plain, (g_dir _ _ G).
  - apply b_plain, nested_word. now destruct (t_if c).
  - intros k. apply b_plain, (g_text _ _ G).
Qed.

Theorem all_nested : forall c, t_explicit c <= 2 -> given nested c -> forall f t x s, In (f, t, x) (rendered c) -> render x t = Done s -> nested s.
Proof.
  intros c E G f t x s H D.
  assert (X : all_cmake _ bchk [] isNil = true /\ all_setup _ bchk [] isNil = true /\ all_example _ bchk [] isNil = true
    /\ all_hpp _ bchk [] isNil = true /\ all_solver _ bchk [] isNil = true /\ all_readme _ bchk [] isNil = true
    /\ all_grad _ bchk [] isNil = true /\ all_plain _ bchk [] isNil = true) by (vm_compute; auto 20).
  destruct X as [X1 [X2 [X3 [X4 [X5 [X6 [X7 X8]]]]]]]. pose proof (b_fine c G) as F. pose proof (b_fine_readme c G) as R.
  assert (SO : BP 0 "sol_x"%string /\ BP 0 "sol_y"%string) by (split; apply b_plain; now apply nested_word).
  assert (E0 : B [] []) by (intros ? ?; discriminate).
  apply andb_true_iff in X8.
  unfold rendered in H. apply in_app_or in H. destruct H as [H|H]; [|apply in_app_or in H; destruct H as [H|H]].
  - cbn [In] in H. destruct H as [H|[H|[H|[H|[]]]]]; injection H as <- <- <-.
    + exact (b_sound _ _ _ _ D E0 (proj1 X8)).
    + exact (b_sound _ _ _ _ D E0 (proj2 X8)).
    + exact (b_sound _ _ _ _ D (fits_abs _ _ _ _ _ _ (fits_cmake _ _ _ _ c F)) (use_cmake _ _ _ _ X1 c E)).
    + exact (b_sound _ _ _ _ D (fits_abs _ _ _ _ _ _ (fits_setup _ _ _ _ c F)) (use_setup _ _ _ _ X2 c)).
  - destruct (t_gradient c && (t_explicit c =? 0)%nat); [|destruct H]. cbn [In] in H. destruct H as [H|[H|[H|[]]]]; injection H as <- <- <-.
    + exact (b_sound _ _ _ _ D (fits_abs _ _ _ _ _ _ (fits_gradc _ _ _ _ c F SO)) (use_gradc _ _ _ _ X7 c)).
    + exact (b_sound _ _ _ _ D E0 (use_gradh _ _ _ _ X7)).
    + exact (b_sound _ _ _ _ D (fits_abs _ _ _ _ _ _ (fits_gradws _ _ _ _ c F)) (use_gradws _ _ _ _ X7)).
  - cbn [In] in H. destruct H as [H|[H|[H|[H|[]]]]]; injection H as <- <- <-.
    + exact (b_sound _ _ _ _ D (fits_abs _ _ _ _ _ _ (fits_example _ _ _ _ c F)) (use_example _ _ _ _ X3 c E)).
    + exact (b_sound _ _ _ _ D (fits_abs _ _ _ _ _ _ (fits_hpp _ _ _ _ c F)) (use_hpp _ _ _ _ X4 c E)).
    + exact (b_sound _ _ _ _ D (fits_abs _ _ _ _ _ _ (fits_solver _ _ _ _ c F)) (use_solver _ _ _ _ X5 c E)).
    + exact (b_sound _ _ _ _ D (fits_abs _ _ _ _ _ _ (fits_readme _ _ _ _ c F R)) (use_readme _ _ _ _ X6 c)).
Qed.

(** ** Layout *)

Definition isEnd (o : option py) : bool :=
  match o with Some s => match p_brackets s, p_due s, p_mode s with [], false, Start _ => true | _, _, _ => false end | None => false end.
Lemma p_sound : forall l c k s, render c l = Done s -> abs py py_run pcls pafter c k -> isEnd (pchk k l py_init) = true -> py_layout s.
Proof.
  intros l c k s0 D A H. destruct (pchk k l py_init) as [st|] eqn:E; [|discriminate].
  edestruct (chk_sound py py_run pcls pafter pplain py_dec) with (trims := false) (l := l) as [s [R Q]]; try exact E; try exact A.
  - reflexivity.
  - apply py_app.
  - reflexivity.
  - apply word_0.
  - apply pdec.
  - discriminate.
  - rewrite D in R. injection R as ->. exists st. split; [exact Q|]. cbn in H.
    destruct (p_brackets st); [|discriminate]. destruct (p_due st); [discriminate|]. destruct (p_mode st); try discriminate. eauto.
Qed.
(** Words: no newline, tab, colon, hash, quote, backslash or bracket. *)
Definition word (t : string) : Prop :=
  forall c, In c (list_ascii_of_string t) ->
    ~ In c [nl; tab; "#"; ":"; sq; dq; bs; "("; ")"; "["; "]"; "{"; "}"]%char.
Lemma word_pplain : forall t, word t -> pplain t = true.
Proof.
  intros t H. unfold pplain. apply forallb_forall. intros c I1. specialize (H c I1). clear - H.
  destruct c as [[][][][][][][][]]; try reflexivity; exfalso; apply H; vm_compute; auto 20.
Qed.
Record python_fine (c : tcfg) : Prop := mkPF {
  pf_date : ~ In dq (list_ascii_of_string (t_date c));
  pf_prefix : word (t_prefix c); pf_dir : word (t_dir_py c); pf_solver : word (t_solver c);
  pf_names : forall i, In i (t_params c) \/ In i (t_vars c) \/ In i (t_duals c) -> word (i_name i) /\ i_name i <> ""%string;
  pf_write : forall n b v, In (n, b, v) (t_write c) -> word n /\ n <> ""%string /\ word v }.
Lemma pplain_app : forall a b, pplain a = true -> pplain b = true -> pplain (a ++ b)%string = true.
Proof.
  intros a b H1 H2. unfold pplain in *. induction a as [|c a IH]; [exact H2|]. cbn in *. apply andb_true_iff in H1. destruct H1 as [H1 H3].
  now rewrite H1, IH.
Qed.
Lemma p_fine : forall c, python_fine c -> fine py py_run pcls pafter c.
Proof.
  intros c G. constructor.
  - apply triple_2. exact (pf_date _ G).
  - intros s H. apply word_0, pplain_app; [apply word_pplain, (pf_prefix _ G)|]. now repeat (destruct H as [->|H]; [reflexivity|]); subst.
  - apply word_0, word_pplain, (pf_dir _ G).
  - apply word_0, word_pplain, (pf_solver _ G).
  - intros i H. destruct (pf_names _ G i H) as [H1 H2]. split; [apply word_3; auto using word_pplain|].
    split; apply codes_1; [apply codes_shape|apply codes_reshape].
  - intros n b v H. destruct (pf_write _ G n b v H) as [H1 [H2 H3]]. split; [apply word_3|apply word_0]; auto using word_pplain.
  - apply codes_1, codes_joined. intros t H. apply in_map_iff in H. destruct H as [i [<- H]].
    destruct (pf_names _ G i (or_introl H)) as [H1 H2]. apply codes_quoted; auto using word_pplain.
Qed.
Lemma notpy : forall f, existsb (String.eqb f) ["__init__.py"; "setup.py"; "cpg_solver.py"] = false ->
  In f ["__init__.py"; "setup.py"; "cpg_solver.py"] -> False.
Proof.
  intros f H I1. assert (X : existsb (String.eqb f) ["__init__.py"; "setup.py"; "cpg_solver.py"] = true).
  { apply existsb_exists. exists f. split; [exact I1|apply String.eqb_refl]. }
  congruence.
Qed.
Theorem python_layout : forall c, t_explicit c <= 2 -> python_fine c ->
  forall f t x s, In (f, t, x) (rendered c) -> In f ["__init__.py"; "setup.py"; "cpg_solver.py"] -> render x t = Done s -> py_layout s.
Proof.
  intros c E G f t x s H I1 D. pose proof (p_fine c G) as F.
  assert (X : all_setup _ pchk py_init isEnd = true /\ all_solver _ pchk py_init isEnd = true /\ isEnd (pchk [] init_t py_init) = true)
    by (vm_compute; auto).
  destruct X as [X1 [X2 X3]].
  unfold rendered in H. apply in_app_or in H. destruct H as [H|H]; [|apply in_app_or in H; destruct H as [H|H]].
  - cbn [In] in H. destruct H as [H|[H|[H|[H|[]]]]]; injection H as <- <- <-; try (exfalso; refine (notpy _ _ I1); reflexivity).
    + refine (p_sound _ _ [] _ D _ X3). intros ? ?; discriminate.
    + exact (p_sound _ _ _ _ D (fits_abs _ _ _ _ _ _ (fits_setup _ _ _ _ c F)) (use_setup _ _ _ _ X1 c)).
  - destruct (t_gradient c && (t_explicit c =? 0)%nat); [|destruct H]. cbn [In] in H. destruct H as [H|[H|[H|[]]]]; injection H as <- <- <-;
      exfalso; refine (notpy _ _ I1); reflexivity.
  - cbn [In] in H. destruct H as [H|[H|[H|[H|[]]]]]; injection H as <- <- <-; try (exfalso; refine (notpy _ _ I1); reflexivity).
    exact (p_sound _ _ _ _ D (fits_abs _ _ _ _ _ _ (fits_solver _ _ _ _ c F)) (use_solver _ _ _ _ X2 c E)).
Qed.
