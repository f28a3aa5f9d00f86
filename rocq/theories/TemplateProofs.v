(** Proofs: the contexts are of the kinds in TemplateKinds.v; the three scans. *)

From Coq Require Import String Ascii Arith Bool List Lia DecimalString.
From Verif Require Import Base Config Template TemplateText TemplateSpec TemplateCheck TemplateCtx TemplateKinds.
Import ListNotations.
Open Scope string_scope.
Open Scope list_scope.

Section Contexts.
  Variables (St : Type) (scan : string -> St -> option St) (cls : nat -> St -> bool) (after : nat -> St -> St).
  Notation P := (plain_in St scan cls after).
  Notation has := (has St scan cls after).
  Notation abs := (abs St scan cls after).
  Fixpoint fits (c : ctx) (k : kctx) : Prop :=
    match c, k with
    | [], [] => True
    | (x, v) :: c, (y, d) :: k => x = y /\ has v d /\ fits c k
    | _, _ => False
    end.
  Lemma fits_abs : forall c k, fits c k -> abs c k.
  Proof.
    induction c as [|[x v] c IH]; intros [|[y d] k] H; cbn in H; try easy.
    destruct H as [-> [H1 H2]]. intros z e G. cbn [get] in *. destruct (String.eqb y z); [|exact (IH _ H2 z e G)].
    injection G as <-. eauto.
  Qed.
  Lemma fits_consts : forall c, fits c (k_consts c).
  Proof. induction c as [|[x v] c IH]; cbn; auto. Qed.
  Lemma fits_app : forall a k b l, fits a k -> fits b l -> fits (a ++ b) (k ++ l).
  Proof.
    induction a as [|[x v] a IH]; intros [|[y d] k] b l H1 H2; cbn in *; try easy.
    destruct H1 as [E [H H1]]. auto.
  Qed.

  Definition shape_ok (s : option (list nat)) : Prop := P 1 (pystr (shape_val s)) /\ P 1 (reshape_text s).
  (** What is asked of the strings of a configuration; [w] tells which words. *)
  Record fine (c : tcfg) : Prop := mkFine {
    f_date : P 2 (t_date c);
    f_prefix : forall s, s = ""%string \/ s = "sol_x"%string \/ s = "sol_y"%string \/ s = "cpg"%string \/ s = "CPG_OSQP_Grad"%string -> P 0 (t_prefix c ++ s)%string;
    f_dir : P 0 (t_dir_py c);
    f_solver : P 0 (t_solver c);
    f_names : forall i, In i (t_params c) \/ In i (t_vars c) \/ In i (t_duals c) -> P 3 (i_name i) /\ shape_ok (i_shape i);
    f_write : forall n b v, In (n, b, v) (t_write c) -> P 3 n /\ P 0 v;
    f_quoted : P 1 (joined (map (fun i => (String "034"%char (i_name i) ++ String "034"%char "")%string) (t_params c))) }.
  (** What is asked for the README. *)
  Record fine_readme (c : tcfg) : Prop := mkFineR {
    r_date : P 0 (t_date c); r_dir : P 0 (t_dir c); r_docu : P 0 (docu (t_if c)); r_text : forall k, P 0 (t_text c k) }.

  Section One.
    Variable c : tcfg.
    Hypothesis F : fine c.
    Hypothesis sol : P 0 "sol_x"%string /\ P 0 "sol_y"%string.
    Lemma prefix_ok : P 0 (t_prefix c).
    Proof.
      replace (t_prefix c) with (t_prefix c ++ "")%string; [apply (f_prefix c F); auto|].
      induction (t_prefix c) as [|a s IH]; [reflexivity|cbn; now rewrite IH].
    Qed.
    Lemma sizes_ok : forall l, (forall i, In i l -> P 3 (i_name i)) -> has (sizes l) k_sizes.
    Proof.
      intros l H. apply has_list. exists (map (fun i => VT [VS (i_name i); VN (i_size i)]) l). split; [reflexivity|].
      intros e I1. apply in_map_iff in I1. destruct I1 as [i [<- I1]]. eexists; split; [reflexivity|]. cbn. split; [now apply H|]. eauto.
    Qed.
    Lemma shapes_ok : forall l, (forall i, In i l -> P 3 (i_name i) /\ shape_ok (i_shape i)) -> has (shapes l) k_shapes.
    Proof.
      intros l H. apply has_list. eexists. split; [reflexivity|].
      intros e I1. apply in_map_iff in I1. destruct I1 as [i [<- I1]]. eexists; split; [reflexivity|].
      destruct (H i I1) as [H1 [H2 _]]. cbn [hasall TemplateCheck.has]. auto.
    Qed.
    Lemma names_ok : forall l, (forall i, In i l -> P 3 (i_name i)) -> has (names l) (KSeq (KCls 3)).
    Proof.
      intros l H. cbn. eexists. split; [reflexivity|]. intros e I1. apply in_map_iff in I1. destruct I1 as [s [<- I1]].
      apply in_map_iff in I1. destruct I1 as [i [<- I1]]. now apply H.
    Qed.
    Lemma params_in : forall i, In i (t_params c) -> P 3 (i_name i) /\ shape_ok (i_shape i).
    Proof. intros i H. apply (f_names c F). auto. Qed.
    Lemma vars_in : forall i, In i (t_vars c) -> P 3 (i_name i) /\ shape_ok (i_shape i).
    Proof. intros i H. apply (f_names c F). auto. Qed.
    Lemma duals_in : forall i, In i (t_duals c) -> P 3 (i_name i) /\ shape_ok (i_shape i).
    Proof. intros i H. apply (f_names c F). auto. Qed.

    Lemma fits_cmake : fits (cmake_ctx c) (k_cmake (t_gradient c) (t_two c) (t_explicit c) (cmake_extra c)).
    Proof.
      unfold cmake_ctx, merge, k_cmake. apply fits_app; [apply fits_consts|]. cbn [fits cmake_base TemplateCheck.has pystr].
      repeat (split; [reflexivity|split; [|]]); try reflexivity; try exact I; [apply (f_date c F)|apply prefix_ok].
    Qed.
    Lemma fits_setup : fits (setup_ctx c) (k_setup (setup_extra c)).
    Proof.
      unfold setup_ctx, merge, k_setup. apply fits_app; [apply fits_consts|]. cbn. split; [reflexivity|]. split; [apply (f_date c F)|exact I].
    Qed.
    Lemma fits_example : fits (example_ctx c) (k_example (t_gradient c) (t_explicit c)).
    Proof.
      unfold example_ctx, k_example. cbn [fits]. repeat (split; [reflexivity|split; [|]]); try reflexivity; try exact I.
      - apply (f_date c F).
      - apply prefix_ok.
      - apply has_list. eexists. split; [reflexivity|]. intros e I1. apply in_map_iff in I1. destruct I1 as [[[n b] v] [<- I1]].
        eexists; split; [reflexivity|]. destruct (f_write c F n b v I1) as [H1 H2]. cbn. split; [exact H1|]. split; [eauto|]. auto.
      - apply sizes_ok. intros i H. now apply vars_in.
      - apply sizes_ok. intros i H. now apply duals_in.
      - apply sizes_ok. intros i H. now apply params_in.
    Qed.
    Lemma fits_hpp : fits (hpp_ctx c) (k_hpp (t_gradient c) (t_explicit c) (status_is_int (t_if c))).
    Proof.
      unfold hpp_ctx, k_hpp. cbn [fits]. repeat (split; [reflexivity|split; [|]]); try reflexivity; try exact I.
      - apply (f_date c F).
      - apply prefix_ok.
      - apply sizes_ok. intros i H. now apply params_in.
      - apply names_ok. intros i H. now apply params_in.
      - apply sizes_ok. intros i H. now apply vars_in.
      - apply sizes_ok. intros i H. now apply duals_in.
      - cbn. eauto.
      - cbn. eauto.
    Qed.
    Lemma saves_ok : forall l n, (forall i, In i l -> P 3 (i_name i) /\ shape_ok (i_shape i)) ->
      forall e, In e (dual_saves n l) -> exists l', e = VT l' /\ hasall St scan cls after l' [KNum; KCls 3; KCls 1; KCls 1].
    Proof.
      induction l as [|d l IH]; intros n H e I1; [destruct I1|]. destruct I1 as [<-|I1].
      - eexists; split; [reflexivity|]. destruct (H d (or_introl eq_refl)) as [H1 [H2 H3]].
        cbn [hasall TemplateCheck.has pystr]. repeat split; eauto.
      - apply (IH (S n)); auto. intros i I2. apply H. now right.
    Qed.
    Lemma fits_solver : fits (solver_ctx c) (k_solver (t_if c) (t_gradient c) (t_explicit c)).
    Proof.
      unfold solver_ctx, merge, k_solver. apply fits_app.
      - destruct (t_gradient c); [|exact I]. cbn [fits]. repeat (split; [reflexivity|split; [|]]); try exact I.
        + cbn. eauto.
        + cbn. eauto.
        + apply sizes_ok. intros i H. now apply vars_in.
        + apply shapes_ok. apply params_in.
      - cbn [fits]. repeat (split; [reflexivity|split; [|]]); try reflexivity; try exact I.
        + apply (f_date c F).
        + apply prefix_ok.
        + apply (f_dir c F).
        + apply (f_quoted c F).
        + apply names_ok. intros i H. now apply params_in.
        + apply shapes_ok. apply vars_in.
        + apply has_list. eexists. split; [reflexivity|]. intros e. destruct (t_explicit c =? 1)%nat; [intros []|].
          apply saves_ok. apply duals_in.
        + apply (f_solver c F).
    Qed.
    Lemma fits_gradc : fits (gradc_ctx c) (k_gradc (t_two c)).
    Proof.
      unfold gradc_ctx, k_gradc. cbn [fits]. repeat (split; [reflexivity|split; [|]]); try reflexivity; try exact I.
      - cbn. eauto.
      - cbn. eauto.
      - apply (f_prefix c F). auto.
      - cbn [TemplateCheck.has]. destruct (t_two c); cbn [pystr]; [apply (f_prefix c F); auto|apply sol].
      - cbn [TemplateCheck.has]. destruct (t_two c); cbn [pystr]; [apply (f_prefix c F); auto|apply sol].
    Qed.
    Lemma fits_gradws : fits (gradws_ctx c) k_gradws.
    Proof. cbn. split; [reflexivity|]. split; [|exact I]. apply (f_prefix c F). auto. Qed.
    Lemma fits_readme : fine_readme c -> fits (readme_ctx c) (k_readme (t_gradient c) (t_two c)).
    Proof.
      intros R. unfold readme_ctx, k_readme. cbn [fits TemplateCheck.has pystr].
      repeat (split; [reflexivity|split; [|]]); try reflexivity; try exact I; try apply (r_text c R);
        [apply (r_date c R)|apply (r_dir c R)|apply (f_dir c F)|apply (f_solver c F)|apply (r_docu c R)|apply (f_prefix c F); auto].
    Qed.
  End One.
End Contexts.

(** ** Digits *)

Lemma dec_chars : forall (f : ascii -> bool), forallb f ["0"; "1"; "2"; "3"; "4"; "5"; "6"; "7"; "8"; "9"]%char = true ->
  forall n, forallb f (list_ascii_of_string (dec n)) = true.
Proof.
  intros f H n. cbn in H. repeat (apply andb_true_iff in H; destruct H as [? H]).
  unfold dec. induction (Nat.to_uint n); cbn; repeat (apply andb_true_iff; split); auto.
Qed.

(** ** Brackets *)

Lemma bscan_app : forall a b s, bscan (a ++ b)%string s = match bscan a s with Some s' => bscan b s' | None => None end.
Proof.
  induction a as [|c a IH]; intros b s; [reflexivity|]. cbn [append bscan]. destruct (closer c); [apply IH|].
  destruct (is_close c); [|apply IH]. destruct s as [|d s]; [reflexivity|]. destruct (Ascii.eqb d c); [apply IH|reflexivity].
Qed.
Lemma bplain_ok : forall t, bplain t = true -> forall s, bscan t s = Some s.
Proof.
  induction t as [|c t IH]; intros H s; [reflexivity|]. unfold bplain in H. cbn in H. apply andb_true_iff in H. destruct H as [H1 H2].
  cbn [bscan]. destruct (closer c); [discriminate|]. destruct (is_close c); [discriminate|]. now apply IH.
Qed.
Lemma bdec : forall n s, bscan (dec n) s = Some s.
Proof. intros n s. apply bplain_ok. now apply dec_chars. Qed.
Lemma blank_neutral : forall c, blank c = true -> closer c = None /\ is_close c = false.
Proof. intros [[][][][][][][][]]; vm_compute; intros H; try discriminate; auto. Qed.
Lemma bltrim : forall t s, bscan (ltrim t) s = bscan t s.
Proof.
  induction t as [|c t IH]; intros s; [reflexivity|]. cbn [ltrim]. destruct (blank c) eqn:B; [|reflexivity].
  destruct (blank_neutral c B) as [H1 H2]. cbn [bscan]. rewrite H1, H2. apply IH.
Qed.
Lemma brtrim : forall t s, bscan (rtrim t) s = bscan t s.
Proof.
  induction t as [|c t IH]; intros s; [reflexivity|].
  assert (X : bscan (rtrim (String c t)) s = bscan (String c (rtrim t)) s).
  { cbn [rtrim]. destruct (rtrim t); [|reflexivity]. destruct (blank c) eqn:B; [|reflexivity].
    destruct (blank_neutral c B) as [H1 H2]. cbn [bscan]. now rewrite H1, H2. }
  rewrite X. cbn [bscan]. destruct (closer c); [apply IH|]. destruct (is_close c); [|apply IH].
  destruct s as [|d s]; [reflexivity|]. destruct (Ascii.eqb d c); [apply IH|reflexivity].
Qed.
Lemma nested_scan : forall t, nested t -> forall s, bscan t s = Some s.
Proof.
  intros t H. induction H as [|c t H1 H2 H3 IH|o c t t' H1 H2 IH H3 IH']; intros s; [reflexivity|..]; cbn [bscan].
  - rewrite H1, H2. apply IH.
  - rewrite H1, bscan_app, IH. cbn [bscan].
    assert (X : closer c = None /\ is_close c = true).
    { clear - H1. destruct o as [[][][][][][][][]]; vm_compute in H1; try discriminate; injection H1 as <-; split; reflexivity. }
    destruct X as [X1 X2]. rewrite X1, X2, Ascii.eqb_refl. apply IH'.
Qed.
Fixpoint unwind (st : list ascii) (t : string) : Prop :=
  match st with
  | [] => nested t
  | d :: r => exists a b, t = (a ++ String d b)%string /\ nested a /\ unwind r b
  end.
Lemma scan_unwind : forall t st, bscan t st = Some [] -> unwind st t.
Proof.
  induction t as [|c t IH]; intros st H.
  - injection H as ->. constructor.
  - cbn [bscan] in H. destruct (closer c) as [d|] eqn:C.
    + specialize (IH (d :: st) H). destruct IH as [a [b [-> [NA U]]]]. destruct st as [|e st].
      * cbn in U |- *. now apply (nested_pair c d a b).
      * destruct U as [a' [b' [-> [NA' U]]]]. exists (String c (a ++ String d a')), b'.
        split; [|split; [now apply nested_pair|exact U]].
        clear. cbn. f_equal. induction a as [|x a IH]; cbn; [reflexivity|now rewrite IH].
    + destruct (is_close c) eqn:K.
      * destruct st as [|d st]; [discriminate|]. destruct (Ascii.eqb d c) eqn:E; [|discriminate].
        apply Ascii.eqb_eq in E. subst d. exists ""%string, t. split; [reflexivity|]. split; [constructor|now apply IH].
      * specialize (IH st H). destruct st as [|d st]; cbn in IH |- *.
        -- now constructor.
        -- destruct IH as [a [b [-> [NA U]]]]. exists (String c a), b. split; [reflexivity|]. split; [now constructor|exact U].
Qed.
Theorem scan_nested : forall t, bscan t [] = Some [] <-> nested t.
Proof. intros t. split; [apply (scan_unwind t [])|intros H; now apply nested_scan]. Qed.

(** ** Layout *)

Lemma py_app : forall a b s, py_run (a ++ b)%string s = match py_run a s with Some s' => py_run b s' | None => None end.
Proof. induction a as [|c a IH]; intros b s; [reflexivity|]. cbn [append py_run]. destruct (py_char s c); auto. Qed.

Lemma wordc_parts : forall c, wordc c = true ->
  Ascii.eqb c nl = false /\ Ascii.eqb c tab = false /\ Ascii.eqb c "#" = false /\ Ascii.eqb c ":" = false /\ Ascii.eqb c sq = false
  /\ Ascii.eqb c dq = false /\ Ascii.eqb c bs = false /\ is_close c = false /\ closer c = None.
Proof.
  intros c H. unfold wordc in H. apply negb_true_iff in H. repeat (apply orb_false_iff in H; destruct H as [H ?]).
  repeat split; auto. destruct (closer c); [discriminate|reflexivity].
Qed.

Lemma word_char : forall c s, wordc c = true -> pcls 0 s = true -> py_char s c = Some s.
Proof.
  intros c [o b d m] W C. destruct (wordc_parts c W) as [W1 [W2 [W3 [W4 [W5 [W6 [W7 [W8 W9]]]]]]]].
  destruct m as [n|[]|k| |q []| | |[|k]]; try discriminate; unfold pcls in C; cbn [p_mode] in C.
  - unfold py_char, code_char. cbn [p_mode p_open p_brackets p_due]. rewrite W1, W2, W3, W4, W5, W6, W8, W9.
    destruct (Ascii.eqb c " "); reflexivity.
  - unfold py_char, quoted_char. cbn [p_mode p_open p_brackets p_due]. rewrite W1, W7.
    replace (Ascii.eqb c q) with false; [reflexivity|]. unfold quotec in C. apply orb_true_iff in C.
    destruct C as [C|C]; apply Ascii.eqb_eq in C; subst q; auto.
  - unfold py_char. cbn [p_mode p_open p_brackets p_due]. now rewrite W6.
Qed.
Lemma word_plain : forall t, pplain t = true -> forall s, pcls 0 s = true -> py_run t s = Some s.
Proof.
  induction t as [|c t IH]; intros H s C; [reflexivity|]. unfold pplain in H. cbn in H. apply andb_true_iff in H. destruct H as [H1 H2].
  cbn [py_run]. rewrite word_char by auto. now apply IH.
Qed.
Notation PP := (plain_in py py_run pcls pafter).
Lemma pafter_0 : forall s, pafter 0 s = s.
Proof. reflexivity. Qed.
Lemma pafter_1 : forall s, pafter 1 s = s.
Proof. reflexivity. Qed.
Lemma word_0 : forall t, pplain t = true -> PP 0 t.
Proof. intros t H s C. now apply word_plain. Qed.
Lemma pdec : forall n, PP 0 (dec n).
Proof. intros n. apply word_0. now apply dec_chars. Qed.
Lemma one_3 : forall c, wordc c = true -> forall o b d, py_char (mkPy o b d One) c = Some (mkPy o b d (Quoted dq false)).
Proof.
  intros c W o b d. destruct (wordc_parts c W) as [W1 [W2 [W3 [W4 [W5 [W6 [W7 [W8 W9]]]]]]]].
  unfold py_char, quoted_char. cbn [p_mode p_open p_brackets p_due]. now rewrite W6, W1, W7.
Qed.
Lemma word_3 : forall t, pplain t = true -> t <> ""%string -> PP 3 t.
Proof.
  intros t H N s C.
  assert (X : p_mode s = One \/ (pcls 0 s = true /\ pafter 3 s = s)).
  { destruct s as [o b d m]. unfold pcls, pafter in *. cbn [p_mode] in *.
    destruct m as [n|[]|k| |q []| | |[|k]]; try discriminate; auto. }
  destruct X as [X|[X1 X2]].
  - destruct t as [|c t]; [contradiction|]. unfold pplain in H. cbn in H. apply andb_true_iff in H. destruct H as [H1 H2].
    destruct s as [o b d m]. cbn [p_mode] in X. subst m. cbn [py_run]. rewrite one_3 by auto.
    unfold pafter. cbn [p_mode p_open p_brackets p_due]. now apply word_plain.
  - rewrite X2. now apply word_plain.
Qed.
(** Texts of code: they take the state of code to itself whatever is open. *)
Definition codes (t : string) : Prop := forall o b d, py_run t (mkPy o b d (Code false)) = Some (mkPy o b d (Code false)).
Lemma codes_1 : forall t, codes t <-> PP 1 t.
Proof.
  intros t. split.
  - intros H [o b d m] C. unfold pcls in C. cbn [p_mode] in C. destruct m as [n|[]|k| |q []| | |[|k]]; try discriminate. apply H.
  - intros H o b d. now rewrite H.
Qed.
Lemma codes_app : forall a b, codes a -> codes b -> codes (a ++ b)%string.
Proof. intros a b H1 H2 o k d. rewrite py_app, H1. apply H2. Qed.
Lemma codes_word : forall t, pplain t = true -> codes t.
Proof. intros t H o b d. now apply word_plain. Qed.
Lemma codes_dec : forall n, codes (dec n).
Proof. intros n. apply codes_word. now apply dec_chars. Qed.
Lemma codes_joined : forall l, (forall t, In t l -> codes t) -> codes (joined l).
Proof.
  induction l as [|t [|u l] IH]; intros H.
  - intros o b d. reflexivity.
  - apply H. now left.
  - change (joined (t :: u :: l)) with (t ++ ", " ++ joined (u :: l))%string. apply codes_app; [apply H; now left|].
    apply codes_app; [now apply codes_word|]. apply IH. intros x I1. apply H. now right.
Qed.
Lemma codes_paren : forall t, codes t -> codes ("(" ++ t ++ ")")%string.
Proof.
  intros t H o b d. cbn [append py_run]. unfold py_char at 1, code_char. cbn [p_mode p_open p_brackets p_due Ascii.eqb Bool.eqb closer].
  change (py_run (t ++ ")") (mkPy o (")"%char :: b) d (Code false)) = Some (mkPy o b d (Code false))).
  rewrite py_app, H. reflexivity.
Qed.
Lemma codes_quoted : forall t, pplain t = true -> t <> ""%string -> codes (String dq t ++ String dq "")%string.
Proof.
  intros t H N o b d. cbn [append py_run]. change (py_char (mkPy o b d (Code false)) dq) with (Some (mkPy o b d One)).
  cbv iota beta. rewrite py_app, (word_3 t H N) by reflexivity. reflexivity.
Qed.
Lemma codes_shape : forall s, codes (pystr (shape_val s)).
Proof.
  intros [l|]; [|now apply codes_word].
  destruct l as [|a [|b l]].
  - now apply (codes_paren ""); [intros o b d].
  - change (codes ("(" ++ dec a ++ ",)")%string). replace ("(" ++ dec a ++ ",)")%string with ("(" ++ (dec a ++ ",") ++ ")")%string.
    + apply codes_paren, codes_app; [apply codes_dec|now apply codes_word].
    + cbn. f_equal. induction (dec a) as [|x t IH]; [reflexivity|cbn; now rewrite IH].
  - cbn [shape_val map pystr]. apply (codes_paren (joined _)), codes_joined. intros t I1.
    assert (X : exists n, t = dec n).
    { destruct I1 as [<-|[<-|I1]]; [now exists a|now exists b|]. rewrite map_map in I1. apply in_map_iff in I1.
      destruct I1 as [n [<- _]]. now exists n. }
    destruct X as [n ->]. apply codes_dec.
Qed.
Lemma codes_reshape : forall s, codes (reshape_text s).
Proof.
  intros [[|a l]|]; try (intros o b d; reflexivity). unfold reshape_text.
  set (x := pystr _). replace (".reshape(" ++ x ++ ", order='F')")%string with (".reshape" ++ ("(" ++ (x ++ ", order='F'") ++ ")"))%string.
  - apply codes_app; [now apply codes_word|]. apply codes_paren, codes_app; [apply codes_shape|]. intros o b d. reflexivity.
  - clearbody x. cbn. do 9 f_equal. induction x as [|c x IH]; [reflexivity|cbn; now rewrite IH].
Qed.
Definition no_dq (t : string) : Prop := ~ In dq (list_ascii_of_string t).
Lemma triple_2 : forall t, no_dq t -> PP 2 t.
Proof.
  intros t H [o b d m] C. unfold pcls in C. cbn [p_mode] in C. destruct m as [n|[]|k| |q []| | |[|k]]; try discriminate.
  unfold pafter. cbn [p_mode]. revert H. induction t as [|c t IH]; intros H; [reflexivity|]. cbn [py_run].
  unfold py_char at 1. cbn [p_mode p_open p_brackets p_due].
  destruct (Ascii.eqb c dq) eqn:E.
  - apply Ascii.eqb_eq in E. exfalso. apply H. left. auto.
  - apply IH. intros X. apply H. now right.
Qed.
