(** How the texts of Readme.v are read (used by PropReadme.v): the declarations of cpg_solve.h and of README.html. *)
From Coq Require Import String Ascii List Arith Bool Lia.
From Verif Require Import Base Config Import Build Symbols CTypes Literals LiteralsProofs Text Readme ReadmeSpec ReadmeProofs ReadmeProofs2 ReadmeProofs3.
Import ListNotations.
Open Scope string_scope.
Open Scope list_scope.

(** ** cpg_solve.h *)
Definition obj_pair (x : rin) : list string * signature :=
  (["extern"; "cpg_float"; (x_prefix x ++ "cpg_obj")%string; "("; ")"], ((x_prefix x ++ "cpg_obj")%string, ("cpg_float", []))).
Definition header_pairs (x : rin) : list (list string * signature) :=
  map (update_pair true "val" x) (x_params x)
  ++ flat_map (fun b => when_f (b_changes (fst b)) [plain_pair true x ("cpg_canonicalize_" ++ b_id (fst b))%string]) (x_blocks x)
  ++ when_f (ret_prim (x_if x) (y_vars (syms_of x))) [plain_pair true x "cpg_retrieve_prim"]
  ++ when_f (negb (x_explicit x =? 1)%nat && ret_dual (x_if x) (y_duals (syms_of x))) [plain_pair true x "cpg_retrieve_dual"]
  ++ when_f (negb (expl_x x)) [plain_pair true x "cpg_retrieve_info"]
  ++ when_f (inmem (x_if x))
       (flat_map (fun b => when_f (negb (String.eqb (b_id (fst b)) "d")) [plain_pair true x ("cpg_copy_" ++ b_id (fst b))%string]) (x_blocks x)
        ++ [plain_pair true x "cpg_copy_all"])
  ++ [plain_pair true x "cpg_solve"]
  ++ when_f (expl_x x && negb (x_reduced x)) [obj_pair x]
  ++ when_f (negb (expl_x x)) (plain_pair true x "cpg_set_solver_default_settings" :: map (set_pair true x) (x_settings x)).

Lemma fn_word : forall x f, ok x -> word f -> word (x_prefix x ++ f).
Proof. intros x f H W. apply word_app; [now apply ok_prefix|assumption]. Qed.
Lemma lit_word : forall a w, wordy a = true -> word w -> word (a ++ w).
Proof. intros. now apply word_app. Qed.
Ltac lw := split; [discriminate|reflexivity].

Lemma in_types : forall x s, ok x -> In s (x_settings x) -> In (snd s) known_types.
Proof.
  intros x s H I. pose proof (ok_types x H) as T. rewrite Forall_forall in T. specialize (T s I). unfold known_types.
  destruct (extra_stgs (x_if x)); cbn in *; tauto.
Qed.
Lemma set_words : forall x s, ok x -> In s (x_settings x) -> word (x_prefix x ++ "cpg_set_solver_" ++ fst s) /\ word (fst s ++ "_new").
Proof.
  intros x s H I. pose proof (ok_settings x H) as S. rewrite Forall_forall in S. specialize (S s I). split.
  - apply fn_word; [assumption|]. now apply lit_word.
  - now apply word_app_l.
Qed.
Lemma header_pairs_ok : forall x, ok x -> Forall decl_ok (header_pairs x).
Proof.
  intros x H. unfold header_pairs, when_f.
  assert (PL : forall f, word f -> decl_ok (plain_pair true x f)) by (intros; apply plain_decl; now apply fn_word).
  repeat (apply Forall_app; split).
  - rewrite Forall_map. eapply Forall_impl; [|exact (ok_params x H)]. intros p W. apply update_decl; [|lw].
    apply fn_word; [assumption|]. now apply lit_word.
  - pose proof (ok_blocks x H) as B. induction B as [|b l W B IH]; [constructor|]. cbn [flat_map]. apply Forall_app. split; [|assumption].
    destruct (b_changes (fst b)); [|constructor]. constructor; [|constructor]. apply PL. now apply lit_word.
  - destruct (ret_prim _ _); constructor; [|constructor]. apply PL. lw.
  - destruct (negb _ && _); constructor; [|constructor]. apply PL. lw.
  - destruct (negb (expl_x x)); constructor; [|constructor]. apply PL. lw.
  - destruct (inmem (x_if x)); [|constructor]. apply Forall_app. split; [|constructor; [apply PL; lw|constructor]].
    pose proof (ok_blocks x H) as B. induction B as [|b l W B IH]; [constructor|]. cbn [flat_map]. apply Forall_app. split; [|assumption].
    destruct (negb (String.eqb (b_id (fst b)) "d")); [|constructor]. constructor; [|constructor]. apply PL. now apply lit_word.
  - constructor; [|constructor]. apply PL. lw.
  - destruct (expl_x x && _); [|constructor]. constructor; [|constructor].
    pose proof (fn_word x "cpg_obj" H ltac:(lw)) as W. unfold decl_ok, obj_pair. cbn [fst snd].
    generalize dependent (x_prefix x ++ "cpg_obj")%string. intros n W. split; [nosemi|reflexivity].
  - destruct (negb (expl_x x)); [|constructor]. constructor; [apply PL; lw|]. rewrite Forall_map, Forall_forall. intros s I.
    destruct (set_words x s H I) as (A & B). apply set_decl; auto. eapply in_types; eassumption.
Qed.
Lemma reads_lines_if : forall {A} (c : A -> bool) (f : A -> string) (g : A -> list string * signature) l,
  Forall (fun a => reads_as (f a) (said (g a))) l ->
  reads_as (lines (fun a => if c a then f a else "") l) (flat_map said (flat_map (fun a => when_f (c a) [g a]) l)).
Proof.
  intros A c f g l H. induction H as [|a l R H IH]; [reflexivity|]. cbn [flat_map lines map cat fold_right]. rewrite flat_map_app.
  apply reads_app; [|exact IH]. unfold when_f. destruct (c a); [|reflexivity]. cbn [flat_map]. now rewrite app_nil_r.
Qed.
Lemma reads_lines_unless : forall {A} (c : A -> bool) (f : A -> string) (g : A -> list string * signature) l,
  Forall (fun a => reads_as (f a) (said (g a))) l ->
  reads_as (lines (fun a => if c a then "" else f a) l) (flat_map said (flat_map (fun a => when_f (negb (c a)) [g a]) l)).
Proof.
  intros A c f g l H. induction H as [|a l R H IH]; [reflexivity|]. cbn [flat_map lines map cat fold_right]. rewrite flat_map_app.
  apply reads_app; [|exact IH]. unfold when_f. destruct (c a); [reflexivity|]. cbn [flat_map negb]. now rewrite app_nil_r.
Qed.
Lemma flat_said : forall {A} (g : A -> list string * signature) l, flat_map (fun a => said (g a)) l = flat_map said (map g l).
Proof. induction l as [|a l IH]; [reflexivity|]. cbn. now rewrite IH. Qed.
Lemma header_decl_tokens : forall x, ok x -> reads_as (decls_text x) (flat_map said (header_pairs x)).
Proof.
  intros x H.
  assert (PL : forall f, word f -> reads_as (plain_line x f) (said (plain_pair true x f))) by (intros; apply plain_reads; now apply fn_word).
  assert (RU : reads_as (lines (update_line x) (x_params x)) (flat_map said (map (update_pair true "val" x) (x_params x)))).
  { rewrite <- flat_said. apply reads_lines. eapply Forall_impl; [|exact (ok_params x H)]. intros p W. apply update_reads.
    apply fn_word; [assumption|]. now apply lit_word. }
  assert (RC : reads_as (lines (fun b => if b_changes (fst b) then plain_line x ("cpg_canonicalize_" ++ b_id (fst b)) else "") (x_blocks x))
                 (flat_map said (flat_map (fun b => when_f (b_changes (fst b)) [plain_pair true x ("cpg_canonicalize_" ++ b_id (fst b))%string]) (x_blocks x)))).
  { apply (reads_lines_if (fun b => b_changes (fst b))). eapply Forall_impl; [|exact (ok_blocks x H)]. intros b W. apply PL. now apply lit_word. }
  assert (RK : reads_as (lines (fun b => if String.eqb (b_id (fst b)) "d" then "" else plain_line x ("cpg_copy_" ++ b_id (fst b))) (x_blocks x))
                 (flat_map said (flat_map (fun b => when_f (negb (String.eqb (b_id (fst b)) "d")) [plain_pair true x ("cpg_copy_" ++ b_id (fst b))%string]) (x_blocks x)))).
  { apply (reads_lines_unless (fun b => String.eqb (b_id (fst b)) "d")). eapply Forall_impl; [|exact (ok_blocks x H)]. intros b W. apply PL. now apply lit_word. }
  assert (RS : reads_as (lines (fun s => "extern void " ++ x_prefix x ++ "cpg_set_solver_" ++ fst s ++ "(" ++ snd s ++ " " ++ fst s ++ "_new);" ++ nl)%string (x_settings x))
                 (flat_map said (map (set_pair true x) (x_settings x)))).
  { rewrite <- flat_said. apply reads_lines. rewrite Forall_forall. intros s I. destruct (set_words x s H I) as (A & B). apply set_reads; auto. eapply in_types; eassumption. }
  assert (RO : reads_as ("extern cpg_float " ++ x_prefix x ++ "cpg_obj();" ++ nl) (said (obj_pair x))).
  { change ("cpg_obj();" ++ nl)%string with ("cpg_obj" ++ "();" ++ nl)%string. rewrite <- (append_assoc (x_prefix x)).
    eapply reads_eq; [apply (call_reads _ ["extern"; "cpg_float"] _ _ ["("; ")"; ";"]); [lit|apply fn_word; [assumption|lw]|lit|ends]|reflexivity]. }
  eapply reads_eq.
  - unfold decls_text.
    repeat first [ eassumption | apply reads_nil | apply PL; lw
      | match goal with |- reads_as (append ?s (append nl _)) _ => eapply line_then; [lit|] end
      | match goal with |- reads_as (append ?s _) _ => eapply reads_app end | apply reads_if; intro | lit ].
  - unfold header_pairs, when_f.
    destruct (ret_prim _ _), (negb (x_explicit x =? 1)%nat && _), (expl_x x), (inmem (x_if x)), (x_reduced x); cbn [negb andb];
      rewrite ?flat_map_app; cbn [flat_map app]; rewrite ?app_nil_r, <- ?app_assoc; reflexivity.
Qed.
Lemma header_functions : forall x, ok x -> functions_in (decls_text x) = Some (map snd (header_pairs x), []).
Proof.
  intros x H. apply functions_ok; [now apply header_pairs_ok|intros []|]. rewrite app_nil_r. apply reads_tokens. now apply header_decl_tokens.
Qed.

(** ** README.html *)
Definition plainc (c : ascii) : bool := negb (Ascii.eqb c "&") && negb (Ascii.eqb c "<").
Lemma word_plain : forall s, wordy s = true -> allc plainc s = true.
Proof.
  induction s as [|c s IH]; [reflexivity|]. cbn [wordy allc]. intro H. apply andb_prop in H as (C & H). rewrite IH by assumption. rewrite andb_true_r.
  unfold plainc. destruct (Ascii.eqb_spec c "&") as [->|]; [discriminate|]. destruct (Ascii.eqb_spec c "<") as [->|]; [discriminate|reflexivity].
Qed.
Lemma begins_other : forall c p s, plainc c = true -> (exists a p', p = String a p' /\ (a = "&"%char \/ a = "<"%char)) -> begins p (String c s) = None.
Proof.
  intros c p s C (a & p' & -> & A). cbn [begins]. unfold plainc in C. apply andb_prop in C as (C1 & C2). apply negb_true_iff in C1, C2.
  rewrite Ascii.eqb_sym in C1, C2. destruct A as [-> | ->]; [now rewrite C1|now rewrite C2].
Qed.
Lemma shown_skip : forall a b, allc plainc a = true -> shown (a ++ b) = (a ++ shown b)%string.
Proof.
  intros a b. unfold shown. induction a as [|c a IH]; intro H; [reflexivity|]. cbn [allc] in H. apply andb_prop in H as (C & H).
  cbn [append String.length shown_from]. rewrite !(begins_other c) by (assumption || (eexists; eexists; split; [reflexivity|auto])).
  now rewrite IH.
Qed.
Lemma fill_skip : forall n t a b, allc plainc a = true -> fill n t (a ++ b) = (a ++ fill n t b)%string.
Proof.
  intros n t a b. unfold fill. induction a as [|c a IH]; intro H; [reflexivity|]. cbn [allc] in H. apply andb_prop in H as (C & H).
  cbn [append String.length fill_from]. rewrite !(begins_other c) by (assumption || (eexists; eexists; split; [reflexivity|auto])).
  now rewrite IH.
Qed.
Lemma rstrip_app : forall a b, rstrip b <> "" -> rstrip (a ++ b) = (a ++ rstrip b)%string.
Proof.
  intros a b N. induction a as [|c a IH]; [reflexivity|]. cbn [append rstrip]. rewrite IH.
  destruct (a ++ rstrip b)%string eqn:E; [|reflexivity]. destruct a; cbn in E; [congruence|discriminate].
Qed.
Definition doc_updates (x : rin) : string :=
  lines (fun p => "void " ++ x_prefix x ++ "cpg_update_" ++ i_name p
                  ++ (if (i_size p =? 1)%nat then "(cpg_float value);" else "(cpg_int idx, cpg_float value);") ++ nl)%string (x_params x).
Definition doc_front (x : rin) : string :=
  ("// Update user-defined parameter values" ++ nl ++ doc_updates x
   ++ nl ++ "// Solve via canonicalization, canonical solve, retrieval" ++ nl ++ "void " ++ x_prefix x ++ "cpg_solve();" ++ nl
   ++ nl ++ "// Update solver settings" ++ nl ++ "void " ++ x_prefix x ++ "cpg_set_solver_default_settings();" ++ nl
   ++ "void " ++ x_prefix x)%string.
Definition doc_back : string :=
  ("cpg_set_solver_&lt;setting_name&gt;(&lt;setting_type&gt; &lt;setting_name&gt;_new);" ++ nl ++ "...")%string.
Lemma readme_functions_text : forall x, readme_functions x = (doc_front x ++ doc_back)%string.
Proof.
  intro x. unfold readme_functions, trim.
  assert (E : (update_decls x ++ solve_decls x ++ settings_decls x)%string = (nl ++ doc_front x ++ (doc_back ++ nl))%string).
  { unfold update_decls, solve_decls, settings_decls, doc_front, doc_back. fold (doc_updates x). rewrite !append_assoc. reflexivity. }
  rewrite E. change (lstrip (nl ++ doc_front x ++ doc_back ++ nl)) with (doc_front x ++ (doc_back ++ nl))%string.
  rewrite rstrip_app by (vm_compute; discriminate). reflexivity.
Qed.
Lemma allc_lines : forall {A} p (f : A -> string) l, Forall (fun a => allc p (f a) = true) l -> allc p (lines f l) = true.
Proof. intros A p f l. induction 1 as [|a l E H IH]; [reflexivity|]. cbn. rewrite allc_app, E. exact IH. Qed.
Lemma front_plain : forall x, ok x -> allc plainc (doc_front x) = true.
Proof.
  intros x H. pose proof (word_plain _ (ok_prefix x H)) as P.
  assert (U : allc plainc (doc_updates x) = true).
  { apply allc_lines. eapply Forall_impl; [|exact (ok_params x H)]. intros p (_ & W). cbv beta. rewrite !allc_app, P, (word_plain _ W).
    destruct (i_size p =? 1)%nat; reflexivity. }
  unfold doc_front. rewrite !allc_app, U, P. reflexivity.
Qed.
Lemma plain_doc_then : forall x f rest ts, ok x -> word f -> reads_as rest ts ->
  reads_as ("void " ++ x_prefix x ++ f ++ "();" ++ nl ++ rest) (said (plain_pair false x f) ++ ts).
Proof.
  intros x f rest ts H W R.
  replace ("void " ++ x_prefix x ++ f ++ "();" ++ nl ++ rest)%string with (("void " ++ x_prefix x ++ f ++ "();" ++ nl) ++ rest)%string
    by (rewrite !append_assoc; reflexivity).
  apply reads_app; [apply plain_doc_reads; now apply fn_word|assumption].
Qed.
Definition doc_pairs (x : rin) (n t : string) : list (list string * signature) :=
  map (update_pair false "value" x) (x_params x)
  ++ [plain_pair false x "cpg_solve"; plain_pair false x "cpg_set_solver_default_settings"; set_pair false x (n, t)].
Lemma readme_functions_ok : forall x n t, ok x -> word n -> In t known_types ->
  functions_in (fill n t (shown (readme_functions x))) = Some (map snd (doc_pairs x n t), ["."; "."; "."]).
Proof.
  intros x n t H W T. rewrite readme_functions_text, shown_skip by now apply front_plain.
  rewrite fill_skip by now apply front_plain.
  assert (WF : word (x_prefix x ++ "cpg_set_solver_" ++ n)) by (apply fn_word; [assumption|now apply lit_word]).
  assert (WN : word (n ++ "_new")) by now apply word_app_l.
  apply functions_ok.
  - unfold doc_pairs. apply Forall_app. split.
    + rewrite Forall_map. eapply Forall_impl; [|exact (ok_params x H)]. intros p V. apply update_decl; [|lw].
      apply fn_word; [assumption|]. now apply lit_word.
    + constructor; [|constructor; [|constructor; [|constructor]]]; [apply plain_decl; apply fn_word; [assumption|lw]..|].
      now apply set_decl.
  - cbn. intros [E|[E|[E|[]]]]; discriminate.
  - apply reads_tokens.
    assert (F : fill n t (shown doc_back) = ("cpg_set_solver_" ++ n ++ "(" ++ t ++ " " ++ n ++ "_new);" ++ nl ++ "...")%string).
    { change (shown doc_back) with ("cpg_set_solver_<setting_name>(<setting_type> <setting_name>_new);" ++ nl ++ "...")%string.
      unfold fill. cbn. reflexivity. }
    rewrite F. unfold doc_front. rewrite !append_assoc.
    assert (RU : reads_as (doc_updates x) (flat_map said (map (update_pair false "value" x) (x_params x)))).
    { rewrite <- flat_said. apply reads_lines. eapply Forall_impl; [|exact (ok_params x H)]. intros p V. apply update_doc_reads.
      apply fn_word; [assumption|]. now apply lit_word. }
    eapply reads_eq.
    + eapply line_then; [lit|]. eapply reads_app; [exact RU|]. eapply reads_app; [lit|]. eapply line_then; [lit|].
      apply (plain_doc_then x "cpg_solve"); [assumption|lw|]. eapply reads_app; [lit|]. eapply line_then; [lit|].
      apply (plain_doc_then x "cpg_set_solver_default_settings"); [assumption|lw|].
      rewrite <- (append_assoc "cpg_set_solver_"), <- (append_assoc (x_prefix x)).
      apply (call_reads _ ["void"]); [lit|exact WF| |ends].
      apply set_args_reads; [assumption|assumption|]. lit.
    + unfold doc_pairs. rewrite flat_map_app. cbn [flat_map said plain_pair set_pair fst snd kw app]. rewrite <- !app_assoc. cbn [app]. rewrite <- !app_assoc. reflexivity.
Qed.
