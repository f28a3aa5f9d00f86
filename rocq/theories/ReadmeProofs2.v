(** How the texts of Readme.v are read (used by PropReadme.v): type definitions. *)
From Coq Require Import String Ascii List Arith Bool Lia.
From Verif Require Import Base Config Import Build Symbols CTypes Literals LiteralsProofs Text Readme ReadmeSpec ReadmeProofs.
Import ListNotations.
Open Scope string_scope.
Open Scope list_scope.

(** ** From words to definitions *)
Definition spell_field (f : string * ty) : list string :=
  match snd f with TName b => [b; fst f; ";"] | TPtr (TName b) => [b; "*"; fst f; ";"] | _ => [] end.
Definition spell (d : string * body) : list string :=
  match snd d with
  | Alias b => ["typedef"; b; fst d; ";"]
  | Struct fs => ["typedef"; "struct"; "{"] ++ flat_map spell_field fs ++ ["}"; fst d; ";"]
  end.
Definition good_field (f : string * ty) : Prop :=
  word (fst f) /\ exists b, word b /\ (snd f = TName b \/ snd f = TPtr (TName b)).
Definition good_def (d : string * body) : Prop :=
  match snd d with Alias b => b <> "struct" | Struct fs => Forall good_field fs end.

Lemma word_neq : forall w c, word w -> wordc c = false -> w <> String c "".
Proof. intros w c (_ & W) C ->. cbn in W. rewrite C in W. discriminate. Qed.
Lemma word_neqb : forall w c, word w -> wordc c = false -> String.eqb w (String c "") = false.
Proof. intros. apply String.eqb_neq. now apply word_neq. Qed.

Lemma members_ok : forall fs r, Forall good_field fs -> members [] (flat_map spell_field fs ++ "}" :: r) = Some (fs, r).
Proof.
  induction 1 as [|(n, t) fs (W & b & B & E) H IH]; [reflexivity|]. cbn [fst snd] in *.
  cbn [flat_map]. rewrite <- app_assoc. unfold spell_field at 1. cbn [fst snd].
  destruct E as [-> | ->]; cbn [app members];
    rewrite !(word_neqb b) by (auto; reflexivity); cbn [app]; rewrite ?(word_neqb n) by (auto; reflexivity); cbn [app];
    rewrite IH; reflexivity.
Qed.
Lemma definitions_ok : forall env, Forall good_def env -> forall k, (length (flat_map spell env) <= k)%nat -> definitions k (flat_map spell env) = Some env.
Proof.
  induction 1 as [|(n, b) env G H IH]; intros k L; [now destruct k|]. cbn [flat_map] in *. rewrite app_length in L.
  unfold good_def in G. cbn [fst snd] in G. destruct b as [b|fs].
  - unfold spell at 1. cbn [spell fst snd app length] in L |- *. destruct k as [|k]; [cbn in L; lia|]. cbn [app definitions]. apply String.eqb_neq in G. cbn [negb String.eqb Ascii.eqb Bool.eqb] .
    change (String.eqb "typedef" "typedef") with true. cbn [negb]. rewrite G. change (String.eqb ";" ";") with true. cbn iota.
    rewrite IH by (cbn in L; lia). reflexivity.
  - unfold spell at 1. cbn [spell fst snd app length] in L |- *. destruct k as [|k]; [cbn in L; lia|]. rewrite <- !app_assoc. cbn [app definitions].
    change (String.eqb "typedef" "typedef") with true. change (String.eqb "struct" "struct") with true. change (String.eqb "{" "{") with true.
    cbn [negb]. rewrite members_ok by assumption. change (String.eqb ";" ";") with true. cbn iota. rewrite IH; [reflexivity|].
    rewrite !app_length in L. cbn in L. lia.
Qed.
Lemma types_ok : forall s env, Forall good_def env -> tokens s = flat_map spell env -> types_in s = Some env.
Proof. intros s env G E. unfold types_in. rewrite E. now apply definitions_ok. Qed.

(** ** The lines of the structs *)
Ltac lit := vm_compute; reflexivity.
Lemma tail_comment : forall k c, allc no_nl c = true -> reads_as (spaces k ++ ("// " ++ c ++ nl)) [].
Proof.
  intros k c H. apply (reads_app _ _ [] []); [apply reads_spaces|].
  change ("// " ++ c ++ nl)%string with ("//" ++ (" " ++ c) ++ nl)%string. apply reads_comment. exact H.
Qed.
Lemma reads_ljust : forall n s ts, reads_as s ts -> reads_as (ljust n s) ts.
Proof. intros n s ts H. unfold ljust. rewrite <- (app_nil_r ts). apply reads_app; [assumption|apply reads_spaces]. Qed.
Lemma reads_name : forall n, word n -> reads_as (n ++ ";") [n; ";"].
Proof. intros n W. apply word_then; auto; [lit|]. exists ";"%char, "". split; reflexivity. Qed.
Lemma reads_star : forall n, word n -> reads_as ("*" ++ n ++ ";") ["*"; n; ";"].
Proof. intros n W. apply (reads_app _ _ ["*"] [n; ";"]); [lit|now apply reads_name]. Qed.
Lemma comment_name : forall c n, allc no_nl c = true -> word n -> allc no_nl (c ++ n) = true.
Proof. intros c n C (_ & W). rewrite allc_app, C. now apply word_no_nl. Qed.

Lemma member_reads : forall c i, allc no_nl c = true -> word (i_name i) ->
  reads_as (member_line c i) (spell_field (sized_t (sized i))).
Proof.
  intros c i C W. unfold member_line, sized_t, sized, spell_field. cbn [fst snd].
  set (t := match _ with TName _ => _ | _ => _ end).
  replace t with (["cpg_float"] ++ (if (i_size i =? 1)%nat then [i_name i; ";"] else ["*"; i_name i; ";"]) ++ [])
    by (subst t; destruct (i_size i =? 1)%nat; reflexivity).
  clear t. apply reads_app; [lit|]. apply reads_app.
  - apply reads_ljust. destruct (i_size i =? 1)%nat; [now apply reads_name|now apply reads_star].
  - pose proof (tail_comment 3 (c ++ i_name i) (comment_name c _ C W)) as H. rewrite append_assoc in H. exact H.
Qed.
Lemma delta_reads : forall i, word (i_name i) -> reads_as (delta_line i) (spell_field (i_name i, TPtr fl)).
Proof.
  intros i W. unfold delta_line. apply (reads_app _ _ ["cpg_float"] (["*"; i_name i; ";"] ++ [])); [lit|].
  apply reads_app; [apply reads_ljust; now apply reads_star|].
  pose proof (tail_comment 3 ("Delta of your parameter " ++ i_name i) (comment_name "Delta of your parameter " _ eq_refl W)) as H.
  rewrite append_assoc in H. exact H.
Qed.
Definition canon_field (b : block * nat) : string * ty :=
  (b_id (fst b), if is_matrix (b_id (fst b)) then TPtr (TName "cpg_csc") else if String.eqb (b_id (fst b)) "d" then fl else TPtr fl).
Lemma canon_reads : forall b, word (b_id (fst b)) -> reads_as (canon_line b) (spell_field (canon_field b)).
Proof.
  intros b W. pose proof (tail_comment 3 ("Canonical parameter " ++ b_id (fst b)) (comment_name "Canonical parameter " _ eq_refl W)) as H.
  rewrite append_assoc in H. unfold canon_line, canon_field, spell_field. cbn [fst snd]. cbv zeta.
  destruct (is_matrix (b_id (fst b))).
  - apply (reads_app _ _ ["cpg_csc"; "*"] ([b_id (fst b); ";"] ++ [])); [lit|].
    apply reads_app; [apply reads_ljust; now apply reads_name|exact H].
  - destruct (String.eqb (b_id (fst b)) "d").
    + apply (reads_app _ _ ["cpg_float"] ([b_id (fst b); ";"] ++ [])); [lit|].
      apply reads_app; [apply reads_ljust; now apply reads_name|exact H].
    + apply (reads_app _ _ ["cpg_float"] (["*"; b_id (fst b); ";"] ++ [])); [lit|].
      apply reads_app; [apply reads_ljust; now apply reads_star|exact H].
Qed.
Lemma flag_reads : forall b, word (b_id (fst b)) -> reads_as (flag_line b) (spell_field (b_id (fst b), TName "int")).
Proof.
  intros b W. unfold flag_line. cbv zeta. apply (reads_app _ _ ["int"] ([b_id (fst b); ";"] ++ [])); [lit|].
  apply reads_app; [apply reads_ljust; now apply reads_name|].
  assert (N : allc no_nl (("Bool, if canonical parameter " ++ b_id (fst b)) ++ " outdated") = true).
  { rewrite allc_app, (comment_name "Bool, if canonical parameter " _ eq_refl W). reflexivity. }
  pose proof (tail_comment 4 _ N) as H. rewrite !append_assoc in H. exact H.
Qed.
Lemma setting_reads : forall s, word (fst s) -> In (snd s) ["cpg_int"; "cpg_float"] ->
  reads_as (setting_line s) (spell_field (fst s, TName (snd s))).
Proof.
  intros (n, t) W T. cbn [fst snd] in *. unfold setting_line, spell_field. cbn [fst snd].
  apply (reads_app _ _ [] (t :: [n; ";"])); [lit|].
  apply (reads_app _ _ [t] [n; ";"]); [destruct T as [<-|[<-|[]]]; lit|].
  apply word_then; auto; [lit|]. exists ";"%char, nl. split; reflexivity.
Qed.

(** ** The texts *)
Record ok (x : rin) : Prop := mkOk {
  ok_prefix : wordy (x_prefix x) = true;
  ok_vars : Forall (fun i => word (i_name i)) (x_vars x);
  ok_duals : Forall (fun i => word (i_name i)) (x_duals x);
  ok_params : Forall (fun i => word (i_name i)) (x_params x);
  ok_blocks : Forall (fun b => word (b_id (fst b))) (x_blocks x);
  ok_settings : Forall (fun s => word (fst s)) (x_settings x);
  ok_types : Forall (fun s => In (snd s) (["cpg_int"; "cpg_float"] ++ (if extra_stgs (x_if x) then [] else ["const char*"]))) (x_settings x)
}.

Lemma base_word : forall i, word (float_base i) /\ word (int_base i).
Proof. intros []; repeat split; vm_compute; discriminate. Qed.

Lemma reads_eq : forall s ts ts', reads_as s ts -> ts = ts' -> reads_as s ts'.
Proof. now intros s ts ts' H <-. Qed.
Lemma line_then : forall a rest t ts, reads_as (a ++ nl) t -> reads_as rest ts -> reads_as (a ++ nl ++ rest) (t ++ ts).
Proof. intros. rewrite <- append_assoc. now apply reads_app. Qed.
Ltac rd := repeat first
  [ eassumption | apply reads_nil
  | match goal with |- reads_as (append ?s nl) _ => lit end
  | match goal with |- reads_as (append ?s (append nl _)) _ => eapply line_then; [lit|] end
  | match goal with |- reads_as (append ?s _) _ => eapply reads_app end
  | apply reads_if; intro | lit ].
Lemma info_reads : forall i, reads_as (info_lines i)
  (flat_map spell_field [("obj_val", fl); ("iter", it); ("status", if status_int i then it else TPtr (TName "char")); ("pri_res", fl); ("dua_res", fl)]).
Proof. intros []; lit. Qed.
Lemma flat_spell : forall {A} (f : A -> string * ty) (l : list A), flat_map (fun a => spell_field (f a)) l = flat_map spell_field (map f l).
Proof. induction l as [|a l IH]; [reflexivity|]. cbn. now rewrite IH. Qed.
Lemma reads_members : forall {A} (line : A -> string) (f : A -> string * ty) l,
  Forall (fun a => reads_as (line a) (spell_field (f a))) l -> reads_as (lines line l) (flat_map spell_field (map f l)).
Proof. intros A line f l H. rewrite <- flat_spell. now apply reads_lines. Qed.
Lemma prim_reads : forall c l, allc no_nl c = true -> Forall (fun i => word (i_name i)) l ->
  reads_as (lines (member_line c) l) (flat_map spell_field (map sized_t (map sized l))).
Proof.
  intros c l C H. rewrite map_map. apply reads_members. eapply Forall_impl; [|exact H]. intros a W. now apply member_reads.
Qed.

Lemma header_tokens : forall x, ok x -> reads_as (types_text x) (flat_map spell (typedefs (tin_of x))).
Proof.
  intros x [_ V D P B S T]. destruct (base_word (x_if x)) as (FB & IB).
  assert (F : word (if expl_x x then "float" else float_base (x_if x))) by (destruct (expl_x x); [split; [discriminate|reflexivity]|assumption]).
  pose proof (prim_reads "Your variable " _ eq_refl V) as RV.
  pose proof (prim_reads "Your dual variable for constraint " _ eq_refl D) as RD.
  assert (RB : reads_as (lines canon_line (x_blocks x)) (flat_map spell_field (map canon_field (x_blocks x)))).
  { apply reads_members. eapply Forall_impl; [|exact B]. intros a W. now apply canon_reads. }
  assert (RF : reads_as (lines flag_line (x_blocks x)) (flat_map spell_field (map (fun b => (b_id (fst b), TName "int")) (x_blocks x)))).
  { apply reads_members. eapply Forall_impl; [|exact B]. intros a W. now apply flag_reads. }
  assert (RP : reads_as (lines delta_line (x_params x)) (flat_map spell_field (map (fun i => (i_name i, TPtr fl)) (x_params x)))).
  { apply reads_members. eapply Forall_impl; [|exact P]. intros a W. now apply delta_reads. }
  assert (RS : extra_stgs (x_if x) = true ->
               reads_as (lines setting_line (x_settings x)) (flat_map spell_field (map (fun s => (fst s, TName (snd s))) (x_settings x)))).
  { intro E. rewrite E in T. apply reads_members. rewrite Forall_forall in *. intros s I. apply setting_reads; auto. }
  pose proof (info_reads (x_if x)) as RI.
  eapply reads_eq.
  - unfold types_text. eapply reads_app; [lit|]. eapply word_then; [exact F| |eexists; eexists; split; reflexivity].
    eapply line_then; [lit|]. eapply reads_app; [lit|]. eapply word_then; [exact IB| |eexists; eexists; split; reflexivity].
    rd. now apply RS.
  - unfold typedefs, tin_of, params_t, outdated_t, prim_f, dual_f, info_f, result_f, delta_f, is_expl, has_duals, expl_x.
    cbn [t_if t_prefix t_explicit t_gradient t_reduced t_blocks t_vars t_duals t_params t_settings].
    replace (nonempty (map sized (x_duals x))) with (nonempty (x_duals x)) by (now destruct (x_duals x)).
    rewrite !map_map. 
    unfold when_f.
    destruct (nonempty (x_duals x)), (x_explicit x =? 0)%nat eqn:E0, (x_explicit x =? 1)%nat eqn:E1, (extra_stgs (x_if x));
      try (apply Nat.eqb_eq in E0; apply Nat.eqb_eq in E1; congruence);
      cbn [negb andb app flat_map spell fst snd]; rewrite ?app_nil_r, <- ?app_assoc; cbn [app]; rewrite ?flat_map_app; cbn [flat_map app]; rewrite ?map_map;
      try reflexivity.
Qed.

Lemma sized_good : forall l, Forall (fun i => word (i_name i)) l -> Forall good_field (map sized_t (map sized l)).
Proof.
  induction 1 as [|i l W H IH]; [constructor|]. cbn [map]. constructor; [|assumption]. unfold sized_t, sized. cbn [fst snd].
  split; [assumption|]. exists "cpg_float". split; [split; [discriminate|reflexivity]|]. destruct (i_size i =? 1)%nat; auto.
Qed.
Ltac gf := split; [split; [discriminate|reflexivity]|]; eexists; split; [|first [left; reflexivity | right; reflexivity]]; split; [discriminate|reflexivity].
Ltac fa := repeat first [apply Forall_nil | apply Forall_cons; [gf|]].
Lemma header_good : forall x, ok x -> Forall good_def (typedefs (tin_of x)).
Proof.
  intros x [_ V D P B S T]. unfold typedefs, when_f.
  assert (FB : good_def ("cpg_float", Alias (if is_expl (tin_of x) then "float" else float_base (x_if x))))
    by (unfold good_def; cbn [snd]; destruct (is_expl (tin_of x)); [|destruct (x_if x)]; discriminate).
  assert (IB : good_def ("cpg_int", Alias (int_base (x_if x)))) by (unfold good_def; cbn [snd]; destruct (x_if x); discriminate).
  assert (RB : good_def ("Canon_Params_t", params_t (tin_of x))).
  { unfold good_def, params_t, tin_of. cbn [snd t_blocks]. rewrite map_map. cbn [fst]. rewrite Forall_map. eapply Forall_impl; [|exact B].
    intros b W. cbv beta in W. split; [assumption|]. cbn [fst snd].
    destruct (is_matrix (b_id (fst b))); [|destruct (String.eqb (b_id (fst b)) "d")];
      (eexists; split; [|first [left; reflexivity | right; reflexivity]]; split; [discriminate|reflexivity]). }
  assert (RF : good_def ("Canon_Outdated_t", outdated_t (tin_of x))).
  { unfold good_def, outdated_t, tin_of. cbn [snd t_blocks]. rewrite map_map. cbn [fst]. rewrite Forall_map. eapply Forall_impl; [|exact B].
    intros b W. cbv beta in W. split; [assumption|]. exists "int". split; [split; [discriminate|reflexivity]|]. now left. }
  assert (RD : good_def ("CPG_Delta_t", Struct (delta_f (tin_of x)))).
  { unfold good_def, delta_f, tin_of. cbn [snd t_params]. rewrite map_map. rewrite Forall_map. eapply Forall_impl; [|exact P].
    intros b W. cbv beta in W. split; [assumption|]. exists "cpg_float". split; [split; [discriminate|reflexivity]|]. now right. }
  assert (RI : good_def ("CPG_Info_t", Struct (info_f (tin_of x)))).
  { unfold good_def, info_f. cbn [snd]. destruct (status_int (t_if (tin_of x))); fa. }
  assert (RR : good_def ("CPG_Result_t", Struct (result_f (tin_of x)))).
  { unfold good_def, result_f, when_f. cbn [snd]. repeat (apply Forall_app; split);
      repeat match goal with |- Forall _ (if ?b then _ else _) => destruct b end; fa. }
  assert (RS : extra_stgs (x_if x) = true -> good_def ("Canon_Settings_t", Struct (map (fun s => (fst s, TName (snd s))) (x_settings x)))).
  { intro E. rewrite E in T. unfold good_def. cbn [snd]. rewrite Forall_map. rewrite Forall_forall in *. intros s I. split; [now apply S|].
    exists (snd s). split; [|now left]. destruct (T s I) as [<-|[<-|[]]]; (split; [discriminate|reflexivity]). }
  repeat (apply Forall_app; split).
  - repeat (constructor; [assumption|]). constructor; [|constructor; [assumption|constructor; [assumption|constructor; [|constructor]]]].
    + unfold good_def, csc_t. cbn [snd]. fa.
    + unfold good_def. cbn [snd]. now apply sized_good.
  - destruct (nonempty _); constructor; [|constructor]. unfold good_def. cbn [snd]. now apply sized_good.
  - destruct (negb _); constructor; [assumption|constructor].
  - apply Forall_cons; [assumption|apply Forall_cons; [assumption|apply Forall_nil]].
  - destruct (extra_stgs _) eqn:E; constructor; [|constructor]. now apply RS.
Qed.
Lemma header_types : forall x, ok x -> types_in (types_text x) = Some (typedefs (tin_of x)).
Proof. intros x H. apply types_ok; [now apply header_good|]. apply reads_tokens. now apply header_tokens. Qed.

(** README.html *)
Definition doc_types (x : rin) : tenv :=
  [("CPG_Prim_t", Struct (prim_f (tin_of x)))]
  ++ when_f (has_duals x) [("CPG_Dual_t", Struct (dual_f (tin_of x)))]
  ++ [("CPG_Info_t", Struct (info_f (tin_of x)));
      ("CPG_Result_t", Struct ([("prim", TPtr (TName "CPG_Prim_t"))] ++ when_f (has_duals x) [("dual", TPtr (TName "CPG_Dual_t"))]
                               ++ [("info", TPtr (TName "CPG_Info_t"))]))].
Lemma readme_types_ok : forall x, ok x -> types_in (readme_types x) = Some (doc_types x).
Proof.
  intros x [_ V D _ _ _ _]. apply types_ok.
  - unfold doc_types, when_f. repeat (apply Forall_app; split).
    + apply Forall_cons; [|apply Forall_nil]. unfold good_def. cbn [snd]. now apply sized_good.
    + destruct (has_duals x); constructor; [|constructor]. unfold good_def. cbn [snd]. now apply sized_good.
    + constructor; [|constructor; [|constructor]]; unfold good_def; cbn [snd].
      * unfold info_f. destruct (status_int (t_if (tin_of x))); fa.
      * destruct (has_duals x); fa.
  - unfold readme_types. rewrite tokens_trim. apply reads_tokens.
    pose proof (prim_reads "Your variable " _ eq_refl V) as RV.
    pose proof (prim_reads "Your dual variable for constraint " _ eq_refl D) as RD.
    pose proof (info_reads (x_if x)) as RI.
    eapply reads_eq.
    + unfold prim_typedef, dual_typedef, info_typedef, result_typedef. rewrite !append_assoc. rd.
    + unfold doc_types, prim_f, dual_f, info_f, when_f, tin_of. cbn [t_if t_vars t_duals].
      destruct (has_duals x); cbn [app flat_map spell fst snd]; rewrite ?app_nil_r, <- ?app_assoc; reflexivity.
Qed.
