(** Tables, file tree and import line of README.html (used by PropReadme.v). *)
From Coq Require Import String Ascii List Arith NArith Bool Lia.
From Verif Require Import Base Config Import ImportProofs Build BuildSpec BuildProofs Symbols CTypes Literals LiteralsProofs Text Readme ReadmeSpec
  ReadmeProofs ReadmeProofs2 ReadmeProofs3 ReadmeProofs4.
Import ListNotations.
Open Scope string_scope.
Open Scope list_scope.

(** ** Tables *)
Lemma untag_skip : forall a b, allc plainc a = true -> untag false (a ++ b) = (a ++ untag false b)%string.
Proof.
  induction a as [|c a IH]; intros b H; [reflexivity|]. cbn [allc] in H. apply andb_prop in H as (C & H). cbn [append untag].
  unfold plainc in C. apply andb_prop in C as (_ & C). apply negb_true_iff in C. rewrite C. now rewrite IH.
Qed.
Lemma digit_wordy : forall s, allc is_digit s = true -> wordy s = true.
Proof.
  induction s as [|c s IH]; [reflexivity|]. cbn [allc wordy]. intro H. apply andb_prop in H as (C & H). rewrite IH by assumption. rewrite andb_true_r.
  unfold wordc, is_digit in *. destruct c as [[] [] [] [] [] [] [] []]; vm_compute in C |- *; congruence.
Qed.
Lemma num_word : forall n, word (num n).
Proof.
  intro n. unfold num. split.
  - destruct (dec_first (N.of_nat n)) as (c & t & -> & _). discriminate.
  - apply digit_wordy, dec_allc.
Qed.
Lemma num_plain : forall n, allc plainc (num n) = true.
Proof. intro n. apply word_plain, num_word. Qed.
Lemma shape_plain : forall i, allc plainc (shape_text i) = true.
Proof.
  intro i. unfold shape_text. destruct (i_shape i) as [[|a [|b r]]|]; rewrite ?allc_app, ?num_plain; reflexivity.
Qed.
(** The dimension as the reader finds it. *)
Definition dim_words (i : item) : list string :=
  match i_shape i with
  | None => [num (i_size i)]
  | Some [] => ["1"]
  | Some [a] => [num a]
  | Some (a :: b :: _) => [num a; "by"; num b; "("; num (i_size i); ")"]
  end.
Lemma shape_reads : forall i rest ts, reads_as rest ts -> (exists c r, rest = String c r /\ ender c = true) ->
  reads_as (shape_text i ++ rest) (dim_words i ++ ts).
Proof.
  intros i rest ts R E. unfold shape_text, dim_words. destruct (i_shape i) as [[|a [|b r]]|].
  - apply (word_then "1"); auto. lw.
  - apply word_then; auto using num_word.
  - rewrite !append_assoc. cbn [app]. apply word_then; [apply num_word| |ends].
    apply (reads_app _ _ ["by"]); [lit|]. apply word_then; [apply num_word| |ends].
    apply (reads_app _ _ ["("]); [lit|]. apply word_then; [apply num_word| |ends].
    apply (reads_app _ _ [")"]); [lit|assumption].
  - apply word_then; auto using num_word.
Qed.
Lemma table_tokens : forall l, Forall (fun i => word (i_name i)) l -> tokens (untag false (table l)) = flat_map (fun i => i_name i :: dim_words i) l.
Proof.
  intros l H. apply reads_tokens. induction H as [|i l W H IH]; [reflexivity|]. unfold table in *. cbn [lines map cat fold_right flat_map].
  fold (cat (map row l)). fold (lines row l). unfold row. rewrite !append_assoc.
  cbn [append untag Ascii.eqb Bool.eqb negb nl].
  rewrite untag_skip by (apply word_plain, W). cbn [append untag Ascii.eqb Bool.eqb negb nl].
  rewrite untag_skip by apply shape_plain. cbn [append untag Ascii.eqb Bool.eqb negb nl].
  match goal with |- reads_as ?s _ => 
    change s with (("      " ++ nl ++ "        ") ++ i_name i ++ ((nl ++ "        ") ++ shape_text i ++ ((nl ++ "      " ++ nl) ++ untag false (lines row l))))%string end.
  apply (reads_app _ _ []); [lit|]. cbn [app]. apply word_then; [assumption| |ends].
  apply (reads_app _ _ []); [lit|]. apply shape_reads; [|ends]. apply (reads_app _ _ []); [lit|assumption].
Qed.

Fixpoint with_commas (l : list string) : list string := match l with [] => [] | [a] => [a] | a :: r => a :: "," :: with_commas r end.
Lemma settings_text : forall l, Forall word l -> untag false (commas (map (fun s => ("<code>" ++ s ++ "</code>")%string) l)) = commas l.
Proof.
  induction 1 as [|a l W H IH]; [reflexivity|]. destruct l as [|b l].
  - cbn [map commas]. cbn [append untag Ascii.eqb Bool.eqb negb]. rewrite untag_skip by (apply word_plain, W). cbn. apply append_nil.
  - cbn [map commas] in *. cbn [append untag Ascii.eqb Bool.eqb negb]. rewrite append_assoc, untag_skip by (apply word_plain, W).
    cbn [append untag Ascii.eqb Bool.eqb negb]. cbn [append untag Ascii.eqb Bool.eqb negb] in IH. now rewrite IH.
Qed.
Lemma commas_tokens : forall l, Forall word l -> tokens (commas l) = with_commas l.
Proof.
  assert (X : forall l, Forall word l -> forall a, word a -> snd (scan (Norm "") (commas (a :: l))) ++ finish (fst (scan (Norm "") (commas (a :: l)))) = with_commas (a :: l)).
  { induction 1 as [|b l W H IH]; intros a A.
    - cbn [commas with_commas]. destruct A as (N & A). rewrite scan_word by assumption. cbn. destruct a; [congruence|reflexivity].
    - change (commas (a :: b :: l)) with ((a ++ ", ") ++ commas (b :: l))%string || cbn [commas].
      change (with_commas (a :: b :: l)) with ([a; ","] ++ with_commas (b :: l)). rewrite <- (IH b W).
      change (commas (a :: b :: l)) with (a ++ ", " ++ commas (b :: l))%string. rewrite <- append_assoc.
      assert (R : scan (Norm "") (a ++ ", ") = (Norm "", [a; ","])) by (apply word_then; [assumption|lit|ends]).
      rewrite scan_app, R. cbn [fst snd]. now rewrite <- app_assoc. }
  intros [|a l] H; [reflexivity|]. inversion H; subst. unfold tokens. rewrite <- X by assumption.
  now destruct (scan (Norm "") (commas (a :: l))).
Qed.

(** ** Directories stay *)
Definition keeps (p : path) (o : op) : bool :=
  match o with RmDir q => negb (below q p) | Move q _ => negb (path_eqb p q) | _ => true end.
Lemma exec_keeps : forall v o s s' p, exec v o s = inr s' -> keeps p o = true -> has_dir s p = true -> has_dir s' p = true.
Proof.
  intros v o s s' p E K H. destruct o; cbn [exec keeps] in *;
    repeat match goal with E : (match ?x with _ => _ end) = inr _ |- _ => destruct x eqn:?; try discriminate E end;
    try (injection E as <-); rewrite ?has_dir_put, ?has_dir_putdirs, ?has_dir_remove, ?H, ?orb_true_r; auto using has_dir_add_old.
  - destruct (has_dir s p0); [|assumption]. rewrite has_dir_remove, H, K. reflexivity.
  - now rewrite K.
Qed.
Lemma run_keeps : forall v l s s' p, Build.run v l s = inr s' -> forallb (keeps p) l = true -> has_dir s p = true -> has_dir s' p = true.
Proof.
  intros v l. induction l as [|o l IH]; intros s s' p E K H; cbn [Build.run forallb] in *; [congruence|].
  apply andb_prop in K as (K1 & K2). destruct (exec v o s) as [e|s1] eqn:X; [discriminate|]. eapply IH; eauto using exec_keeps.
Qed.
Lemma run_app : forall v a b s s', Build.run v (a ++ b) s = inr s' -> exists t, Build.run v a s = inr t /\ Build.run v b t = inr s'.
Proof.
  intros v a. induction a as [|o a IH]; intros b s s' E; cbn [app Build.run] in *; [eauto|].
  destruct (exec v o s) as [e|s1]; [discriminate|]. now apply IH.
Qed.
Lemma keeps_app : forall p a b, forallb (keeps p) (a ++ b) = forallb (keeps p) a && forallb (keeps p) b.
Proof. intros. apply forallb_app. Qed.
Definition makes (p : path) (o : op) : bool :=
  match o with Codegen d _ => mem_path p (ups d) | Mkdir q => path_eqb p q | _ => false end.
Lemma exec_makes : forall v o s s' p, exec v o s = inr s' -> makes p o = true -> has_dir s' p = true.
Proof.
  intros v o s s' p E M. destruct o; cbn [exec makes] in *; try discriminate.
  - destruct (has_dir s p0 || has_file s p0); [discriminate|]. destruct (has_dir s (parent p0)); [|discriminate]. injection E as <-.
    rewrite has_dir_putdirs. cbn. now rewrite M.
  - injection E as <-. now apply has_dir_add_ups.
Qed.

(** The operations behind the first five: none removes one of the directories, and one makes solver_code. *)
Definition after_folders (v : vendor) (c : bcfg) : list op := vendor_ops v c ++ write_ops c.
Lemma tree_kept : forall v c p, In p tree_dirs -> p <> sd -> forallb (keeps p) (after_folders v c) = true.
Proof.
  intros v c p I N. unfold after_folders, vendor_ops, write_ops, solver_ops, gradient_ops, cmake_ops.
  cbn [tree_dirs In] in I. 
  repeat match goal with Y : _ \/ _ |- _ => destruct Y as [<-|Y] end; try contradiction; try (exfalso; now apply N);
  destruct (b_if c), (b_sdp c), (b_grad c), (b_two c), (Build.expl c); reflexivity.
Qed.
Lemma sd_made : forall v c, exists a o b, after_folders v c = a ++ o :: b /\ makes sd o = true /\ forallb (keeps sd) b = true.
Proof.
  intros v c. unfold after_folders, vendor_ops.
  assert (K : forallb (keeps sd) ((if b_two c then osqp_ops od (v_osqp v) else []) ++ write_ops c) = true).
  { unfold write_ops, gradient_ops, cmake_ops. destruct (b_grad c), (b_two c), (Build.expl c); reflexivity. }
  assert (X : exists a o b, solver_ops v c = a ++ o :: b /\ makes sd o = true /\ forallb (keeps sd) b = true).
  { unfold solver_ops. destruct (b_if c).
    - exists []. eexists. eexists. split; [reflexivity|]. split; reflexivity.
    - exists [RmDir sd]. eexists. eexists. split; [reflexivity|]. split; reflexivity.
    - exists [RmDir sd]. eexists. eexists. split; [reflexivity|]. split; reflexivity.
    - exists [RmDir sd]. eexists. eexists. split; [reflexivity|]. split; [reflexivity|]. destruct (b_sdp c); reflexivity.
    - exists [RmDir sd]. eexists. eexists. split; [reflexivity|]. split; reflexivity.
    - exists []. eexists. eexists. split; [reflexivity|]. split; reflexivity.
    - exists []. eexists. eexists. split; [reflexivity|]. split; [reflexivity|]. destruct (b_grad c); reflexivity. }
  destruct X as (a & o & b & E & M & B). exists a, o, (b ++ (if b_two c then osqp_ops od (v_osqp v) else []) ++ write_ops c).
  rewrite E, <- !app_assoc. cbn [app]. split; [reflexivity|]. split; [assumption|]. now rewrite keeps_app, B.
Qed.
Lemma folders_made : forall v, exists s, Build.run v folders fresh = inr s /\ Forall (fun p => p = sd \/ has_dir s p = true) tree_dirs.
Proof. intro v. eexists. split; [reflexivity|]. repeat (apply Forall_cons; [first [right; reflexivity | left; reflexivity]|]). constructor. Qed.
Lemma tree_dirs_there : forall v c s p, generate_files v c = inr s -> In p tree_dirs -> has_dir s p = true.
Proof.
  intros v c s p E I. unfold generate_files in E. apply run_app in E as (t & F & E). fold (after_folders v c) in E.
  destruct (folders_made v) as (t' & F' & D). replace t' with t in D by congruence. rewrite Forall_forall in D.
  destruct (D p I) as [->|H].
  - destruct (sd_made v c) as (a & o & b & X & M & B). rewrite X in E. apply run_app in E as (u & _ & E). cbn [Build.run] in E.
    destruct (exec v o u) as [e|u'] eqn:Y; [discriminate|]. eapply run_keeps; [exact E|exact B|]. eapply exec_makes; eauto.
  - destruct (path_eqb p sd) eqn:Q.
    + apply path_eqb_eq in Q. subst p. destruct (sd_made v c) as (a & o & b & X & M & B). rewrite X in E. apply run_app in E as (u & _ & E). cbn [Build.run] in E.
      destruct (exec v o u) as [e|u'] eqn:Y; [discriminate|]. eapply run_keeps; [exact E|exact B|]. eapply exec_makes; eauto.
    + eapply run_keeps; [exact E| |exact H]. apply tree_kept; [assumption|]. intros ->. discriminate.
Qed.

(** ** The import line *)
Lemma split_flat : forall s, split dot (dotted s) = flat_map (fun c => split dot (repl bslash dot c)) (split slash s).
Proof.
  induction s as [|a s IH]; [reflexivity|]. unfold dotted in *. cbn [repl split]. destruct (Ascii.eqb_spec a slash) as [->|N].
  - cbn [flat_map]. rewrite <- IH. reflexivity.
  - destruct (split slash s) as [|h r] eqn:E; [destruct (split_nonempty _ _ E)|]. cbn [flat_map repl] in *.
    cbn [repl split]. destruct (Ascii.eqb_spec (if Ascii.eqb a bslash then dot else a) dot) as [D|D].
    + rewrite IH. reflexivity.
    + rewrite IH. destruct (split dot (repl bslash dot h)) as [|u w] eqn:U; [destruct (split_nonempty _ _ U)|]. reflexivity.
Qed.
Lemma split_snoc : forall c s t, split c (s ++ String c t) = split c s ++ split c t.
Proof.
  induction s as [|a s IH]; intro t; cbn [append split app].
  - rewrite Ascii.eqb_refl. reflexivity.
  - rewrite IH. destruct (Ascii.eqb a c); [reflexivity|]. destruct (split c s) as [|h r] eqn:E; [destruct (split_nonempty _ _ E)|]. reflexivity.
Qed.
Definition solid (c : string) : Prop := c <> "" /\ c <> "." /\ c <> "..".
Lemma walk_solid : forall l cwd, Forall solid l -> walk cwd l = cwd ++ l.
Proof.
  unfold walk. induction l as [|c l IH]; intros cwd H; cbn [fold_left]; [now rewrite app_nil_r|]. inversion H as [|? ? (A & B & C) K]; subst.
  rewrite (proj2 (String.eqb_neq _ _) A), (proj2 (String.eqb_neq _ _) B), (proj2 (String.eqb_neq _ _) C). cbn [orb].
  rewrite IH by assumption. now rewrite <- app_assoc.
Qed.
Lemma relative : forall s, Forall solid (split slash s) -> absolute s = false.
Proof.
  intros [|a s] H; [reflexivity|]. cbn [absolute]. destruct (Ascii.eqb_spec a slash) as [->|N]; [|reflexivity]. cbn in H. inversion H as [|? ? (A & _) _]. congruence.
Qed.
Lemma ident_solid : forall l, Forall (fun c => identifier c = true) l -> Forall solid l.
Proof. intros l H. eapply Forall_impl; [|exact H]. intros c C. now apply ident_ne. Qed.
Lemma ident_split : forall c, identifier c = true -> split dot (repl bslash dot c) = [c].
Proof. intros c C. rewrite repl_none by (apply ident_has; auto). apply split_none. apply ident_has; auto. Qed.
Lemma import_parts : forall d, split dot (import_name d) = split dot (dotted d) ++ ["cpg_solver"].
Proof. intro d. unfold import_name. change ".cpg_solver" with (String dot "cpg_solver"). now rewrite split_snoc. Qed.
