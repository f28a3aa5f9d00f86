(** C75: README.html and the generated code it describes. *)
From Coq Require Import String Ascii List Arith NArith Bool Lia.
From Verif Require Import Base Config Import ImportProofs Build BuildSpec BuildProofs PropBuild Symbols CTypes Literals LiteralsProofs Text
  Readme ReadmeSpec ReadmeProofs ReadmeProofs2 ReadmeProofs3 ReadmeProofs4 ReadmeProofs5.
Import ListNotations.
Open Scope string_scope.
Open Scope list_scope.

(** ** Types *)

(** The members that hold the values of variables and dual variables: a number, or a pointer for more than one entry. *)
Definition holders (l : list item) : fields :=
  map (fun i => (i_name i, if (i_size i =? 1)%nat then TName "cpg_float" else TPtr (TName "cpg_float"))) l.
Lemma holders_sized : forall l, map sized_t (map sized l) = holders l.
Proof. intro l. unfold holders. rewrite map_map. apply map_ext. intro i. unfold sized_t, sized. cbn. now destruct (i_size i =? 1)%nat. Qed.

(** The header defines the types of CTypes.v. *)
Theorem C75_header_types : forall x, ok x -> types_in (types_text x) = Some (typedefs (tin_of x)).
Proof. exact header_types. Qed.

(** README.html shows type definitions and nothing else in that place; each of those for primal and dual solution is
    one of the header in any mode; the other two are so exactly if the mode is not explicit. *)
Theorem C75_types : forall x, ok x -> exists doc hdr,
  types_in (readme_types x) = Some doc /\ types_in (types_text x) = Some hdr
  /\ map fst doc = ["CPG_Prim_t"] ++ (match x_duals x with [] => [] | _ => ["CPG_Dual_t"] end) ++ ["CPG_Info_t"; "CPG_Result_t"]
  /\ In ("CPG_Prim_t", Struct (holders (x_vars x))) doc
  /\ (x_duals x <> [] -> In ("CPG_Dual_t", Struct (holders (x_duals x))) doc)
  /\ (forall d, In d doc -> (In d hdr <-> x_explicit x = 0 \/ fst d = "CPG_Prim_t" \/ fst d = "CPG_Dual_t")).
Proof.
  intros x H. exists (doc_types x), (typedefs (tin_of x)). split; [now apply readme_types_ok|]. split; [now apply header_types|].
  assert (P : prim_f (tin_of x) = holders (x_vars x)) by apply holders_sized.
  assert (D : dual_f (tin_of x) = holders (x_duals x)) by apply holders_sized.
  split; [unfold doc_types, has_duals; destruct (x_duals x); reflexivity|].
  split; [left; now rewrite P|].
  split. { intro N. unfold doc_types, has_duals. rewrite !in_app_iff, D. right. left. destruct (x_duals x); [congruence|]. now left. }
  intros d I. unfold doc_types in I. unfold typedefs, result_f, is_expl. cbn [t_duals t_explicit t_if tin_of].
  assert (ND : nonempty (map sized (x_duals x)) = has_duals x) by (unfold has_duals; now destruct (x_duals x)). rewrite ND.
  rewrite !in_app_iff in I. cbn [app In]. rewrite !in_app_iff. cbn [app In]. destruct I as [[<-|[]]|[I|[<-|[<-|[]]]]].
  - cbn [fst]. split; [intros _; auto|]. intros _. tauto.
  - destruct (has_duals x); [|destruct I]. destruct I as [<-|[]]. cbn [fst]. split; [auto|]. intros _. do 6 right. left. now left.
  - cbn [fst]. split.
    + intro K. left. destruct (Nat.eqb_spec (x_explicit x) 0) as [E|E]; [assumption|]. exfalso. cbn [negb when_f] in K.
      unfold has_duals, when_f in K. destruct (nonempty (x_duals x)), (extra_stgs (x_if x)); cbn in K;
      repeat match goal with Y : _ \/ _ |- _ => destruct Y as [Y|Y] end; try contradiction; discriminate.
    + intros [E|[E|E]]; try discriminate. rewrite E. cbn. tauto.
  - cbn [fst]. split.
    + intro K. left. destruct (Nat.eqb_spec (x_explicit x) 0) as [E|E]; [assumption|]. exfalso. cbn [negb when_f] in K.
      unfold has_duals, when_f in K. destruct (nonempty (x_duals x)), (extra_stgs (x_if x)), (Nat.eqb (x_explicit x) 1); cbn in K;
      repeat match goal with Y : _ \/ _ |- _ => destruct Y as [Y|Y] end; try contradiction; discriminate.
    + intros [E|[E|E]]; try discriminate. rewrite E. cbn. tauto.
Qed.

(** ** Functions *)

(** Every function cpg_solve.h declares is one of those the generated code defines. *)
Theorem C75_declared_is_defined : forall x, ok x -> exists l,
  functions_in (decls_text x) = Some (l, []) /\ Forall (fun f => In (fst f) (defs (syms_of x))) l.
Proof.
  intros x H. eexists. split; [now apply header_functions|]. apply Forall_forall. intros f I. apply in_map_iff in I as (p & <- & I).
  assert (X : exists b, In b (bases (syms_of x)) /\ fst (snd p) = (x_prefix x ++ b)%string).
  { assert (EX : explicit (syms_of x) = expl_x x) by reflexivity.
    assert (S : forall b, In b (solve_fixed (syms_of x)) -> In b (bases (syms_of x))) by (intros b B; unfold bases; rewrite !in_app_iff; auto).
    assert (U : forall b, In b (user_fns (syms_of x)) -> In b (bases (syms_of x))) by (intros b B; unfold bases; rewrite !in_app_iff; auto).
    unfold header_pairs in I. rewrite !in_app_iff in I. unfold solve_fixed in S. rewrite EX in S. unfold opt, when in S. 
    destruct I as [I|[I|[I|[I|[I|[I|[I|[I|I]]]]]]]].
    - apply in_map_iff in I as (i & <- & I). exists ("cpg_update_" ++ i_name i)%string. split; [|reflexivity]. apply U. unfold user_fns. rewrite in_app_iff. left.
      apply in_map_iff. exists (i_name i). split; [reflexivity|]. cbn. now apply in_map.
    - apply in_flat_map in I as (b & B & I). destruct (b_changes (fst b)) eqn:C; [|destruct I]. destruct I as [<-|[]].
      exists ("cpg_canonicalize_" ++ b_id (fst b))%string. split; [|reflexivity]. apply S. rewrite in_app_iff. left. apply in_flat_map. exists (fst b).
      split; [cbn; now apply in_map|]. rewrite C. now left.
    - destruct (ret_prim (x_if x) (y_vars (syms_of x))) eqn:C; [|destruct I]. destruct I as [<-|[]]. exists "cpg_retrieve_prim". split; [|reflexivity]. apply S.
      rewrite !in_app_iff. right. left. change (y_if (syms_of x)) with (x_if x). rewrite C. now left.
    - destruct (negb (x_explicit x =? 1)%nat && ret_dual (x_if x) (y_duals (syms_of x))) eqn:C; [|destruct I]. destruct I as [<-|[]].
      exists "cpg_retrieve_dual". split; [|reflexivity]. apply S. rewrite !in_app_iff. right. right. left.
      change (y_if (syms_of x)) with (x_if x). change (y_explicit (syms_of x)) with (x_explicit x). apply andb_prop in C as (-> & ->). now left.
    - destruct (expl_x x) eqn:C; [destruct I|]. destruct I as [<-|[]]. exists "cpg_retrieve_info". split; [|reflexivity]. apply S. rewrite !in_app_iff. cbn. tauto.
    - change (y_if (syms_of x)) with (x_if x) in S. destruct (inmem (x_if x)) eqn:C; [|destruct I]. cbn [when_f] in I. apply in_app_iff in I as [I|[<-|[]]].
      + apply in_flat_map in I as (b & B & I). destruct (String.eqb (b_id (fst b)) "d") eqn:D; [destruct I|]. destruct I as [<-|[]].
        exists ("cpg_copy_" ++ b_id (fst b))%string. split; [|reflexivity]. apply S. rewrite !in_app_iff. do 4 right. left. left. apply in_flat_map.
        exists (fst b). split; [cbn; now apply in_map|]. rewrite D. now left.
      + exists "cpg_copy_all". split; [|reflexivity]. apply S. rewrite !in_app_iff. do 4 right. left. right. now left.
    - destruct I as [<-|[]]. exists "cpg_solve". split; [|reflexivity]. apply S. rewrite !in_app_iff. cbn. tauto.
    - change (y_reduced (syms_of x)) with (x_reduced x) in S. destruct (expl_x x && negb (x_reduced x)) eqn:C; [|destruct I]. destruct I as [<-|[]]. exists "cpg_obj". split; [|reflexivity]. apply S. rewrite !in_app_iff. cbn. tauto.
    - destruct (expl_x x) eqn:C; [destruct I|]. cbn [negb when_f] in I. destruct I as [<-|I].
      + exists "cpg_set_solver_default_settings". split; [|reflexivity]. apply S. rewrite !in_app_iff. cbn. tauto.
      + apply in_map_iff in I as (s & <- & I). exists ("cpg_set_solver_" ++ fst s)%string. split; [|reflexivity]. apply U. unfold user_fns. rewrite EX.
        rewrite !in_app_iff. right. left. cbn. apply in_map_iff. exists (fst s). split; [reflexivity|]. now apply in_map. }
  destruct X as (b & B & ->). unfold defs. apply in_app_iff. left. change (y_prefix (syms_of x)) with (x_prefix x). now apply in_map.
Qed.

Lemma pre_inj : forall p a b, (p ++ a)%string = (p ++ b)%string -> a = b.
Proof. induction p as [|c p IH]; intros a b E; [assumption|]. injection E as E. now apply IH. Qed.
Definition sets (n : string) : Prop := exists t, n = ("cpg_set_solver_" ++ t)%string.
Lemma declared_sets : forall x p t, In p (header_pairs x) -> fst (snd p) = (x_prefix x ++ "cpg_set_solver_" ++ t)%string ->
  expl_x x = false /\ (snd p = plain_sig x "cpg_set_solver_default_settings" \/ exists s, In s (x_settings x) /\ snd p = set_sig x s).
Proof.
  intros x p t I E. unfold header_pairs in I. rewrite !in_app_iff in I. destruct I as [I|[I|[I|[I|[I|[I|[I|[I|I]]]]]]]].
  - exfalso. apply in_map_iff in I as (i & <- & I). apply pre_inj in E. discriminate E.
  - exfalso. apply in_flat_map in I as (b & B & I). destruct (b_changes (fst b)); [|destruct I]. destruct I as [<-|[]]. apply pre_inj in E. discriminate E.
  - exfalso. destruct (ret_prim (x_if x) (y_vars (syms_of x))); [|destruct I]. destruct I as [<-|[]]. apply pre_inj in E. discriminate E.
  - exfalso. destruct (negb (x_explicit x =? 1)%nat && ret_dual (x_if x) (y_duals (syms_of x))); [|destruct I]. destruct I as [<-|[]]. apply pre_inj in E. discriminate E.
  - exfalso. destruct (expl_x x); [destruct I|]. destruct I as [<-|[]]. apply pre_inj in E. discriminate E.
  - exfalso. destruct (inmem (x_if x)); [|destruct I]. cbn [when_f] in I. apply in_app_iff in I as [I|[<-|[]]].
    + apply in_flat_map in I as (b & B & I). destruct (String.eqb (b_id (fst b)) "d"); [destruct I|]. destruct I as [<-|[]]. apply pre_inj in E. discriminate E.
    + apply pre_inj in E. discriminate E.
  - exfalso. destruct I as [<-|[]]. apply pre_inj in E. discriminate E.
  - exfalso. destruct (expl_x x && negb (x_reduced x)); [|destruct I]. destruct I as [<-|[]]. apply pre_inj in E. discriminate E.
  - destruct (expl_x x); [destruct I|]. split; [reflexivity|]. cbn [negb when_f] in I. destruct I as [<-|I]; [now left|]. right.
    apply in_map_iff in I as (s & <- & I). eauto.
Qed.
Lemma declared_updates : forall x p t, In p (header_pairs x) -> fst (snd p) = (x_prefix x ++ "cpg_update_" ++ t)%string ->
  exists i, In i (x_params x) /\ snd p = update_sig x i.
Proof.
  intros x p t I E. unfold header_pairs in I. rewrite !in_app_iff in I. destruct I as [I|[I|[I|[I|[I|[I|[I|[I|I]]]]]]]].
  - apply in_map_iff in I as (i & <- & I). eauto.
  - exfalso. apply in_flat_map in I as (b & B & I). destruct (b_changes (fst b)); [|destruct I]. destruct I as [<-|[]]. apply pre_inj in E. discriminate E.
  - exfalso. destruct (ret_prim (x_if x) (y_vars (syms_of x))); [|destruct I]. destruct I as [<-|[]]. apply pre_inj in E. discriminate E.
  - exfalso. destruct (negb (x_explicit x =? 1)%nat && ret_dual (x_if x) (y_duals (syms_of x))); [|destruct I]. destruct I as [<-|[]]. apply pre_inj in E. discriminate E.
  - exfalso. destruct (expl_x x); [destruct I|]. destruct I as [<-|[]]. apply pre_inj in E. discriminate E.
  - exfalso. destruct (inmem (x_if x)); [|destruct I]. cbn [when_f] in I. apply in_app_iff in I as [I|[<-|[]]].
    + apply in_flat_map in I as (b & B & I). destruct (String.eqb (b_id (fst b)) "d"); [destruct I|]. destruct I as [<-|[]]. apply pre_inj in E. discriminate E.
    + apply pre_inj in E. discriminate E.
  - exfalso. destruct I as [<-|[]]. apply pre_inj in E. discriminate E.
  - exfalso. destruct (expl_x x && negb (x_reduced x)); [|destruct I]. destruct I as [<-|[]]. apply pre_inj in E. discriminate E.
  - exfalso. destruct (expl_x x); [destruct I|]. cbn [negb when_f] in I. destruct I as [<-|I]; [apply pre_inj in E; discriminate E|].
    apply in_map_iff in I as (s & <- & I). apply pre_inj in E. discriminate E.
Qed.
Lemma types_inj : forall a b, In a known_types -> In b known_types -> type_words a = type_words b -> a = b.
Proof. intros a b A B. cbn in A, B. destruct A as [<-|[<-|[<-|[]]]], B as [<-|[<-|[<-|[]]]]; intro E; vm_compute in E; congruence. Qed.

(** The shapes of the declarations. *)
Definition updates_param (x : rin) (i : item) : signature :=
  ((x_prefix x ++ "cpg_update_" ++ i_name i)%string, ("void", if (i_size i =? 1)%nat then [["cpg_float"]] else [["cpg_int"]; ["cpg_float"]])).
Definition no_args (x : rin) (f : string) : signature := ((x_prefix x ++ f)%string, ("void", [])).
Definition sets_value (x : rin) (s : string * string) : signature := ((x_prefix x ++ "cpg_set_solver_" ++ fst s)%string, ("void", [type_words (snd s)])).

(** README.html shows the declarations of the update functions, of cpg_solve and, with a name [n] and a type [t] put in place of the
    two placeholders, of the functions for settings, and an ellipsis.
    Those of the update functions and of cpg_solve are in the header in any mode, and there are no other update functions.
    The other two are in the header exactly if the mode is not explicit and, for the second, [n] is a setting of type [t]. *)
Theorem C75_functions : forall x n t, ok x -> word n -> In t ["cpg_int"; "cpg_float"; "const char*"] -> exists doc decl,
  functions_in (fill n t (shown (readme_functions x))) = Some (doc, ["."; "."; "."])
  /\ functions_in (decls_text x) = Some (decl, [])
  /\ doc = map (updates_param x) (x_params x) ++ [no_args x "cpg_solve"; no_args x "cpg_set_solver_default_settings"; sets_value x (n, t)]
  /\ (forall i, In i (x_params x) -> In (updates_param x i) decl)
  /\ In (no_args x "cpg_solve") decl
  /\ (forall f m, In f decl -> fst f = (x_prefix x ++ "cpg_update_" ++ m)%string -> In f doc)
  /\ (In (no_args x "cpg_set_solver_default_settings") decl <-> x_explicit x = 0)
  /\ (In (sets_value x (n, t)) decl <-> x_explicit x = 0 /\ In (n, t) (x_settings x)).
Proof.
  intros x n t H W T. eexists. eexists. split; [now apply readme_functions_ok|]. split; [now apply header_functions|].
  assert (EX : expl_x x = false <-> x_explicit x = 0) by (unfold expl_x; rewrite negb_false_iff; apply Nat.eqb_eq).
  assert (D : map snd (doc_pairs x n t) = map (updates_param x) (x_params x) ++ [no_args x "cpg_solve"; no_args x "cpg_set_solver_default_settings"; sets_value x (n, t)]).
  { unfold doc_pairs. rewrite map_app, map_map. f_equal. }
  split; [exact D|]. split.
  { intros i I. apply in_map_iff. exists (update_pair true "val" x i). split; [reflexivity|]. unfold header_pairs. rewrite !in_app_iff. left. now apply in_map. }
  split. { apply in_map_iff. exists (plain_pair true x "cpg_solve"). split; [reflexivity|]. unfold header_pairs. rewrite !in_app_iff. cbn [In]. tauto. }
  split. { intros f m I E. apply in_map_iff in I as (p & <- & I). destruct (declared_updates x p m I E) as (i & J & ->). rewrite D, in_app_iff. left.
           apply in_map_iff. exists i. split; [reflexivity|assumption]. }
  split; split.
  - intro I. apply in_map_iff in I as (p & E & I). apply EX. eapply declared_sets; [exact I|]. rewrite E. cbn [fst no_args].
    instantiate (1 := "default_settings"). reflexivity.
  - intro E. apply EX in E. apply in_map_iff. exists (plain_pair true x "cpg_set_solver_default_settings"). split; [reflexivity|].
    unfold header_pairs. rewrite E. rewrite !in_app_iff. cbn [negb when_f In]. tauto.
  - intro I. apply in_map_iff in I as (p & E & I). destruct (declared_sets x p n I) as (X & Y); [rewrite E; reflexivity|]. split; [now apply EX|].
    rewrite E in Y. destruct Y as [Y|((m & u) & J & Y)].
    + exfalso. discriminate Y.
    + pose proof (in_types x (m, u) H J) as K. unfold sets_value, set_sig in Y. cbn [fst snd] in *. injection Y as Y1 Y2.
      apply pre_inj in Y1. injection Y1 as <-. apply types_inj in Y2; [subst u; assumption|exact T|exact K].
  - intros (E & I). apply EX in E. apply in_map_iff. exists (set_pair true x (n, t)). split; [reflexivity|].
    unfold header_pairs. rewrite E. rewrite !in_app_iff. do 8 right. cbn [negb when_f]. right. now apply in_map.
Qed.

(** The list of settings names all of them, in order, and nothing else. *)
Lemma at_commas_with : forall l, Forall word l -> at_commas [] (with_commas l) = map (fun s => [s]) l.
Proof.
  induction 1 as [|a l W H IH]; [reflexivity|]. destruct l as [|b l].
  - cbn [with_commas at_commas map]. rewrite (word_neqb a "," W eq_refl). reflexivity.
  - change (with_commas (a :: b :: l)) with (a :: "," :: with_commas (b :: l)). cbn [at_commas]. rewrite (word_neqb a "," W eq_refl).
    change (String.eqb "," ",") with true. cbv iota. cbn [app]. rewrite IH. reflexivity.
Qed.
Theorem C75_settings_list : forall x, ok x -> at_commas [] (tokens (untag false (settings_list x))) = map (fun s => [fst s]) (x_settings x).
Proof.
  intros x H. unfold settings_list. rewrite <- (map_map fst (fun s => ("<code>" ++ s ++ "</code>")%string)).
  assert (W : Forall word (map fst (x_settings x))) by (apply Forall_map, ok_settings, H).
  rewrite settings_text, commas_tokens, at_commas_with by assumption. now rewrite map_map.
Qed.

(** ** Tables *)

(** What a reader finds next to a name. *)
Definition shows (i : item) : list string :=
  match i_shape i with
  | None => [num (i_size i)]
  | Some [] => ["1"]
  | Some [a] => [num a]
  | Some (a :: b :: _) => [num a; "by"; num b; "("; num (i_size i); ")"]
  end.
Definition entries (s : list nat) : nat := fold_right Nat.mul 1 s.

Theorem C75_tables : forall l, Forall (fun i => word (i_name i)) l -> tokens (untag false (table l)) = flat_map (fun i => i_name i :: shows i) l.
Proof. exact table_tokens. Qed.
(** The number of entries is shown unless fewer are stored than a vector or scalar has; up to two dimensions are. *)
Theorem C75_table_numbers : forall i,
  (forall s, i_shape i = Some s -> length s <= 1 -> entries s = i_size i) -> In (num (i_size i)) (shows i).
Proof.
  intros i H. unfold shows. destruct (i_shape i) as [[|a [|b r]]|]; cbn; auto.
  - specialize (H [] eq_refl ltac:(cbn; lia)). cbn in H. rewrite <- H. left. reflexivity.
  - specialize (H [a] eq_refl ltac:(cbn; lia)). cbn in H. rewrite Nat.mul_1_r in H. rewrite <- H. now left.
  - tauto.
Qed.
Theorem C75_table_shapes : forall i s, i_shape i = Some s -> length s <= 2 -> forall a, In a s -> In (num a) (shows i).
Proof.
  intros i s E L a I. unfold shows. rewrite E. destruct s as [|u [|w [|z r]]]; cbn [In length] in *; [contradiction| | |lia].
  - destruct I as [->|[]]. now left.
  - destruct I as [->|[->|[]]]; tauto.
Qed.
(** Refuted: a third dimension is not shown, nor is the number of stored entries of a sparse vector. *)
Theorem C75_table_refuted :
  (exists i s a, i_shape i = Some s /\ In a s /\ ~ In (num a) (shows i)) /\ (exists i, word (i_name i) /\ ~ In (num (i_size i)) (shows i)).
Proof.
  split.
  - exists (mkItem "A" (Some [2; 3; 4]) 24 false), [2; 3; 4], 4. split; [reflexivity|]. split; [cbn; tauto|]. vm_compute. intuition discriminate.
  - exists (mkItem "w" (Some [5]) 2 false). split; [split; [discriminate|reflexivity]|]. vm_compute. intuition discriminate.
Qed.

(** ** Files *)

Definition unlisted : list path :=
  [["__init__.py"]; ["COPYING"]; inc ++ ["cpg_osqp_grad_compute.h"]; src ++ ["cpg_osqp_grad_compute.c"];
   inc ++ ["cpg_osqp_grad_workspace.h"]; src ++ ["cpg_osqp_grad_workspace.c"]].
Lemma expected_listed : forall c p, cfg_ok c -> expected_at c p <> None -> In p (tree_files (b_grad c) (b_two c)) \/ In p unlisted.
Proof.
  intros c p (H1 & H2 & H3) N. unfold expected_at in N. destruct (List.find (fun e => path_eqb p (fst e)) (expected c)) as [(q, w)|] eqn:E.
  - apply find_some in E as (I & E). cbn [fst] in E. apply path_eqb_eq in E. subst q. unfold expected in I. rewrite !in_app_iff in I. unfold tree_files. rewrite !in_app_iff.
    destruct (b_grad c), (b_two c), (b_expl c =? 0)%nat; cbn [In] in I; repeat match goal with Y : _ \/ _ |- _ => destruct Y as [Y|Y] end;
    try contradiction; injection I as <- _; cbn; tauto.
  - destruct (b_if c); try congruence. destruct (path_eqb p ["COPYING"]) eqn:X; [|congruence]. apply path_eqb_eq in X. subst p. right. cbn. tauto.
Qed.
(** The tree in README.html: its files and directories are there, and it leaves out only these files and what is below
    the solvers' directories. *)
Theorem C75_tree : forall v c s, cfg_ok c -> generate_files v c = inr s ->
  (forall p, In p (tree_files (b_grad c) (b_two c)) -> has_file s p = true)
  /\ (forall p, In p tree_dirs -> has_dir s p = true)
  /\ (forall p, has_file s p = true -> In p (tree_files (b_grad c) (b_two c)) \/ In p unlisted
        \/ (exists r, p = sd ++ r) \/ (b_two c = true /\ exists r, p = od ++ r)).
Proof.
  intros v c s H E. destruct (C70_files v c s H E) as (F & _ & _). split; [|split].
  - intros p I. unfold has_file.
    assert (X : exists w, expected_at c p = Some w /\ Build.strip sd p = None /\ Build.strip od p = None).
    { destruct H as (H1 & H2 & H3). unfold tree_files in I. rewrite !in_app_iff in I. unfold expected_at, expected.
      destruct (b_grad c) eqn:G, (b_two c) eqn:T, (b_expl c =? 0)%nat eqn:X; cbn [app In] in I;
      try (exfalso; specialize (H2 eq_refl); discriminate H2);
      try (exfalso; apply Nat.eqb_neq in X; destruct (H1 X); discriminate);
      repeat match goal with Y : _ \/ _ |- _ => destruct Y as [Y|Y] end; try contradiction; subst p; eexists; (split; [reflexivity|split; reflexivity]). }
    destruct X as (w & X & S1 & S2). rewrite F by auto. now rewrite X.
  - intros p I. eapply tree_dirs_there; eauto.
  - intros p I. destruct (Build.strip sd p) as [r|] eqn:S; [right; right; left; exists r; now apply BuildProofs.strip_app|].
    destruct (b_two c) eqn:T.
    + destruct (Build.strip od p) as [r|] eqn:O; [right; right; right; split; [reflexivity|]; exists r; now apply BuildProofs.strip_app|].
      unfold has_file in I. rewrite F in I by auto. destruct (expected_listed c p H) as [X|X]; [now destruct (expected_at c p)| |]; rewrite ?T in X; auto.
    + unfold has_file in I. rewrite F in I by (auto; discriminate). destruct (expected_listed c p H) as [X|X]; [now destruct (expected_at c p)| |]; rewrite ?T in X; auto.
Qed.

(** "Embed": the files named for copying are all that CMakeLists.txt lists, and all the directories it adds exactly if
    there is one stage; with two stages nothing of osqp_code, which it adds, is among them. *)
Theorem C75_embed : forall c p,
  (In p (["c"; "CMakeLists.txt"] :: cmake_head c ++ example_src c ++ cmake_dirs c) -> copied_for_embedding p = true)
  /\ ((forall d, In d (added_dirs (b_two c)) -> copied_for_embedding d = true) <-> b_two c = false)
  /\ (b_two c = true -> In od (added_dirs (b_two c)) /\ forall r, copied_for_embedding (od ++ r) = false).
Proof.
  intros c p. split; [|split].
  - intros [<-|I]; [reflexivity|]. rewrite !in_app_iff in I. unfold cmake_head, example_src, cmake_src, cmake_dirs in I. rewrite !in_map_iff, !in_app_iff, in_map_iff in I.
    destruct I as [(f & <- & _)|[[(f & <- & _)|[<-|[]]]|[<-|I]]]; try reflexivity.
    destruct (b_if c); cbn [In] in I; repeat match goal with Y : _ \/ _ |- _ => destruct Y as [<-|Y] end; try contradiction; reflexivity.
  - unfold added_dirs. destruct (b_two c); split; intro X; try discriminate.
    + specialize (X od (or_intror (or_introl eq_refl))). discriminate X.
    + reflexivity.
    + intros d [<-|[]]. reflexivity.
  - intros ->. split; [cbn; tauto|]. intro r. reflexivity.
Qed.
(** Refuted: a two-stage generation makes the directory osqp_code, CMakeLists.txt adds it, and it is not copied. *)
Theorem C75_embed_refuted : exists v c s, cfg_ok c /\ generate_files v c = inr s /\ In od (added_dirs (b_two c))
  /\ has_file s (od ++ ["CMakeLists.txt"]) = true /\ copied_for_embedding (od ++ ["CMakeLists.txt"]) = false.
Proof.
  exists ecos_vendor, ecos_two. eexists. split; [split; [|split]; cbn; intros; first [congruence | easy | tauto]|].
  split; [vm_compute; reflexivity|]. split; [cbn; tauto|]. split; vm_compute; reflexivity.
Qed.

(** ** The import line *)

(** In the directory from which the code was generated: the import line is one of Python, and names the generated directory,
    exactly if each part of code_dir between slashes is an identifier. *)
Theorem C75_import : forall cwd code_dir,
  let names := split dot (import_name code_dir) in
  (Forall (fun c => identifier c = true) names /\ walk cwd names = Import.resolve cwd code_dir ++ ["cpg_solver"])
  <-> Forall (fun c => identifier c = true) (split slash code_dir).
Proof.
  intros cwd d names. unfold names. rewrite import_parts. split.
  - intros (H & E). apply Forall_app in H as (H & _).
    assert (S : Forall solid (split dot (dotted d))) by now apply ident_solid.
    rewrite walk_solid in E by (apply Forall_app; split; [assumption|apply Forall_cons; [repeat split; discriminate|constructor]]).
    assert (P : Forall solid (split slash d)).
    { apply Forall_forall. intros c I. rewrite split_flat in S. rewrite Forall_forall in S.
      assert (N : ~ In "" (split dot (repl bslash dot c))).
      { intro J. destruct (S "") as (X & _); [|congruence]. apply in_flat_map. eauto. }
      repeat split; intros ->; apply N; cbn; tauto. }
    unfold Import.resolve in E. rewrite (relative d P), (walk_solid (split slash d)), <- app_assoc in E by assumption. apply app_inv_head, app_inv_tail in E.
    now rewrite <- E.
  - intro H. assert (X : split dot (dotted d) = split slash d).
    { rewrite split_flat. clear -H. induction H as [|c l C H IH]; [reflexivity|]. cbn [flat_map]. now rewrite ident_split, IH. }
    assert (P : Forall solid (split slash d)) by now apply ident_solid.
    rewrite X. split; [apply Forall_app; split; [assumption|apply Forall_cons; [reflexivity|constructor]]|].
    unfold Import.resolve. rewrite (relative d P), !walk_solid, app_assoc; auto.
    apply Forall_app; split; [assumption|apply Forall_cons; [repeat split; discriminate|constructor]].
Qed.
(** Refuted: a directory the generator accepts, for which no import line of that form is right. *)
Theorem C75_import_refuted : exists code_dir, Import.resolve ["home"] code_dir = ["home"; "code-1"]
  /\ ~ Forall (fun c => identifier c = true) (split dot (import_name code_dir)).
Proof. exists "code-1". split; [reflexivity|]. intro H. inversion H as [|? ? X]. discriminate X. Qed.

(** ** Examples *)
Definition ex_items : list item := [mkItem "x" (Some [3]) 3 false; mkItem "t" (Some []) 1 false; mkItem "Y" (Some [2; 2]) 4 true].
Definition ex : rin :=
  mkRin IOSQP "nn_" false 0 false
        [(mkBlock "P" true false, 3); (mkBlock "q" true false, 2); (mkBlock "d" true false, 1); (mkBlock "A" false false, 4)]
        ex_items [mkItem "d0" None 2 false] [mkItem "w" (Some [5]) 2 false; mkItem "gamma" (Some []) 1 false]
        [("max_iter", "cpg_int"); ("eps_abs", "cpg_float")] false "my/code".
Definition ex_expl : rin :=
  mkRin IPDAQP "" false 1 false (x_blocks ex) ex_items (x_duals ex) (x_params ex) [] false "code".
Ltac oks := constructor; repeat first [apply Forall_cons; [first [split; [discriminate|reflexivity] | cbn; tauto]|] | apply Forall_nil | reflexivity].
Example ex_ok : ok ex. Proof. oks. Qed.
Example ex_expl_ok : ok ex_expl. Proof. oks. Qed.
Example ex_types : exists d, types_in (readme_types ex) = Some d /\ length d = 4 /\ map fst d = ["CPG_Prim_t"; "CPG_Dual_t"; "CPG_Info_t"; "CPG_Result_t"].
Proof. eexists. split; [vm_compute; reflexivity|]. split; reflexivity. Qed.
Example ex_functions : exists doc decl, functions_in (fill "eps_abs" "cpg_float" (shown (readme_functions ex))) = Some (doc, ["."; "."; "."])
  /\ functions_in (decls_text ex) = Some (decl, []) /\ In ("nn_cpg_set_solver_eps_abs", ("void", [["cpg_float"]])) doc
  /\ In ("nn_cpg_set_solver_eps_abs", ("void", [["cpg_float"]])) decl /\ In ("nn_cpg_update_w", ("void", [["cpg_int"]; ["cpg_float"]])) decl.
Proof. eexists. eexists. split; [vm_compute; reflexivity|]. split; [vm_compute; reflexivity|]. cbn. tauto. Qed.
Example ex_list : tokens (untag false (settings_list ex)) = ["max_iter"; ","; "eps_abs"]. Proof. reflexivity. Qed.
Example ex_table : tokens (untag false (table (x_vars ex))) = ["x"; "3"; "t"; "1"; "Y"; "2"; "by"; "2"; "("; "4"; ")"]. Proof. vm_compute. reflexivity. Qed.
Example ex_import : Forall (fun c => identifier c = true) (split slash (x_code_dir ex)) /\ import_name (x_code_dir ex) = "my.code.cpg_solver".
Proof. split; [repeat constructor|reflexivity]. Qed.
Example ex_tree : exists s, cfg_ok ecos_two /\ generate_files ecos_vendor ecos_two = inr s /\ length (tree_files (b_grad ecos_two) (b_two ecos_two)) = 16.
Proof. eexists. split; [split; [|split]; cbn; intros; first [congruence | easy | tauto]|]. split; [vm_compute|]; reflexivity. Qed.

(** Refuted: in explicit mode README.html describes a type, a member of the result and functions that do not exist, and for
    explicit=1 a dual solution in the result. *)
Theorem C75_explicit_refuted : exists x doc hdr fs decl, ok x /\ x_explicit x = 1
  /\ types_in (readme_types x) = Some doc /\ types_in (types_text x) = Some hdr
  /\ In "CPG_Info_t" (map fst doc) /\ ~ In "CPG_Info_t" (map fst hdr)
  /\ In ("CPG_Result_t", Struct fs) doc /\ In "dual" (map fst fs) /\ In "info" (map fst fs)
  /\ In ("CPG_Result_t", Struct [("prim", TPtr (TName "CPG_Prim_t"))]) hdr
  /\ (forall n t, In t ["cpg_int"; "cpg_float"; "const char*"] -> word n -> exists l, functions_in (fill n t (shown (readme_functions x))) = Some (l, ["."; "."; "."])
        /\ In ("cpg_set_solver_default_settings", ("void", [])) l /\ In (("cpg_set_solver_" ++ n)%string, ("void", [type_words t])) l)
  /\ functions_in (decls_text x) = Some (decl, []) /\ map fst decl = ["cpg_update_w"; "cpg_update_gamma"; "cpg_canonicalize_P"; "cpg_canonicalize_q"; "cpg_canonicalize_d"; "cpg_retrieve_prim"; "cpg_solve"; "cpg_obj"].
Proof.
  exists ex_expl. eexists. eexists. eexists. eexists. split; [apply ex_expl_ok|]. split; [reflexivity|].
  split; [vm_compute; reflexivity|]. split; [vm_compute; reflexivity|]. split; [cbn; tauto|]. split; [cbn; intuition discriminate|].
  split; [cbn; do 3 right; left; reflexivity|]. split; [cbn; tauto|]. split; [cbn; tauto|]. split; [cbn; tauto|].
  split. { intros n t T W. destruct (C75_functions ex_expl n t ex_expl_ok W T) as (doc & decl & A & _ & B & _). exists doc. split; [exact A|]. rewrite B, !in_app_iff.
           split; right; cbn [In]; auto. }
  split; [vm_compute; reflexivity|]. reflexivity.
Qed.

Print Assumptions C75_header_types.
Print Assumptions C75_types.
Print Assumptions C75_declared_is_defined.
Print Assumptions C75_functions.
Print Assumptions C75_settings_list.
Print Assumptions C75_tables.
Print Assumptions C75_table_numbers.
Print Assumptions C75_table_shapes.
Print Assumptions C75_table_refuted.
Print Assumptions C75_tree.
Print Assumptions C75_embed.
Print Assumptions C75_embed_refuted.
Print Assumptions C75_import.
Print Assumptions C75_import_refuted.
Print Assumptions C75_explicit_refuted.
