(** Lists and variables of CMake; the run of the generated file. *)

From Coq Require Import String Ascii List Bool Arith Lia.
From Verif Require Import Base Config Import Build BuildSpec CMake CMakeSpec.
Import ListNotations.
Open Scope string_scope.
Open Scope list_scope.

(** ** Text *)

Lemma app_nil_s : forall s, append s "" = s.
Proof. induction s as [|x s IH]; cbn; [reflexivity|]. now rewrite IH. Qed.
Lemma app_assoc_s : forall a b c, append a (append b c) = append (append a b) c.
Proof. induction a as [|x a IH]; intros; cbn; [reflexivity|]. now rewrite IH. Qed.
Lemma app_empty : forall a b, append a b = "" -> a = "" /\ b = "".
Proof. intros [|x a] b H; cbn in H; [auto|discriminate]. Qed.
Lemma app_inj_r : forall p a b, append p a = append p b -> a = b.
Proof. induction p as [|x p IH]; intros a b H; [exact H|]. cbn in H. injection H as H. now apply IH. Qed.

Lemma single_nil : single "".
Proof. intros [|x a] b; discriminate. Qed.
Lemma single_cons : forall ch r, single (String ch r) <-> ch <> ";"%char /\ single r.
Proof.
  intros ch r. split.
  - intro H. split.
    + intro E. subst. exact (H "" r eq_refl).
    + intros a b E. subst. exact (H (String ch a) b eq_refl).
  - intros [A B] [|x a] b E; cbn in E; injection E as E1 E2; [now subst|]. exact (B a b E2).
Qed.
Lemma single_app : forall a b, single (append a b) <-> single a /\ single b.
Proof.
  induction a as [|x a IH]; intro b; cbn [append].
  - split; [intro H; split; [apply single_nil|exact H]|intros [_ H]; exact H].
  - rewrite !single_cons, IH. tauto.
Qed.
Fixpoint semis (s : string) : bool := match s with EmptyString => false | String ch r => Ascii.eqb ch ";" || semis r end.
Lemma semis_single : forall s, semis s = false -> single s.
Proof.
  induction s as [|ch r IH]; intro H; [apply single_nil|]. cbn in H. apply orb_false_iff in H. destruct H as [A B].
  apply single_cons. split; [now apply Ascii.eqb_neq|auto].
Qed.

Lemma items_from_single : forall s acc, single s ->
  items_from acc s = if String.eqb (append acc s) "" then [] else [append acc s].
Proof.
  induction s as [|ch r IH]; intros acc H; cbn [items_from].
  - now rewrite app_nil_s.
  - apply single_cons in H. destruct H as [A B]. apply Ascii.eqb_neq in A. rewrite A.
    rewrite IH by exact B. rewrite <- app_assoc_s. reflexivity.
Qed.
Lemma items_from_cons : forall s acc r, single s ->
  items_from acc (append s (String ";" r)) = (if String.eqb (append acc s) "" then [] else [append acc s]) ++ items r.
Proof.
  induction s as [|ch s IH]; intros acc r H; cbn [append items_from].
  - rewrite app_nil_s. reflexivity.
  - apply single_cons in H. destruct H as [A B]. apply Ascii.eqb_neq in A. rewrite A.
    rewrite IH by exact B. rewrite <- app_assoc_s. reflexivity.
Qed.
Lemma items_element : forall s, element s -> items s = [s].
Proof.
  intros s [N H]. unfold items. rewrite items_from_single by exact H. cbn [append].
  apply String.eqb_neq in N. now rewrite N.
Qed.
Lemma items_joined : forall l, Forall element l -> items (joined l) = l.
Proof.
  induction l as [|x l IH]; intro H; [reflexivity|]. inversion H as [|? ? [N S1] H2]; subst.
  destruct l as [|y l]; [apply items_element; now split|].
  change (joined (x :: y :: l)) with (append x (String ";" (joined (y :: l)))).
  unfold items. rewrite items_from_cons by exact S1. cbn [append]. apply String.eqb_neq in N. rewrite N.
  rewrite IH by exact H2. reflexivity.
Qed.
(** The elements of any value are elements. *)
Lemma items_from_good : forall s acc, single acc -> Forall element (items_from acc s).
Proof.
  assert (O : forall acc, single acc -> Forall element (if String.eqb acc "" then [] else [acc])).
  { intros acc H. destruct (String.eqb acc "") eqn:E; [constructor|]. apply String.eqb_neq in E.
    apply Forall_cons; [now split|constructor]. }
  induction s as [|ch r IH]; intros acc H; cbn [items_from]; [now apply O|].
  destruct (Ascii.eqb ch ";") eqn:E.
  - apply Forall_app. split; [now apply O|apply IH, single_nil].
  - apply IH. apply single_app. split; [exact H|]. apply single_cons. split; [now apply Ascii.eqb_neq|apply single_nil].
Qed.
Lemma items_good : forall s, Forall element (items s).
Proof. intro s. apply items_from_good, single_nil. Qed.

(** ** Variables *)

Lemma set_same : forall e v x, set_var e v x v = x.
Proof. intros. unfold set_var. now rewrite String.eqb_refl. Qed.
Lemma set_other : forall e v x w, w <> v -> set_var e v x w = e w.
Proof. intros e v x w H. unfold set_var. apply String.eqb_neq in H. now rewrite H. Qed.

(** ** Arguments *)

Lemma expand_ref : forall e v, expand e (ref v) = e v.
Proof. intros. unfold ref, expand. cbn [fold_right expand1]. now rewrite !app_nil_s. Qed.
Lemma expand_at : forall e p, expand e [V [T here]; T p] = append (e here) p.
Proof. intros. unfold expand. cbn [fold_right expand1]. now rewrite !app_nil_s. Qed.
Lemma args_cons_ref : forall e v l, args e (plain (ref v) :: l) = items (e v) ++ args e l.
Proof. intros. unfold args. cbn [flat_map plain]. unfold plain. now rewrite expand_ref. Qed.
Lemma args_cons_at : forall e D p l, e here = D -> single D -> semis p = false -> p <> "" ->
  args e (at_ p :: l) = append D p :: args e l.
Proof.
  intros e D p l H HD Hp N. unfold args, at_, plain. cbn [flat_map]. rewrite expand_at, H.
  rewrite items_element; [reflexivity|]. split.
  - intro E. apply app_empty in E. now destruct E.
  - apply single_app. split; [exact HD|now apply semis_single].
Qed.
Lemma args_app : forall e l m, args e (l ++ m) = args e l ++ args e m.
Proof. intros. unfold args. apply flat_map_app. Qed.
Lemma args_good : forall e l, (forall ps, ~ In (true, ps) l) -> Forall element (args e l).
Proof.
  induction l as [|[q ps] l IH]; intro H; [constructor|]. unfold args. cbn [flat_map]. apply Forall_app. split.
  - destruct q; [exfalso; apply (H ps); now left|apply items_good].
  - apply IH. intros qs Hq. apply (H qs). now right.
Qed.
Lemma args_quoted : forall e v, args e [(true, ref v)] = [e v].
Proof. intros. unfold args. cbn [flat_map]. now rewrite expand_ref. Qed.

(** ** Runs *)

Section Run.
Variable glob : list string -> list string.
Variable found : string -> option string.
Notation run1 := (run1 glob found).
Notation run_cmds := (run_cmds glob found).

Lemma run_app : forall l m s, run_cmds (l ++ m) s = match run_cmds l s with inr t => run_cmds m t | inl e => inl e end.
Proof. induction l as [|k l IH]; intros; cbn [app CMake.run_cmds]; [reflexivity|]. destruct (run1 k s); [reflexivity|apply IH]. Qed.

Lemma run_sub : forall d body s,
  run1 (Sub d body) s = match run_cmds body (entered d s) with inr t => inr (left_ s t) | inl e => inl e end.
Proof.
  intros d body s. unfold entered, left_. cbn [CMake.run1].
  generalize (mkC (set_var (c_env s) here (append (c_env s here) (append "/" d))) (c_env s) (c_dirs s) (c_targets s) (c_links s)).
  intro u.
  assert (E : forall u, (fix go (l : list cmd) (s0 : cst) {struct l} : cerr + cst :=
     match l with [] => inr s0 | k :: l0 => match run1 k s0 with inl e => inl e | inr s1 => go l0 s1 end end) body u
     = run_cmds body u).
  { induction body as [|k l IH]; intro v; cbn [CMake.run_cmds]; [reflexivity|]. destruct (run1 k v); [reflexivity|apply IH]. }
  rewrite E. reflexivity.
Qed.

Lemma run_pass_up : forall v l s, c_env s v = "" -> args (c_env s) l <> [] -> Forall element (args (c_env s) l) ->
  run_cmds (pass_up v l) s
  = inr (mkC (set_var (c_env s) v (joined (args (c_env s) l))) (set_var (c_up s) v (joined (args (c_env s) l)))
             (c_dirs s) (c_targets s) (c_links s)).
Proof.
  intros v l s H0 H1 H2. unfold pass_up. cbn [CMake.run_cmds CMake.run1 c_env c_up c_dirs c_targets c_links].
  rewrite H0. set (x := joined (args (c_env s) l)).
  assert (N : String.eqb x "" = false).
  { apply String.eqb_neq. intro E. apply (f_equal items) in E. unfold x in E. rewrite items_joined in E by exact H2.
    cbn in E. now apply H1. }
  rewrite N. cbn [String.eqb]. rewrite args_quoted, set_same. reflexivity.
Qed.

Lemma run_links : forall n l s, existsb (fun t => String.eqb n (fst t)) (c_targets s) = true ->
  run_cmds (map (fun a => Link n [a]) l) s
  = inr (mkC (c_env s) (c_up s) (c_dirs s) (c_targets s) (c_links s ++ map (pair n) (args (c_env s) l))).
Proof.
  intros n. induction l as [|a l IH]; intros s H; cbn [map CMake.run_cmds].
  - unfold args. cbn. rewrite app_nil_r. now destruct s.
  - cbn [CMake.run1]. rewrite H. rewrite IH by exact H. cbn [c_env c_up c_dirs c_targets c_links].
    rewrite <- app_assoc. repeat f_equal. rewrite <- map_app. change (a :: l) with ([a] ++ l). now rewrite args_app.
Qed.

(** *** write_canon_cmake *)

Lemma args_heads : forall i e, single (e here) -> args e (cmake_headers i) = wanted_heads i e.
Proof.
  intros i e H. destruct i; cbn [cmake_headers wanted_heads];
    repeat (rewrite (args_cons_at e (e here)) by (reflexivity || exact H || discriminate));
    rewrite ?args_cons_ref; try (unfold args; cbn [flat_map]; rewrite ?app_nil_r; reflexivity).
  unfold args, plain. cbn [flat_map]. unfold expand, project_name. cbn [fold_right expand1].
  rewrite !app_nil_s, app_nil_r. reflexivity.
Qed.
Lemma args_srcs : forall i e, single (e here) -> args e (cmake_sources i) = wanted_srcs i e.
Proof.
  intros i e H. destruct i; cbn [cmake_sources wanted_srcs]; rewrite ?args_cons_ref;
    repeat (rewrite (args_cons_at e (e here)) by (reflexivity || exact H || discriminate));
    try (unfold args; cbn [flat_map]; rewrite ?app_nil_r; reflexivity).
  unfold args, plain. cbn [flat_map]. unfold expand, project_name. cbn [fold_right expand1].
  rewrite !app_nil_s, app_nil_r. reflexivity.
Qed.

Ltac names := let H := fresh in intro H; cbn in H;
  repeat match type of H with append ?p _ = _ => destruct p as [|? p]; cbn in H; [discriminate H|first [discriminate H|injection H as ? H; subst]] end.

Lemma suffix_src : forall p, append p "_SRC" <> "SOLVER_HEAD".
Proof. intros p. names. Qed.
Lemma suffix_amd : forall p, append p "_AMD_EXTERNAL_SRC" <> "SOLVER_HEAD".
Proof. intros p. names. Qed.

Lemma wanted_srcs_head : forall i e x, wanted_srcs i (set_var e "SOLVER_HEAD" x) = wanted_srcs i e.
Proof.
  intros i e x. destruct i; cbn [wanted_srcs]; try reflexivity.
  rewrite (set_other e "SOLVER_HEAD" x "PROJECT_NAME") by discriminate.
  rewrite (set_other e "SOLVER_HEAD" x (append (e "PROJECT_NAME") "_SRC")) by apply suffix_src.
  rewrite (set_other e "SOLVER_HEAD" x (append (e "PROJECT_NAME") "_AMD_EXTERNAL_SRC")) by apply suffix_amd.
  reflexivity.
Qed.

Lemma run_canon : forall name i s, good_glob glob -> single (c_env s here) -> i <> ICLARABEL ->
  exists e', run_cmds (canon_cmake name i) s
  = inr (mkC e' (set_var (set_var (c_up s) (append name "_head") (joined (glob (wanted_heads i (c_env s)))))
                         (append name "_src") (joined (glob (wanted_srcs i (c_env s)))))
             (c_dirs s) (c_targets s) (c_links s)).
Proof.
  intros name i s G H N. unfold canon_cmake.
  assert (A : exists h hs, cmake_headers i = h :: hs) by (destruct i; try (now exfalso; apply N); cbn; eauto).
  assert (B : exists h hs, cmake_sources i = h :: hs) by (destruct i; try (now exfalso; apply N); cbn; eauto).
  destruct A as (h & hs & A), B as (k & ks & B).
  pose proof (args_heads i (c_env s) H) as AH. pose proof (args_srcs i) as AS.
  rewrite A in AH. rewrite B in AS. rewrite A, B. cbn [app CMake.run_cmds CMake.run1 c_env c_up c_dirs c_targets c_links].
  rewrite AH, !args_cons_ref.
  assert (J : forall l, joined (items (joined (glob l)) ++ args (set_var (c_env s) "SOLVER_HEAD" (joined (glob (wanted_heads i (c_env s))))) [])
                        = joined (glob l)).
  { intro l. unfold args. cbn [flat_map]. rewrite app_nil_r. now rewrite items_joined by apply G. }
  rewrite AS by (rewrite set_other by discriminate; exact H).
  rewrite wanted_srcs_head, !set_same. rewrite J.
  match goal with |- context [items ?x ++ args ?e []] => change (args e []) with (@nil string) end.
  rewrite app_nil_r, items_joined by apply G. eexists. reflexivity.
Qed.

(** *** The lists of the generated file *)

Variables (c : bcfg) (D : string).
Hypothesis Hc : cfg_ok c.
Hypothesis HD : single D.

Lemma text3 : forall a b, text D ["c"; a; b] = append D (append "/" (append a (append "/" b))).
Proof. intros. unfold text. cbn [tl fold_left]. now rewrite !app_assoc_s. Qed.
Lemma text2 : forall a, text D ["c"; a] = append D (append "/" a).
Proof. reflexivity. Qed.
Lemma text4 : forall a b d, text D ["c"; a; b; d] = append D (append "/" (append a (append "/" (append b (append "/" d))))).
Proof. intros. unfold text. cbn [tl fold_left]. now rewrite !app_assoc_s. Qed.
Lemma text5 : forall a b d f, text D ["c"; a; b; d; f]
  = append D (append "/" (append a (append "/" (append b (append "/" (append d (append "/" f))))))).
Proof. intros. unfold text. cbn [tl fold_left]. now rewrite !app_assoc_s. Qed.

Lemma two_grad : b_two c = true -> b_grad c = true /\ expl c = false.
Proof.
  intro H. destruct Hc as (A & B & _). split; [now apply B|]. unfold expl. destruct (b_expl c) as [|n] eqn:E; [reflexivity|].
  destruct (A ltac:(discriminate)) as [_ Z]. congruence.
Qed.

Ltac at_step e He := repeat (rewrite (args_cons_at e D) by (exact He || exact HD || reflexivity || discriminate)).
Ltac texts := unfold inc, src, sd; cbn [app map]; rewrite ?text2, ?text3, ?text4, ?text5; cbn [append].

Lemma args_head : forall e, e here = D ->
  args e (head_args c) = map (text D) (cmake_head c) ++ (if b_two c then items (e "osqp_head") else []) ++ items (e "solver_head").
Proof.
  intros e He. unfold head_args, cmake_head. pose proof two_grad as T.
  destruct (b_two c); [destruct (T eq_refl) as [-> ->]|clear T; destruct (b_grad c); [destruct (expl c)|]];
    cbn [app]; at_step e He; rewrite ?args_cons_ref; texts; change (args e []) with (@nil string); now rewrite app_nil_r.
Qed.
Lemma args_src : forall e, e here = D ->
  args e (src_args c) = map (text D) (cmake_src c) ++ (if b_two c then items (e "osqp_src") else []) ++ items (e "solver_src").
Proof.
  intros e He. unfold src_args, cmake_src. pose proof two_grad as T.
  destruct (b_two c); [destruct (T eq_refl) as [-> ->]|clear T; destruct (b_grad c); [destruct (expl c)|]];
    cbn [app]; at_step e He; rewrite ?args_cons_ref; texts; change (args e []) with (@nil string); now rewrite app_nil_r.
Qed.
Lemma args_include : forall e, e here = D ->
  args e (at_ "/include" :: include_args (b_if c)) = map (text D) (cmake_dirs c).
Proof.
  intros e He. unfold cmake_dirs. destruct (b_if c); cbn [include_args]; at_step e He; texts; reflexivity.
Qed.
Lemma args_libs : forall e, args e (link_libs c) = libraries c (e "BLAS_LIBRARIES") (e "LAPACK_LIBRARIES").
Proof.
  intros e. unfold link_libs, libraries. destruct (b_if c); try reflexivity. destruct (b_sdp c); [|reflexivity].
  change (plain [T "libclarabel_c_static"] :: [plain (ref "BLAS_LIBRARIES"); plain (ref "LAPACK_LIBRARIES")])
    with ([plain [T "libclarabel_c_static"]] ++ [plain (ref "BLAS_LIBRARIES"); plain (ref "LAPACK_LIBRARIES")]).
  rewrite args_app, !args_cons_ref. change (args e []) with (@nil string). rewrite app_nil_r. reflexivity.
Qed.

(** *** After the subdirectories *)

Variable pre : string.

Lemma pre_name : forall x, In x ["cpg_include"; "cpg_head"; "cpg_src"] ->
  forall v, In v [here; "solver_head"; "solver_src"; "osqp_head"; "osqp_src"; "BLAS_LIBRARIES"; "LAPACK_LIBRARIES"] -> v <> append pre x.
Proof.
  intros x Hx v Hv E. symmetry in E. revert E. revert pre.
  cbn [In] in Hx, Hv. intro p.
  repeat (destruct Hx as [<-|Hx]; [repeat (destruct Hv as [<-|Hv]; [names|]); destruct Hv|]). destruct Hx.
Qed.

Definition after_subs : list cmd :=
  pass_up (append pre "cpg_include") (at_ "/include" :: include_args (b_if c))
  ++ pass_up (append pre "cpg_head") (head_args c)
  ++ pass_up (append pre "cpg_src") (src_args c)
  ++ [Dirs [plain (ref (append pre "cpg_include"))];
      Target "cpg_example" [plain (ref (append pre "cpg_head")); plain (ref (append pre "cpg_src")); at_ "/src/cpg_example.c"]]
  ++ map (fun l => Link "cpg_example" [l]) (link_libs c)
  ++ [Target "cpg" [plain (ref (append pre "cpg_head")); plain (ref (append pre "cpg_src"))]]
  ++ map (fun l => Link "cpg" [l]) (link_libs c).

Definition no_target (n : string) (l : list (string * list string)) : bool := negb (existsb (fun t => String.eqb n (fst t)) l).

Definition heads_in (e : env) : list string :=
  map (text D) (cmake_head c) ++ (if b_two c then items (e "osqp_head") else []) ++ items (e "solver_head").
Definition srcs_in (e : env) : list string :=
  map (text D) (cmake_src c) ++ (if b_two c then items (e "osqp_src") else []) ++ items (e "solver_src").

Lemma text_good : forall p, Forall (fun x => semis x = false) (tl p) -> tl p <> [] -> element (text D p).
Proof.
  intros p Hp N. unfold text. destruct (tl p) as [|x r]; [congruence|]. clear N. cbn [fold_left].
  inversion Hp as [|? ? S1 S2]; subst. 
  assert (G : element (append D (append "/" x))).
  { split; [intro E; apply app_empty in E; destruct E as [_ E]; discriminate E|].
    apply single_app. split; [exact HD|]. apply semis_single. cbn. exact S1. }
  revert G. generalize (append D (append "/" x)). clear S1 Hp. induction S2 as [|y r S1 S2 IH]; intros d G; [exact G|].
  cbn [fold_left]. apply IH. destruct G as [_ G]. split; [intro E; apply app_empty in E; destruct E as [_ E]; discriminate E|].
  apply single_app. split; [exact G|]. apply semis_single. cbn. exact S1.
Qed.
Lemma texts_good : forall l, forallb (fun p => forallb (fun x => negb (semis x)) (tl p) && negb (match tl p with [] => true | _ => false end)) l = true ->
  Forall element (map (text D) l).
Proof.
  intros l H. rewrite forallb_forall in H. apply Forall_forall. intros t Ht. apply in_map_iff in Ht. destruct Ht as (p & <- & Hp).
  apply H in Hp. apply andb_prop in Hp. destruct Hp as [A B]. apply text_good.
  - rewrite forallb_forall in A. apply Forall_forall. intros x Hx. specialize (A x Hx). now apply negb_true_iff in A.
  - intro E. rewrite E in B. discriminate B.
Qed.
Lemma heads_good : forall e, Forall element (heads_in e).
Proof.
  intro e. unfold heads_in. apply Forall_app. split; [|apply Forall_app; split; [destruct (b_two c); [apply items_good|constructor]|apply items_good]].
  apply texts_good. unfold cmake_head. destruct (b_grad c), (expl c), (b_two c); reflexivity.
Qed.
Lemma srcs_good : forall e, Forall element (srcs_in e).
Proof.
  intro e. unfold srcs_in. apply Forall_app. split; [|apply Forall_app; split; [destruct (b_two c); [apply items_good|constructor]|apply items_good]].
  apply texts_good. unfold cmake_src. destruct (b_grad c), (expl c), (b_two c); reflexivity.
Qed.
Lemma dirs_good : Forall element (map (text D) (cmake_dirs c)).
Proof. apply texts_good. unfold cmake_dirs. destruct (b_if c); reflexivity. Qed.

Lemma exists_app : forall n l m, existsb (fun t : string * list string => String.eqb n (fst t)) (l ++ m)
  = existsb (fun t => String.eqb n (fst t)) l || existsb (fun t => String.eqb n (fst t)) m.
Proof. intros. apply existsb_app. Qed.

(** The three variables passed to the enclosing file. *)
Definition up_env (u e : env) : env :=
  set_var (set_var (set_var u (append pre "cpg_include") (joined (map (text D) (cmake_dirs c))))
                   (append pre "cpg_head") (joined (heads_in e)))
          (append pre "cpg_src") (joined (srcs_in e)).

Lemma run_after : forall s, c_env s here = D -> (forall v, In v (passed pre) -> c_env s v = "") ->
  run_cmds after_subs s
  = if no_target "cpg_example" (c_targets s) then
      if no_target "cpg" (c_targets s) then
        inr (mkC (up_env (c_env s) (c_env s)) (up_env (c_up s) (c_env s))
                 (c_dirs s ++ map (text D) (cmake_dirs c))
                 (c_targets s ++ [("cpg_example", heads_in (c_env s) ++ srcs_in (c_env s) ++ [text D (src ++ ["cpg_example.c"])]);
                                  ("cpg", heads_in (c_env s) ++ srcs_in (c_env s))])
                 (c_links s ++ map (pair "cpg_example") (libraries c (c_env s "BLAS_LIBRARIES") (c_env s "LAPACK_LIBRARIES"))
                            ++ map (pair "cpg") (libraries c (c_env s "BLAS_LIBRARIES") (c_env s "LAPACK_LIBRARIES"))))
      else inl (TargetExists "cpg")
    else inl (TargetExists "cpg_example").
Proof.
  intros s He Hp. unfold after_subs.
  set (I := append pre "cpg_include"). set (H := append pre "cpg_head"). set (S := append pre "cpg_src").
  assert (IH : I <> H) by (intro E; apply app_inj_r in E; discriminate E).
  assert (IS : I <> S) by (intro E; apply app_inj_r in E; discriminate E).
  assert (HS : H <> S) by (intro E; apply app_inj_r in E; discriminate E).
  assert (PI : forall v, In v [here; "solver_head"; "solver_src"; "osqp_head"; "osqp_src"; "BLAS_LIBRARIES"; "LAPACK_LIBRARIES"] -> v <> I)
    by (apply pre_name; cbn; auto).
  assert (PH : forall v, In v [here; "solver_head"; "solver_src"; "osqp_head"; "osqp_src"; "BLAS_LIBRARIES"; "LAPACK_LIBRARIES"] -> v <> H)
    by (apply pre_name; cbn; auto).
  assert (PS : forall v, In v [here; "solver_head"; "solver_src"; "osqp_head"; "osqp_src"; "BLAS_LIBRARIES"; "LAPACK_LIBRARIES"] -> v <> S)
    by (apply pre_name; cbn; auto).
  assert (EI : c_env s I = "") by (apply Hp; cbn; auto). assert (EH : c_env s H = "") by (apply Hp; cbn; auto).
  assert (ES : c_env s S = "") by (apply Hp; cbn; auto).
  rewrite run_app. rewrite run_pass_up; [|exact EI|rewrite args_include by exact He; unfold cmake_dirs; discriminate|rewrite args_include by exact He; apply dirs_good].
  rewrite args_include by exact He. set (x := joined (map (text D) (cmake_dirs c))).
  set (e1 := set_var (c_env s) I x).
  assert (K1 : forall v, In v [here; "solver_head"; "solver_src"; "osqp_head"; "osqp_src"; "BLAS_LIBRARIES"; "LAPACK_LIBRARIES"] -> e1 v = c_env s v)
    by (intros v Hv; unfold e1; apply set_other, PI, Hv).
  assert (A1 : args e1 (head_args c) = heads_in (c_env s)).
  { rewrite args_head by (rewrite K1 by (cbn; auto); exact He). unfold heads_in. rewrite (K1 "osqp_head"), (K1 "solver_head") by (cbn; tauto). reflexivity. }
  rewrite run_app. rewrite run_pass_up; cbn [c_env c_up c_dirs c_targets c_links];
    [|unfold e1; rewrite set_other by (now apply not_eq_sym); exact EH|rewrite A1; unfold heads_in, cmake_head; discriminate|rewrite A1; apply heads_good].
  rewrite A1. set (y := joined (heads_in (c_env s))). set (e2 := set_var e1 H y).
  assert (K2 : forall v, In v [here; "solver_head"; "solver_src"; "osqp_head"; "osqp_src"; "BLAS_LIBRARIES"; "LAPACK_LIBRARIES"] -> e2 v = c_env s v)
    by (intros v Hv; unfold e2; rewrite set_other by (apply PH, Hv); apply K1, Hv).
  assert (A2 : args e2 (src_args c) = srcs_in (c_env s)).
  { rewrite args_src by (rewrite K2 by (cbn; auto); exact He). unfold srcs_in. rewrite (K2 "osqp_src"), (K2 "solver_src") by (cbn; tauto). reflexivity. }
  rewrite run_app. rewrite run_pass_up; cbn [c_env c_up c_dirs c_targets c_links];
    [|unfold e2, e1; rewrite !set_other by (now apply not_eq_sym); exact ES|rewrite A2; unfold srcs_in, cmake_src; discriminate|rewrite A2; apply srcs_good].
  rewrite A2. set (z := joined (srcs_in (c_env s))). set (e3 := set_var e2 S z).
  assert (K3 : forall v, In v [here; "solver_head"; "solver_src"; "osqp_head"; "osqp_src"; "BLAS_LIBRARIES"; "LAPACK_LIBRARIES"] -> e3 v = c_env s v)
    by (intros v Hv; unfold e3; rewrite set_other by (apply PS, Hv); apply K2, Hv).
  assert (Q1 : items (e3 I) = map (text D) (cmake_dirs c)).
  { unfold e3, e2, e1. rewrite (set_other _ S z I IS), (set_other _ H y I IH), set_same. apply items_joined, dirs_good. }
  assert (Q2 : items (e3 H) = heads_in (c_env s)).
  { unfold e3, e2. rewrite (set_other _ S z H HS), set_same. apply items_joined, heads_good. }
  assert (Q3 : items (e3 S) = srcs_in (c_env s)).
  { unfold e3. rewrite set_same. apply items_joined, srcs_good. }
  assert (E3 : e3 here = D) by (rewrite K3 by (cbn; auto); exact He).
  cbn [app CMake.run_cmds]. unfold no_target. cbn [CMake.run1 c_env c_up c_dirs c_targets c_links].
  destruct (existsb (fun t => String.eqb "cpg_example" (fst t)) (c_targets s)) eqn:X1; cbn [negb]; [reflexivity|].
  rewrite !args_cons_ref, Q1, Q2, Q3. rewrite (args_cons_at e3 D) by (exact E3 || exact HD || reflexivity || discriminate).
  change (args e3 []) with (@nil string). rewrite app_nil_r.
  assert (TX : text D (src ++ ["cpg_example.c"]) = append D "/src/cpg_example.c") by (unfold src; cbn [app]; now rewrite text3).
  rewrite <- TX. rewrite run_app, run_links by (cbn [c_targets]; rewrite exists_app; cbn; now rewrite orb_true_r).
  cbn [c_env c_up c_dirs c_targets c_links]. cbn [app CMake.run_cmds CMake.run1 c_env c_up c_dirs c_targets c_links].
  rewrite exists_app. cbn [existsb fst]. change (String.eqb "cpg" "cpg_example") with false. cbn [orb]. rewrite orb_false_r.
  destruct (existsb (fun t => String.eqb "cpg" (fst t)) (c_targets s)) eqn:X2; cbn [negb]; [reflexivity|].
  rewrite !args_cons_ref, Q2, Q3. change (args e3 []) with (@nil string). rewrite app_nil_r.
  rewrite run_links by (cbn [c_targets]; rewrite !exists_app; cbn; now rewrite !orb_true_r).
  cbn [c_env c_up c_dirs c_targets c_links]. rewrite !args_libs.
  rewrite (K3 "BLAS_LIBRARIES"), (K3 "LAPACK_LIBRARIES") by (cbn; tauto). rewrite <- !app_assoc. reflexivity.
Qed.
End Run.

(** ** The whole file *)

Section Top.
Variable glob : list string -> list string.
Variable found : string -> option string.
Variables (pre : string) (c : bcfg).
Hypothesis Hc : cfg_ok c.
Hypothesis Hg : good_glob glob.
Notation run1 := (run1 glob found).
Notation run_cmds := (run_cmds glob found).

Lemma run_find : forall s x y, blas_ok found c x y -> run_cmds (map Find (packages c)) s = inr (with_blas c s x y).
Proof.
  intros s x y H. unfold packages, with_blas. unfold blas_ok in H. unfold needs_blas in *. destruct (b_if c); try reflexivity.
  destruct (b_sdp c); [|reflexivity]. destruct (H eq_refl) as [A B]. cbn [map CMake.run_cmds CMake.run1]. rewrite A.
  cbn [CMake.run_cmds CMake.run1]. rewrite B. reflexivity.
Qed.

Lemma single_sub : forall D d, single D -> semis d = false -> single (append D (append "/" d)).
Proof. intros D d H1 H2. apply single_app. split; [exact H1|]. apply semis_single. cbn. exact H2. Qed.

Lemma run_solver : forall own s t D, c_env s here = D -> single D -> (b_if c = IPDAQP -> own = []) ->
  unset pre c (c_env s) -> own_ok glob found "solver_code" own (kept1 pre c) s t ->
  exists s2, run1 (Sub "solver_code" (solver_cmake c own)) s = inr s2
    /\ c_up s2 = c_up s /\ c_dirs s2 = c_dirs s /\ c_targets s2 = c_targets t /\ c_links s2 = c_links t
    /\ items (c_env s2 "solver_head") = solver_heads glob c D (c_env t)
    /\ items (c_env s2 "solver_src") = solver_srcs glob c D (c_env t)
    /\ forall v, ~ In v solver_vars -> c_env s2 v = c_up t v.
Proof.
  intros own s t D He HD Hpd Hu (R & Ht & Hk). rewrite run_sub. unfold solver_cmake.
  assert (HS : single (append D "/solver_code")) by (apply (single_sub D "solver_code"); [exact HD|reflexivity]).
  rewrite He in Ht. change (append "/" "solver_code") with "/solver_code" in Ht.
  assert (Hx : expl c = true -> b_if c = IPDAQP).
  { unfold expl. intro X. destruct Hc as (A & _ & _). apply A. intro E. rewrite E in X. discriminate X. }
  assert (NV : forall v x y z, ~ In v solver_vars -> set_var (set_var x "solver_head" y) "solver_src" z v = x v).
  { intros v x y z N. unfold solver_vars in N. cbn [In] in N. rewrite !set_other by (intro E; subst; tauto). reflexivity. }
  unfold solver_heads, solver_srcs.
  destruct (iface_eqb (b_if c) IPDAQP) eqn:EP.
  - assert (P : b_if c = IPDAQP) by (destruct (b_if c); (discriminate EP || reflexivity)).
    rewrite (Hpd P) in R. cbn [CMake.run_cmds] in R. injection R as R. rewrite P.
    assert (U1 : c_env s "pdaqp_src" = "") by (apply Hu; rewrite P; cbn; tauto).
    assert (U2 : c_env s "pdaqp_head" = "") by (apply Hu; rewrite P; cbn; tauto).
    set (D1 := append D "/solver_code") in *.
    assert (W : forall w, In w ["/src/pdaqp.c"; "/include/pdaqp.h"] -> element (append D1 w)).
    { intros w Hw. split; [intro E; apply app_empty in E; destruct E as [_ E]; cbn in Hw; destruct Hw as [<-|[<-|[]]]; discriminate E|].
      apply single_app. split; [exact HS|apply semis_single]. cbn in Hw. destruct Hw as [<-|[<-|[]]]; reflexivity. }
    assert (Ed : entered "solver_code" s = mkC (set_var (c_env s) here D1) (c_env s) (c_dirs s) (c_targets s) (c_links s)).
    { unfold entered, D1. rewrite He. reflexivity. }
    set (E1 := set_var (c_env s) here D1) in *.
    set (E2 := set_var E1 "pdaqp_src" (append D1 "/src/pdaqp.c")). set (E3 := set_var E2 "pdaqp_head" (append D1 "/include/pdaqp.h")).
    assert (X1 : args E1 [at_ "/src/pdaqp.c"] = [append D1 "/src/pdaqp.c"])
      by (rewrite (args_cons_at E1 D1) by (apply set_same || exact HS || reflexivity || discriminate); reflexivity).
    assert (X2 : args E2 [at_ "/include/pdaqp.h"] = [append D1 "/include/pdaqp.h"])
      by (rewrite (args_cons_at E2 D1) by ((unfold E2; rewrite set_other by discriminate; apply set_same) || exact HS || reflexivity || discriminate); reflexivity).
    assert (N1 : forall w, In w ["/src/pdaqp.c"; "/include/pdaqp.h"] -> String.eqb (append D1 w) "" = false).
    { intros w Hw. apply String.eqb_neq. apply (W w Hw). }
    assert (RP : run_cmds pdaqp_cmake (entered "solver_code" s)
                 = inr (mkC E3 (set_var (set_var (c_env s) "solver_src" (append D1 "/src/pdaqp.c")) "solver_head" (append D1 "/include/pdaqp.h"))
                            (c_dirs s) (c_targets s) (c_links s))).
    { rewrite Ed. unfold pdaqp_cmake. cbn [CMake.run_cmds CMake.run1 c_env c_up c_dirs c_targets c_links].
      rewrite X1. cbn [joined]. rewrite (N1 "/src/pdaqp.c") by (cbn; auto).
      replace (E1 "pdaqp_src") with "" by (unfold E1; rewrite set_other by discriminate; now rewrite U1). cbn [String.eqb]. fold E2.
      rewrite X2. cbn [joined]. rewrite (N1 "/include/pdaqp.h") by (cbn; auto).
      replace (E2 "pdaqp_head") with "" by (unfold E2, E1; rewrite !set_other by discriminate; now rewrite U2). cbn [String.eqb]. fold E3.
      rewrite !args_cons_ref. change (args E3 []) with (@nil string). rewrite !app_nil_r.
      replace (E3 "pdaqp_src") with (append D1 "/src/pdaqp.c") by (unfold E3; rewrite set_other by discriminate; unfold E2; now rewrite set_same).
      replace (E3 "pdaqp_head") with (append D1 "/include/pdaqp.h") by (unfold E3; now rewrite set_same).
      rewrite !items_element by (apply W; cbn; auto). reflexivity. }
    rewrite run_app, RP. destruct (expl c) eqn:EX.
    + cbn [CMake.run_cmds]. eexists. split; [reflexivity|]. unfold left_. cbn [c_env c_up c_dirs c_targets c_links].
      subst t. unfold entered. cbn [c_env c_up c_dirs c_targets c_links]. do 4 (split; [reflexivity|]).
      assert (AA : forall w, append D1 w = append D (append "/solver_code" w)) by (intro w; unfold D1; now rewrite app_assoc_s).
      split; [rewrite set_same, items_element by (apply W; cbn; auto); rewrite AA; reflexivity|].
      split; [rewrite set_other by discriminate; rewrite set_same, items_element by (apply W; cbn; auto); rewrite AA; reflexivity|].
      intros v N. unfold solver_vars in N. cbn [In] in N. rewrite !set_other by (intro E; subst; tauto). reflexivity.
    + match goal with |- context [run_cmds (canon_cmake "solver" IPDAQP) ?u] => destruct (run_canon glob found "solver" IPDAQP u Hg) as (e' & RC) end.
      { cbn [c_env]. unfold E3, E2, E1. rewrite !(set_other _ _ _ here) by discriminate. rewrite set_same. exact HS. }
      { discriminate. }
      rewrite RC. eexists. split; [reflexivity|]. unfold left_. cbn [c_env c_up c_dirs c_targets c_links append].
      subst t. unfold entered. cbn [c_env c_up c_dirs c_targets c_links]. do 4 (split; [reflexivity|]).
      assert (WH : wanted_heads IPDAQP E3 = wanted_heads IPDAQP (set_var (c_env s) here (append (c_env s here) "/solver_code"))).
      { cbn [wanted_heads]. unfold E3, E2, E1. rewrite He. rewrite !(set_other _ _ _ here) by discriminate. now rewrite !set_same. }
      assert (WS : wanted_srcs IPDAQP E3 = wanted_srcs IPDAQP (set_var (c_env s) here (append (c_env s here) "/solver_code"))).
      { cbn [wanted_srcs]. unfold E3, E2, E1. rewrite He. rewrite !(set_other _ _ _ here) by discriminate. now rewrite !set_same. }
      split; [rewrite set_other by discriminate; rewrite set_same, items_joined by apply Hg; now rewrite WH|].
      split; [rewrite set_same, items_joined by apply Hg; now rewrite WS|].
      intros v N. rewrite NV by exact N. unfold solver_vars in N. cbn [In] in N. rewrite !set_other by (intro E; subst; tauto). reflexivity.
  - assert (P : b_if c <> IPDAQP) by (intro E; rewrite E in EP; discriminate EP).
    assert (EX : expl c = false) by (destruct (expl c); [exfalso; now apply P, Hx|reflexivity]).
    assert (OW : match b_if c with IPDAQP => pdaqp_cmake | _ => own end = own) by (destruct (b_if c); congruence).
    rewrite EX, OW, run_app, R. destruct (iface_eqb (b_if c) ICLARABEL) eqn:EC.
    + assert (Q : b_if c = ICLARABEL) by (destruct (b_if c); (discriminate EC || reflexivity)). rewrite Q. cbn [canon_cmake cmake_headers cmake_sources app CMake.run_cmds].
      eexists. split; [reflexivity|]. unfold left_. cbn [c_env c_up c_dirs c_targets c_links]. do 4 (split; [reflexivity|]).
      assert (K : forall v, In v solver_vars -> c_up t v = "").
      { intros v Hv. rewrite (Hk v) by (unfold kept1; rewrite Q; right; apply in_or_app; right; right; right; exact Hv).
        apply Hu. rewrite Q. apply in_or_app. now right. }
      rewrite (K "solver_head"), (K "solver_src") by (cbn; auto). split; [reflexivity|]. split; [reflexivity|]. reflexivity.
    + assert (Q : b_if c <> ICLARABEL) by (intro E; rewrite E in EC; discriminate EC).
      destruct (run_canon glob found "solver" (b_if c) t Hg) as (e' & RC); [rewrite Ht; exact HS|exact Q|].
      rewrite RC. eexists. split; [reflexivity|]. unfold left_. cbn [c_env c_up c_dirs c_targets c_links append]. do 4 (split; [reflexivity|]).
      assert (M : forall (A : Type) (x : A) (f : iface -> A), match b_if c with ICLARABEL => x | i => f i end = f (b_if c)) by (intros; destruct (b_if c); congruence).
      rewrite (M _ _ (fun i => glob (wanted_heads i (c_env t)))), (M _ _ (fun i => glob (wanted_srcs i (c_env t)))).
      split; [rewrite set_other by discriminate; rewrite set_same; apply items_joined, Hg|].
      split; [rewrite set_same; apply items_joined, Hg|]. intros v N. now apply NV.
Qed.

Lemma run_osqp : forall own s t D, c_env s here = D -> single D -> own_ok glob found "osqp_code" own (kept2 pre) s t ->
  exists s2, run1 (Sub "osqp_code" (osqp_cmake own)) s = inr s2
    /\ c_up s2 = c_up s /\ c_dirs s2 = c_dirs s /\ c_targets s2 = c_targets t /\ c_links s2 = c_links t
    /\ items (c_env s2 "osqp_head") = glob (wanted_heads IOSQP (c_env t))
    /\ items (c_env s2 "osqp_src") = glob (wanted_srcs IOSQP (c_env t))
    /\ forall v, In v (kept2 pre) -> c_env s2 v = c_env s v.
Proof.
  intros own s t D He HD (R & Ht & Hk). rewrite run_sub. unfold osqp_cmake. rewrite run_app, R.
  assert (HS : single (append D "/osqp_code")) by (apply (single_sub D "osqp_code"); [exact HD|reflexivity]).
  rewrite He in Ht. destruct (run_canon glob found "osqp" IOSQP t Hg) as (e' & RC); [rewrite Ht; exact HS|discriminate|].
  rewrite RC. eexists. split; [reflexivity|]. unfold left_. cbn [c_env c_up c_dirs c_targets c_links append]. do 4 (split; [reflexivity|]).
  split; [rewrite set_other by discriminate; rewrite set_same; apply items_joined, Hg|].
  split; [rewrite set_same; apply items_joined, Hg|]. intros v Hv.
  assert (N : v <> "osqp_head" /\ v <> "osqp_src").
  { unfold kept2 in Hv. cbn [In] in Hv. destruct Hv as [<-|Hv]; [split; discriminate|]. apply in_app_or in Hv.
    destruct Hv as [Hv|Hv]; [|cbn in Hv; repeat (destruct Hv as [<-|Hv]; [split; discriminate|]); destruct Hv].
    assert (PN : forall x, In x ["cpg_include"; "cpg_head"; "cpg_src"] -> "osqp_head" <> append pre x /\ "osqp_src" <> append pre x).
    { intros x Hx. split; apply (pre_name pre x Hx); cbn; tauto. }
    cbn in Hv. repeat (destruct Hv as [<-|Hv]; [match goal with |- append pre ?x <> _ /\ _ => destruct (PN x ltac:(cbn; tauto)); split; apply not_eq_sym; assumption end|]).
    destruct Hv. }
  destruct N as [N1 N2]. rewrite !set_other by assumption. apply Hk, Hv.
Qed.

Lemma blas_other : forall s x y v, v <> "BLAS_LIBRARIES" -> v <> "LAPACK_LIBRARIES" -> c_env (with_blas c s x y) v = c_env s v.
Proof.
  intros s x y v A B. unfold with_blas. destruct (needs_blas c); [|reflexivity]. cbn [c_env]. now rewrite !set_other by assumption.
Qed.
Lemma blas_rest : forall s x y, c_up (with_blas c s x y) = c_up s /\ c_dirs (with_blas c s x y) = c_dirs s
  /\ c_targets (with_blas c s x y) = c_targets s /\ c_links (with_blas c s x y) = c_links s.
Proof. intros. unfold with_blas. destruct (needs_blas c); repeat split. Qed.
Lemma passed_blas : forall v, In v (passed pre) -> v <> "BLAS_LIBRARIES" /\ v <> "LAPACK_LIBRARIES" /\ ~ In v solver_vars.
Proof.
  intros v Hv. assert (PN : forall x, In x ["cpg_include"; "cpg_head"; "cpg_src"] -> forall w, In w [here; "solver_head"; "solver_src"; "osqp_head"; "osqp_src"; "BLAS_LIBRARIES"; "LAPACK_LIBRARIES"] -> append pre x <> w).
  { intros x Hx w Hw. apply not_eq_sym. now apply (pre_name pre x Hx). }
  unfold passed in Hv. cbn [In] in Hv.
  repeat (destruct Hv as [<-|Hv]; [repeat split; try (apply PN; cbn; tauto); unfold solver_vars; cbn [In]; intros [E|[E|[]]]; symmetry in E; revert E; apply PN; cbn; tauto|]).
  destruct Hv.
Qed.

Lemma free_no : forall n l, no_target n l = true <-> free n l.
Proof.
  intros n l. unfold no_target, free. rewrite negb_true_iff. split.
  - intros H x Hx. assert (E : existsb (fun t : string * list string => String.eqb n (fst t)) l = true).
    { apply existsb_exists. exists (n, x). split; [exact Hx|apply String.eqb_refl]. }
    congruence.
  - intro H. destruct (existsb _ l) eqn:E; [|reflexivity]. apply existsb_exists in E. destruct E as ([m x] & A & B).
    cbn in B. apply String.eqb_eq in B. subst. exfalso. exact (H x A).
Qed.

Lemma top_split : forall own1 own2, top_cmake pre c own1 own2 = map Find (packages c) ++ [Sub "solver_code" (solver_cmake c own1)]
  ++ (if b_two c then [Sub "osqp_code" (osqp_cmake own2)] else []) ++ after_subs c pre.
Proof. reflexivity. Qed.

(** Everything before the lists. *)
Lemma run_front : forall own1 own2 s x y t1 t2 D, c_env s here = D -> single D -> (b_if c = IPDAQP -> own1 = []) ->
  unset pre c (c_env s) -> blas_ok found c x y ->
  own_ok glob found "solver_code" own1 (kept1 pre c) (with_blas c s x y) t1 ->
  (b_two c = true -> exists s2, run1 (Sub "solver_code" (solver_cmake c own1)) (with_blas c s x y) = inr s2
                               /\ own_ok glob found "osqp_code" own2 (kept2 pre) s2 t2) ->
  exists s3, run_cmds (top_cmake pre c own1 own2) s = run_cmds (after_subs c pre) s3
    /\ c_up s3 = c_up s /\ c_dirs s3 = c_dirs s
    /\ c_targets s3 = c_targets (if b_two c then t2 else t1) /\ c_links s3 = c_links (if b_two c then t2 else t1)
    /\ c_env s3 here = D /\ (forall v, In v (passed pre) -> c_env s3 v = "")
    /\ (needs_blas c = true -> c_env s3 "BLAS_LIBRARIES" = x /\ c_env s3 "LAPACK_LIBRARIES" = y)
    /\ heads_in c D (c_env s3) = all_heads glob c D (c_env t1) (c_env t2)
    /\ srcs_in c D (c_env s3) = all_srcs glob c D (c_env t1) (c_env t2).
Proof.
  intros own1 own2 s x y t1 t2 D He HD Hp Hu Hb O1 O2.
  destruct (blas_rest s x y) as (B1 & B2 & B3 & B4). set (s1 := with_blas c s x y) in *.
  assert (He1 : c_env s1 here = D) by (unfold s1; rewrite blas_other by discriminate; exact He).
  assert (Hu1 : unset pre c (c_env s1)).
  { intros v Hv. unfold s1. rewrite blas_other; [now apply Hu| |].
    - apply in_app_or in Hv. destruct Hv as [Hv|Hv]; [now apply passed_blas in Hv|].
      destruct (b_if c); cbn in Hv; try (destruct Hv; fail); destruct Hv as [<-|[<-|[]]]; discriminate.
    - apply in_app_or in Hv. destruct Hv as [Hv|Hv]; [now apply passed_blas in Hv|].
      destruct (b_if c); cbn in Hv; try (destruct Hv; fail); destruct Hv as [<-|[<-|[]]]; discriminate. }
  destruct (run_solver own1 s1 t1 D He1 HD Hp Hu1 O1) as (s2 & R2 & C1 & C2 & C3 & C4 & C5 & C6 & C7).
  assert (K1 : forall v, In v (here :: passed pre ++ ["BLAS_LIBRARIES"; "LAPACK_LIBRARIES"]) -> c_env s2 v = c_env s1 v).
  { intros v Hv. rewrite C7.
    - destruct O1 as (_ & _ & K). apply K. unfold kept1. cbn [In] in *. destruct Hv as [Hv|Hv]; [now left|right].
      rewrite app_assoc. apply in_or_app. now left.
    - cbn [In] in Hv. destruct Hv as [<-|Hv]; [intros [E|[E|[]]]; discriminate E|]. apply in_app_or in Hv.
      destruct Hv as [Hv|Hv]; [now apply passed_blas in Hv|]. cbn in Hv. destruct Hv as [<-|[<-|[]]]; intros [E|[E|[]]]; discriminate E. }
  assert (Hub : needs_blas c = true -> c_env s1 "BLAS_LIBRARIES" = x /\ c_env s1 "LAPACK_LIBRARIES" = y).
  { intro N. unfold s1, with_blas. rewrite N. cbn [c_env]. rewrite set_same. rewrite set_other by discriminate. rewrite set_same. auto. }
  assert (Hp1 : forall v, In v (passed pre) -> c_env s2 v = "").
  { intros v Hv. rewrite K1 by (right; apply in_or_app; now left). apply Hu1. apply in_or_app. now left. }
  rewrite top_split. generalize (after_subs c pre). intro rest. rewrite run_app, (run_find s x y Hb). change (with_blas c s x y) with s1.
  clearbody s1. rewrite run_app. cbn [CMake.run_cmds]. rewrite R2.
  unfold heads_in, srcs_in, all_heads, all_srcs.
  destruct (b_two c) eqn:E2.
  - destruct (O2 eq_refl) as (s2' & R2' & O2'). rewrite R2 in R2'. injection R2' as <-.
    assert (He2 : c_env s2 here = D) by (rewrite K1 by (now left); exact He1).
    destruct (run_osqp own2 s2 t2 D He2 HD O2') as (s3 & R3 & F1 & F2 & F3 & F4 & F5 & F6 & F7).
    exists s3. cbn [app CMake.run_cmds]. rewrite R3. split; [reflexivity|].
    split; [now rewrite F1, C1, B1|]. split; [now rewrite F2, C2, B2|]. split; [exact F3|]. split; [exact F4|].
    split; [rewrite F7 by (now left); exact He2|].
    split; [intros v Hv; rewrite F7 by (right; apply in_or_app; now left); now apply Hp1|].
    split.
    { intro N. rewrite !F7 by (right; apply in_or_app; right; cbn; tauto).
      rewrite !K1 by (right; apply in_or_app; right; cbn; tauto). now apply Hub. }
    rewrite F5, F6. rewrite !F7 by (right; apply in_or_app; right; cbn; tauto). rewrite C5, C6. auto.
  - exists s2. cbn [app]. split; [reflexivity|].
    split; [now rewrite C1, B1|]. split; [now rewrite C2, B2|]. split; [exact C3|]. split; [exact C4|].
    split; [rewrite K1 by (now left); exact He1|]. split; [exact Hp1|].
    split; [intro N; rewrite !K1 by (right; apply in_or_app; right; cbn; tauto); now apply Hub|].
    rewrite C5, C6. auto.
Qed.

Lemma lib_same : forall a b x y, (needs_blas c = true -> a = x /\ b = y) -> libraries c a b = libraries c x y.
Proof.
  intros a b x y H. unfold libraries. unfold needs_blas in H. destruct (b_if c); try reflexivity. destruct (b_sdp c); [|reflexivity].
  destruct (H eq_refl) as [-> ->]. reflexivity.
Qed.

Theorem configured : forall own1 own2 s x y t1 t2 D, c_env s here = D -> single D -> (b_if c = IPDAQP -> own1 = []) ->
  unset pre c (c_env s) -> blas_ok found c x y ->
  own_ok glob found "solver_code" own1 (kept1 pre c) (with_blas c s x y) t1 ->
  (b_two c = true -> exists s2, run1 (Sub "solver_code" (solver_cmake c own1)) (with_blas c s x y) = inr s2
                               /\ own_ok glob found "osqp_code" own2 (kept2 pre) s2 t2) ->
  let t := if b_two c then t2 else t1 in
  let libs := libraries c x y in
  (free "cpg_example" (c_targets t) -> free "cpg" (c_targets t) ->
   exists s', run_cmds (top_cmake pre c own1 own2) s = inr s'
     /\ c_targets s' = c_targets t ++ targets glob c D (c_env t1) (c_env t2)
     /\ c_dirs s' = c_dirs s ++ map (text D) (cmake_dirs c)
     /\ c_links s' = c_links t ++ map (pair "cpg_example") libs ++ map (pair "cpg") libs
     /\ items (c_up s' (append pre "cpg_include")) = map (text D) (cmake_dirs c)
     /\ items (c_up s' (append pre "cpg_head")) = all_heads glob c D (c_env t1) (c_env t2)
     /\ items (c_up s' (append pre "cpg_src")) = all_srcs glob c D (c_env t1) (c_env t2)
     /\ forall v, ~ In v (passed pre) -> c_up s' v = c_up s v)
  /\ (~ free "cpg_example" (c_targets t) -> run_cmds (top_cmake pre c own1 own2) s = inl (TargetExists "cpg_example"))
  /\ (free "cpg_example" (c_targets t) -> ~ free "cpg" (c_targets t) -> run_cmds (top_cmake pre c own1 own2) s = inl (TargetExists "cpg")).
Proof.
  intros own1 own2 s x y t1 t2 D He HD Hp Hu Hb O1 O2 t libs.
  destruct (run_front own1 own2 s x y t1 t2 D He HD Hp Hu Hb O1 O2) as (s3 & R & U & Di & Ta & Li & H3 & P3 & L3 & HH & SS).
  rewrite R, (run_after glob found c D Hc HD pre s3 H3 P3), Ta, Li, Di, U, HH, SS, (lib_same _ _ x y L3). fold t. fold libs.
  assert (F : forall n, no_target n (c_targets t) = false <-> ~ free n (c_targets t)).
  { intro n. rewrite <- free_no. destruct (no_target n (c_targets t)); split; congruence. }
  split; [|split].
  - intros F1 F2. apply free_no in F1. apply free_no in F2. rewrite F1, F2. eexists. split; [reflexivity|].
    cbn [c_up c_targets c_dirs c_links]. split; [reflexivity|]. split; [reflexivity|]. split; [reflexivity|]. unfold up_env.
    assert (IH : append pre "cpg_include" <> append pre "cpg_head") by (intro E; apply app_inj_r in E; discriminate E).
    assert (IS : append pre "cpg_include" <> append pre "cpg_src") by (intro E; apply app_inj_r in E; discriminate E).
    assert (HS : append pre "cpg_head" <> append pre "cpg_src") by (intro E; apply app_inj_r in E; discriminate E).
    split; [rewrite (set_other _ _ _ _ IS), (set_other _ _ _ _ IH), set_same; apply items_joined, dirs_good; assumption|].
    split; [rewrite (set_other _ _ _ _ HS), set_same, items_joined by (apply heads_good; assumption); exact HH|].
    split; [rewrite set_same, items_joined by (apply srcs_good; assumption); exact SS|].
    intros v N. unfold passed in N. cbn [In] in N. rewrite !set_other by (intro E; subst; tauto). reflexivity.
  - intro F1. apply F in F1. rewrite F1. reflexivity.
  - intros F1 F2. apply free_no in F1. apply F in F2. rewrite F1, F2. reflexivity.
Qed.
End Top.
