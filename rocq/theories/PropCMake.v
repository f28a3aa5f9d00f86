(** C78: what the build compiles and links. *)

From Coq Require Import String Ascii List Bool Arith Lia.
From Verif Require Import Base Config Import Build BuildSpec CMake CMakeSpec CMakeProofs.
Import ListNotations.
Open Scope string_scope.
Open Scope list_scope.

(** ** Configuring with CMake *)

(** Whatever the solvers' own files do (as long as they complete and leave the listed variables alone), whatever
    directory and prefix: the two targets get the generated headers and sources, those of OSQP in two-stage programs and
    those the solver names, in this order; the include directories and libraries are those of the tables; the enclosing
    project gets the three lists and nothing else.  Otherwise configuring stops because a target of that name exists. *)
Theorem C78_targets : forall glob found pre c own1 own2 s x y t1 t2 D,
  cfg_ok c -> good_glob glob -> c_env s here = D -> single D -> (b_if c = IPDAQP -> own1 = []) ->
  unset pre c (c_env s) -> blas_ok found c x y ->
  own_ok glob found "solver_code" own1 (kept1 pre c) (with_blas c s x y) t1 ->
  (b_two c = true -> exists s2, run1 glob found (Sub "solver_code" (solver_cmake c own1)) (with_blas c s x y) = inr s2
                               /\ own_ok glob found "osqp_code" own2 (kept2 pre) s2 t2) ->
  let t := if b_two c then t2 else t1 in
  let libs := libraries c x y in
  let result := run_cmds glob found (top_cmake pre c own1 own2) s in
  (free "cpg_example" (c_targets t) -> free "cpg" (c_targets t) ->
   exists s', result = inr s'
     /\ c_targets s' = c_targets t ++ targets glob c D (c_env t1) (c_env t2)
     /\ c_dirs s' = c_dirs s ++ map (text D) (cmake_dirs c)
     /\ c_links s' = c_links t ++ map (pair "cpg_example") libs ++ map (pair "cpg") libs
     /\ items (c_up s' (append pre "cpg_include")) = map (text D) (cmake_dirs c)
     /\ items (c_up s' (append pre "cpg_head")) = all_heads glob c D (c_env t1) (c_env t2)
     /\ items (c_up s' (append pre "cpg_src")) = all_srcs glob c D (c_env t1) (c_env t2)
     /\ forall v, ~ In v (passed pre) -> c_up s' v = c_up s v)
  /\ (~ free "cpg_example" (c_targets t) -> result = inl (TargetExists "cpg_example"))
  /\ (free "cpg_example" (c_targets t) -> ~ free "cpg" (c_targets t) -> result = inl (TargetExists "cpg")).
Proof.
  intros glob found pre c own1 own2 s x y t1 t2 D Hc Hg He HD Hp Hu Hb O1 O2.
  exact (configured glob found pre c Hc Hg own1 own2 s x y t1 t2 D He HD Hp Hu Hb O1 O2).
Qed.
Print Assumptions C78_targets.

(** Lists: an element without semicolons is read back as it was written, and nothing else comes out of a list. *)
Theorem C78_lists : forall l, Forall element l -> items (joined l) = l.
Proof. exact items_joined. Qed.
Print Assumptions C78_lists.

(** Semidefinite problems with Clarabel: without BLAS and LAPACK nothing is configured. *)
Theorem C78_packages : forall glob found pre c own1 own2 s, b_if c = ICLARABEL -> b_sdp c = true ->
  found "BLAS" = None \/ found "LAPACK" = None ->
  exists p, In p ["BLAS"; "LAPACK"] /\ run_cmds glob found (top_cmake pre c own1 own2) s = inl (NotFoundPackage p).
Proof.
  intros glob found pre c own1 own2 s H1 H2 H. rewrite (top_split pre c), run_app. unfold packages. rewrite H1, H2.
  cbn [map run_cmds CMake.run1]. destruct (found "BLAS") as [x|] eqn:E1.
  - destruct H as [H|H]; [discriminate|]. rewrite H. exists "LAPACK". split; [cbn; auto|reflexivity].
  - exists "BLAS". split; [cbn; auto|reflexivity].
Qed.
Print Assumptions C78_packages.

(** ** Inside another project *)

(** Targets are never removed. *)
Lemma targets_grow : forall glob found l s s', run_cmds glob found l s = inr s' -> exists m, c_targets s' = c_targets s ++ m.
Proof.
  intros glob found.
  refine (fix all (l : list cmd) : forall s s', run_cmds glob found l s = inr s' -> exists m, c_targets s' = c_targets s ++ m :=
            match l with [] => _ | k :: r => _ end).
  - intros s s' H. cbn in H. injection H as <-. exists []. now rewrite app_nil_r.
  - assert (ONE : forall k s s', run1 glob found k s = inr s' -> exists m, c_targets s' = c_targets s ++ m).
    { refine (fix one (k : cmd) : forall s s', run1 glob found k s = inr s' -> exists m, c_targets s' = c_targets s ++ m := _).
      intros s s' H. destruct k as [v vals up|v vals|v pats|d body|ds|n ts|n ls|p].
      - cbn in H. injection H as <-. exists []. destruct up; cbn; now rewrite app_nil_r.
      - cbn in H. injection H as <-. exists []. cbn. now rewrite app_nil_r.
      - cbn in H. injection H as <-. exists []. cbn. now rewrite app_nil_r.
      - rewrite run_sub in H. destruct (run_cmds glob found body (entered d s)) as [|t] eqn:E; [discriminate|].
        injection H as <-. cbn [left_ c_targets].
        assert (B : forall u t, run_cmds glob found body u = inr t -> exists m, c_targets t = c_targets u ++ m).
        { clear E t s. induction body as [|k body IH]; intros u t E.
          - cbn in E. injection E as <-. exists []. now rewrite app_nil_r.
          - cbn [run_cmds] in E. destruct (run1 glob found k u) as [|u1] eqn:E1; [discriminate|].
            destruct (one k u u1 E1) as [m1 M1]. destruct (IH u1 t E) as [m2 M2]. exists (m1 ++ m2). now rewrite M2, M1, <- app_assoc. }
        exact (B _ _ E).
      - cbn in H. injection H as <-. exists []. cbn. now rewrite app_nil_r.
      - cbn [CMake.run1] in H. destruct (existsb _ (c_targets s)); [discriminate|]. injection H as <-. cbn. eauto.
      - cbn [CMake.run1] in H. destruct (existsb _ (c_targets s)); [|discriminate]. injection H as <-. exists []. cbn. now rewrite app_nil_r.
      - cbn [CMake.run1] in H. destruct (found p); [|discriminate]. injection H as <-. exists []. cbn. now rewrite app_nil_r. }
    intros s s' H. cbn [run_cmds] in H. destruct (run1 glob found k s) as [|s1] eqn:E; [discriminate|].
    destruct (ONE k s s1 E) as [m1 M1]. destruct (all r s1 s' H) as [m2 M2]. exists (m1 ++ m2). now rewrite M2, M1, <- app_assoc.
Qed.

(** add_subdirectory (d) of a generated program in an enclosing project: its variables change only by the three lists of
    that prefix, its include directories do not change. *)
Theorem C78_enclosing : forall glob found pre c own1 own2 s x y t1 t2 d,
  cfg_ok c -> good_glob glob -> single (c_env (entered d s) here) -> (b_if c = IPDAQP -> own1 = []) ->
  unset pre c (c_env (entered d s)) -> blas_ok found c x y ->
  own_ok glob found "solver_code" own1 (kept1 pre c) (with_blas c (entered d s) x y) t1 ->
  (b_two c = true -> exists s2, run1 glob found (Sub "solver_code" (solver_cmake c own1)) (with_blas c (entered d s) x y) = inr s2
                               /\ own_ok glob found "osqp_code" own2 (kept2 pre) s2 t2) ->
  let t := if b_two c then t2 else t1 in
  let D := append (c_env s here) (append "/" d) in
  free "cpg_example" (c_targets t) -> free "cpg" (c_targets t) ->
  exists s', run1 glob found (Sub d (top_cmake pre c own1 own2)) s = inr s'
    /\ c_targets s' = c_targets t ++ targets glob c D (c_env t1) (c_env t2)
    /\ c_dirs s' = c_dirs s
    /\ items (c_env s' (append pre "cpg_include")) = map (text D) (cmake_dirs c)
    /\ items (c_env s' (append pre "cpg_head")) = all_heads glob c D (c_env t1) (c_env t2)
    /\ items (c_env s' (append pre "cpg_src")) = all_srcs glob c D (c_env t1) (c_env t2)
    /\ (forall v, ~ In v (passed pre) -> c_env s' v = c_env s v)
    /\ c_up s' = c_up s.
Proof.
  intros glob found pre c own1 own2 s x y t1 t2 d Hc Hg HD Hp Hu Hb O1 O2 t D F1 F2.
  assert (He : c_env (entered d s) here = D) by (unfold entered; cbn [c_env]; now rewrite set_same).
  rewrite He in HD.
  destruct (configured glob found pre c Hc Hg own1 own2 (entered d s) x y t1 t2 D He HD Hp Hu Hb O1 O2) as (A & _ & _).
  destruct (A F1 F2) as (s' & R & T & _ & _ & I & H & S & U).
  exists (left_ s s'). rewrite run_sub, R. split; [reflexivity|]. unfold left_. cbn [c_targets c_dirs c_env c_up].
  split; [exact T|]. split; [reflexivity|]. split; [exact I|]. split; [exact H|]. split; [exact S|]. split; [|reflexivity].
  intros v N. rewrite (U v N). reflexivity.
Qed.
Print Assumptions C78_enclosing.

(** A second program in the same project is always refused, whatever its prefix. *)
Theorem C78_second : forall glob found pre c own1 own2 s x y t1 t2,
  cfg_ok c -> good_glob glob -> single (c_env s here) -> (b_if c = IPDAQP -> own1 = []) ->
  unset pre c (c_env s) -> blas_ok found c x y ->
  own_ok glob found "solver_code" own1 (kept1 pre c) (with_blas c s x y) t1 ->
  (b_two c = true -> exists s2, run1 glob found (Sub "solver_code" (solver_cmake c own1)) (with_blas c s x y) = inr s2
                               /\ own_ok glob found "osqp_code" own2 (kept2 pre) s2 t2) ->
  ~ free "cpg_example" (c_targets s) ->
  run_cmds glob found (top_cmake pre c own1 own2) s = inl (TargetExists "cpg_example").
Proof.
  intros glob found pre c own1 own2 s x y t1 t2 Hc Hg HD Hp Hu Hb O1 O2 N.
  destruct (configured glob found pre c Hc Hg own1 own2 s x y t1 t2 _ eq_refl HD Hp Hu Hb O1 O2) as (_ & B & _).
  apply B. intro F. apply N. intros z Hz. 
  assert (G1 : exists m, c_targets t1 = c_targets s ++ m).
  { destruct O1 as (R & _ & _). apply targets_grow in R. destruct (blas_rest c s x y) as (_ & _ & E & _).
    unfold entered in R. cbn [c_targets] in R. now rewrite E in R. }
  destruct G1 as [m1 M1]. destruct (b_two c).
  - destruct (O2 eq_refl) as (s2 & R2 & (R3 & _ & _)). apply targets_grow in R3. destruct R3 as [m3 M3]. unfold entered in M3. cbn [c_targets] in M3.
    assert (R2' : run_cmds glob found [Sub "solver_code" (solver_cmake c own1)] (with_blas c s x y) = inr s2) by (cbn [run_cmds]; now rewrite R2).
    apply targets_grow in R2'. destruct R2' as [m2 M2]. destruct (blas_rest c s x y) as (_ & _ & E & _). rewrite E in M2.
    apply (F z). rewrite M3, M2. apply in_or_app. left. apply in_or_app. now left.
  - apply (F z). rewrite M1. apply in_or_app. now left.
Qed.
Print Assumptions C78_second.

(** ** What is compiled *)

Lemma src_texts : forall c D f, In f (cmake_src c) ->
  exists n, In n ["cpg_workspace.c"; "cpg_solve.c"; "cpg_gradient.c"; "cpg_osqp_grad_compute.c"; "cpg_osqp_grad_workspace.c"; "cpg_gradient_workspace.c"]
            /\ f = ["c"; "src"; n] /\ text D f = append D (append "/src/" n).
Proof.
  intros c D f H. unfold cmake_src in H. apply in_map_iff in H. destruct H as (n & <- & H). exists n. split.
  - cbn [app In] in H. cbn [In]. destruct (b_grad c), (expl c), (b_two c); cbn [app In] in H; tauto.
  - split; [reflexivity|]. unfold src. cbn [app]. now rewrite text3.
Qed.

(** The library is compiled from every generated source exactly once, if it is not among the files found for the solvers;
    the example program adds its own source. *)
Theorem C78_once : forall glob c D e1 e2 f, In f (cmake_src c) -> (forall l, ~ In (text D f) (glob l)) ->
  count_occ string_dec (all_srcs glob c D e1 e2) (text D f) = 1.
Proof.
  intros glob c D e1 e2 f Hf Hg.
  assert (Hs : forall n, text D f <> append D (append "/solver_code/" n)).
  { intros n E. destruct (src_texts c D f Hf) as (k & _ & _ & T). rewrite T in E. apply app_inj_r in E. discriminate E. }
  assert (Hi : forall g, In g (cmake_src c) -> text D g = text D f -> g = f).
  { intros g H E. destruct (src_texts c D f Hf) as (k & _ & -> & T). destruct (src_texts c D g H) as (j & _ & -> & T2).
    rewrite T, T2 in E. apply app_inj_r, (app_inj_r "/src/") in E. now rewrite E. }
  unfold all_srcs. rewrite !count_occ_app.
  assert (Z : forall l : list string, ~ In (text D f) l -> count_occ string_dec l (text D f) = 0) by (intros l H; now apply count_occ_not_In).
  rewrite (Z (if b_two c then _ else [])) by (destruct (b_two c); [apply Hg|intros []]).
  rewrite (Z (solver_srcs _ _ _ _)).
  - assert (ND : NoDup (cmake_src c)).
    { unfold cmake_src. destruct (b_grad c), (expl c), (b_two c); cbn [app map src]; repeat constructor; cbn [In]; intuition discriminate. }
    enough (forall l, NoDup l -> List.incl l (cmake_src c) -> In f l -> count_occ string_dec (map (text D) l) (text D f) = 1) as E
      by (rewrite (E (cmake_src c) ND (fun x H => H) Hf); reflexivity).
    clear Hf ND. induction l as [|g l IH]; intros ND Hl Hin; [destruct Hin|]. inversion ND as [|? ? N1 N2]; subst. cbn [map].
    assert (Hl' : List.incl l (cmake_src c)) by (intros z Hz; apply Hl; now right).
    destruct (string_dec (text D g) (text D f)) as [E|E].
    + rewrite count_occ_cons_eq by exact E. assert (g = f) by (apply Hi; [apply Hl; now left|exact E]). subst g.
      rewrite Z; [reflexivity|]. intro M. apply in_map_iff in M. destruct M as (g & E2 & Hg2).
      apply N1. rewrite <- (Hi g (Hl' g Hg2) E2). exact Hg2.
    + rewrite count_occ_cons_neq by exact E. apply IH; auto. destruct Hin as [<-|Hin]; [congruence|exact Hin].
  - unfold solver_srcs. destruct (expl c); [intros [E|[]]; apply (Hs "src/pdaqp.c"); now rewrite <- E|].
    destruct (b_if c); try apply Hg. intros [].
Qed.
Print Assumptions C78_once.

(** A two-stage program for OSQP (chosen by a solver name in lower case, C44) compiles two files workspace.c. *)
Theorem C78_two_workspaces : forall glob c D e1 e2, b_two c = true -> b_if c = IOSQP -> expl c = false ->
  (forall f l, In f l -> In f (glob l)) ->
  In (append (e1 here) "/workspace.c") (all_srcs glob c D e1 e2) /\ In (append (e2 here) "/workspace.c") (all_srcs glob c D e1 e2).
Proof.
  intros glob c D e1 e2 H2 Hi Hx Hg. unfold all_srcs, solver_srcs. rewrite H2, Hi, Hx. split.
  - apply in_or_app. right. apply in_or_app. right. apply Hg. cbn [wanted_srcs]. apply in_or_app. right. now left.
  - apply in_or_app. right. apply in_or_app. left. apply Hg. cbn [wanted_srcs]. apply in_or_app. right. now left.
Qed.
Print Assumptions C78_two_workspaces.

(** ** Linking the extension module *)

(** All objects setup.py names are made by the build, for every solver and machine, except for Clarabel on Windows and for
    Clarabel when exactly one of the machines (that generating the code, that building it) is a Mac with ARM processor. *)
Theorem C78_link : forall i gen m,
  List.incl (link_objects i gen m) (made_files i m) <-> (i = ICLARABEL -> m <> Windows /\ arm gen = arm m).
Proof.
  intros i gen m. split.
  - intros H ->. assert (X : In (nth 1 (link_objects ICLARABEL gen m) []) (made_files ICLARABEL m)) by (apply H; cbn; auto).
    destruct gen as [|[|]|], m as [|[|]|]; cbn in X; try (split; [discriminate|reflexivity]);
      destruct X as [X|[X|[]]]; discriminate X.
  - intros H p Hp. destruct i; destruct m as [|[|]|];
      try (cbn in Hp |- *; exact Hp);
      destruct (H eq_refl) as [A B]; try congruence; destruct gen as [|[|]|]; cbn in B; try discriminate B; cbn in Hp |- *; exact Hp.
Qed.
Print Assumptions C78_link.

(** In a directory in which nothing has been built: the module is made from the current sources exactly if the library was
    built and everything could be linked, and setup.py reports failure otherwise. *)
Theorem C78_fresh : forall vc vp made linked others,
  setup_run vc vp made linked others unbuilt
  = if made && linked && others then (mkB (Some vc) (Some (vc, vp)), true) else (mkB (if made then Some vc else None) None, false).
Proof. intros vc vp [|] [|] [|]; reflexivity. Qed.
Print Assumptions C78_fresh.

(** Repeated runs of setup.py: when a run that reports success has left a module of the current sources. *)
Theorem C78_rerun : forall vc vp made linked others s s', setup_run vc vp made linked others s = (s', true) ->
  ext s' = Some (vc, vp)
  <-> ext s = Some (vc, vp) \/ ((forall w, ext s <> Some (w, vp)) /\ (made = true \/ lib s = Some vc)).
Proof.
  intros vc vp made linked others [l e] s' H. unfold setup_run in H. cbn [lib ext] in *.
  destruct e as [[w p]|].
  - destruct (Nat.eqb p vp) eqn:E.
    + apply Nat.eqb_eq in E. subst p. injection H as <-. cbn [ext]. split; [auto|]. intros [X|[X _]]; [exact X|]. exfalso. now apply (X w).
    + apply Nat.eqb_neq in E. destruct (if made then Some vc else l) as [z|] eqn:L; [|discriminate].
      destruct (linked && others); [|discriminate]. injection H as <-. cbn [ext]. split.
      * intro X. injection X as ->. right. split; [intros w' X; injection X as _ X; congruence|]. destruct made; auto.
      * intros [X|[_ X]]; [injection X as _ X; congruence|]. destruct X as [->|X]; [congruence|]. destruct made; congruence.
  - destruct (if made then Some vc else l) as [z|] eqn:L; [|discriminate].
    destruct (linked && others); [|discriminate]. injection H as <-. cbn [ext]. split.
    + intro X. injection X as ->. right. split; [discriminate|]. destruct made; auto.
    + intros [X|[_ X]]; [discriminate|]. destruct X as [->|X]; [congruence|]. destruct made; congruence.
Qed.
Print Assumptions C78_rerun.

(** ** Examples and counterexamples *)

(** A file system with a few files, patterns without wildcards. *)
Definition ex_files : list string :=
  ["/w/c/solver_code/src/ecos.c"; "/w/c/solver_code/src/kkt.c"; "/w/c/solver_code/include/ecos.h";
   "/w/c/osqp_code/src/qdldl.c"; "/w/c/osqp_code/workspace.c"; "/w/c/solver_code/workspace.c"].
Definition ex_glob (l : list string) : list string := filter (fun f => existsb (String.eqb f) l) ex_files.
Definition no_package : string -> option string := fun _ => None.
Definition txt (s : string) : arg := (false, [T s]).
Definition start (D : string) : cst := mkC (set_var (fun _ => "") here D) (fun _ => "") [] [] [].

Lemma ex_glob_good : good_glob ex_glob.
Proof.
  intro l. apply Forall_forall. intros f H. apply filter_In in H. destruct H as [H _]. unfold ex_files in H. cbn [In] in H.
  repeat (destruct H as [<-|H]; [split; [discriminate|apply semis_single; reflexivity]|]). destruct H.
Qed.

(** ECOS with gradients in two stages: the own files of both directories set lists of sources and add a target. *)
Definition ex_cfg : bcfg := mkCfg IECOS true 0 true false.
Definition ex_own1 : list cmd :=
  [Set_ "PROJECT_NAME" [txt "ecos"] false; Set_ "ecos_headers" [at_ "/include/ecos.h"] false;
   Set_ "ecos_sources" [at_ "/src/ecos.c"; at_ "/src/kkt.c"; at_ "/src/missing.c"] false;
   Target "ecos" [plain (ref "ecos_sources")]].
Definition ex_own2 : list cmd := [Glob "OSQP_SOURCES" [at_ "/src/qdldl.c"]].
Definition ran (r : cerr + cst) : cst := match r with inr t => t | inl _ => start "" end.
Definition completes (r : cerr + cst) : bool := match r with inr _ => true | inl _ => false end.
Lemma ran_ok : forall r, completes r = true -> r = inr (ran r).
Proof. intros [e|t] H; [discriminate H|reflexivity]. Qed.
Definition ex_t1 : cst := ran (run_cmds ex_glob no_package ex_own1 (entered "solver_code" (start "/w/c"))).
Definition ex_s2 : cst := ran (run1 ex_glob no_package (Sub "solver_code" (solver_cmake ex_cfg ex_own1)) (start "/w/c")).
Definition ex_t2 : cst := ran (run_cmds ex_glob no_package ex_own2 (entered "osqp_code" ex_s2)).

Example C78_example :
  cfg_ok ex_cfg /\ good_glob ex_glob /\ single "/w/c" /\ unset "p_" ex_cfg (c_env (start "/w/c")) /\ blas_ok no_package ex_cfg "" ""
  /\ own_ok ex_glob no_package "solver_code" ex_own1 (kept1 "p_" ex_cfg) (with_blas ex_cfg (start "/w/c") "" "") ex_t1
  /\ run1 ex_glob no_package (Sub "solver_code" (solver_cmake ex_cfg ex_own1)) (with_blas ex_cfg (start "/w/c") "" "") = inr ex_s2
  /\ own_ok ex_glob no_package "osqp_code" ex_own2 (kept2 "p_") ex_s2 ex_t2
  /\ free "cpg_example" (c_targets ex_t2) /\ free "cpg" (c_targets ex_t2)
  /\ all_srcs ex_glob ex_cfg "/w/c" (c_env ex_t1) (c_env ex_t2)
     = ["/w/c/src/cpg_workspace.c"; "/w/c/src/cpg_solve.c"; "/w/c/src/cpg_gradient.c"; "/w/c/src/cpg_osqp_grad_compute.c";
        "/w/c/src/cpg_osqp_grad_workspace.c"; "/w/c/src/cpg_gradient_workspace.c"; "/w/c/osqp_code/src/qdldl.c";
        "/w/c/osqp_code/workspace.c"; "/w/c/solver_code/src/ecos.c"; "/w/c/solver_code/src/kkt.c"].
Proof.
  assert (S : forall l e e', (forall v, In v l -> e' v = e v) -> same_on l e e') by (intros l e e' H; exact H).
  split; [unfold cfg_ok, ex_cfg; cbn; repeat split; congruence|]. split; [exact ex_glob_good|].
  split; [apply semis_single; reflexivity|].
  split; [intros v Hv; cbn in Hv; repeat (destruct Hv as [<-|Hv]; [reflexivity|]); destruct Hv|].
  split; [intro H; discriminate H|].
  split; [split; [apply ran_ok; vm_compute; reflexivity|split; [vm_compute; reflexivity|intros v Hv; cbn in Hv; repeat (destruct Hv as [<-|Hv]; [vm_compute; reflexivity|]); destruct Hv]]|].
  split; [apply ran_ok; vm_compute; reflexivity|].
  split; [split; [apply ran_ok; vm_compute; reflexivity|split; [vm_compute; reflexivity|intros v Hv; cbn in Hv; repeat (destruct Hv as [<-|Hv]; [vm_compute; reflexivity|]); destruct Hv]]|].
  split; [apply free_no; vm_compute; reflexivity|]. split; [apply free_no; vm_compute; reflexivity|]. vm_compute. reflexivity.
Qed.
Example C78_once_example : In (src ++ ["cpg_solve.c"]) (cmake_src ex_cfg) /\ forall l, ~ In (text "/w/c" (src ++ ["cpg_solve.c"])) (ex_glob l).
Proof.
  split; [cbn; auto|]. intros l H. apply filter_In in H. destruct H as [H _]. cbn in H. intuition discriminate.
Qed.

(** A directory with a semicolon in its name: the list of sources falls apart. *)
Definition last_target (r : cerr + cst) : list string := match r with inr t => snd (last (c_targets t) ("", [])) | inl _ => [] end.
Theorem C78_semicolon_refuted : exists D own, let c := mkCfg IECOS false 0 false false in
  last_target (run_cmds ex_glob no_package (top_cmake "" c own []) (start D))
  = ["/w"; "1/c/include/cpg_workspace.h"; "/w"; "1/c/include/cpg_solve.h"; "/w"; "1/c/src/cpg_workspace.c"; "/w"; "1/c/src/cpg_solve.c"].
Proof. exists "/w;1/c", []. vm_compute. reflexivity. Qed.

(** Configuring a program whose solver has no sources is no error: here the file of OSQP does not set OSQP_SOURCES. *)
Theorem C78_silent_refuted : exists own, let c := mkCfg IOSQP false 0 false false in
  last_target (run_cmds (fun _ => []) no_package (top_cmake "" c own []) (start "/w/c"))
  = ["/w/c/include/cpg_workspace.h"; "/w/c/include/cpg_solve.h"; "/w/c/src/cpg_workspace.c"; "/w/c/src/cpg_solve.c"].
Proof. exists []. vm_compute. reflexivity. Qed.

(** Clarabel's program takes over lists solver_head and solver_src of an enclosing project, the one of OSQP does not. *)
Theorem C78_inherited_refuted :
  let e D := mkC (set_var (set_var (fun _ => "") "solver_src" "/other/solver.c") here D) (fun _ => "") [] [] [] in
  last_target (run_cmds (fun _ => []) no_package (top_cmake "" (mkCfg ICLARABEL false 0 false false) [] []) (e "/w/c"))
  = ["/w/c/include/cpg_workspace.h"; "/w/c/include/cpg_solve.h"; "/w/c/src/cpg_workspace.c"; "/w/c/src/cpg_solve.c"; "/other/solver.c"]
  /\ last_target (run_cmds (fun _ => []) no_package (top_cmake "" (mkCfg IOSQP false 0 false false) [] []) (e "/w/c"))
  = ["/w/c/include/cpg_workspace.h"; "/w/c/include/cpg_solve.h"; "/w/c/src/cpg_workspace.c"; "/w/c/src/cpg_solve.c"].
Proof. split; vm_compute; reflexivity. Qed.

(** Clarabel: code generated on Linux and built on a Mac with ARM processor, and code for Windows. *)
Theorem C78_link_refuted :
  ~ List.incl (link_objects ICLARABEL Linux (Mac true)) (made_files ICLARABEL (Mac true))
  /\ ~ List.incl (link_objects ICLARABEL Windows Windows) (made_files ICLARABEL Windows).
Proof.
  split; intro H; rewrite C78_link in H; destruct (H eq_refl) as [A B]; [discriminate B|now apply A].
Qed.
Example C78_link_example : List.incl (link_objects IQOCO Linux Windows) (made_files IQOCO Windows) /\ length (link_objects IQOCO Linux Windows) = 2.
Proof. split; [apply C78_link; discriminate|reflexivity]. Qed.

(** Running setup.py again: changed C sources are not in the module though the run reports success, whether or not the
    library could be built; after a change of cpg_module.cpp a failed build of the library goes unnoticed. *)
Theorem C78_stale_refuted :
  (forall made, exists s, setup_run 2 1 made true true (mkB (Some 1) (Some (1, 1))) = (s, true) /\ ext s = Some (1, 1))
  /\ exists s, setup_run 2 2 false true true (mkB (Some 1) (Some (1, 1))) = (s, true) /\ ext s = Some (1, 2).
Proof. split; [intro made|]; eexists; split; reflexivity. Qed.
