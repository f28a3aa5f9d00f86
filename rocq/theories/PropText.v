(** C73: edits of the solvers' own files. *)
From Coq Require Import String Ascii List Arith NArith Bool Lia.
From Verif Require Import Base Literals LiteralsProofs Text TextSpec TextProofs TextProofs2.
Import ListNotations.
Open Scope string_scope.
Open Scope list_scope.

Local Notation "a +s b" := (String.append a b) (at level 60, right associativity).

(** A text has exactly one division at the occurrences found from the left, and a replacement puts
    the new text there and changes nothing else. *)
Theorem C73_replace : forall old new s, old <> "" ->
  exists ps, pieces old s ps /\ (forall qs, pieces old s qs -> qs = ps)
    /\ s = join old ps /\ replace old new s = join new ps.
Proof.
  intros old new s X. destruct (pieces_ex old s X) as [ps P]. exists ps. repeat split; auto.
  - intros qs Q. eapply pieces_unique; eauto.
  - now apply pieces_join.
  - now apply pieces_rep.
Qed.
Print Assumptions C73_replace.
Example C73_replace_ex : pieces "aa" "baaab" ["b"; "ab"] /\ replace "aa" "c" "baaab" = "bcab".
Proof.
  split; [|reflexivity]. apply (pieces_more "aa" "b" "ab" ["ab"]).
  - split; [now exists "ab"|]. intros a b H. destruct a as [|c a]; [discriminate | cbn; lia].
  - constructor. apply count_zero. reflexivity.
Qed.

Theorem C73_cut : forall e s, before e (cut_from_expr s e) s /\ forall a, before e a s -> cut_from_expr s e = a.
Proof. intros e s. split; [apply cut_before | intros a B; exact (before_unique e a s B)]. Qed.
Print Assumptions C73_cut.
Example C73_cut_ex : cut_from_expr "ab add_library cd add_library" "add_library" = "ab ".
Proof. reflexivity. Qed.

(** No edit fails: a file without the expected text stays as it is. *)
Theorem C73_missing : forall t,
  (~ occurs osqp_anchor t -> forall n m, osqp_workspace_h n m t = t)
  /\ (~ occurs "add_library" t -> ~ occurs "src" t -> osqp_cmake t = t)
  /\ (~ occurs (csd +s "src/*.c") t -> two_stage_cmake t = t)
  /\ (~ occurs examples_dir t -> ~ occurs c_standard t -> ~ occurs sdp_none t -> forall sdp, clarabel_cmake sdp t = t)
  /\ (~ occurs source_dir t -> ~ occurs "/libclarabel_c.lib" t -> ~ occurs cargo_line t -> clarabel_wrapper t = t)
  /\ (~ occurs "cpp/" t -> clarabel_header t = t)
  /\ (~ occurs "USE_LAPACK = 1" t -> scs_mk t = t)
  /\ (~ occurs " include/" t -> ~ occurs " src/" t -> ~ occurs " ${LINSYS}/" t -> scs_cmake t = t)
  /\ (~ occurs "#define PRINTLEVEL (2)" t -> ecos_glblopts t = t)
  /\ (~ occurs pdaqp_endif t -> pdaqp_h t = t)
  /\ (~ occurs evaluate_head t -> ~ occurs leaf_line t -> pdaqp_c t = t).
Proof.
  intros t.
  repeat match goal with |- _ /\ _ => split end; intros.
  - now apply rep_none.
  - unfold osqp_cmake. rewrite cut_none by assumption. now apply rep_none.
  - now apply rep_none.
  - unfold clarabel_cmake, multiple_replace. cbn [fold_left fst snd].
    rewrite (rep_none examples_dir), (rep_none c_standard) by assumption.
    destruct sdp; auto. now apply rep_none.
  - unfold clarabel_wrapper, multiple_replace. cbn [fold_left fst snd].
    rewrite (rep_none source_dir), (rep_none "/libclarabel_c.lib"), (rep_none (out_dir _ _)), (rep_none cargo_line); auto.
    intros O. apply H. eapply occurs_trans; [|exact O].
    exists "set(clarabel_c_output_directory """, "solver_code/rust_wrapper/target/release"")". reflexivity.
  - now apply rep_none.
  - now apply rep_none.
  - unfold scs_cmake, multiple_replace. cbn [fold_left fst snd]. now rewrite (rep_none " include/"), (rep_none " src/"), (rep_none " ${LINSYS}/") by assumption.
  - now apply rep_none.
  - now apply rep_none.
  - unfold pdaqp_c. now rewrite (rep_none evaluate_head), (rep_none leaf_line) by assumption.
Qed.
Print Assumptions C73_missing.
Example C73_missing_ex : ~ occurs pdaqp_endif ("#endif" +s nl) /\ pdaqp_h ("#endif" +s nl) = ("#endif" +s nl).
Proof. split; [apply count_zero|]; reflexivity. Qed.

(** SCS: exactly the words (after the first space) that begin with one of three directories. *)
Theorem C73_scs_words : forall w ws, no_space w -> Forall no_space ws ->
  scs_cmake (join " " (w :: ws))
  = join " " (w :: map (fun v => if begins "include/" v || begins "src/" v || begins "${LINSYS}/" v
                                 then "${CMAKE_CURRENT_SOURCE_DIR}/" +s v else v) ws).
Proof.
  intros w ws W WS. rewrite scs_words by assumption. reflexivity.
Qed.
Print Assumptions C73_scs_words.
Theorem C73_scs_all_texts : forall t, exists w ws, no_space w /\ Forall no_space ws /\ t = join " " (w :: ws).
Proof. apply split_words. Qed.
Print Assumptions C73_scs_all_texts.
Example C73_scs_ex : scs_cmake "set(A src/a.c x/src/b.c ${LINSYS}/c.c)" =
  "set(A ${CMAKE_CURRENT_SOURCE_DIR}/src/a.c x/src/b.c ${CMAKE_CURRENT_SOURCE_DIR}/${LINSYS}/c.c)".
Proof. vm_compute. reflexivity. Qed.
(** A path at the beginning of a line is not found. *)
Theorem C73_scs_line_refuted : exists t, occurs (nl +s "src/") t /\ scs_cmake t = t.
Proof.
  exists ("set(A" +s nl +s "src/a.c)"). split; [now exists "set(A", "a.c)" | vm_compute; reflexivity].
Qed.
Print Assumptions C73_scs_line_refuted.

(** OSQP's CMakeLists.txt: the text before the first add_library, with every src made absolute, from
    which that text can be recovered. *)
Theorem C73_osqp_cmake : forall t t0 ps, before "add_library" t0 t -> pieces "src" t0 ps ->
  osqp_cmake t = join "${CMAKE_CURRENT_SOURCE_DIR}/src" ps
  /\ ~ occurs "add_library" (osqp_cmake t)
  /\ replace "${CMAKE_CURRENT_SOURCE_DIR}/src" "src" (osqp_cmake t) = t0.
Proof.
  intros t t0 ps B P. rewrite (osqp_cmake_to t t0 B). split; [|split].
  - unfold to_src. now rewrite (pieces_rep "src" _ t0 ps ltac:(discriminate) P).
  - intros O. unfold to_src in O. rewrite (pieces_rep "src" _ t0 ps ltac:(discriminate) P) in O.
    apply occurs_join in O as (u & I & O); [|vm_compute; reflexivity|discriminate].
    apply (before_clean "add_library" _ _ ltac:(discriminate) B).
    rewrite (pieces_join _ _ _ P). eapply join_occurs; eauto.
  - apply from_to.
Qed.
Print Assumptions C73_osqp_cmake.
(** The two-stage edit finds what this edit wrote: exactly the globs src/*.c of the original. *)
Theorem C73_two_stage_cmake : forall t t0 ps, before "add_library" t0 t -> pieces "src/*.c" t0 ps ->
  two_stage_cmake (osqp_cmake t)
  = join ("${CMAKE_CURRENT_SOURCE_DIR}/src/qdldl*.c" +s nl) (map (replace "src" "${CMAKE_CURRENT_SOURCE_DIR}/src") ps).
Proof. intros t t0 ps B P. rewrite (osqp_cmake_to t t0 B). now apply two_stage_pieces. Qed.
Print Assumptions C73_two_stage_cmake.
Example C73_osqp_ex :
  osqp_cmake "file(GLOB S src/*.c) set(D src) add_library(x)"
    = "file(GLOB S ${CMAKE_CURRENT_SOURCE_DIR}/src/*.c) set(D ${CMAKE_CURRENT_SOURCE_DIR}/src) "
  /\ two_stage_cmake (osqp_cmake "file(GLOB S src/*.c) set(D src) add_library(x)")
     = "file(GLOB S ${CMAKE_CURRENT_SOURCE_DIR}/src/qdldl*.c" +s nl +s ") set(D ${CMAKE_CURRENT_SOURCE_DIR}/src) ".
Proof. vm_compute. auto. Qed.
(** Not only paths: a variable whose name contains src is damaged. *)
Theorem C73_osqp_name_refuted : exists t, ~ occurs "add_library" t /\ osqp_cmake t = "set(osqp_${CMAKE_CURRENT_SOURCE_DIR}/src a.c)"
  /\ t = "set(osqp_src a.c)".
Proof. exists "set(osqp_src a.c)". split; [apply count_zero; reflexivity | split; vm_compute; reflexivity]. Qed.
Print Assumptions C73_osqp_name_refuted.

(** Clarabel's CMakeLists.txt: the replacements do not disturb each other. *)
Theorem C73_clarabel_cmake : forall t ps, pieces examples_dir t ps ->
  let release := replace "set(CMAKE_C_STANDARD_REQUIRED True)"
                   ("set(CMAKE_C_STANDARD_REQUIRED True)" +s nl +s nl +s "# set build type to Release" +s nl +s "set(CMAKE_BUILD_TYPE Release)") in
  let openblas := replace "set(CLARABEL_FEATURE_SDP ""none""" "set(CLARABEL_FEATURE_SDP ""sdp-openblas""" in
  clarabel_cmake false t = join "# add_subdirectory(examples)" (map release ps)
  /\ clarabel_cmake true t = join "# add_subdirectory(examples)" (map (fun p => openblas (release p)) ps)
  /\ (forall s, openblas (release s) = release (openblas s)).
Proof.
  intros t ps P. cbv zeta. split; [|split].
  - unfold clarabel_cmake, multiple_replace. cbn [fold_left fst snd].
    rewrite (pieces_rep examples_dir _ t ps ltac:(discriminate) P).
    rewrite rep_join by (discriminate || (vm_compute; reflexivity)). reflexivity.
  - unfold clarabel_cmake, multiple_replace. cbn [fold_left fst snd].
    rewrite (pieces_rep examples_dir _ t ps ltac:(discriminate) P).
    rewrite rep_join by (discriminate || (vm_compute; reflexivity)).
    rewrite rep_join by (discriminate || (vm_compute; reflexivity)). now rewrite map_map.
  - intros s. apply rep_comm; (discriminate || (vm_compute; reflexivity)).
Qed.
Print Assumptions C73_clarabel_cmake.
Example C73_clarabel_ex : pieces examples_dir (examples_dir +s nl +s c_standard) [""; nl +s c_standard]
  /\ clarabel_cmake false (examples_dir +s nl +s c_standard) = "# " +s examples_dir +s nl +s c_standard +s release_type.
Proof.
  split; [|vm_compute; reflexivity].
  apply (pieces_more examples_dir "" (nl +s c_standard) [nl +s c_standard]).
  - split; [now exists (nl +s c_standard) | intros; cbn; lia].
  - constructor. apply count_zero. vm_compute. reflexivity.
Qed.

(** rust_wrapper/CMakeLists.txt: the line that sets the output directory becomes the case
    distinction, whose own paths are not changed again; everywhere else three replacements. *)
Theorem C73_clarabel_wrapper : forall t ps,
  pieces "set(clarabel_c_output_directory ""${CMAKE_SOURCE_DIR}/rust_wrapper/target/release"")" t ps ->
  clarabel_wrapper t = join
   ("if (ARM64)" +s nl +s "        message(STATUS ""ARM64 detected"")" +s nl
    +s "        set(clarabel_c_output_directory ""${CMAKE_SOURCE_DIR}/solver_code/rust_wrapper/target/aarch64-apple-darwin/release"")" +s nl
    +s "    else()" +s nl
    +s "        set(clarabel_c_output_directory ""${CMAKE_SOURCE_DIR}/solver_code/rust_wrapper/target/release"")" +s nl
    +s "    endif()")
   (map (fun p =>
    replace "# Add the cargo project as a custom target"
      ("# Add the cargo project as a custom target" +s nl +s "if(ARM64)" +s nl
       +s "   set(clarabel_c_build_flags ""${clarabel_c_build_flags};--target;aarch64-apple-darwin"")" +s nl +s "endif()")
      (replace "/libclarabel_c.lib" "/clarabel_c.lib"
         (replace "${CMAKE_SOURCE_DIR}/" "${CMAKE_SOURCE_DIR}/solver_code/" p))) ps).
Proof. intros t ps P. exact (wrapper_pieces t ps P). Qed.
Print Assumptions C73_clarabel_wrapper.
Example C73_wrapper_ex :
  clarabel_wrapper ("x" +s out_dir "" "release" +s "${CMAKE_SOURCE_DIR}/y/libclarabel_c.lib")
  = "x" +s arm_dirs +s "${CMAKE_SOURCE_DIR}/solver_code/y/clarabel_c.lib".
Proof. vm_compute. reflexivity. Qed.

(** Declarations and definitions are added once per place where the expected text stands. *)
Theorem C73_osqp_workspace : forall n m t,
  count "extern OSQPFloat sol_x[" (osqp_workspace_h n m t) = count "extern OSQPFloat sol_x[" t + count "extern OSQPSolver solver;" t
  /\ count "extern OSQPFloat sol_y[" (osqp_workspace_h n m t) = count "extern OSQPFloat sol_y[" t + count "extern OSQPSolver solver;" t.
Proof.
  intros n m t. unfold osqp_workspace_h. split.
  - pose proof (count_rep1 osqp_anchor (osqp_anchor +s osqp_decls n m) decl_x t 1 ltac:(vm_compute; reflexivity)
      ltac:(discriminate) ltac:(vm_compute; reflexivity) (decls_x n m)) as H.
    rewrite Nat.mul_1_l in H. exact H.
  - pose proof (count_rep1 osqp_anchor (osqp_anchor +s osqp_decls n m) decl_y t 1 ltac:(vm_compute; reflexivity)
      ltac:(discriminate) ltac:(vm_compute; reflexivity) (decls_y n m)) as H.
    rewrite Nat.mul_1_l in H. exact H.
Qed.
Print Assumptions C73_osqp_workspace.
Example C73_osqp_workspace_ex : osqp_workspace_h 3 12 "extern OSQPSolver solver;"
  = "extern OSQPSolver solver;" +s nl +s "  extern OSQPFloat sol_x[3];" +s nl +s "  extern OSQPFloat sol_y[12];".
Proof. vm_compute. reflexivity. Qed.

Theorem C73_pdaqp : forall t,
  count ("int pdaqp_active_region = -1;" +s nl) (pdaqp_c t)
    = count ("int pdaqp_active_region = -1;" +s nl) t + count "void pdaqp_evaluate(" t
  /\ count ("    pdaqp_active_region = id;" +s nl) (pdaqp_c t)
    = count ("    pdaqp_active_region = id;" +s nl) t + count ("    // Leaf node reached -> evaluate affine function" +s nl) t
  /\ count ("extern int pdaqp_active_region;" +s nl) (pdaqp_h t)
    = count ("extern int pdaqp_active_region;" +s nl) t + count "#endif // ifndef PDAQP_H" t.
Proof.
  intros t.
  assert (SP : forall x u, sep x u = true -> x <> "" -> forall p r, count x (p +s u +s r) = count x p + 0 + count x r)
    by (intros; rewrite count_sep by assumption; lia).
  assert (PRE : forall x v, unbordered x = true -> sep x v = true -> forall p r, count x (p +s (x +s v) +s r) = count x p + 1 + count x r).
  { intros x v U S p r. rewrite append_assoc, count_unb by assumption. rewrite count_pre; auto. now apply unb_ne. }
  assert (POST : forall x v, unbordered x = true -> sep x v = true -> forall p r, count x (p +s (v +s x) +s r) = count x p + 1 + count x r).
  { intros x v U S p r. rewrite append_assoc. rewrite <- (append_assoc p v), count_unb by assumption.
    rewrite count_post; auto. now apply unb_ne. }
  split; [|split].
  - change (count region_def (pdaqp_c t) = count region_def t + count evaluate_head t). unfold pdaqp_c.
    rewrite (count_rep1 leaf_line _ region_def _ 0);
      [|vm_compute; reflexivity|discriminate|vm_compute; reflexivity|apply SP; [vm_compute; reflexivity|discriminate]].
    rewrite (count_rep1 evaluate_head _ region_def _ 1);
      [lia|vm_compute; reflexivity|discriminate|vm_compute; reflexivity|apply PRE; vm_compute; reflexivity].
  - change (count region_set (pdaqp_c t) = count region_set t + count leaf_line t). unfold pdaqp_c.
    rewrite (count_rep1 leaf_line _ region_set _ 1);
      [|vm_compute; reflexivity|discriminate|vm_compute; reflexivity|apply POST; vm_compute; reflexivity].
    rewrite (count_rep1 evaluate_head _ region_set _ 0);
      [|vm_compute; reflexivity|discriminate|vm_compute; reflexivity|apply SP; [vm_compute; reflexivity|discriminate]].
    rewrite (count_rep1 evaluate_head _ leaf_line _ 0);
      [lia|vm_compute; reflexivity|discriminate|vm_compute; reflexivity|apply SP; [vm_compute; reflexivity|discriminate]].
  - change (count ("extern int pdaqp_active_region;" +s nl) (pdaqp_h t)
      = count ("extern int pdaqp_active_region;" +s nl) t + count pdaqp_endif t). unfold pdaqp_h.
    rewrite (count_rep1 pdaqp_endif _ ("extern int pdaqp_active_region;" +s nl) _ 1);
      [lia|vm_compute; reflexivity|discriminate|vm_compute; reflexivity|].
    unfold pdaqp_externs. rewrite !append_assoc. rewrite <- (append_assoc "extern int pdaqp_active_region;" nl).
    apply PRE; vm_compute; reflexivity.
Qed.
Print Assumptions C73_pdaqp.
Example C73_pdaqp_ex : let t := "void pdaqp_evaluate(x){" +s nl +s leaf_line +s "}" in
  pdaqp_c t = region_def +s "void pdaqp_evaluate(x){" +s nl +s leaf_line +s region_set +s "}"
  /\ count evaluate_head t = 1 /\ count leaf_line t = 1.
Proof. vm_compute. auto. Qed.
(** The declarations the gradient code needs are added to the header, each once per closing line. *)
Theorem C73_pdaqp_header : forall t d,
  In d ["extern int pdaqp_active_region;"; "extern c_float_store pdaqp_feedbacks[];"; "extern c_int pdaqp_hp_list[];"] ->
  count (d +s nl) (pdaqp_h t) = count (d +s nl) t + count "#endif // ifndef PDAQP_H" t.
Proof.
  intros t d I.
  assert (MID : forall x u v, unbordered x = true -> u = "" \/ sep x u = true -> sep x v = true -> forall p r, count x (p +s (u +s x +s v) +s r) = count x p + 1 + count x r).
  { intros x u v U S1 S2 p r. rewrite !append_assoc. pose proof (unb_ne _ U) as N. rewrite <- (append_assoc p u), count_unb by assumption.
    rewrite (count_pre x v) by assumption. destruct S1 as [->|S1]; [now rewrite app_nil_s|now rewrite (count_post x u)]. }
  assert (K : exists u v, (pdaqp_externs +s pdaqp_endif)%string = (u +s (d +s nl) +s v)%string /\ unbordered (d +s nl) = true
              /\ (u = "" \/ sep (d +s nl) u = true) /\ sep (d +s nl) v = true /\ sep (d +s nl) pdaqp_endif = true).
  { destruct I as [<-|[<-|[<-|[]]]].
    - exists "", ("extern c_float_store pdaqp_feedbacks[];" +s nl +s "extern c_int pdaqp_hp_list[];" +s nl +s pdaqp_endif)%string. split; [|split; [|split; [|split]]]; first [vm_compute; reflexivity | left; reflexivity | right; vm_compute; reflexivity].
    - exists ("extern int pdaqp_active_region;" +s nl)%string, ("extern c_int pdaqp_hp_list[];" +s nl +s pdaqp_endif)%string. split; [|split; [|split; [|split]]]; first [vm_compute; reflexivity | left; reflexivity | right; vm_compute; reflexivity].
    - exists ("extern int pdaqp_active_region;" +s nl +s "extern c_float_store pdaqp_feedbacks[];" +s nl)%string, pdaqp_endif. split; [|split; [|split; [|split]]]; first [vm_compute; reflexivity | left; reflexivity | right; vm_compute; reflexivity]. }
  destruct K as (u & v & E & U & S1 & S2 & S3). unfold pdaqp_h. rewrite E.
  rewrite (count_rep1 pdaqp_endif _ (d +s nl) _ 1); [rewrite Nat.mul_1_l; reflexivity|vm_compute; reflexivity|now apply unb_ne|assumption|now apply MID].
Qed.
Print Assumptions C73_pdaqp_header.
Example C73_pdaqp_header_ex : pdaqp_h "#endif // ifndef PDAQP_H" =
  "extern int pdaqp_active_region;" +s nl +s "extern c_float_store pdaqp_feedbacks[];" +s nl +s "extern c_int pdaqp_hp_list[];" +s nl +s "#endif // ifndef PDAQP_H".
Proof. vm_compute. reflexivity. Qed.
(** A source file that also declares the function gets the variable defined twice. *)
Theorem C73_pdaqp_prototype_refuted : exists t, count evaluate_head t = 2 /\ count region_def t = 0
  /\ count region_def (pdaqp_c t) = 2.
Proof. exists ("void pdaqp_evaluate();" +s nl +s "void pdaqp_evaluate(x){}"). vm_compute. auto. Qed.
Print Assumptions C73_pdaqp_prototype_refuted.

(** Edits that may be repeated, and edits that may not. *)
Theorem C73_repeatable : forall t,
  scs_mk (scs_mk t) = scs_mk t /\ scs_cmake (scs_cmake t) = scs_cmake t
  /\ ecos_glblopts (ecos_glblopts t) = ecos_glblopts t /\ clarabel_header (clarabel_header t) = clarabel_header t
  /\ two_stage_cmake (two_stage_cmake t) = two_stage_cmake t.
Proof.
  intros t. split; [|split; [|split; [|split]]]; try apply scs_idem;
    (apply rep_idem; [vm_compute; reflexivity | discriminate]).
Qed.
Print Assumptions C73_repeatable.
Theorem C73_once_only : forall t,
  (forall n m, osqp_workspace_h n m (osqp_workspace_h n m t) = osqp_workspace_h n m t <-> ~ occurs "extern OSQPSolver solver;" t)
  /\ (forall t0, before "add_library" t0 t -> (osqp_cmake (osqp_cmake t) = osqp_cmake t <-> ~ occurs "src" t0))
  /\ (pdaqp_h (pdaqp_h t) = pdaqp_h t <-> ~ occurs "#endif // ifndef PDAQP_H" t).
Proof.
  intros t. split; [|split].
  - intros n m. unfold osqp_workspace_h. apply rep_twice; [discriminate| |].
    + rewrite len_app. unfold osqp_decls. rewrite !len_app. cbn. lia.
    + exists "", (osqp_decls n m). reflexivity.
  - intros t0 B. rewrite (osqp_cmake_again t t0 B), (osqp_cmake_to t t0 B). unfold to_src.
    apply rep_twice; [discriminate | vm_compute; lia | exists csd, ""; reflexivity].
  - unfold pdaqp_h. apply rep_twice; [discriminate | vm_compute; lia | exists pdaqp_externs, ""; reflexivity].
Qed.
Print Assumptions C73_once_only.
Example C73_once_only_ex : occurs "#endif // ifndef PDAQP_H" "#endif // ifndef PDAQP_H"
  /\ pdaqp_h (pdaqp_h "#endif // ifndef PDAQP_H") = pdaqp_externs +s pdaqp_externs +s "#endif // ifndef PDAQP_H".
Proof. split; [now exists "", "" | vm_compute; reflexivity]. Qed.
