(** C70: the files a generation leaves, the lists its build files name, and what its include lines find. *)

From Coq Require Import String List Bool Arith.
From Verif Require Import Base Config Import ImportProofs Build BuildSpec BuildProofs BuildProofs2 BuildProofs3 BuildProofs4.
Import ListNotations.
Open Scope string_scope.
Open Scope list_scope.

(** ** Writing the files *)

(** A generation completes iff the solver has the files it copies or edits; if not, it stops with FileNotFoundError. *)
Theorem C70_completes : forall v c, cfg_ok c ->
  ((exists s, generate_files v c = inr s) <-> complete v c)
  /\ (~ complete v c -> generate_files v c = inl NotFound).
Proof.
  intros v c H. destruct (generates v c H) as [(t & X & _ & Y) | (X & Y)]; split; try tauto.
  - split; eauto.
  - split; [intros (s & Z); congruence | tauto].
Qed.

(** Afterwards each file has the content of the specification, and there are no others. *)
Theorem C70_files : forall v c s, cfg_ok c -> generate_files v c = inr s ->
  (forall p, strip sd p = None -> (b_two c = true -> strip od p = None) -> lookup p (t_files s) = expected_at c p)
  /\ (forall r, lookup (sd ++ r) (t_files s) = solver_file v c r)
  /\ (b_two c = true -> forall r, lookup (od ++ r) (t_files s) = osqp_file v r).
Proof.
  intros v c s H E. destruct (generates v c H) as [(t & X & [A B C] & _) | (X & _)]; [|congruence].
  replace s with t by congruence. auto.
Qed.
Lemma final : forall v c s, cfg_ok c -> generate_files v c = inr s -> final_ok v c s /\ complete v c.
Proof.
  intros v c s H E. destruct (generates v c H) as [(t & X & F & C) | (X & _)]; [|congruence]. replace s with t by congruence. auto.
Qed.

(** In particular the licence of QOCO, copied to the top for both kinds of QOCO code, is not there afterwards: the
    file is cvxpygen's own.  ECOS's is kept, under its other name. *)
Theorem C70_licence : forall v c s, cfg_ok c -> generate_files v c = inr s ->
  lookup ["LICENSE"] (t_files s) = Some (From "LICENSE.jinja2")
  /\ (b_if c = IECOS -> lookup ["COPYING"] (t_files s) = Some (Vendor ["COPYING"])).
Proof.
  intros v c s H E. destruct (C70_files v c s H E) as (A & _). split.
  - rewrite A by (intros; reflexivity). reflexivity.
  - intro I. rewrite A by (intros; reflexivity). rewrite expected_out; auto.
    + unfold root_file. now rewrite I.
    + intro X. destruct (lists c H) as (_ & _ & _ & _). revert X. unfold expected. rewrite !map_app, !in_app_iff. intro X.
      destruct (b_grad c), (b_expl c =? 0)%nat, (b_two c); cbn [map fst In] in X;
      repeat match goal with Y : _ \/ _ |- _ => destruct Y as [Y|Y] end; try discriminate; contradiction.
Qed.

(** ** Build lists *)

(** CMakeLists.txt names each generated header and source once, and no other: the example program is compiled
    from all sources, the library from all but the example; the extension module from its one source. *)
Theorem C70_sources : forall v c s, cfg_ok c -> generate_files v c = inr s ->
  (forall p, In p (cmake_head c) <-> has_file s p = true /\ parent p = ["c"; "include"])
  /\ (forall p, In p (example_src c) <-> has_file s p = true /\ parent p = ["c"; "src"])
  /\ (forall p, In p (library_src c) <-> has_file s p = true /\ parent p = ["c"; "src"] /\ p <> ["c"; "src"; "cpg_example.c"])
  /\ (forall p, In p (setup_src s) <-> p = ["cpp"; "src"; "cpg_module.cpp"])
  /\ NoDup (cmake_head c) /\ NoDup (example_src c).
Proof.
  intros v c s H E. destruct (final v c s H E) as (F & _). destruct (listed v c s H F) as (A & B & C & N1 & N2).
  repeat (split; [assumption|]). split; [|auto]. intro p. unfold library_src, example_src in *.
  assert (N3 : ~ In ["c"; "src"; "cpg_example.c"] (cmake_src c)) by (intro X; apply NoDup_remove_2 in N2; apply N2; now rewrite app_nil_r).
  split.
  - intro X. destruct (proj1 (B p)) as (Y & Z); [apply in_or_app; auto|]. repeat split; auto. intros ->. auto.
  - intros (X & Y & Z). destruct (in_app_or _ _ _ (proj2 (B p) (conj X Y))) as [W|[W|[]]]; auto. exfalso. apply Z. now rewrite <- W.
Qed.

(** ** Include lines *)

(** Programs without a second stage: every include line the compiler meets, of the library and of the example, finds
    the generated header of that name, or a header in solver_code, or is a system header. *)
Theorem C70_includes : forall v c s qd, cfg_ok c -> b_two c = false -> generate_files v c = inr s -> has_header v (b_if c) ->
  (b_if c = IOSQP -> b_grad c = true -> has_qdldl v qd) ->
  forall f i, reads c s (cmake_dirs c) (example_src c) f -> In i (includes c f) -> right c s (cmake_dirs c) f i.
Proof.
  intros v c s qd H T E HH Q f i R I. destruct (final v c s H E) as (F & C).
  destruct (is_qdldl i) eqn:D.
  - (* only for gradients of OSQP *)
    assert (G : b_if c = IOSQP /\ b_grad c = true).
    { destruct (cfg_cases c H) as (j & g & e & t & sp & -> & X). cbn in T. subst t. destruct i as [n|n]; [|discriminate D].
      cbn in D. apply path_eqb_eq in D. subst n.
      assert (Y : In f (c_files (mkCfg j g e false sp)) \/ exists r, f = sd ++ r).
      { clear I. induction R as [f R|f i g' R IH I S].
        - left. apply (srcs_c _ H). exact R.
        - destruct IH as [IH|(r & ->)]; [|rewrite includes_solver in I; destruct I].
          pose proof (closed_c _ H) as K. unfold closed in K. rewrite forallb_forall in K. specialize (K f IH).
          rewrite forallb_forall in K. specialize (K i I). apply andb_true_iff in K. destruct K as (K & _).
          exact (lands_ok v _ s _ _ f i g' F K S). }
      destruct Y as [Y|(r & ->)]; [|rewrite includes_solver in I; destruct I].
      assert (K : existsb (fun f => existsb is_qdldl (includes (mkCfg j g e false sp) f)) (c_files (mkCfg j g e false sp)) = true).
      { apply existsb_exists. exists f. split; auto. apply existsb_exists. exists (Quote ["qdldl.h"]). split; auto. }
      destruct X as [(-> & _ & ->)|[(-> & _ & -> & ->)|[(_ & X & _)|(N & _ & ->)]]]; try discriminate X.
      - exfalso. destruct j; vm_compute in K; discriminate K.
      - auto.
      - exfalso. destruct e as [|e]; [easy|]. destruct g; vm_compute in K; discriminate K. }
    destruct G as (G1 & G2). specialize (Q G1 G2).
    apply (closed_ok v c s (header_paths c qd) (cmake_dirs c) (c_files c) (fun _ _ => false) (example_src c)); auto using srcs_c.
    + intros p X. apply (known_present v c s qd F C HH (fun _ => Q) p X).
    + apply closed_q; auto. apply Q.
  - apply (closed_ok v c s (plain_known c) (cmake_dirs c) (c_files c) (fun _ i => is_qdldl i) (example_src c)); auto using srcs_c, closed_c.
    apply known_present0 with (1 := F); auto.
Qed.

(** The extension module: every line, for all programs. *)
Theorem C70_module_includes : forall v c s, cfg_ok c -> generate_files v c = inr s -> has_header v (b_if c) ->
  forall f i, reads c s (setup_dirs c) (setup_src s) f -> In i (includes c f) -> right c s (setup_dirs c) f i.
Proof.
  intros v c s H E HH f i R I. destruct (final v c s H E) as (F & C).
  apply (closed_ok v c s (plain_known c) (setup_dirs c) (cpp_files c) (fun _ _ => false) (setup_src s)); auto using closed_cpp.
  - apply known_present0 with (1 := F); auto.
  - intros p X. destruct (listed v c s H F) as (_ & _ & S & _). apply S in X. subst p. unfold cpp_files. apply filter_In.
    split; [|reflexivity]. unfold expected. rewrite !map_app, !in_app_iff. left. cbn. tauto.
Qed.

(** Two-stage programs: every line but that of QDLDL's header. *)
Theorem C70_two_stage_includes : forall v c s, cfg_ok c -> b_two c = true -> generate_files v c = inr s -> has_header v (b_if c) ->
  forall f i, reads c s (cmake_dirs c) (example_src c) f -> In i (includes c f) -> i <> Quote ["qdldl.h"] -> right c s (cmake_dirs c) f i.
Proof.
  intros v c s H T E HH f i R I N. destruct (final v c s H E) as (F & C).
  apply (closed_ok v c s (plain_known c) (cmake_dirs c) (c_files c) (fun _ i => is_qdldl i) (example_src c)); auto using srcs_c, closed_c.
  - apply known_present0 with (1 := F); auto.
  - destruct i as [n|n]; [|reflexivity]. cbn. apply path_eqb_neq. congruence.
Qed.
(** That line is never answered from osqp_code, whose QDLDL is compiled: only by a header of that name among the
    files of the other solver, and if it has none the file cannot be compiled. *)
Theorem C70_two_stage_qdldl : forall v c s, cfg_ok c -> b_two c = true -> generate_files v c = inr s ->
  In (Quote ["qdldl.h"]) (includes c compute_c) /\ In compute_c (library_src c)
  /\ (forall g, search s (cmake_dirs c) compute_c (Quote ["qdldl.h"]) = Some g ->
        exists r, g = sd ++ r /\ last r "" = "qdldl.h" /\ source v c r <> None)
  /\ ((forall r, source v c r <> None -> last r "" <> "qdldl.h") -> search s (cmake_dirs c) compute_c (Quote ["qdldl.h"]) = None).
Proof.
  intros v c s H T E. destruct (final v c s H E) as (F & _).
  assert (A : forall g, search s (cmake_dirs c) compute_c (Quote ["qdldl.h"]) = Some g ->
        exists r, g = sd ++ r /\ last r "" = "qdldl.h" /\ source v c r <> None) by (intros g G; now apply (qdldl_found v c s g)).
  destruct (cfg_cases c H) as (i & g & e & t & sp & -> & D). cbn [b_two] in T. subst t.
  destruct D as [(_ & X & _)|[(_ & X & _)|[(-> & _ & ->)|(_ & X & _)]]]; try discriminate X.
  split; [cbn; tauto|]. split; [cbn; tauto|]. split; [exact A|]. intro N.
  destruct (search s _ compute_c (Quote ["qdldl.h"])) as [g|]; auto. destruct (A g eq_refl) as (r & _ & L & S). exfalso. exact (N r S L).
Qed.

(** ** Refuted: two-stage programs find the header of the QDLDL they compile *)

(** With ECOS the header is not found, though OSQP's code contains it. *)
Definition ecos_vendor : vendor := mkVendor
  (fun r => if String.eqb r "ecos" then
              [["CMakeLists.txt"]; ["COPYING"]; ["src"; "ecos.c"]; ["include"; "ecos.h"]; ["include"; "glblopts.h"];
               ["external"; "amd"; "include"; "amd.h"]; ["external"; "ldl"; "include"; "ldl.h"]; ["ecos_bb"; "ecos_bb.c"]]
            else if String.eqb r "osqp-python" then [["LICENSE"]] else [])
  [] [["CMakeLists.txt"]; ["workspace.h"]; ["inc"; "public"; "osqp.h"]; ["inc"; "private"; "qdldl.h"]; ["src"; "qdldl.c"]].
Definition ecos_two : bcfg := mkCfg IECOS true 0 true false.
Definition completed (v : vendor) (c : bcfg) (P : tree -> bool) : bool := match generate_files v c with inr s => P s | inl _ => false end.
Theorem C70_qdldl_missing_refuted : exists v c s, cfg_ok c /\ b_two c = true /\ generate_files v c = inr s /\ has_header v (b_if c)
  /\ has_file s (od ++ ["inc"; "private"; "qdldl.h"]) = true
  /\ In compute_c (library_src c) /\ In (Quote ["qdldl.h"]) (includes c compute_c)
  /\ search s (cmake_dirs c) compute_c (Quote ["qdldl.h"]) = None.
Proof.
  exists ecos_vendor, ecos_two. eexists. split; [split; [|split]; cbn; intros; first [congruence | easy | tauto]|]. split; [reflexivity|].
  split; [vm_compute; reflexivity|]. split; [cbn; unfold in_repo; cbn; tauto|]. split; [vm_compute; reflexivity|].
  split; [cbn; tauto|]. split; [cbn; tauto|]. vm_compute. reflexivity.
Qed.

(** With QOCO it is QOCO's copy that is found, while the QDLDL sources compiled are those of osqp_code. *)
Definition qoco_vendor : vendor := mkVendor
  (fun r => if String.eqb r "qoco" then
              [["CMakeLists.txt"]; ["LICENSE"]; ["src"; "qoco_api.c"]; ["include"; "qoco.h"]; ["lib"; "amd"; "amd.h"];
               ["lib"; "qdldl"; "include"; "qdldl.h"]; ["configure"; "qoco_config.h.in"]; ["algebra"; "qoco_linalg.c"]]
            else if String.eqb r "osqp-python" then [["LICENSE"]] else [])
  [] [["CMakeLists.txt"]; ["workspace.h"]; ["inc"; "public"; "osqp.h"]; ["inc"; "private"; "qdldl.h"]; ["src"; "qdldl.c"]].
Definition qoco_two : bcfg := mkCfg IQOCO true 0 true false.
Theorem C70_qdldl_other_refuted : exists v c s, cfg_ok c /\ b_two c = true /\ generate_files v c = inr s /\ has_header v (b_if c)
  /\ has_file s (od ++ ["inc"; "private"; "qdldl.h"]) = true
  /\ lookup (od ++ ["src"; "qdldl.c"]) (t_files s) = Some (Vendor ["src"; "qdldl.c"])
  /\ search s (cmake_dirs c) compute_c (Quote ["qdldl.h"]) = Some (sd ++ ["lib"; "qdldl"; "include"; "qdldl.h"]).
Proof.
  exists qoco_vendor, qoco_two. eexists. split; [split; [|split]; cbn; intros; first [congruence | easy | tauto]|]. split; [reflexivity|].
  split; [vm_compute; reflexivity|]. split; [cbn; unfold in_repo; cbn; tauto|]. repeat split; vm_compute; reflexivity.
Qed.

(** Every source of the library and the example reads the generated headers which declare what it uses, and all
    headers of the solver; so does the extension module. *)
Theorem C70_needed_headers : forall v c s, cfg_ok c -> generate_files v c = inr s ->
  (forall f, In f (example_src c) -> exists hs, In (f, hs) (needs c))
  /\ (forall f hs h, In (f, hs) (needs c) -> In h hs -> reads c s (cmake_dirs c) [f] h)
  /\ (forall h, In h (module_needs c) -> reads c s (setup_dirs c) [["cpp"; "src"; "cpg_module.cpp"]] h).
Proof.
  intros v c s H E. destruct (final v c s H E) as (F & _). destruct (reads_needed v c s H F) as (A & B & C). split; [|auto].
  intros f I. apply C, in_map_iff in I. destruct I as ((g & hs) & X & I). cbn in X. subst g. eauto.
Qed.
Theorem C70_solver_headers : forall v c s, cfg_ok c -> generate_files v c = inr s -> has_header v (b_if c) ->
  forall n, In n (solver_names (b_if c)) ->
  (forall f, In f (example_src c) -> exists r, reads c s (cmake_dirs c) [f] (sd ++ r) /\ last (sd ++ r) "" = n)
  /\ (exists r, reads c s (setup_dirs c) [["cpp"; "src"; "cpg_module.cpp"]] (sd ++ r) /\ last (sd ++ r) "" = n).
Proof. intros v c s H E HH. destruct (final v c s H E) as (F & C). now apply (reads_solver v c s). Qed.

(** Refuted: the licence of QOCO, copied to the top, stays there. *)
Theorem C70_licence_refuted : exists v c s, cfg_ok c /\ b_if c = IQOCO /\ generate_files v c = inr s
  /\ In (CopyFile "qoco" ["LICENSE"] ["LICENSE"]) (solver_ops v c)
  /\ lookup ["LICENSE"] (t_files s) <> Some (Vendor ["LICENSE"]).
Proof.
  exists qoco_vendor, (mkCfg IQOCO false 0 false false). eexists. split; [split; [|split]; cbn; intros; first [congruence | easy | tauto]|]. split; [reflexivity|].
  split; [vm_compute; reflexivity|]. split; [cbn; tauto|]. vm_compute. discriminate.
Qed.

(** ** Examples *)

(** OSQP with gradients: the hypotheses of all theorems hold, and the line of QDLDL's header finds OSQP's. *)
Definition osqp_vendor : vendor := mkVendor
  (fun r => if String.eqb r "osqp-python" then [["LICENSE"]; ["README.md"]] else [])
  [["CMakeLists.txt"]; ["workspace.h"]; ["workspace.c"]; ["inc"; "public"; "osqp.h"]; ["inc"; "private"; "qdldl.h"]; ["src"; "qdldl.c"]] [].
Definition osqp_grad : bcfg := mkCfg IOSQP true 0 false false.
Example C70_osqp : cfg_ok osqp_grad /\ complete osqp_vendor osqp_grad /\ has_header osqp_vendor IOSQP /\ has_qdldl osqp_vendor ["inc"; "private"].
Proof.
  split; [split; [|split]; cbn; intros; first [congruence | easy | tauto]|]. split; [split; [repeat split; cbn; tauto | discriminate]|]. split; [cbn; tauto|].
  split; cbn; tauto.
Qed.
Example C70_osqp_run : completed osqp_vendor osqp_grad (fun s =>
  match search s (cmake_dirs osqp_grad) compute_c (Quote ["qdldl.h"]), lookup (sd ++ ["CMakeLists.txt"]) (t_files s) with
  | Some p, Some (Then (Then (Vendor ["CMakeLists.txt"]) "cut add_library") "write_canon_cmake solver") => path_eqb p (sd ++ ["inc"; "private"; "qdldl.h"])
  | _, _ => false
  end) = true.
Proof. vm_compute. reflexivity. Qed.

(** A file the solver's code lacks stops the generation. *)
Example C70_incomplete : let v := mkVendor (fun _ => []) (v_gen osqp_vendor) [] in
  ~ complete v osqp_grad /\ generate_files v osqp_grad = inl NotFound.
Proof. split; [intros ((X & _) & _); exact X | vm_compute; reflexivity]. Qed.

(** Explicit programs with gradients. *)
Definition pdaqp_vendor : vendor := mkVendor (fun _ => []) [["pdaqp.h"]; ["pdaqp.c"]] [].
Definition pdaqp_grad : bcfg := mkCfg IPDAQP true 1 false false.
Example C70_pdaqp : cfg_ok pdaqp_grad /\ complete pdaqp_vendor pdaqp_grad
  /\ completed pdaqp_vendor pdaqp_grad (fun s =>
       match search s (cmake_dirs pdaqp_grad) ["c"; "src"; "cpg_gradient.c"] (Quote [".."; "solver_code"; "include"; "pdaqp.h"]) with
       | Some p => path_eqb p (sd ++ ["include"; "pdaqp.h"])
       | None => false
       end) = true.
Proof.
  split; [split; [|split]; cbn; intros; first [congruence | easy | tauto]|]. split; [split; [repeat split; cbn; tauto | discriminate]|]. vm_compute. reflexivity.
Qed.

Print Assumptions C70_completes.
Print Assumptions C70_files.
Print Assumptions C70_licence.
Print Assumptions C70_sources.
Print Assumptions C70_includes.
Print Assumptions C70_module_includes.
Print Assumptions C70_two_stage_includes.
Print Assumptions C70_two_stage_qdldl.
Print Assumptions C70_qdldl_missing_refuted.
Print Assumptions C70_qdldl_other_refuted.
Print Assumptions C70_licence_refuted.
Print Assumptions C70_needed_headers.
Print Assumptions C70_solver_headers.
