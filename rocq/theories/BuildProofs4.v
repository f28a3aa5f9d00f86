(** Include lines: which headers each generated source reads. *)

From Coq Require Import String List Bool Arith Lia.
From Verif Require Import Base Config Import ImportProofs Build BuildSpec BuildProofs BuildProofs2 BuildProofs3.
Import ListNotations.
Open Scope string_scope.
Open Scope list_scope.

Definition iname (i : incl) : list string := match i with Quote n => n | Angle n => n end.
Definition heads (c : bcfg) : list path := filter (fun p => match p with [_; y; _] => String.eqb y "include" | _ => false end) (map fst (expected c)).

Fixpoint reach (c : bcfg) (dirs : list path) (k : nat) (f h : path) : bool :=
  path_eqb f h ||
  match k with
  | 0 => false
  | S k => existsb (fun i => existsb (fun t => generated c (start f dirs i) (iname i) t && reach c dirs k t h) (heads c)) (includes c f)
  end.
Lemma reach_ok : forall v c s dirs S0 h, final_ok v c s -> forall k f, reads c s dirs S0 f -> reach c dirs k f h = true -> reads c s dirs S0 h.
Proof.
  intros v c s dirs S0 h F. induction k as [|k IH]; intros f R H; cbn [reach] in H; apply orb_true_iff in H; destruct H as [H|H];
    try (apply path_eqb_eq in H; now subst h); [discriminate|].
  apply existsb_exists in H. destruct H as (i & I & H). apply existsb_exists in H. destruct H as (t & _ & H).
  apply andb_true_iff in H. destruct H as (G & H). apply (IH t); [|exact H].
  apply reads_inc with f i; auto. destruct i as [n|n]; cbn [search start iname] in *; eapply generated_ok; eauto.
Qed.

Definition line_to (c : bcfg) (known dirs : list path) (n : string) (f : path) : bool :=
  existsb (fun i => String.eqb (last (iname i) "") n && solver_header c known (start f dirs i) (iname i)) (includes c f).
Lemma line_to_ok : forall v c s known dirs S0 n f, final_ok v c s -> (forall p, In p known -> has_file s p = true) ->
  reads c s dirs S0 f -> line_to c known dirs n f = true -> exists r, reads c s dirs S0 (sd ++ r) /\ last (sd ++ r) "" = n.
Proof.
  intros v c s known dirs S0 n f F K R H. apply existsb_exists in H. destruct H as (i & I & H). apply andb_true_iff in H. destruct H as (E & H).
  apply String.eqb_eq in E. destruct (solver_header_ok v c s known (iname i) F K _ H) as (r & X & Y). exists r. split; [|congruence].
  apply reads_inc with f i; auto. destruct i; exact X.
Qed.

Definition needs_all (c : bcfg) : bool :=
  forallb (fun fh => forallb (fun h => reach c (cmake_dirs c) 3 (fst fh) h) (snd fh)) (needs c)
  && forallb (fun h => reach c (setup_dirs c) 3 ["cpp"; "src"; "cpg_module.cpp"] h) (module_needs c)
  && forallb (fun f => mem_path f (map fst (needs c))) (example_src c)
  && forallb (fun n => line_to c (plain_known c) (cmake_dirs c) n (inc_h "cpg_workspace.h")
                       && line_to c (plain_known c) (setup_dirs c) n (inc_h "cpg_workspace.h")) (solver_names (b_if c))
  && forallb (fun fh => mem_path (inc_h "cpg_workspace.h") (snd fh)) (needs c).
Lemma needs_ok : forall c, cfg_ok c -> needs_all c = true.
Proof.
  intros c H. destruct (cfg_cases c H) as (i & g & e & t & sp & -> & D).
  destruct D as [(-> & -> & ->)|[(-> & -> & -> & ->)|[(-> & -> & ->)|(E & -> & ->)]]]; [destruct i| |destruct i|destruct e as [|e]; [easy|destruct g]];
  vm_compute; reflexivity.
Qed.

Lemma reads_needed : forall v c s, cfg_ok c -> final_ok v c s ->
  (forall f hs h, In (f, hs) (needs c) -> In h hs -> reads c s (cmake_dirs c) [f] h)
  /\ (forall h, In h (module_needs c) -> reads c s (setup_dirs c) [["cpp"; "src"; "cpg_module.cpp"]] h)
  /\ (forall f, In f (example_src c) -> In f (map fst (needs c))).
Proof.
  intros v c s H F. pose proof (needs_ok c H) as A. unfold needs_all in A. rewrite !andb_true_iff in A. destruct A as ((((A & B) & C) & _) & _).
  rewrite forallb_forall in A, B, C. split; [|split].
  - intros f hs h I J. specialize (A _ I). cbn [fst snd] in A. rewrite forallb_forall in A.
    apply (reach_ok v c s (cmake_dirs c) [f] h F 3 f); [constructor; now left | auto].
  - intros h I. apply (reach_ok v c s (setup_dirs c) [["cpp"; "src"; "cpg_module.cpp"]] h F 3 ["cpp"; "src"; "cpg_module.cpp"]); [constructor; now left | auto].
  - intros f I. apply mem_true. auto.
Qed.
Lemma reads_solver : forall v c s, cfg_ok c -> final_ok v c s -> complete v c -> has_header v (b_if c) ->
  forall n, In n (solver_names (b_if c)) ->
  (forall f, In f (example_src c) -> exists r, reads c s (cmake_dirs c) [f] (sd ++ r) /\ last (sd ++ r) "" = n)
  /\ (exists r, reads c s (setup_dirs c) [["cpp"; "src"; "cpg_module.cpp"]] (sd ++ r) /\ last (sd ++ r) "" = n).
Proof.
  intros v c s H F C HH n N. pose proof (reads_needed v c s H F) as (A & B & D). pose proof (needs_ok c H) as X. unfold needs_all in X.
  rewrite !andb_true_iff in X. destruct X as ((_ & X) & Y). rewrite forallb_forall in X, Y. specialize (X n N). apply andb_true_iff in X. destruct X as (X1 & X2).
  pose proof (known_present0 v c s F C HH) as K. fold (plain_known c) in K. split.
  - intros f I. apply (line_to_ok v c s (plain_known c) (cmake_dirs c) [f] n (inc_h "cpg_workspace.h")); auto.
    apply D in I. apply in_map_iff in I. destruct I as ((g & hs) & E & I). cbn in E. subst g. apply (A f hs); auto.
    apply mem_true. exact (Y _ I).
  - apply (line_to_ok v c s (plain_known c) (setup_dirs c) _ n (inc_h "cpg_workspace.h")); auto.
    apply B. unfold module_needs. rewrite !in_app_iff. left. cbn. tauto.
Qed.
