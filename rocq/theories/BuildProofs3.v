(** Include lines: where the compiler finds each file. *)

From Coq Require Import String List Bool Arith Lia.
From Verif Require Import Base Config Import ImportProofs Build BuildSpec BuildProofs BuildProofs2.
Import ListNotations.
Open Scope string_scope.
Open Scope list_scope.

Definition outside (p : path) : bool := match strip sd p, strip od p with None, None => true | _, _ => false end.
Definition some_file (o : option content) : bool := match o with Some _ => true | None => false end.
Lemma has_file_out : forall v c s p, final_ok v c s -> outside p = true -> has_file s p = some_file (expected_at c p).
Proof.
  intros v c s p F H. unfold outside in H. destruct (strip sd p) eqn:E1, (strip od p) eqn:E2; try discriminate.
  unfold has_file. rewrite (f_out _ _ _ F p E1 (fun _ => E2)). reflexivity.
Qed.

(** A generated header is found at [t]: nothing before it, and nothing of the solver is asked. *)
Fixpoint generated (c : bcfg) (l : list path) (n : list string) (t : path) : bool :=
  match l with
  | [] => false
  | d :: l => outside (walk d n) && (if some_file (expected_at c (walk d n)) then path_eqb (walk d n) t else generated c l n t)
  end.
Lemma generated_ok : forall v c s n t, final_ok v c s -> forall l, generated c l n t = true -> first_file s l n = Some t.
Proof.
  intros v c s n t F. induction l as [|d l IH]; intro H; [discriminate|]. cbn [generated first_file] in *.
  apply andb_true_iff in H. destruct H as (O & H). rewrite (has_file_out v c s _ F O).
  destruct (some_file (expected_at c (walk d n))); [apply path_eqb_eq in H; now subst t | auto].
Qed.

(** A header of the solver is found in solver_code, given files there. *)
Fixpoint solver_header (c : bcfg) (known : list path) (l : list path) (n : list string) : bool :=
  match l with
  | [] => false
  | d :: l => match strip sd (walk d n) with
              | Some _ => String.eqb (last (walk d n) "") (last n "") && (mem_path (walk d n) known || solver_header c known l n)
              | None => outside (walk d n) && negb (some_file (expected_at c (walk d n))) && solver_header c known l n
              end
  end.
Lemma solver_header_ok : forall v c s known n, final_ok v c s -> (forall p, In p known -> has_file s p = true) ->
  forall l, solver_header c known l n = true -> exists r, first_file s l n = Some (sd ++ r) /\ last (sd ++ r) "" = last n "".
Proof.
  intros v c s known n F K. induction l as [|d l IH]; intro H; [discriminate|]. cbn [solver_header first_file] in *.
  destruct (strip sd (walk d n)) as [r|] eqn:E.
  - apply andb_true_iff in H. destruct H as (L & H). apply String.eqb_eq in L. apply strip_app in E.
    destruct (has_file s (walk d n)) eqn:X.
    + exists r. rewrite <- E. auto.
    + apply orb_true_iff in H. destruct H as [H|H]; [|auto]. apply mem_true, K in H. congruence.
  - apply andb_true_iff in H. destruct H as (H & H2). apply andb_true_iff in H. destruct H as (O & H).
    rewrite (has_file_out v c s _ F O). apply negb_true_iff in H. rewrite H. auto.
Qed.

Definition start (f : path) (dirs : list path) (i : incl) : list path := match i with Quote _ => parent f :: dirs | Angle _ => dirs end.
Definition fine (c : bcfg) (known dirs : list path) (f : path) (i : incl) : bool :=
  match i with
  | Angle n => existsb (fun m => path_eqb n m) system || solver_header c known dirs n
  | Quote n => (generated c (parent f :: dirs) n ["c"; "include"; last n ""] && mem_path ["c"; "include"; last n ""] (map fst (expected c)))
               || (generated c (parent f :: dirs) n ["cpp"; "include"; last n ""] && mem_path ["cpp"; "include"; last n ""] (map fst (expected c)))
               || solver_header c known (parent f :: dirs) n
  end.
Lemma in_fst : forall (p : path) (l : list (path * string)), mem_path p (map fst l) = true -> exists w, In (p, w) l.
Proof. intros p l H. apply mem_true, in_map_iff in H. destruct H as ((q & w) & E & H). cbn in E. subst q. eauto. Qed.
Lemma fine_ok : forall v c s known dirs f i, final_ok v c s -> (forall p, In p known -> has_file s p = true) ->
  fine c known dirs f i = true -> right c s dirs f i.
Proof.
  intros v c s known dirs f [n|n] F K H; cbn [fine right search] in *.
  - apply orb_true_iff in H. destruct H as [H|H]; [apply orb_true_iff in H; destruct H as [H|H]|]; try apply andb_true_iff in H.
    + destruct H as (H & M). apply in_fst in M. destruct M as (w & M). left. exists w. split; auto. eapply generated_ok; eauto.
    + destruct H as (H & M). apply in_fst in M. destruct M as (w & M). right. left. exists w. split; auto. eapply generated_ok; eauto.
    + right. right. eapply solver_header_ok; eauto.
  - apply orb_true_iff in H. destruct H as [H|H].
    + left. apply existsb_exists in H. destruct H as (m & H & E). apply path_eqb_eq in E. now subst m.
    + right. destruct (solver_header_ok v c s known n F K dirs H) as (r & R & _). eauto.
Qed.

(** ** The files read *)

Lemma includes_solver : forall c r, includes c (sd ++ r) = [].
Proof.
  intros c r. unfold includes, include_table. cbn [includes_in].
  repeat match goal with |- context [path_eqb (sd ++ r) ?f] => change (path_eqb (sd ++ r) f) with false end. reflexivity.
Qed.

(** Whatever a line finds is in solver_code or in [files]. *)
Definition lands (c : bcfg) (dirs files : list path) (f : path) (i : incl) : bool :=
  let n := match i with Quote n => n | Angle n => n end in
  forallb (fun d => match strip sd (walk d n) with
                    | Some _ => true
                    | None => outside (walk d n) && (negb (some_file (expected_at c (walk d n))) || mem_path (walk d n) files)
                    end) (start f dirs i).
Lemma first_file_In : forall s n l g, first_file s l n = Some g -> exists d, In d l /\ g = walk d n /\ has_file s g = true.
Proof.
  intros s n. induction l as [|d l IH]; intros g H; [discriminate|]. cbn [first_file] in H. destruct (has_file s (walk d n)) eqn:E.
  - injection H as <-. exists d. cbn; auto.
  - destruct (IH g H) as (x & X & Y). exists x. cbn; auto.
Qed.
Lemma lands_ok : forall v c s dirs files f i g, final_ok v c s -> lands c dirs files f i = true -> search s dirs f i = Some g ->
  In g files \/ exists r, g = sd ++ r.
Proof.
  intros v c s dirs files f i g F H X.
  assert (Y : exists d, In d (start f dirs i) /\ g = walk d (match i with Quote n => n | Angle n => n end) /\ has_file s g = true).
  { destruct i as [n|n]; cbn [search start] in *; now apply first_file_In. }
  destruct Y as (d & D & -> & E). unfold lands in H. rewrite forallb_forall in H. specialize (H d D).
  destruct (strip sd (walk d _)) as [r|] eqn:S.
  - right. exists r. now apply strip_app.
  - left. apply andb_true_iff in H. destruct H as (O & H). rewrite (has_file_out v c s _ F O) in E. rewrite E in H. now apply mem_true.
Qed.

Definition closed (c : bcfg) (known dirs files : list path) (except : path -> incl -> bool) : bool :=
  forallb (fun f => forallb (fun i => lands c dirs files f i && (except f i || fine c known dirs f i)) (includes c f)) files.
Lemma closed_ok : forall v c s known dirs files except srcs, final_ok v c s -> (forall p, In p known -> has_file s p = true) ->
  closed c known dirs files except = true -> List.incl srcs files ->
  forall f i, reads c s dirs srcs f -> In i (includes c f) -> except f i = false -> right c s dirs f i.
Proof.
  intros v c s known dirs files except srcs F K H I.
  assert (C : forall f i, In f files -> In i (includes c f) -> lands c dirs files f i = true /\ (except f i || fine c known dirs f i) = true).
  { intros f i Hf Hi. unfold closed in H. rewrite forallb_forall in H. specialize (H f Hf). rewrite forallb_forall in H.
    specialize (H i Hi). now apply andb_true_iff in H. }
  assert (R : forall f, reads c s dirs srcs f -> In f files \/ exists r, f = sd ++ r).
  { intros f X. induction X as [f X|f i g X IH Hi S].
    - left. now apply I.
    - destruct IH as [IH|(r & ->)].
      + destruct (C f i IH Hi) as (L & _). exact (lands_ok v c s dirs files f i g F L S).
      + rewrite includes_solver in Hi. destruct Hi. }
  intros f i X Hi E. destruct (R f X) as [Y|(r & ->)].
  - destruct (C f i Y Hi) as (_ & G). rewrite E in G. eapply fine_ok; eauto.
  - rewrite includes_solver in Hi. destruct Hi.
Qed.

(** ** The headers of the solvers *)

Definition header_paths (c : bcfg) (q : path) : list path :=
  match b_if c with
  | IOSQP => [sd ++ ["inc"; "public"; "osqp.h"]; sd ++ ["workspace.h"]; sd ++ q ++ ["qdldl.h"]]
  | ISCS => [sd ++ ["include"; "scs.h"]]
  | IECOS => [sd ++ ["include"; "ecos.h"]]
  | ICLARABEL => [sd ++ ["include"; "Clarabel"]]
  | IQOCO => [sd ++ ["include"; "qoco.h"]]
  | IQOCOGEN => [sd ++ ["qoco_custom.h"]]
  | IPDAQP => [sd ++ ["include"; "pdaqp.h"]]
  end.

Lemma solver_present : forall v c s r x, final_ok v c s -> source v c r = Some x -> has_file s (sd ++ r) = true.
Proof.
  intros v c s r x F H. unfold has_file. rewrite (f_in _ _ _ F). unfold solver_file, edited. rewrite H.
  now destruct (path_eqb r ["CMakeLists.txt"] && (b_expl c =? 0)%nat).
Qed.
Lemma known_present : forall v c s q, final_ok v c s -> complete v c -> has_header v (b_if c) ->
  (b_if c = IOSQP -> has_qdldl v q) -> forall p, In p (header_paths c q) -> has_file s p = true.
Proof.
  intros v c s q F (C & _) H Q p X. unfold header_paths, complete_solver, has_header in *.
  destruct (b_if c) eqn:I; cbn [In] in X.
  - destruct (Q eq_refl) as (Q1 & Q2). destruct C as (_ & C1 & _). destruct X as [<-|[<-|[<-|[]]]].
    + apply (solver_present v c s _ (Vendor ["inc"; "public"; "osqp.h"]) F). unfold source. rewrite I. unfold from_osqp, from_gen. small.
      apply mem_path_In in H. now rewrite H.
    + apply (solver_present v c s _ (Vendor ["workspace.h"]) F). unfold source. rewrite I. unfold from_osqp, from_gen. small.
      apply mem_path_In in C1. now rewrite C1.
    + apply (solver_present v c s _ (Vendor (q ++ ["qdldl.h"])) F). unfold source. rewrite I. unfold from_osqp, from_gen.
      apply mem_path_In in Q2. destruct Q1 as [<-|[<-|[]]]; cbn [app] in *; small; now rewrite Q2.
  - destruct X as [<-|[]]. apply (solver_present v c s _ (Vendor ["include"; "scs.h"]) F). unfold source. rewrite I. apply mem_path_In in H.
    unfold from_repo. cbn [copied]. now rewrite H.
  - destruct X as [<-|[]]. apply (solver_present v c s _ (Vendor ["include"; "ecos.h"]) F). unfold source. rewrite I. apply mem_path_In in H.
    unfold from_repo. cbn [copied]. now rewrite H.
  - destruct X as [<-|[]]. apply (solver_present v c s _ (Vendor ["include"; "Clarabel"]) F). unfold source. rewrite I.
    destruct C as (_ & C). rewrite Forall_forall in C. assert (M : in_repo v "Clarabel.cpp" ["include"; "Clarabel"]) by (apply C; cbn; tauto).
    apply mem_path_In in M. unfold from_repo. cbn [copied]. now rewrite M.
  - destruct X as [<-|[]]. apply (solver_present v c s _ (Vendor ["include"; "qoco.h"]) F). unfold source. rewrite I. apply mem_path_In in H.
    unfold from_repo. cbn [copied]. now rewrite H.
  - destruct X as [<-|[]]. apply (solver_present v c s _ (Vendor ["qoco_custom.h"]) F). unfold source. rewrite I. apply mem_path_In in H.
    unfold from_gen. now rewrite H.
  - destruct X as [<-|[]]. apply (solver_present v c s _ (Vendor ["pdaqp.h"]) F). unfold source. rewrite I. reflexivity.
Qed.
Lemma known_present0 : forall v c s, final_ok v c s -> complete v c -> has_header v (b_if c) ->
  forall p, In p (match b_if c with IOSQP => [sd ++ ["inc"; "public"; "osqp.h"]; sd ++ ["workspace.h"]] | _ => header_paths c [] end) -> has_file s p = true.
Proof.
  intros v c s F C H p X. destruct (b_if c) eqn:I.
  2-7: apply (known_present v c s [] F C); [now rewrite I | rewrite I; discriminate | exact X].
  destruct C as (C & _). unfold complete_solver, has_header in *. rewrite I in *. destruct C as (_ & C1 & _). destruct X as [<-|[<-|[]]].
  + apply (solver_present v c s _ (Vendor ["inc"; "public"; "osqp.h"]) F). unfold source. rewrite I. unfold from_osqp, from_gen. small.
    apply mem_path_In in H. now rewrite H.
  + apply (solver_present v c s _ (Vendor ["workspace.h"]) F). unfold source. rewrite I. unfold from_osqp, from_gen. small.
    apply mem_path_In in C1. now rewrite C1.
Qed.

Definition is_qdldl (i : incl) : bool := match i with Quote n => path_eqb n ["qdldl.h"] | Angle _ => false end.
Definition c_files (c : bcfg) : list path := filter (fun p => match p with x :: _ => String.eqb x "c" | [] => false end) (map fst (expected c)).
Definition cpp_files (c : bcfg) : list path :=
  filter (fun p => match p with [x; y; _] => String.eqb x "cpp" || (String.eqb x "c" && String.eqb y "include") | _ => false end) (map fst (expected c)).
Lemma cfg_cases : forall c, cfg_ok c -> exists i g e t sp, c = mkCfg i g e t sp /\
  ((e = 0 /\ t = false /\ g = false) \/ (e = 0 /\ t = false /\ g = true /\ i = IOSQP) \/ (e = 0 /\ t = true /\ g = true)
   \/ (e <> 0 /\ t = false /\ i = IPDAQP)).
Proof.
  intros [i g e t sp] (H1 & H2 & H3). cbn [b_if b_grad b_expl b_two] in *. exists i, g, e, t, sp. split; [reflexivity|].
  destruct e as [|e].
  - destruct t; [right; right; left; auto|]. destruct g; [|left; auto]. right. left. repeat split; auto.
    destruct i; auto; exfalso; assert (X : false = true) by (apply H3; auto; discriminate); discriminate X.
  - right. right. right. destruct (H1 ltac:(discriminate)) as (-> & ->). auto.
Qed.
Lemma srcs_c : forall c, cfg_ok c -> List.incl (example_src c) (c_files c).
Proof.
  intros c H. destruct (cfg_cases c H) as (i & g & e & t & sp & -> & D). intros p X. apply mem_path_In.
  destruct D as [(-> & -> & ->)|[(-> & -> & -> & ->)|[(-> & -> & ->)|(E & -> & ->)]]]; [| | |destruct e as [|e]; [easy|destruct g]];
  cbn in X; repeat (destruct X as [<-|X]; [reflexivity|]); destruct X.
Qed.

Definition plain_known (c : bcfg) : list path :=
  match b_if c with IOSQP => [sd ++ ["inc"; "public"; "osqp.h"]; sd ++ ["workspace.h"]] | _ => header_paths c [] end.
Lemma closed_c : forall c, cfg_ok c -> closed c (plain_known c) (cmake_dirs c) (c_files c) (fun _ i => is_qdldl i) = true.
Proof.
  intros c H. destruct (cfg_cases c H) as (i & g & e & t & sp & -> & D).
  destruct D as [(-> & -> & ->)|[(-> & -> & -> & ->)|[(-> & -> & ->)|(E & -> & ->)]]]; [destruct i| |destruct i|destruct e as [|e]; [easy|destruct g]];
  vm_compute; reflexivity.
Qed.
Lemma closed_q : forall c q, cfg_ok c -> b_if c = IOSQP -> b_two c = false -> In q [["inc"; "public"]; ["inc"; "private"]] ->
  closed c (header_paths c q) (cmake_dirs c) (c_files c) (fun _ _ => false) = true.
Proof.
  intros c q H I T Q. destruct (cfg_cases c H) as (i & g & e & t & sp & -> & D). cbn in I, T. subst i t.
  destruct D as [(-> & _ & ->)|[(-> & _ & -> & _)|[(_ & X & _)|(E & _ & X)]]]; try discriminate X;
  destruct Q as [<-|[<-|[]]]; vm_compute; reflexivity.
Qed.
Lemma closed_cpp : forall c, cfg_ok c -> closed c (plain_known c) (setup_dirs c) (cpp_files c) (fun _ _ => false) = true.
Proof.
  intros c H. destruct (cfg_cases c H) as (i & g & e & t & sp & -> & D).
  destruct D as [(-> & -> & ->)|[(-> & -> & -> & ->)|[(-> & -> & ->)|(E & -> & ->)]]]; [destruct i| |destruct i|destruct e as [|e]; [easy|destruct g]];
  vm_compute; reflexivity.
Qed.

(** ** Lists of the build files *)

Lemma expected_at_keys : forall c p, some_file (expected_at c p) = true <-> In p (map fst (expected c)) \/ (b_if c = IECOS /\ p = ["COPYING"]).
Proof.
  intros c p. unfold expected_at. destruct (List.find _ (expected c)) as [[q w]|] eqn:E.
  - apply find_some in E. destruct E as (E & X). cbn [fst] in X. apply path_eqb_eq in X. subst q. cbn [some_file]. split; auto.
    intros _. left. apply in_map_iff. exists (p, w). auto.
  - assert (N : ~ In p (map fst (expected c))).
    { intro X. apply in_map_iff in X. destruct X as ((q & w) & Y & X). cbn in Y. subst q. apply (find_none _ _ E) in X. cbn [fst] in X.
      rewrite path_eqb_refl in X. discriminate. }
    destruct (b_if c); cbn [some_file]; try (split; [discriminate | intros [X|(X & _)]; [now exfalso | discriminate X]]).
    destruct (path_eqb p ["COPYING"]) eqn:Y; cbn [some_file].
    + apply path_eqb_eq in Y. tauto.
    + split; [discriminate|]. intros [X|(_ & ->)]; [now exfalso | discriminate Y].
Qed.
Lemma in_table : forall (q : path -> bool) l p, In p (filter q l) <-> In p l /\ q p = true.
Proof. intros. apply filter_In. Qed.
Definition inclpb (a b : list path) : bool := forallb (fun x => mem_path x b) a.
Lemma inclpb_ok : forall a b, inclpb a b = true -> List.incl a b.
Proof. intros a b H x X. unfold inclpb in H. rewrite forallb_forall in H. now apply mem_true, H. Qed.
Lemma same_list : forall c (l : list path) q, inclpb l (filter q (map fst (expected c))) = true -> inclpb (filter q (map fst (expected c))) l = true ->
  forall p, In p l <-> (In p (map fst (expected c)) /\ q p = true).
Proof. intros c l q A B p. apply inclpb_ok in A, B. rewrite <- in_table. split; auto. Qed.

Definition under (d : path) (p : path) : bool := path_eqb (parent p) d.
Lemma lists : forall c, cfg_ok c ->
  (forall p, In p (cmake_head c) <-> In p (map fst (expected c)) /\ under inc p = true)
  /\ (forall p, In p (example_src c) <-> In p (map fst (expected c)) /\ under src p = true)
  /\ (forall p, p = ["cpp"; "src"; "cpg_module.cpp"] <-> In p (map fst (expected c)) /\ under ["cpp"; "src"] p = true)
  /\ NoDup (cmake_head c) /\ NoDup (example_src c).
Proof.
  intros c H.
  assert (S : forall p, p = ["cpp"; "src"; "cpg_module.cpp"] <-> In p [["cpp"; "src"; "cpg_module.cpp"]]) by (intro p; cbn; intuition congruence).
  destruct (cfg_cases c H) as (i & g & e & t & sp & -> & D).
  destruct D as [(-> & -> & ->)|[(-> & -> & -> & ->)|[(-> & -> & ->)|(E & -> & ->)]]]; [| | |destruct e as [|e]; [easy|destruct g]];
  (split; [apply same_list; reflexivity|]; split; [apply same_list; reflexivity|]; split;
   [intro p; rewrite S; revert p; apply same_list; reflexivity|]; split; apply nodupb_ok; reflexivity).
Qed.

Lemma parent_outside : forall d p, parent p = d -> outside d = true -> p <> sd -> p <> od -> outside p = true.
Proof.
  intros d p E H N1 N2. unfold outside in *. 
  assert (X : forall a, p <> a -> strip a d = None -> strip a p = None).
  { intros a N S. destruct (strip a p) as [r|] eqn:Y; auto. apply strip_app in Y. exfalso. destruct r as [|x r].
    - rewrite app_nil_r in Y. auto.
    - assert (Z : d = a ++ removelast (x :: r)) by (rewrite <- E, Y; unfold parent; apply removelast_app; discriminate).
      exact (strip_None _ _ S _ Z). }
  destruct (strip sd d) eqn:S1; [discriminate|]. destruct (strip od d) eqn:S2; [discriminate|]. now rewrite (X sd), (X od).
Qed.
Lemma files_below : forall v c s p d, final_ok v c s -> outside d = true -> parent p = d -> d <> cd ->
  (has_file s p = true <-> In p (map fst (expected c)) \/ (b_if c = IECOS /\ p = ["COPYING"])).
Proof.
  intros v c s p d F O E N. rewrite (has_file_out v c s p F); [apply expected_at_keys|].
  apply (parent_outside d); auto; intros ->; apply N; rewrite <- E; reflexivity.
Qed.
Lemma listed : forall v c s, cfg_ok c -> final_ok v c s ->
  (forall p, In p (cmake_head c) <-> has_file s p = true /\ parent p = inc)
  /\ (forall p, In p (example_src c) <-> has_file s p = true /\ parent p = src)
  /\ (forall p, In p (setup_src s) <-> p = ["cpp"; "src"; "cpg_module.cpp"])
  /\ NoDup (cmake_head c) /\ NoDup (example_src c).
Proof.
  intros v c s H F. destruct (lists c H) as (A & B & C & N1 & N2).
  assert (G : forall d p, outside d = true -> d <> cd -> d <> [] ->
     (In p (map fst (expected c)) /\ under d p = true <-> has_file s p = true /\ parent p = d)).
  { intros d p O D1 D2. unfold under. split; intros (X & Y).
    - apply path_eqb_eq in Y. split; auto. apply (files_below v c s p d F O Y D1). auto.
    - split; [|apply path_eqb_eq; exact Y]. apply (files_below v c s p d F O Y D1) in X. destruct X as [X|(_ & ->)]; auto.
      exfalso. apply D2. now rewrite <- Y. }
  split; [|split; [|split; [|split]]]; auto.
  - intro p. rewrite A. apply G; [reflexivity|discriminate|discriminate].
  - intro p. rewrite B. apply G; [reflexivity|discriminate|discriminate].
  - intro p. rewrite C, (G ["cpp"; "src"] p eq_refl) by discriminate. unfold setup_src. rewrite filter_In, in_map_iff. split.
    + intros (X & Y). apply path_eqb_eq in Y. split; auto. destruct X as ((r & w) & Z & X). cbn in Z. subst r.
      unfold has_file. destruct (lookup p (t_files s)) eqn:L; auto. exfalso. revert X L. generalize (t_files s).
      intro l. induction l as [|[a b] l IH]; intros X L; [destruct X|]. cbn [lookup] in L. destruct X as [X|X].
      * injection X as -> ->. rewrite path_eqb_refl in L. discriminate.
      * destruct (path_eqb p a); [discriminate|auto].
    + intros (X & Y). split; [|apply path_eqb_eq; exact Y]. unfold has_file in X. destruct (lookup p (t_files s)) as [w|] eqn:L; [|discriminate].
      exists (p, w). split; auto. clear -L. induction (t_files s) as [|[a b] l IH]; [discriminate|]. cbn [lookup] in L.
      destruct (path_eqb p a) eqn:E; [apply path_eqb_eq in E; injection L as ->; subst; now left | right; auto].
Qed.

(** ** The header of QDLDL in two-stage programs *)

Lemma qdldl_search : forall v c s, cfg_ok c -> final_ok v c s ->
  search s (cmake_dirs c) compute_c (q "qdldl.h") = first_file s (tl (cmake_dirs c)) ["qdldl.h"].
Proof.
  intros v c s H F.
  assert (X : forall d, In d [inc; src] -> has_file s (walk d ["qdldl.h"]) = false).
  { intros d D. assert (O : outside (walk d ["qdldl.h"]) = true) by (destruct D as [<-|[<-|[]]]; reflexivity).
    rewrite (has_file_out v c s _ F O). destruct (some_file _) eqn:E; auto. exfalso. apply expected_at_keys in E.
    destruct E as [E|(_ & E)]; [|destruct D as [<-|[<-|[]]]; discriminate E]. revert E D. clear.
    unfold expected. rewrite !map_app, !in_app_iff. intros E D.
    destruct (b_grad c), (b_expl c =? 0)%nat, (b_two c); cbn [map fst In] in E; destruct D as [<-|[<-|[]]]; cbn in E;
      repeat match goal with X : _ \/ _ |- _ => destruct X as [X|X] end; try discriminate; contradiction. }
  unfold search, cmake_dirs. change (parent compute_c) with src. cbn [first_file q].
  rewrite (X src), (X inc) by (cbn; tauto). reflexivity.
Qed.
Lemma solver_dirs : forall c d, In d (tl (cmake_dirs c)) -> exists r, d = sd ++ r.
Proof.
  intros c d H. unfold cmake_dirs in H. cbn [tl] in H.
  destruct (b_if c); cbn [In] in H; repeat (destruct H as [<-|H]; [eexists; first [reflexivity | symmetry; apply app_nil_r]|]); destruct H.
Qed.
Lemma qdldl_found : forall v c s g, cfg_ok c -> final_ok v c s ->
  search s (cmake_dirs c) compute_c (q "qdldl.h") = Some g -> exists r, g = sd ++ r /\ last r "" = "qdldl.h" /\ source v c r <> None.
Proof.
  intros v c s g H F E. rewrite (qdldl_search v c s H F) in E. apply first_file_In in E. destruct E as (d & D & -> & X).
  destruct (solver_dirs c d D) as (r & ->). exists (r ++ ["qdldl.h"]).
  assert (W : walk (sd ++ r) ["qdldl.h"] = sd ++ r ++ ["qdldl.h"]) by (rewrite app_assoc; reflexivity).
  split; [exact W|]. split; [apply last_last|]. intro N. rewrite W in X. unfold has_file in X. rewrite (f_in _ _ _ F) in X.
  unfold solver_file in X. rewrite N in X. cbn [edited] in X.
  replace (path_eqb (r ++ ["qdldl.h"]) ["CMakeLists.txt"]) with false in X; [discriminate X|].
  symmetry. apply path_eqb_neq. intro Y. assert (Z : last (r ++ ["qdldl.h"]) "" = "CMakeLists.txt") by (rewrite Y; reflexivity).
  rewrite last_last in Z. discriminate Z.
Qed.
