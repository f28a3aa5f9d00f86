(** The edits of the single files. *)
From Coq Require Import String Ascii List Arith NArith Bool Lia.
From Verif Require Import Base Literals LiteralsProofs Text TextSpec TextProofs.
Import ListNotations.
Open Scope string_scope.
Open Scope list_scope.

Local Notation "a +s b" := (String.append a b) (at level 60, right associativity).

Ltac chk := vm_compute; reflexivity.
Ltac ne := discriminate.

(** ** SCS: words *)
Lemma split_words s : exists w ws, no_space w /\ Forall no_space ws /\ s = join " " (w :: ws).
Proof.
  induction s as [|c s (w & ws & W & WS & E)].
  - exists "", []. cbn. auto.
  - destruct (ascii_dec c " "%char) as [->|N].
    + exists "", (w :: ws). repeat split; auto. rewrite join_cons by discriminate. cbn [append]. now rewrite E.
    + exists (String c w), ws. repeat split; cbn; auto. rewrite E. destruct ws; reflexivity.
Qed.
Lemma no_space_app a b : no_space (a +s b) <-> no_space a /\ no_space b.
Proof. induction a; cbn; tauto. Qed.

Section Word.
Variables k n : string.
Hypothesis K : no_space k.

Definition word_step (w : string) : string := if starts k w then n +s substring (String.length k) (String.length w - String.length k) w else w.

Lemma substring_drop a b : substring (String.length a) (String.length (a +s b) - String.length a) (a +s b) = b.
Proof.
  induction a; cbn [append String.length substring].
  - rewrite Nat.sub_0_r. induction b; cbn; congruence.
  - exact IHa.
Qed.

(** No match begins inside a word. *)
Lemma rep_word w s : no_space w -> replace (" " +s k) (" " +s n) (w +s s) = w +s replace (" " +s k) (" " +s n) s.
Proof.
  induction w as [|c w IH]; intros H; [reflexivity|]. destruct H as [C H].
  cbn [append]. rewrite rep_char.
  - f_equal. now apply IH.
  - cbn [append starts]. destruct (Ascii.eqb " "%char c) eqn:E; [|reflexivity].
    apply Ascii.eqb_eq in E. congruence.
Qed.
Lemma rep_space s : replace (" " +s k) (" " +s n) (" " +s s)
  = if starts k s then " " +s n +s replace (" " +s k) (" " +s n) (substring (String.length k) (String.length s - String.length k) s)
    else " " +s replace (" " +s k) (" " +s n) s.
Proof.
  destruct (starts k s) eqn:E.
  - apply starts_ok in E as [r ->]. rewrite substring_drop.
    rewrite <- append_assoc, rep_match by discriminate. now rewrite append_assoc.
  - cbn [append]. rewrite rep_char; [reflexivity|]. cbn [append starts]. now rewrite Ascii.eqb_refl, E.
Qed.
(** Only the start of the next word decides. *)
Lemma starts_word w t : no_space w -> (t = "" \/ exists t', t = " " +s t') -> starts k (w +s t) = starts k w.
Proof.
  revert K w; induction k as [|a p IH]; intros K' w W T; [reflexivity|].
  destruct K' as [A K']. destruct w as [|b w]; cbn.
  - destruct T as [->|[t' ->]]; [reflexivity|]. cbn. destruct (Ascii.eqb a " ") eqn:E; auto.
    apply Ascii.eqb_eq in E. congruence.
  - destruct W as [B W]. now rewrite IH.
Qed.
Lemma rep_words w ws : no_space w -> Forall no_space ws ->
  replace (" " +s k) (" " +s n) (join " " (w :: ws)) = join " " (w :: map word_step ws).
Proof.
  intros W WS. revert w W. induction WS as [|v vs V VS IH]; intros w W.
  - cbn [join map]. rewrite <- (app_nil_s w) at 1. rewrite rep_word by exact W. apply app_nil_s.
  - cbn [map]. rewrite (join_cons _ w (v :: vs)), (join_cons _ w (word_step v :: _)) by discriminate.
    rewrite rep_word by exact W. f_equal.
    rewrite rep_space.
    assert (T : exists t, join " " (v :: vs) = v +s t /\ (t = "" \/ exists t', t = " " +s t')
       /\ forall u, join " " (u :: map word_step vs) = u +s (replace (" " +s k) (" " +s n) t)).
    { destruct vs as [|v' vs'].
      - exists "". split; [|split]; auto; intros; cbn; now rewrite app_nil_s.
      - exists (" " +s join " " (v' :: vs')). split; [reflexivity | split; [eauto|]].
        intros u. rewrite <- (append_nil u) at 1.
        pose proof (IH "" I) as H. cbn [map] in *. rewrite !join_cons in H |- * by discriminate.
        change ("" +s " " +s join " " (v' :: vs')) with (" " +s join " " (v' :: vs')) in H.
        rewrite H. cbn [append]. now rewrite append_nil. }
    destruct T as (t & E & T & R). rewrite E. rewrite starts_word by assumption. rewrite R.
    unfold word_step. destruct (starts k v) eqn:SV.
    + apply starts_ok in SV as [v' ->]. rewrite append_assoc, !substring_drop.
      rewrite append_assoc. rewrite rep_word; [reflexivity|]. now apply no_space_app in V as [_ V].
    + rewrite rep_word by exact V. reflexivity.
Qed.
Lemma word_step_no_space w : no_space n -> no_space w -> no_space (word_step w).
Proof.
  intros N W. unfold word_step. destruct (starts k w) eqn:E; auto.
  apply starts_ok in E as [r ->]. rewrite substring_drop. apply no_space_app in W as [_ W].
  now apply no_space_app.
Qed.
End Word.

(** A word of SCS's CMakeLists.txt. *)
Definition scs_word (w : string) : string :=
  if starts "include/" w || starts "src/" w || starts "${LINSYS}/" w then csd +s w else w.
Lemma word_step_pre k w : word_step k (csd +s k) w = if starts k w then csd +s w else w.
Proof.
  unfold word_step. destruct (starts k w) eqn:E; auto. apply starts_ok in E as [r ->].
  now rewrite substring_drop, append_assoc.
Qed.
Ltac nsp := cbn; repeat split; discriminate.
Lemma starts_head p w c d : starts (String c p) w = true -> c <> d -> forall q, starts (String d q) w = false.
Proof.
  intros H N q. destruct w as [|a w]; [discriminate|]. cbn in *. apply andb_prop in H as [H _].
  apply Ascii.eqb_eq in H as <-. destruct (Ascii.eqb d c) eqn:E; auto. apply Ascii.eqb_eq in E. congruence.
Qed.
Lemma scs_words w ws : no_space w -> Forall no_space ws ->
  scs_cmake (join " " (w :: ws)) = join " " (w :: map scs_word ws).
Proof.
  intros W WS. unfold scs_cmake, multiple_replace. cbn [fold_left fst snd].
  change " include/" with (" " +s "include/"). change " src/" with (" " +s "src/").
  change " ${LINSYS}/" with (" " +s "${LINSYS}/").
  assert (F : forall k l, no_space k -> Forall no_space l -> Forall no_space (map (word_step k (csd +s k)) l)).
  { intros k l K; induction 1; cbn; constructor; auto. apply word_step_no_space; auto.
    apply (proj2 (no_space_app csd k)); split; auto. nsp. }
  assert (K1 : no_space "include/") by nsp. assert (K2 : no_space "src/") by nsp.
  assert (K3 : no_space "${LINSYS}/") by nsp.
  pose proof (F _ _ K1 WS) as F1. pose proof (F _ _ K2 F1) as F2.
  rewrite (rep_words "include/" _ K1 _ _ W WS), (rep_words "src/" _ K2 _ _ W F1), (rep_words "${LINSYS}/" _ K3 _ _ W F2).
  do 2 f_equal. rewrite !map_map. apply map_ext. intros v. rewrite !word_step_pre. unfold scs_word.
  destruct (starts "include/" v) eqn:E1; [reflexivity|].
  destruct (starts "src/" v) eqn:E2; [reflexivity|]. now destruct (starts "${LINSYS}/" v).
Qed.

(** ** OSQP: CMakeLists.txt *)
Definition to_src : string -> string := replace "src" (csd +s "src").
Definition from_src : string -> string := replace (csd +s "src") "src".
Lemma occurs_suffix a x s : occurs (a +s x) s -> occurs x s.
Proof. apply occurs_trans. exists a, "". now rewrite app_nil_s. Qed.
Lemma from_to s : from_src (to_src s) = s.
Proof.
  unfold from_src, to_src. destruct (pieces_ex "src" s ltac:(ne)) as [ps P].
  rewrite (pieces_rep "src" _ s ps ltac:(ne) P). rewrite rep_join_self by chk.
  rewrite map_clean; [symmetry; eapply pieces_join; eauto|].
  eapply Forall_impl; [|refine (pieces_clean _ s ps _ P); ne]. intros p N O. apply N. eapply occurs_suffix; eauto.
Qed.
Lemma two_stage_pieces s ps : pieces "src/*.c" s ps ->
  two_stage_cmake (to_src s) = join (csd +s "src/qdldl*.c" +s nl) (map to_src ps).
Proof.
  intros P. rewrite (pieces_join _ _ _ P). unfold two_stage_cmake.
  assert (E : forall l, to_src (join "src/*.c" l) = join (csd +s "src/*.c") (map to_src l)).
  { induction l as [|p l IH]; [reflexivity|]. destruct l as [|q l]; [reflexivity|]. unfold to_src in *.
    cbn [map]. rewrite !join_cons by discriminate.
    change ("src/*.c" +s join "src/*.c" (q :: l)) with ("src" +s "/*.c" +s join "src/*.c" (q :: l)).
    rewrite rep_self by chk. f_equal.
    pose proof (rep_sep "src" (csd +s "src") "/*.c" "" (join "src/*.c" (q :: l)) ltac:(chk) ltac:(ne)) as H.
    cbn [append] in H |- *. rewrite H. cbn [append]. cbn [map] in IH. rewrite IH. reflexivity. }
  rewrite E, rep_join_self by chk. f_equal. rewrite map_map. apply map_ext_in. intros p I.
  apply rep_none. intros (a & b & O).
  assert (C : ~ occurs "src/*.c" p) by exact (proj1 (Forall_forall _ _) (pieces_clean "src/*.c" s ps ltac:(ne) P) p I).
  apply C. rewrite <- (from_to p). rewrite O. unfold from_src.
  change ((csd +s "src/*.c") +s b) with ((csd +s "src") +s "/*.c" +s b).
  rewrite rep_self by chk.
  pose proof (rep_sep (csd +s "src") "src" "/*.c" "" b ltac:(chk) ltac:(ne)) as H. cbn [append] in H.
  cbn [append]. rewrite H. eexists (replace (csd +s "src") "src" a), _. cbn [append]. reflexivity.
Qed.

(** ** Clarabel: rust_wrapper/CMakeLists.txt *)
Definition w_source : string -> string := replace source_dir (source_dir +s "solver_code/").
Definition w_lib : string -> string := replace "/libclarabel_c.lib" "/clarabel_c.lib".
Definition w_cargo : string -> string := replace cargo_line (cargo_line +s arm_flags).
Definition w_text (t : string) : string := w_cargo (w_lib (w_source t)).

Lemma unsource s : replace (source_dir +s "solver_code/") source_dir (w_source s) = s.
Proof.
  unfold w_source. destruct (pieces_ex source_dir s ltac:(ne)) as [ps P].
  rewrite (pieces_rep source_dir _ s ps ltac:(ne) P). rewrite rep_join_self by chk.
  rewrite map_clean; [symmetry; eapply pieces_join; eauto|].
  eapply Forall_impl; [|refine (pieces_clean _ s ps _ P); ne]. intros p N O. apply N.
  eapply occurs_trans; [|exact O]. exists "", "solver_code/". reflexivity.
Qed.
Lemma wrapper_pieces s ps : pieces (out_dir "" "release") s ps ->
  clarabel_wrapper s = join arm_dirs (map w_text ps).
Proof.
  intros P. rewrite (pieces_join _ _ _ P). unfold clarabel_wrapper, multiple_replace. cbn [fold_left fst snd].
  pose (A := "set(clarabel_c_output_directory """). pose (B := "rust_wrapper/target/release"")").
  assert (EA : out_dir "" "release" = A +s source_dir +s B) by reflexivity.
  assert (EB : out_dir "solver_code/" "release" = A +s (source_dir +s "solver_code/") +s B) by reflexivity.
  assert (E1 : forall l, w_source (join (out_dir "" "release") l) = join (out_dir "solver_code/" "release") (map w_source l)).
  { induction l as [|p l IH]; [reflexivity|]. destruct l as [|q l]; [reflexivity|]. unfold w_source in *.
    cbn [map]. rewrite !join_cons by discriminate. rewrite EA at 1. rewrite !append_assoc.
    rewrite <- (append_assoc p A). rewrite rep_self by chk.
    pose proof (rep_sep source_dir (source_dir +s "solver_code/") A p "" ltac:(chk) ltac:(ne)) as H1.
    rewrite rep_nil, !app_nil_s in H1. rewrite H1.
    pose proof (rep_sep source_dir (source_dir +s "solver_code/") B "" (join (out_dir "" "release") (q :: l)) ltac:(chk) ltac:(ne)) as H2.
    rewrite rep_nil in H2. cbn [append] in H2 |- *. rewrite H2. cbn [map] in IH. rewrite IH, EB.
    now rewrite !append_assoc. }
  change (replace source_dir (source_dir +s "solver_code/")) with w_source. rewrite E1.
  rewrite rep_join by (chk || ne). rewrite rep_join_self by chk.
  rewrite rep_join by (chk || ne). f_equal. rewrite !map_map. apply map_ext_in. intros p I.
  unfold w_text. fold w_lib. change (replace cargo_line (cargo_line +s arm_flags)) with w_cargo. f_equal.
  change (replace "/libclarabel_c.lib" "/clarabel_c.lib" (w_source p)) with (w_lib (w_source p)).
  apply rep_none. intros O.
  assert (C : ~ occurs (out_dir "" "release") p) by exact (proj1 (Forall_forall _ _) (pieces_clean (out_dir "" "release") s ps ltac:(ne) P) p I).
  apply C. unfold w_lib in O.
  destruct (pieces_ex "/libclarabel_c.lib" (w_source p) ltac:(ne)) as [us Q].
  rewrite (pieces_rep "/libclarabel_c.lib" _ _ us ltac:(ne) Q) in O. apply occurs_join in O as (u & Iu & O); [|chk|ne].
  assert (O2 : occurs (out_dir "solver_code/" "release") (w_source p)).
  { rewrite (pieces_join _ _ _ Q). clear - Iu O.
    induction us as [|v us IH]; [destruct Iu|]. destruct us as [|w us].
    - destruct Iu as [->|[]]. exact O.
    - rewrite join_cons by discriminate. destruct Iu as [->|I]; [now apply occurs_r|]. now apply occurs_l, occurs_l, IH. }
  destruct O2 as (a & b & O2). rewrite <- (unsource p), O2, EB, EA. rewrite !append_assoc.
  rewrite <- (append_assoc a A). rewrite <- (append_assoc source_dir). rewrite rep_self by chk.
  pose proof (rep_sep (source_dir +s "solver_code/") source_dir A a "" ltac:(chk) ltac:(ne)) as H1.
  rewrite rep_nil, !app_nil_s in H1. rewrite H1.
  pose proof (rep_sep (source_dir +s "solver_code/") source_dir B "" b ltac:(chk) ltac:(ne)) as H2.
  rewrite rep_nil in H2. change ("" +s B +s b) with (B +s b) in H2. rewrite H2.
  exists (replace (source_dir +s "solver_code/") source_dir a), (replace (source_dir +s "solver_code/") source_dir b).
  now rewrite !append_assoc.
Qed.

(** ** Counting inserted lines *)
Lemma compat_first a b x y : Ascii.eqb a b = false -> compat (String a x) (String b y) = false.
Proof. intros H. unfold compat. cbn. rewrite H. rewrite Ascii.eqb_sym, H. reflexivity. Qed.
Lemma sufs_allc p s v : allc p s = true -> In v (sufs s) -> exists c t, v = String c t /\ p c = true.
Proof.
  induction s as [|c s IH]; cbn; [tauto|]. intros H [<-|I].
  - exists c, s. split; auto. now apply andb_prop in H as [H _].
  - apply IH; auto. now apply andb_prop in H as [_ H].
Qed.
Definition nodigit (c : ascii) : bool := negb (is_digit c).
Lemma sep_num x n : allc nodigit x = true -> x <> "" -> sep x (num n) = true.
Proof.
  intros A X. unfold num. destruct (dec_first (N.of_nat n)) as (d & t & E & D).
  assert (G : forall a b, nodigit a = true -> is_digit b = true -> Ascii.eqb a b = false).
  { intros a b Ha Hb. destruct (Ascii.eqb a b) eqn:Q; auto. apply Ascii.eqb_eq in Q as ->.
    unfold nodigit in Ha. rewrite Hb in Ha. discriminate. }
  unfold sep. apply andb_true_intro. split; apply forallb_forall; intros v I; apply negb_true_iff.
  - destruct (sufs_allc _ _ _ (dec_allc (N.of_nat n)) I) as (b & w & -> & B).
    destruct x as [|a x]; [congruence|]. apply compat_first. apply G; auto.
    cbn in A. now apply andb_prop in A as [A _].
  - assert (A' : allc nodigit (tl_s x) = true).
    { destruct x; [reflexivity|]. cbn in A |- *. now apply andb_prop in A as [_ A]. }
    destruct (sufs_allc _ _ _ A' I) as (a & w & -> & B). rewrite E. apply compat_first. now apply G.
Qed.
Lemma count_pre x u r : sep x u = true -> x <> "" -> count x (u +s r) = count x r.
Proof.
  intros S X. pose proof (count_sep x u "" r S X) as H. cbn [append] in H. rewrite H.
  destruct x; [congruence | reflexivity].
Qed.
Lemma count_rep1 x n y s k : unbordered x = true -> y <> "" -> sep y x = true ->
  (forall p r, count y (p +s n +s r) = count y p + k + count y r) ->
  count y (replace x n s) = count y s + k * count x s.
Proof.
  intros U Y S K. pose proof (unb_ne _ U) as X. destruct (pieces_ex x s X) as [ps P].
  rewrite (count_rep x n y s k X Y S K ps P). now rewrite (pieces_count x s ps U P).
Qed.
Lemma count_post x u p : sep x u = true -> x <> "" -> count x (p +s u) = count x p.
Proof.
  intros S X. pose proof (count_sep x u p "" S X) as H. rewrite app_nil_s in H. rewrite H.
  destruct x; [congruence | cbn; lia].
Qed.
Definition decl_x : string := "extern OSQPFloat sol_x[".
Definition decl_y : string := "extern OSQPFloat sol_y[".
Lemma decls_x n m p r : count decl_x (p +s (osqp_anchor +s osqp_decls n m) +s r) = count decl_x p + 1 + count decl_x r.
Proof.
  assert (E : p +s (osqp_anchor +s osqp_decls n m) +s r
    = (p +s osqp_anchor +s nl +s "  ") +s decl_x +s num n +s ("];" +s nl +s "  " +s decl_y) +s num m +s "];" +s r).
  { unfold osqp_decls. rewrite !append_assoc. reflexivity. }
  rewrite E, count_unb by chk. rewrite count_post by (chk || ne).
  rewrite !count_pre by (chk || ne || (apply sep_num; (chk || ne))). reflexivity.
Qed.
Lemma decls_y n m p r : count decl_y (p +s (osqp_anchor +s osqp_decls n m) +s r) = count decl_y p + 1 + count decl_y r.
Proof.
  assert (E : p +s (osqp_anchor +s osqp_decls n m) +s r
    = (((p +s osqp_anchor +s nl +s "  " +s decl_x) +s num n) +s "];" +s nl +s "  ") +s decl_y +s num m +s "];" +s r).
  { unfold osqp_decls. rewrite !append_assoc. reflexivity. }
  rewrite E, count_unb by chk.
  rewrite !count_post by (chk || ne || (apply sep_num; (chk || ne))).
  rewrite !count_pre by (chk || ne || (apply sep_num; (chk || ne))). reflexivity.
Qed.

(** ** Edits made twice *)
Lemma rep_len x n s : x <> "" -> String.length x <= String.length n ->
  String.length s <= String.length (replace x n s) /\ (String.length x < String.length n -> occurs x s -> String.length s < String.length (replace x n s)).
Proof.
  intros X L. destruct (pieces_ex x s X) as [ps P]. rewrite (pieces_rep x n s ps X P).
  induction P as [s N|p r ps F P IH].
  - cbn. split; [lia | tauto].
  - rewrite join_cons by (eapply pieces_nonnil; eauto). rewrite !len_app. split; [lia|]. intros; lia.
Qed.
Lemma join_occurs u ps p q : In u ps -> occurs p u -> occurs p (join q ps).
Proof.
  intros I O. induction ps as [|v us IH]; [destruct I|]. destruct us as [|w us].
  - destruct I as [->|[]]. exact O.
  - rewrite join_cons by discriminate. destruct I as [->|I]; [now apply occurs_r|]. now apply occurs_l, occurs_l, IH.
Qed.
Lemma rep_twice x n s : x <> "" -> String.length x < String.length n -> occurs x n ->
  (replace x n (replace x n s) = replace x n s <-> ~ occurs x s).
Proof.
  intros X L O. split.
  - intros E I. assert (J : occurs x (replace x n s)).
    { destruct (first_ex x s I) as (p & r & -> & F). rewrite rep_first by assumption.
      now apply occurs_l, occurs_r. }
    pose proof (proj2 (rep_len x n (replace x n s) X ltac:(lia)) L J) as G. rewrite E in G. lia.
  - intros N. rewrite !(rep_none x n s N). reflexivity.
Qed.
Lemma cut_none s e : ~ occurs e s -> cut_from_expr s e = s.
Proof. intros N. destruct (cut_before s e) as [[[b B] _]|[_ E]]; auto. exfalso; apply N. eexists _, b. exact B. Qed.
Lemma before_unique e a s : before e a s -> cut_from_expr s e = a.
Proof.
  intros B. destruct (cut_before s e) as [F|[N E]], B as [F'|[N' E']].
  - destruct F as [[b B] F], F' as [[b' B'] F']. destruct (first_unique e (cut_from_expr s e) a b b' s B B') as [E _]; [split; eauto | split; eauto | exact E].
  - destruct F as [[b B] _]. exfalso; apply N'. eexists _, b. exact B.
  - destruct F' as [[b B] _]. exfalso; apply N. eexists _, b. exact B.
  - congruence.
Qed.
Lemma before_clean e a s : e <> "" -> before e a s -> ~ occurs e a.
Proof.
  intros E [F|[N ->]]; auto. destruct F as [[b B] F]. subst s. apply (first_prefix e a b E). split; eauto.
Qed.
Lemma osqp_cmake_to t t0 : before "add_library" t0 t -> osqp_cmake t = to_src t0.
Proof. intros B. unfold osqp_cmake, to_src. now rewrite (before_unique _ _ _ B). Qed.
Lemma osqp_cmake_again t t0 : before "add_library" t0 t -> osqp_cmake (osqp_cmake t) = to_src (to_src t0).
Proof.
  intros B. rewrite (osqp_cmake_to t t0 B). apply osqp_cmake_to. right. split; auto.
  intros O. unfold to_src in O. destruct (pieces_ex "src" t0 ltac:(ne)) as [ps P].
  rewrite (pieces_rep "src" _ t0 ps ltac:(ne) P) in O. apply occurs_join in O as (u & I & O); [|chk|ne].
  apply (before_clean "add_library" _ _ ltac:(discriminate) B).
  rewrite (pieces_join _ _ _ P). eapply join_occurs; eauto.
Qed.
Lemma scs_idem t : scs_cmake (scs_cmake t) = scs_cmake t.
Proof.
  destruct (split_words t) as (w & ws & W & WS & ->). rewrite !scs_words; auto.
  - do 2 f_equal. rewrite map_map. apply map_ext. intros v. unfold scs_word.
    destruct (starts "include/" v || starts "src/" v || starts "${LINSYS}/" v) eqn:E; [reflexivity | now rewrite E].
  - clear - WS. induction WS; cbn; constructor; auto. unfold scs_word.
    destruct (_ || _); auto. apply (proj2 (no_space_app csd x)). split; auto. nsp.
Qed.
