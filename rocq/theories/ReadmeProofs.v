(** How the texts of Readme.v are read (used by PropReadme.v): words. *)
From Coq Require Import String Ascii List Arith Bool Lia.
From Verif Require Import Base Config Import Build Symbols CTypes Literals LiteralsProofs Text Readme ReadmeSpec.
Import ListNotations.
Open Scope string_scope.
Open Scope list_scope.

Lemma scan_app : forall a st b,
  scan st (a ++ b) = (fst (scan (fst (scan st a)) b), snd (scan st a) ++ snd (scan (fst (scan st a)) b)).
Proof.
  induction a as [|c a IH]; intros st b.
  - cbn. now destruct (scan st b).
  - cbn [append scan]. destruct (step st c) as (s1, o1). rewrite IH. destruct (scan s1 a) as (s2, o2). cbn [fst snd].
    destruct (scan s2 b) as (s3, o3). cbn. now rewrite app_assoc.
Qed.
(** The text leaves the state as it was between words, and consists of these words. *)
Definition reads_as (s : string) (ts : list string) : Prop := scan (Norm "") s = (Norm "", ts).
Lemma reads_app : forall a b ta tb, reads_as a ta -> reads_as b tb -> reads_as (a ++ b) (ta ++ tb).
Proof. unfold reads_as. intros a b ta tb A B. rewrite scan_app, A. cbn [fst snd]. now rewrite B. Qed.
Lemma reads_nil : reads_as "" [].
Proof. reflexivity. Qed.
Lemma reads_lines : forall {A} (f : A -> string) (g : A -> list string) l,
  Forall (fun a => reads_as (f a) (g a)) l -> reads_as (lines f l) (flat_map g l).
Proof. intros A f g l. induction 1; [reflexivity|]. cbn. now apply reads_app. Qed.
Lemma reads_if : forall (b : bool) s1 s2 t1 t2, (b = true -> reads_as s1 t1) -> (b = false -> reads_as s2 t2) ->
  reads_as (if b then s1 else s2) (if b then t1 else t2).
Proof. intros [|]; auto. Qed.
Lemma reads_tokens : forall s ts, reads_as s ts -> tokens s = ts.
Proof. intros s ts H. unfold tokens. rewrite H. cbn. apply app_nil_r. Qed.

(** Words and what ends them. *)
Lemma scan_word : forall s w, wordy s = true -> scan (Norm w) s = (Norm (w ++ s), []).
Proof.
  induction s as [|c s IH]; intros w H; cbn [scan].
  - now rewrite append_nil.
  - cbn [wordy] in H. apply andb_prop in H as (C & H). unfold step, step_norm. rewrite C, IH by assumption.
    rewrite append_assoc. reflexivity.
Qed.
Definition ender (c : ascii) : bool := negb (wordc c) && negb (Ascii.eqb c "/").
Lemma scan_end : forall c r w, ender c = true -> w <> "" ->
  scan (Norm w) (String c r) = (fst (scan (Norm "") (String c r)), w :: snd (scan (Norm "") (String c r))).
Proof.
  intros c r w E W. unfold ender in E. apply andb_prop in E as (E1 & E2). apply negb_true_iff in E1, E2.
  cbn [scan]. unfold step, step_norm. rewrite E1, E2. destruct w as [|x w]; [congruence|].
  destruct (blank c); cbn [flush]; destruct (scan (Norm "") r) as (st, o); reflexivity.
Qed.
Lemma word_then : forall w s ts, word w -> reads_as s ts -> (exists c r, s = String c r /\ ender c = true) -> reads_as (w ++ s) (w :: ts).
Proof.
  intros w s ts (N & W) H (c & r & -> & E). unfold reads_as. rewrite scan_app, scan_word by assumption. cbn [append fst snd app].
  rewrite scan_end by assumption. rewrite H. reflexivity.
Qed.
Lemma word_app : forall a b, wordy a = true -> word b -> word (a ++ b).
Proof.
  intros a b A (N & B). split.
  - destruct a; [assumption|discriminate].
  - induction a as [|c a IH]; [assumption|]. cbn in A |- *. apply andb_prop in A as (-> & A). cbn. auto.
Qed.
Lemma word_app_l : forall a b, word a -> wordy b = true -> word (a ++ b).
Proof.
  intros a b (N & A) B. split.
  - destruct a; [congruence|discriminate].
  - clear N. induction a as [|c a IH]; [assumption|]. cbn in A |- *. apply andb_prop in A as (-> & A). cbn. auto.
Qed.

(** Blanks, and comments. *)
Lemma reads_spaces : forall n, reads_as (spaces n) [].
Proof. induction n as [|n IH]; [reflexivity|]. unfold reads_as in *. cbn [spaces scan]. change (step (Norm "") " ") with (Norm "", @nil string). cbv beta iota. now rewrite IH. Qed.
Definition no_nl (c : ascii) : bool := negb (nat_of_ascii c =? 10)%nat.
Lemma word_no_nl : forall s, wordy s = true -> allc no_nl s = true.
Proof.
  intros s. induction s as [|c s IH]; [reflexivity|]. cbn [wordy allc]. intro H. apply andb_prop in H as (C & H). rewrite IH by assumption.
  rewrite andb_true_r. unfold no_nl. destruct (nat_of_ascii c =? 10)%nat eqn:E; [|reflexivity].
  apply Nat.eqb_eq in E. unfold wordc in C. rewrite E in C. discriminate.
Qed.
Lemma scan_comment : forall s, allc no_nl s = true -> scan Cmt s = (Cmt, []).
Proof.
  induction s as [|c s IH]; [reflexivity|]. cbn [allc scan]. intro H. apply andb_prop in H as (C & H).
  unfold no_nl in C. apply negb_true_iff in C. unfold step. rewrite C, IH by assumption. reflexivity.
Qed.
Lemma reads_comment : forall s, allc no_nl s = true -> reads_as ("//" ++ s ++ nl) [].
Proof.
  intros s H. unfold reads_as. rewrite scan_app. change (scan (Norm "") "//") with (Cmt, @nil string). cbn [fst snd app].
  rewrite scan_app, scan_comment by assumption. reflexivity.
Qed.

(** Trimming does not change the words. *)
Definition all_space (s : string) : Prop := allc space s = true.
Lemma lstrip_ok : forall s, exists w, s = (w ++ lstrip s)%string /\ all_space w.
Proof.
  induction s as [|c s IH]; [exists ""; now split|]. cbn [lstrip]. destruct (space c) eqn:E.
  - destruct IH as (w & A & B). exists (String c w). split; [cbn; congruence|]. unfold all_space. cbn. now rewrite E.
  - exists "". now split.
Qed.
Lemma rstrip_ok : forall s, exists w, s = (rstrip s ++ w)%string /\ all_space w.
Proof.
  induction s as [|c s IH]; [exists ""; now split|]. destruct IH as (w & A & B). cbn [rstrip].
  destruct (rstrip s) as [|d r] eqn:R.
  - destruct (space c) eqn:E.
    + exists (String c w). split; [cbn in *; congruence|]. unfold all_space. cbn. now rewrite E.
    + exists w. split; [cbn in *; congruence|assumption].
  - exists w. split; [cbn in *; congruence|assumption].
Qed.
Lemma space_blank : forall c, space c = true -> wordc c = false /\ blank c = true /\ Ascii.eqb c "/" = false.
Proof. intros c H. unfold space in H. destruct c as [[] [] [] [] [] [] [] []]; vm_compute in H |- *; try discriminate; auto. Qed.
Lemma scan_spaces_norm : forall w v, all_space w -> snd (scan (Norm v) w) ++ finish (fst (scan (Norm v) w)) = flush v.
Proof.
  induction w as [|c w IH]; intros v H; [reflexivity|]. unfold all_space in H. cbn [allc] in H. apply andb_prop in H as (C & H).
  destruct (space_blank c C) as (A & B & _). cbn [scan]. unfold step, step_norm. rewrite A, B.
  specialize (IH "" H). destruct (scan (Norm "") w) as (st, o). cbn [fst snd] in *. rewrite <- app_assoc, IH. apply app_nil_r.
Qed.
Lemma scan_spaces : forall w st, all_space w -> snd (scan st w) ++ finish (fst (scan st w)) = finish st.
Proof.
  intros w [v|v|] H.
  - now apply scan_spaces_norm.
  - destruct w as [|c w]; [reflexivity|]. unfold all_space in H. cbn [allc] in H. apply andb_prop in H as (C & H).
    destruct (space_blank c C) as (A & B & D). cbn [scan]. unfold step, step_norm. rewrite A, B, D.
    pose proof (scan_spaces_norm w "" H) as E. destruct (scan (Norm "") w) as (st, o). cbn [fst snd] in *.
    rewrite <- app_assoc, E. cbn. now rewrite app_nil_r.
  - revert H. induction w as [|c w IH]; [reflexivity|]. unfold all_space. cbn [allc]. intro H. apply andb_prop in H as (C & H).
    cbn [scan]. unfold step. destruct (nat_of_ascii c =? 10)%nat.
    + pose proof (scan_spaces_norm w "" H) as E. destruct (scan (Norm "") w) as (st, o). exact E.
    + specialize (IH H). destruct (scan Cmt w) as (st, o). exact IH.
Qed.
Lemma scan_lead : forall w, all_space w -> scan (Norm "") w = (Norm "", []).
Proof.
  induction w as [|c w IH]; [reflexivity|]. unfold all_space. cbn [allc]. intro H. apply andb_prop in H as (C & H).
  destruct (space_blank c C) as (A & B & _). cbn [scan]. unfold step, step_norm. rewrite A, B, IH by assumption. reflexivity.
Qed.
Lemma tokens_trim : forall s, tokens (trim s) = tokens s.
Proof.
  intro s. unfold trim. destruct (lstrip_ok s) as (a & A & HA). destruct (rstrip_ok (lstrip s)) as (b & B & HB).
  rewrite A at 2. rewrite B at 2. unfold tokens. rewrite (scan_app a), (scan_lead a HA). cbn [fst snd app].
  rewrite scan_app. destruct (scan (Norm "") (rstrip (lstrip s))) as (st, o). cbn [fst snd].
  rewrite <- app_assoc, scan_spaces by assumption. destruct (scan st b). reflexivity.
Qed.
