(** How the texts of Readme.v are read (used by PropReadme.v): function declarations. *)
From Coq Require Import String Ascii List Arith Bool Lia.
From Verif Require Import Base Config Import Build Symbols CTypes Literals LiteralsProofs Text Readme ReadmeSpec ReadmeProofs ReadmeProofs2.
Import ListNotations.
Open Scope string_scope.
Open Scope list_scope.

(** ** Sentences *)
Definition decl_ok (p : list string * signature) : Prop := ~ In ";" (fst p) /\ declaration (fst p) = Some (snd p).
Definition said (p : list string * signature) : list string := fst p ++ [";"].
Lemma sentences_step : forall s cur r, ~ In ";" s -> sentences cur (s ++ ";" :: r) = let '(l, e) := sentences [] r in ((cur ++ s) :: l, e).
Proof.
  induction s as [|t s IH]; intros cur r N; cbn [app sentences].
  - rewrite app_nil_r. reflexivity.
  - destruct (String.eqb_spec t ";") as [->|D]; [exfalso; apply N; now left|]. rewrite IH by (intro I; apply N; now right).
    now rewrite <- app_assoc.
Qed.
Lemma sentences_rest : forall e cur, ~ In ";" e -> sentences cur e = ([], cur ++ e).
Proof.
  induction e as [|t e IH]; intros cur N; cbn [sentences]; [now rewrite app_nil_r|].
  destruct (String.eqb_spec t ";") as [->|D]; [exfalso; apply N; now left|]. rewrite IH by (intro I; apply N; now right). now rewrite <- app_assoc.
Qed.
Lemma sentences_ok : forall l e, Forall decl_ok l -> ~ In ";" e -> sentences [] (flat_map said l ++ e) = (map fst l, e).
Proof.
  intros l e H N. induction H as [|p l (A & _) H IH]; [cbn; now rewrite sentences_rest|].
  cbn [flat_map map]. unfold said at 1. rewrite <- !app_assoc. cbn [app]. rewrite sentences_step by assumption. now rewrite IH.
Qed.
Lemma functions_ok : forall s l e, Forall decl_ok l -> ~ In ";" e -> tokens s = flat_map said l ++ e -> functions_in s = Some (map snd l, e).
Proof.
  intros s l e H N E. unfold functions_in. rewrite E, sentences_ok by assumption.
  assert (X : all_some (map declaration (map fst l)) = Some (map snd l)).
  { clear E. induction H as [|p l (_ & D) H IH]; [reflexivity|]. cbn [map all_some]. rewrite D, IH. reflexivity. }
  now rewrite X.
Qed.

(** ** The declarations *)
Definition kw (ext : bool) : list string := if ext then ["extern"; "void"] else ["void"].
Definition update_args (size : nat) : list (list string) := if (size =? 1)%nat then [["cpg_float"]] else [["cpg_int"]; ["cpg_float"]].
Definition update_sig (x : rin) (p : item) : signature := ((x_prefix x ++ "cpg_update_" ++ i_name p)%string, ("void", update_args (i_size p))).
Definition update_pair (ext : bool) (v : string) (x : rin) (p : item) : list string * signature :=
  (kw ext ++ [(x_prefix x ++ "cpg_update_" ++ i_name p)%string; "("]
   ++ (if (i_size p =? 1)%nat then ["cpg_float"; v; ")"] else ["cpg_int"; "idx"; ","; "cpg_float"; v; ")"]), update_sig x p).
Definition plain_sig (x : rin) (f : string) : signature := ((x_prefix x ++ f)%string, ("void", [])).
Definition plain_pair (ext : bool) (x : rin) (f : string) : list string * signature := (kw ext ++ [(x_prefix x ++ f)%string; "("; ")"], plain_sig x f).
Definition set_sig (x : rin) (s : string * string) : signature := ((x_prefix x ++ "cpg_set_solver_" ++ fst s)%string, ("void", [type_words (snd s)])).
Definition set_pair (ext : bool) (x : rin) (s : string * string) : list string * signature :=
  (kw ext ++ [(x_prefix x ++ "cpg_set_solver_" ++ fst s)%string; "("] ++ type_words (snd s) ++ [(fst s ++ "_new")%string; ")"], set_sig x s).

Lemma word_not_semi : forall w, word w -> w <> ";".
Proof. intros w W. now apply word_neq. Qed.
Ltac nosemi := cbn; let Z := fresh in intro Z; repeat (destruct Z as [Z|Z]; [first [discriminate Z | eapply word_not_semi; [|exact Z]; assumption]|]); exact Z.
Lemma update_decl : forall ext v x p, word (x_prefix x ++ "cpg_update_" ++ i_name p) -> word v -> decl_ok (update_pair ext v x p).
Proof.
  intros ext v x p W V. unfold decl_ok, update_pair, update_sig, update_args. cbn [fst snd].
  generalize dependent (x_prefix x ++ "cpg_update_" ++ i_name p)%string. intros n W.
  pose proof (word_neqb v "," V eq_refl) as NC.
  destruct ext, (i_size p =? 1)%nat; (split; [nosemi|]); cbn [kw app declaration]; cbn; rewrite ?NC; reflexivity.
Qed.
Lemma plain_decl : forall ext x f, word (x_prefix x ++ f) -> decl_ok (plain_pair ext x f).
Proof.
  intros ext x f W. unfold decl_ok, plain_pair, plain_sig. cbn [fst snd]. generalize dependent (x_prefix x ++ f)%string. intros n W.
  destruct ext; (split; [nosemi|reflexivity]).
Qed.
Definition known_types : list string := ["cpg_int"; "cpg_float"; "const char*"].
Lemma set_decl : forall ext x s, word (x_prefix x ++ "cpg_set_solver_" ++ fst s) -> word (fst s ++ "_new") -> In (snd s) known_types -> decl_ok (set_pair ext x s).
Proof.
  intros ext x (n, t) W V T. unfold decl_ok, set_pair, set_sig. cbn [fst snd] in *.
  generalize dependent (x_prefix x ++ "cpg_set_solver_" ++ n)%string. intros f W. generalize dependent (n ++ "_new")%string. intros v V.
  pose proof (word_neqb v "," V eq_refl) as NC.
  destruct ext, T as [<-|[<-|[<-|[]]]]; change (type_words "cpg_int") with ["cpg_int"]; change (type_words "cpg_float") with ["cpg_float"];
    change (type_words "const char*") with ["const"; "char"; "*"]; (split; [nosemi|]); cbn; rewrite ?NC; reflexivity.
Qed.

(** ** The lines *)
Lemma call_reads : forall pre pts f rest ts, reads_as pre pts -> word f -> reads_as rest ts -> (exists c r, rest = String c r /\ ender c = true) ->
  reads_as (pre ++ f ++ rest) (pts ++ [f] ++ ts).
Proof. intros pre pts f rest ts P F R E. apply reads_app; [assumption|]. now apply word_then. Qed.
Ltac ends := eexists; eexists; split; reflexivity.
Lemma update_reads : forall x p, word (x_prefix x ++ "cpg_update_" ++ i_name p) -> reads_as (update_line x p) (said (update_pair true "val" x p)).
Proof.
  intros x p W. unfold update_line.
  rewrite <- (append_assoc "cpg_update_"), <- (append_assoc (x_prefix x)).
  destruct (i_size p =? 1)%nat eqn:E.
  - eapply reads_eq; [apply (call_reads _ ["extern"; "void"] _ _ ["("; "cpg_float"; "val"; ")"; ";"]); [lit|exact W|lit|ends]|].
    unfold said, update_pair. rewrite E. reflexivity.
  - eapply reads_eq; [apply (call_reads _ ["extern"; "void"] _ _ ["("; "cpg_int"; "idx"; ","; "cpg_float"; "val"; ")"; ";"]); [lit|exact W|lit|ends]|].
    unfold said, update_pair. rewrite E. reflexivity.
Qed.
Lemma update_doc_reads : forall x p, word (x_prefix x ++ "cpg_update_" ++ i_name p) ->
  reads_as ("void " ++ x_prefix x ++ "cpg_update_" ++ i_name p
            ++ (if (i_size p =? 1)%nat then "(cpg_float value);" else "(cpg_int idx, cpg_float value);") ++ nl) (said (update_pair false "value" x p)).
Proof.
  intros x p W. rewrite <- (append_assoc "cpg_update_"), <- (append_assoc (x_prefix x)).
  destruct (i_size p =? 1)%nat eqn:E.
  - eapply reads_eq; [apply (call_reads _ ["void"] _ _ ["("; "cpg_float"; "value"; ")"; ";"]); [lit|exact W|lit|ends]|].
    unfold said, update_pair. rewrite E. reflexivity.
  - eapply reads_eq; [apply (call_reads _ ["void"] _ _ ["("; "cpg_int"; "idx"; ","; "cpg_float"; "value"; ")"; ";"]); [lit|exact W|lit|ends]|].
    unfold said, update_pair. rewrite E. reflexivity.
Qed.
Lemma plain_reads : forall x f, word (x_prefix x ++ f) -> reads_as (plain_line x f) (said (plain_pair true x f)).
Proof.
  intros x f W. unfold plain_line. rewrite <- (append_assoc (x_prefix x)).
  eapply reads_eq; [apply (call_reads _ ["extern"; "void"] _ _ ["("; ")"; ";"]); [lit|exact W|lit|ends]|reflexivity].
Qed.
Lemma plain_doc_reads : forall x f, word (x_prefix x ++ f) -> reads_as ("void " ++ x_prefix x ++ f ++ "();" ++ nl) (said (plain_pair false x f)).
Proof.
  intros x f W. rewrite <- (append_assoc (x_prefix x)).
  eapply reads_eq; [apply (call_reads _ ["void"] _ _ ["("; ")"; ";"]); [lit|exact W|lit|ends]|reflexivity].
Qed.
(** "(type name_new);" and what follows *)
Lemma set_args_reads : forall n t rest ts, word (n ++ "_new") -> In t known_types -> reads_as rest ts ->
  reads_as ("(" ++ t ++ " " ++ n ++ "_new);" ++ rest) (["("] ++ type_words t ++ [(n ++ "_new")%string; ")"; ";"] ++ ts).
Proof.
  intros n t rest ts W T R. eapply reads_eq.
  - apply (reads_app _ _ ["("]); [lit|].
    assert (X : reads_as (" " ++ n ++ "_new);" ++ rest) ([(n ++ "_new")%string; ")"; ";"] ++ ts)).
    { change ("_new);" ++ rest)%string with ("_new" ++ ");" ++ rest)%string. rewrite <- (append_assoc n).
      apply (reads_app _ _ [] ([(n ++ "_new")%string; ")"; ";"] ++ ts)); [lit|]. cbn [app]. apply word_then; [assumption| |ends].
      apply (reads_app _ _ [")"; ";"]); [lit|assumption]. }
    instantiate (1 := type_words t ++ [(n ++ "_new")%string; ")"; ";"] ++ ts).
    destruct T as [<-|[<-|[<-|[]]]].
    + apply word_then; [split; [discriminate|reflexivity]|exact X|ends].
    + apply word_then; [split; [discriminate|reflexivity]|exact X|ends].
    + apply (reads_app _ _ (type_words "const char*")); [lit|exact X].
  - reflexivity.
Qed.
Lemma set_reads : forall x s, word (x_prefix x ++ "cpg_set_solver_" ++ fst s) -> word (fst s ++ "_new") -> In (snd s) known_types ->
  reads_as ("extern void " ++ x_prefix x ++ "cpg_set_solver_" ++ fst s ++ "(" ++ snd s ++ " " ++ fst s ++ "_new);" ++ nl) (said (set_pair true x s)).
Proof.
  intros x (n, t) W V T. cbn [fst snd] in *. rewrite <- (append_assoc "cpg_set_solver_"), <- (append_assoc (x_prefix x)).
  eapply reads_eq; [apply (call_reads _ ["extern"; "void"]); [lit|exact W|apply (set_args_reads n t nl []); [assumption|assumption|lit]|ends]|].
  unfold said, set_pair. cbn [fst snd kw app]. rewrite <- !app_assoc. reflexivity.
Qed.
