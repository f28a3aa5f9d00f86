(** Proofs about replacement, cutting and counting in texts. *)
From Coq Require Import String Ascii List Arith Bool Lia.
From Verif Require Import Base Literals LiteralsProofs Text TextSpec.
Import ListNotations.
Open Scope string_scope.
Open Scope list_scope.

Local Notation "a +s b" := (String.append a b) (at level 60, right associativity).

Lemma app_nil_s s : s +s "" = s.
Proof. induction s; cbn; congruence. Qed.
Lemma len_app a b : String.length (a +s b) = String.length a + String.length b.
Proof. induction a; cbn; congruence. Qed.
Lemma app_inj a b c : a +s b = a +s c -> b = c.
Proof. induction a; cbn; [auto | intro H; injection H; auto]. Qed.
Lemma begins_starts x s : begins x s = starts x s.
Proof. revert s; induction x; destruct s; cbn; auto. Qed.

Lemma starts_self x r : starts x (x +s r) = true.
Proof. induction x; cbn; auto. now rewrite Ascii.eqb_refl, IHx. Qed.
Lemma starts_ok x s : starts x s = true -> exists r, s = x +s r.
Proof.
  revert s; induction x as [|a x]; intros [|b s] H; cbn in *; try discriminate; eauto.
  apply andb_prop in H as [H1 H2]. apply Ascii.eqb_eq in H1 as ->.
  destruct (IHx s H2) as [r ->]. now exists r.
Qed.
Lemma starts_iff x s : starts x s = true <-> exists r, s = x +s r.
Proof. split; [apply starts_ok | intros [r ->]; apply starts_self]. Qed.

(** A text starting with [x] and made of two parts. *)
Lemma split_two x p w s : x +s s = p +s w ->
  (exists q, p = x +s q /\ s = q +s w) \/ (exists y, y <> "" /\ x = p +s y /\ w = y +s s).
Proof.
  revert p; induction x as [|a x]; intros p H.
  - left; exists p; auto.
  - destruct p as [|b p]; cbn in H.
    + right; exists (String a x); repeat split; [discriminate | now cbn].
    + injection H as -> H. destruct (IHx p H) as [(q & -> & E)|(y & Y & -> & E)].
      * left; exists q; auto.
      * right; exists y; auto.
Qed.

(** Nonempty suffixes. *)
Fixpoint sufs (s : string) : list string :=
  match s with EmptyString => [] | String _ r => s :: sufs r end.
Definition tl_s (s : string) : string := match s with EmptyString => "" | String _ r => r end.
Lemma sufs_in p y : y <> "" -> In y (sufs (p +s y)).
Proof.
  intros Y; induction p; cbn; [|now right].
  destruct y; [congruence | now left].
Qed.
Lemma sufs_tl p y : p <> "" -> y <> "" -> In y (sufs (tl_s (p +s y))).
Proof. destruct p; [congruence|]; intros _ Y; cbn. now apply sufs_in. Qed.

Definition compat (a b : string) : bool := starts a b || starts b a.
Lemma compat_app a b r s : a +s r = b +s s -> compat a b = true.
Proof.
  intros H. unfold compat. apply orb_true_iff.
  destruct (split_two a b s r H) as [(q & -> & _)|(y & _ & -> & _)];
    [left | right]; apply starts_self.
Qed.

(** No occurrence of [x] touches an occurrence of [u], whatever surrounds it. *)
Definition sep (x u : string) : bool :=
  forallb (fun v => negb (compat x v)) (sufs u) && forallb (fun y => negb (compat y u)) (sufs (tl_s x)).
(** No two occurrences of [x] overlap. *)
Definition unbordered (x : string) : bool :=
  negb (x =? "") && forallb (fun y => negb (starts y x)) (sufs (tl_s x)).

Lemma unb_ne x : unbordered x = true -> x <> "".
Proof. unfold unbordered. intros H ->. discriminate. Qed.
Lemma sep_ne x u : sep x u = true -> u <> "" -> x <> "".
Proof.
  unfold sep. intros H U ->. destruct u as [|a u]; [congruence|]. cbn in H. discriminate.
Qed.

Lemma sep_l x u : sep x u = true -> forall v, In v (sufs u) -> compat x v = false.
Proof.
  intros H v I. apply andb_prop in H as [H _]. rewrite forallb_forall in H.
  specialize (H v I). now apply negb_true_iff in H.
Qed.
Lemma sep_r x u : sep x u = true -> forall y, In y (sufs (tl_s x)) -> compat y u = false.
Proof.
  intros H v I. apply andb_prop in H as [_ H]. rewrite forallb_forall in H.
  specialize (H v I). now apply negb_true_iff in H.
Qed.

Lemma false_of (P : Prop) b : (b = true -> P) -> ~ P -> b = false.
Proof. destruct b; auto. intros H N; exfalso; auto. Qed.

(** Starting in the text before [u]. *)
Lemma starts_sep x u p r : sep x u = true -> p <> "" -> starts x (p +s u +s r) = starts x p.
Proof.
  intros S P. apply eq_true_iff_eq. rewrite !starts_iff. split.
  - intros [q E]. symmetry in E. destruct (split_two _ _ _ _ E) as [(w & -> & _)|(y & Y & -> & E2)].
    + now exists w.
    + exfalso. pose proof (sep_r _ _ S y (sufs_tl p y P Y)) as F.
      symmetry in E2. rewrite (compat_app y u q r E2) in F. discriminate.
  - intros [q ->]. exists (q +s u +s r). now rewrite append_assoc.
Qed.
Lemma starts_in_u x u v r : sep x u = true -> In v (sufs u) -> starts x (v +s r) = false.
Proof.
  intros S I. apply (false_of False); auto. intros H. apply starts_ok in H as [q E].
  symmetry in E. pose proof (sep_l _ _ S v I) as F. rewrite (compat_app _ _ _ _ E) in F. discriminate.
Qed.
Lemma starts_unb x p r : unbordered x = true -> p <> "" -> starts x (p +s x +s r) = starts x p.
Proof.
  intros S P. apply eq_true_iff_eq. rewrite !starts_iff. split.
  - intros [q E]. symmetry in E. destruct (split_two _ _ _ _ E) as [(w & -> & _)|(y & Y & X & E2)].
    + now exists w.
    + exfalso. apply andb_prop in S as [_ S]. rewrite forallb_forall in S.
      assert (I : In y (sufs (tl_s x))) by (rewrite X; now apply sufs_tl).
      specialize (S y I). apply negb_true_iff in S.
      symmetry in E2. destruct (split_two _ _ _ _ E2) as [(w & W & _)|(z & Z & W & _)].
      * rewrite W, starts_self in S. discriminate.
      * assert (L : String.length x = String.length p + (String.length x + String.length z))
          by (rewrite X at 1; rewrite len_app; f_equal; rewrite W; apply len_app).
        destruct p; [congruence|]. cbn in L. lia.
  - intros [q ->]. exists (q +s x +s r). now rewrite append_assoc.
Qed.

(** ** Replacement *)

Lemma rep_skip x n w s : forall k, String.length w = k -> rep x n k (w +s s) = rep x n 0 s.
Proof.
  induction w as [|a w]; intros k <-; cbn [String.length append]; [reflexivity|].
  cbn [rep]. now apply IHw.
Qed.
Lemma rep_match x n s : x <> "" -> replace x n (x +s s) = n +s replace x n s.
Proof.
  intros X. destruct x as [|a x]; [congruence|]. unfold replace.
  cbn [append rep]. change (String a (x +s s)) with (String a x +s s). rewrite starts_self.
  f_equal. apply rep_skip. cbn. lia.
Qed.
Lemma rep_char x n a s : starts x (String a s) = false -> replace x n (String a s) = String a (replace x n s).
Proof. intros H. unfold replace. cbn [rep]. now rewrite H. Qed.
Lemma rep_nil x n : replace x n "" = "".
Proof. reflexivity. Qed.

Lemma str_ind (P : string -> Prop) :
  (forall s, (forall r, String.length r < String.length s -> P r) -> P s) -> forall s, P s.
Proof.
  intros H s. remember (String.length s) as k eqn:E.
  assert (G : forall k s, String.length s < k -> P s).
  { clear s k E. induction k; intros s L; [lia|]. apply H. intros r R. apply IHk. lia. }
  apply (G (S k)). lia.
Qed.

Lemma rep_sep x n u p r : sep x u = true -> x <> "" ->
  replace x n (p +s u +s r) = replace x n p +s u +s replace x n r.
Proof.
  intros S X.
  assert (U : forall v, (forall w, In w (sufs v) -> In w (sufs u)) -> replace x n (v +s r) = v +s replace x n r).
  { induction v as [|a v]; intros I; [reflexivity|].
    cbn [append]. rewrite rep_char.
    - f_equal. apply IHv. intros w W. apply I. now right.
    - apply (starts_in_u x u (String a v) r S). apply I. now left. }
  induction p as [p IH] using str_ind. destruct p as [|a p].
  - cbn [append]. apply U. auto.
  - pose proof (starts_sep x u (String a p) r S ltac:(discriminate)) as E.
    destruct (starts x (String a p)) eqn:B.
    + apply starts_ok in B as [q Q]. rewrite Q. rewrite !append_assoc, !rep_match by exact X.
      rewrite append_assoc. f_equal. apply IH. rewrite Q, len_app. destruct x; [congruence | cbn; lia].
    + change (String a p +s u +s r) with (String a (p +s u +s r)) in *.
      rewrite !rep_char by assumption. cbn [append]. f_equal. apply IH. cbn; lia.
Qed.
Lemma rep_self x n p r : unbordered x = true ->
  replace x n (p +s x +s r) = replace x n p +s n +s replace x n r.
Proof.
  intros S. pose proof (unb_ne _ S) as X. induction p as [p IH] using str_ind. destruct p as [|a p].
  - cbn [append]. now apply rep_match.
  - pose proof (starts_unb x (String a p) r S ltac:(discriminate)) as E.
    destruct (starts x (String a p)) eqn:B.
    + apply starts_ok in B as [q Q]. rewrite Q. rewrite !append_assoc, !rep_match by exact X.
      rewrite append_assoc. f_equal. apply IH. rewrite Q, len_app. destruct x; [congruence | cbn; lia].
    + change (String a p +s x +s r) with (String a (p +s x +s r)) in *.
      rewrite !rep_char by assumption. cbn [append]. f_equal. apply IH. cbn; lia.
Qed.

Lemma occurs_starts x s : starts x s = true -> occurs x s.
Proof. intros H. apply starts_ok in H as [r ->]. exists "", r. reflexivity. Qed.
Lemma occurs_cons x a s : occurs x s -> occurs x (String a s).
Proof. intros (p & q & ->). now exists (String a p), q. Qed.
Lemma occurs_l x a s : occurs x s -> occurs x (a +s s).
Proof. intros (p & q & ->). exists (a +s p), q. now rewrite append_assoc. Qed.
Lemma occurs_r x a s : occurs x s -> occurs x (s +s a).
Proof. intros (p & q & ->). exists p, (q +s a). now rewrite !append_assoc. Qed.
Lemma occurs_trans x y s : occurs x y -> occurs y s -> occurs x s.
Proof. intros H (a & b & ->). apply occurs_l, occurs_r, H. Qed.

Lemma rep_none x n s : ~ occurs x s -> replace x n s = s.
Proof.
  induction s as [|a s]; intros H; [reflexivity|].
  rewrite rep_char.
  - f_equal. apply IHs. intros O; apply H. now apply occurs_cons.
  - destruct (starts x (String a s)) eqn:E; auto. exfalso. apply H. now apply occurs_starts.
Qed.

Lemma occurs_dec x s : {occurs x s} + {~ occurs x s}.
Proof.
  induction s as [|a s].
  - destruct (starts x "") eqn:E; [left; now apply occurs_starts|].
    right. intros (p & q & H). destruct p; [|discriminate]. cbn in H.
    rewrite H, starts_self in E. discriminate.
  - destruct (starts x (String a s)) eqn:E; [left; now apply occurs_starts|].
    destruct IHs as [I|N]; [left; now apply occurs_cons|].
    right. intros (p & q & H). destruct p as [|b p]; cbn in H.
    + rewrite H, starts_self in E. discriminate.
    + injection H as -> ->. apply N. now exists p, q.
Qed.

(** The first occurrence. *)
Lemma first_ex x s : occurs x s -> exists p r, s = p +s x +s r /\ first x p s.
Proof.
  induction s as [|a s]; intros O.
  - destruct O as (p & q & H). exists p, q. split; [exact H|]. split; [eauto|].
    intros a' b' _. destruct p; [cbn; lia | discriminate].
  - destruct (starts x (String a s)) eqn:E.
    + apply starts_ok in E as [r E]. exists "", r. split; [exact E|]. split; [eauto|]. cbn; intros; lia.
    + destruct IHs as (p & r & -> & F).
      * destruct O as (p & q & H). destruct p as [|b p]; cbn in H.
        -- rewrite H, starts_self in E. discriminate.
        -- injection H as -> ->. now exists p, q.
      * exists (String a p), r. split; [reflexivity|]. split; [exists r; reflexivity|].
        intros a' b' H. destruct a' as [|c a']; cbn in H.
        -- rewrite H, starts_self in E. discriminate.
        -- injection H as -> H. cbn. apply le_n_S. destruct F as [_ F]. eapply F, H.
Qed.
Lemma first_cons x a p r : first x (String a p) (String a p +s x +s r) ->
  starts x (String a p +s x +s r) = false /\ first x p (p +s x +s r).
Proof.
  intros [_ F]. split.
  - apply (false_of False); auto. intros H. apply starts_ok in H as [q Q].
    specialize (F "" q Q). cbn in F. lia.
  - split; [eauto|]. intros a' b' H. specialize (F (String a a') b').
    cbn in F. rewrite H in F. specialize (F eq_refl). lia.
Qed.
Lemma rep_first x n p r : x <> "" -> first x p (p +s x +s r) ->
  replace x n (p +s x +s r) = p +s n +s replace x n r.
Proof.
  intros X. induction p as [|a p]; intros F.
  - cbn [append]. now apply rep_match.
  - destruct (first_cons _ _ _ _ F) as [E F']. cbn [append] in *.
    rewrite rep_char by exact E. f_equal. now apply IHp.
Qed.
Lemma app_len_inj a b c d : String.length a = String.length c -> a +s b = c +s d -> a = c /\ b = d.
Proof.
  revert c; induction a; destruct c; cbn; intros L H; try discriminate; [auto|].
  injection H as -> H. injection L as L. destruct (IHa c L H) as [-> ->]. auto.
Qed.
Lemma first_unique x p p' r r' s : s = p +s x +s r -> s = p' +s x +s r' ->
  first x p s -> first x p' s -> p = p' /\ r = r'.
Proof.
  intros E E' [_ F] [_ F']. pose proof (F _ _ E') as L. pose proof (F' _ _ E) as L'.
  rewrite E in E'. destruct (app_len_inj p (x +s r) p' (x +s r') ltac:(lia) E') as [-> H].
  split; auto. eapply app_inj, H.
Qed.

Lemma pieces_ex x s : x <> "" -> exists ps, pieces x s ps.
Proof.
  intros X. induction s as [s IH] using str_ind.
  destruct (occurs_dec x s) as [O|N].
  - destruct (first_ex x s O) as (p & r & -> & F).
    destruct (IH r) as [ps P]; [rewrite !len_app; destruct x; [congruence | cbn; lia]|].
    exists (p :: ps). now constructor.
  - exists [s]. now constructor.
Qed.
Lemma pieces_nonnil x s ps : pieces x s ps -> ps <> [].
Proof. destruct 1; discriminate. Qed.
Lemma join_cons x p ps : ps <> [] -> join x (p :: ps) = p +s x +s join x ps.
Proof. destruct ps; [congruence | reflexivity]. Qed.
Lemma pieces_join x s ps : pieces x s ps -> s = join x ps.
Proof.
  induction 1; [reflexivity|]. rewrite join_cons by (eapply pieces_nonnil; eauto). congruence.
Qed.
Lemma pieces_rep x n s ps : x <> "" -> pieces x s ps -> replace x n s = join n ps.
Proof.
  intros X. induction 1 as [s N|p r ps F P IH].
  - now apply rep_none.
  - rewrite rep_first, IH, join_cons by (eauto using pieces_nonnil). reflexivity.
Qed.
Lemma pieces_unique x s ps : x <> "" -> pieces x s ps -> forall ps', pieces x s ps' -> ps' = ps.
Proof.
  intros X. induction 1 as [s N|p r ps F P IH]; intros ps' P'.
  - inversion P' as [|p' r' ps2 F' P2 E]; subst; auto. exfalso. apply N. now exists p', r'.
  - inversion P' as [s' N'|p' r' ps2 F' P2 E].
    + exfalso. apply N'. now exists p, r.
    + destruct (first_unique x p' p r' r (p +s x +s r)) as [-> ->]; auto.
      * now rewrite <- E.
      * f_equal. now apply IH.
Qed.

(** No piece contains the anchor. *)
Lemma first_prefix x p r : x <> "" -> first x p (p +s x +s r) -> ~ occurs x p.
Proof.
  intros X [_ F] (a & b & ->). specialize (F a (b +s x +s r)). rewrite !append_assoc in F.
  specialize (F eq_refl). rewrite !len_app in F. destruct x; [congruence | cbn in F; lia].
Qed.
Lemma pieces_clean x s ps : x <> "" -> pieces x s ps -> Forall (fun p => ~ occurs x p) ps.
Proof.
  intros X; induction 1 as [s N|p r ps F P IH]; constructor; auto. eapply first_prefix; eauto.
Qed.
(** With an unbordered anchor, any division into pieces without it is the one found. *)
Lemma pieces_of x ps : unbordered x = true -> ps <> [] -> Forall (fun p => ~ occurs x p) ps -> pieces x (join x ps) ps.
Proof.
  intros U NE C. induction C as [|p ps Cp C IH]; [congruence|].
  destruct ps as [|q ps]; [now constructor|]. rewrite join_cons by discriminate.
  constructor; [|apply IH; discriminate].
  split; [eauto|]. intros a b E. destruct (le_lt_dec (String.length p) (String.length a)) as [|L]; auto.
  exfalso. clear IH C NE. revert a E L. induction p as [|c p IHp]; intros a E L; [cbn in L; lia|].
  assert (St : starts x (String c p) = false).
  { destruct (starts x (String c p)) eqn:St; auto. exfalso; apply Cp; now apply occurs_starts. }
  destruct a as [|d a].
  - cbn [append] in E. pose proof (starts_unb x (String c p) (join x (q :: ps)) U ltac:(discriminate)) as E2.
    cbn [append] in E2. rewrite E, starts_self, St in E2. discriminate.
  - cbn [append] in E. injection E as -> E. apply (IHp) with (a := a); auto.
    + intros O. apply Cp. now apply occurs_cons.
    + cbn in L; lia.
Qed.

(** ** Occurrences around other text *)
Lemma occurs_sep x u p r : sep x u = true -> x <> "" -> occurs x (p +s u +s r) -> occurs x p \/ occurs x r.
Proof.
  intros S X O. destruct (occurs_dec x p) as [|Np]; auto. destruct (occurs_dec x r) as [|Nr]; auto.
  exfalso. assert (E : forall n, replace x n (p +s u +s r) = p +s u +s r).
  { intros n. rewrite rep_sep by assumption. now rewrite !rep_none. }
  destruct (first_ex x _ O) as (a & b & H & F).
  pose proof (E (x +s "a")) as E1. pose proof (E x) as E2.
  rewrite H in F. rewrite H, rep_first in E1, E2 by assumption.
  rewrite <- E2 in E1. apply app_inj in E1. rewrite append_assoc in E1. apply app_inj in E1.
  pose proof (f_equal String.length E1) as L.
  assert (L2 : String.length (replace x x b) <= String.length (replace x (x +s "a") b)).
  { clear. unfold replace. generalize 0. induction b; intros k; [reflexivity|].
    cbn [rep]. destruct k; [|apply IHb]. destruct (starts x (String a b)).
    - rewrite !len_app. specialize (IHb (String.length x - 1)). lia.
    - cbn. specialize (IHb 0). lia. }
  rewrite len_app in L. cbn in L. lia.
Qed.
Lemma occurs_join x u ps : sep x u = true -> x <> "" -> occurs x (join u ps) -> exists p, In p ps /\ occurs x p.
Proof.
  intros S X. induction ps as [|p ps IH]; intros O.
  - exfalso. destruct O as (a & b & H). destruct a; [|discriminate]. destruct x; [congruence|discriminate].
  - destruct ps as [|q ps]; [exists p; split; [now left | exact O]|].
    rewrite join_cons in O by discriminate. apply occurs_sep in O as [O|O]; auto.
    + exists p; split; [now left | exact O].
    + destruct (IH O) as (z & I & Z). exists z; split; [now right | exact Z].
Qed.

(** Replacing in a joined text. *)
Lemma rep_join x n u ps : sep x u = true -> x <> "" -> replace x n (join u ps) = join u (map (replace x n) ps).
Proof.
  intros S X. induction ps as [|p ps IH]; [reflexivity|].
  destruct ps as [|q ps]; [reflexivity|]. rewrite join_cons by discriminate.
  rewrite rep_sep, IH by assumption. reflexivity.
Qed.
Lemma rep_join_self x n ps : unbordered x = true -> replace x n (join x ps) = join n (map (replace x n) ps).
Proof.
  intros U. induction ps as [|p ps IH]; [reflexivity|].
  destruct ps as [|q ps]; [reflexivity|]. rewrite join_cons by discriminate.
  rewrite rep_self, IH by assumption. reflexivity.
Qed.
Lemma map_clean x n ps : Forall (fun p => ~ occurs x p) ps -> map (replace x n) ps = ps.
Proof. induction 1; cbn; [reflexivity|]. rewrite rep_none by assumption. congruence. Qed.

(** Replacing twice changes nothing more if the new text does not touch the anchor. *)
Lemma rep_idem x n s : sep x n = true -> x <> "" -> replace x n (replace x n s) = replace x n s.
Proof.
  intros S X. destruct (pieces_ex x s X) as [ps P]. rewrite (pieces_rep x n s ps X P).
  rewrite rep_join by assumption. now rewrite (map_clean x n ps (pieces_clean x s ps X P)).
Qed.
(** Two replacements that do not touch each other may be made in either order. *)
Lemma rep_comm x n y m s : unbordered x = true -> y <> "" ->
  sep y x = true -> sep y n = true -> sep x m = true ->
  replace y m (replace x n s) = replace x n (replace y m s).
Proof.
  intros U Y S1 S2 S3. pose proof (unb_ne _ U) as X.
  destruct (pieces_ex x s X) as [ps P]. rewrite (pieces_rep x n s ps X P).
  rewrite rep_join by assumption. rewrite (pieces_join x s ps P). rewrite rep_join by assumption.
  rewrite rep_join_self by assumption. f_equal. rewrite map_map. apply map_ext_in. intros p I.
  symmetry. apply rep_none. intros O.
  assert (C : ~ occurs x p) by (exact (proj1 (Forall_forall _ _) (pieces_clean x s ps X P) p I)).
  apply C. destruct (pieces_ex y p Y) as [us Q]. rewrite (pieces_rep y m p us Y Q) in O.
  apply occurs_join in O as (u & Iu & O); auto.
  rewrite (pieces_join y p us Q). clear - Iu O.
  induction us as [|v us IH]; [destruct Iu|]. destruct us as [|w us].
  - destruct Iu as [->|[]]. exact O.
  - rewrite join_cons by discriminate. destruct Iu as [->|I]; [now apply occurs_r|]. now apply occurs_l, occurs_l, IH.
Qed.

(** ** Counting *)
Lemma count_sep x u p r : sep x u = true -> x <> "" -> count x (p +s u +s r) = count x p + count x r.
Proof.
  intros S X.
  assert (U : forall v, (forall w, In w (sufs v) -> In w (sufs u)) -> count x (v +s r) = count x r).
  { induction v as [|a v]; intros I; [reflexivity|].
    cbn [append]. cbn [count]. rewrite begins_starts.
    pose proof (starts_in_u x u (String a v) r S (I _ (or_introl eq_refl))) as E0. cbn [append] in E0. rewrite E0. cbn.
    apply IHv. intros w W. apply I. now right. }
  induction p as [|a p].
  - cbn [append]. rewrite U by auto. cbn. destruct x; [congruence | reflexivity].
  - cbn [append count]. rewrite !begins_starts.
    pose proof (starts_sep x u (String a p) r S ltac:(discriminate)) as E. cbn [append] in E.
    rewrite E, IHp, (begins_starts x (String a p)). lia.
Qed.
Lemma count_unb x p r : unbordered x = true -> count x (p +s x +s r) = count x p + 1 + count x r.
Proof.
  intros U. pose proof (unb_ne _ U) as X. induction p as [|a p].
  - cbn [append]. replace (count x "") with 0 by (destruct x; [congruence | reflexivity]).
    destruct x as [|c x]; [congruence|]. cbn [append count]. rewrite begins_starts.
    change (String c (x +s r)) with (String c x +s r). rewrite starts_self.
    assert (G : forall v, (forall w, In w (sufs v) -> In w (sufs x)) -> count (String c x) (v +s r) = count (String c x) r).
    { induction v as [|b v]; intros I; [reflexivity|].
      cbn [append]. cbn [count]. rewrite begins_starts. rewrite IHv by (intros w W; apply I; now right).
      destruct (starts (String c x) (String b (v +s r))) eqn:E; [|reflexivity]. exfalso.
      apply starts_ok in E as [q Q]. change (String b (v +s r)) with (String b v +s r) in Q. symmetry in Q.
      assert (Iv : In (String b v) (sufs x)) by (apply I; now left).
      assert (Lv : forall t w, In w (sufs t) -> String.length w <= String.length t).
      { clear. induction t; cbn; [tauto|]. intros w [<-|H]; [reflexivity|]. specialize (IHt w H). lia. }
      apply andb_prop in U as [_ U]. rewrite forallb_forall in U. specialize (U _ Iv).
      apply negb_true_iff in U. destruct (split_two _ _ _ _ Q) as [(w & W & _)|(y & Y & W & _)].
      + specialize (Lv _ _ Iv). rewrite W in Lv. rewrite len_app in Lv. cbn in Lv. lia.
      + rewrite W, starts_self in U. discriminate. }
    rewrite G by auto. lia.
  - cbn [append count]. rewrite !begins_starts.
    pose proof (starts_unb x (String a p) r U ltac:(discriminate)) as E. cbn [append] in E.
    rewrite E, IHp, (begins_starts x (String a p)). lia.
Qed.
Lemma count_zero x s : count x s = 0 <-> ~ occurs x s.
Proof.
  induction s as [|a s].
  - cbn. rewrite begins_starts. destruct (starts x "") eqn:E; split; intros H; try discriminate; try lia.
    + exfalso. apply H. now apply occurs_starts.
    + intros (p & q & G). destruct p; [|discriminate]. cbn in G. rewrite G, starts_self in E. discriminate.
  - cbn [count]. rewrite begins_starts. destruct (starts x (String a s)) eqn:E; split; intros H.
    + lia.
    + exfalso. apply H. now apply occurs_starts.
    + cbn in H. apply IHs in H. intros (p & q & G). destruct p as [|b p]; cbn in G.
      * rewrite G, starts_self in E. discriminate.
      * injection G as -> ->. apply H. now exists p, q.
    + cbn. apply IHs. intros O; apply H. now apply occurs_cons.
Qed.
(** Counting [y] in a text where [x] is replaced by a text that holds it [k] times. *)
Lemma count_rep x n y s k : x <> "" -> y <> "" -> sep y x = true ->
  (forall p r, count y (p +s n +s r) = count y p + k + count y r) ->
  forall ps, pieces x s ps -> count y (replace x n s) = count y s + k * (List.length ps - 1).
Proof.
  intros X Y S K ps P. rewrite (pieces_rep x n s ps X P).
  induction P as [s N|p r ps F P IH]; [cbn; lia|].
  rewrite join_cons by (eapply pieces_nonnil; eauto). rewrite K, IH.
  rewrite count_sep by assumption. pose proof (pieces_nonnil _ _ _ P).
  destruct ps; [congruence|]. cbn [List.length]. nia.
Qed.
Lemma pieces_count x s ps : unbordered x = true -> pieces x s ps -> count x s = List.length ps - 1.
Proof.
  intros U. induction 1 as [s N|p r ps F P IH].
  - now apply count_zero in N.
  - rewrite count_unb, IH by assumption.
    pose proof (first_prefix x p r (unb_ne _ U) F) as N. apply count_zero in N. rewrite N.
    pose proof (pieces_nonnil _ _ _ P). destruct ps; [congruence|]. cbn. lia.
Qed.

(** ** Cutting *)
Lemma find_first e s : match find e s with
  | Some i => exists a, String.length a = i /\ first e a s
  | None => ~ occurs e s end.
Proof.
  induction s as [|c s IH].
  - cbn [find]. destruct (starts e "") eqn:E.
    + exists "". split; auto. apply starts_ok in E as [r E]. split; [now exists r | intros; cbn; lia].
    + cbn. intros (p & q & H). destruct p; [|discriminate]. cbn in H. rewrite H, starts_self in E. discriminate.
  - cbn [find]. destruct (starts e (String c s)) eqn:E.
    + exists "". split; auto. apply starts_ok in E as [r E]. split; [now exists r | intros; cbn; lia].
    + destruct (find e s) as [i|]; cbn [option_map].
      * destruct IH as (a & L & (b & B) & F). exists (String c a). split; [cbn; lia|].
        split; [exists b; cbn; now rewrite B|].
        intros a' b' H. destruct a' as [|d a']; cbn in H.
        -- rewrite H, starts_self in E. discriminate.
        -- injection H as -> H. cbn. apply le_n_S. eapply F, H.
      * intros (p & q & H). destruct p as [|d p]; cbn in H.
        -- rewrite H, starts_self in E. discriminate.
        -- injection H as -> ->. apply IH. now exists p, q.
Qed.
Lemma substring_app a b : substring 0 (String.length a) (a +s b) = a.
Proof. induction a; cbn; [now destruct b | congruence]. Qed.
Lemma cut_before s e : before e (cut_from_expr s e) s.
Proof.
  unfold cut_from_expr. pose proof (find_first e s) as F. destruct (find e s) as [i|].
  - destruct F as (a & <- & F). left. destruct F as [[b B] F]. rewrite B at 1.
    rewrite substring_app. split; eauto.
  - right. auto.
Qed.
