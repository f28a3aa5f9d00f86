(** Proof library for Units.v. *)

From Coq Require Import String Ascii List Bool Arith Lia Permutation.
From Verif Require Import Base Config Symbols SymbolsProofs PropSymbols Units.
Import ListNotations.
Open Scope string_scope.
Open Scope list_scope.

Definition iname (i : item) : string := match i with Ext x _ | Sta x _ | Def x _ _ => x end.
Definition ity (i : item) : cty := match i with Ext _ t | Sta _ t | Def _ t _ => t end.
Definition iuses (i : item) : list string := match i with Def _ _ us => us | _ => [] end.
Definition sig (i : item) : string * cty := (iname i, ity i).
Definition is_ext (i : item) : Prop := match i with Ext _ _ => True | _ => False end.
Definition is_sta (i : item) : Prop := match i with Sta _ _ => True | _ => False end.
Definition is_def (i : item) : Prop := match i with Def _ _ _ => True | _ => False end.

(** ** The checker *)

Lemma strs_eqb_refl : forall l, strs_eqb l l = true.
Proof. induction l as [|x l IH]; [reflexivity|]. cbn. rewrite String.eqb_refl. exact IH. Qed.
Lemma cty_eqb_refl : forall t, cty_eqb t t = true.
Proof.
  induction t as [n|t IH|t IH n|r l]; cbn [cty_eqb].
  - apply String.eqb_refl.
  - exact IH.
  - rewrite IH, Nat.eqb_refl. reflexivity.
  - rewrite String.eqb_refl, strs_eqb_refl. reflexivity.
Qed.
Lemma strs_eqb_eq : forall a b, strs_eqb a b = true -> a = b.
Proof.
  induction a as [|x a IH]; intros [|y b] H; try discriminate; [reflexivity|]. cbn in H.
  apply andb_true_iff in H. destruct H as [H1 H2]. apply String.eqb_eq in H1. rewrite (IH _ H2), H1. reflexivity.
Qed.
Lemma cty_eqb_eq : forall a b, cty_eqb a b = true -> a = b.
Proof.
  induction a as [n|t IH|t IH n|r l]; intros [n'|t'|t' n'|r' l'] H; try discriminate; cbn [cty_eqb] in H.
  - apply String.eqb_eq in H. congruence.
  - rewrite (IH _ H). reflexivity.
  - apply andb_true_iff in H. destruct H as [H1 H2]. apply Nat.eqb_eq in H2. rewrite (IH _ H1), H2. reflexivity.
  - apply andb_true_iff in H. destruct H as [H1 H2]. apply String.eqb_eq in H1. apply strs_eqb_eq in H2. congruence.
Qed.

Lemma lookup_In : forall x l t, lookup x l = Some t -> In (x, t) l.
Proof.
  induction l as [|[y s] l IH]; intros t H; [discriminate|]. cbn [lookup] in H.
  destruct (String.eqb y x) eqn:E; [|right; auto].
  apply String.eqb_eq in E. subst y. injection H as <-. left. reflexivity.
Qed.
Lemma known_In : forall x l, known_name x l = true <-> In x (map fst l).
Proof.
  intros x l. unfold known_name. split.
  - destruct (lookup x l) eqn:E; [|discriminate]. intros _. apply lookup_In in E. apply (in_map fst) in E. exact E.
  - intro H. induction l as [|[y s] l IH]; [destruct H|]. cbn [lookup]. destruct (String.eqb y x) eqn:E; [reflexivity|].
    destruct H as [H|H]; [cbn in H; subst y; rewrite String.eqb_refl in E; discriminate|auto].
Qed.

Definition func (T : list (string * cty)) : Prop := forall x s t, In (x, s) T -> In (x, t) T -> s = t.

Lemma NoDup_func : forall T, NoDup (map fst T) -> func T.
Proof.
  induction T as [|[y r] T IH]; intros N x s t H1 H2; [destruct H1|]. cbn [map] in N. inversion N; subst.
  destruct H1 as [H1|H1], H2 as [H2|H2].
  - congruence.
  - injection H1 as -> ->. apply (in_map fst) in H2. contradiction.
  - injection H2 as -> ->. apply (in_map fst) in H1. contradiction.
  - eapply IH; eauto.
Qed.

Lemma compat_ok : forall T l x t, func T -> (forall p, In p l -> In p T) -> In (x, t) T -> compatible x t l = true.
Proof.
  intros T l x t F H Hx. unfold compatible. destruct (lookup x l) as [s|] eqn:E; [|reflexivity].
  apply lookup_In, H in E. rewrite (F _ _ _ E Hx). apply cty_eqb_refl.
Qed.

Lemma check_app : forall a e b,
  check_unit e (a ++ b) = match check_unit e a with inl x => inl x | inr e' => check_unit e' b end.
Proof.
  induction a as [|i a IH]; intros e b; [reflexivity|]. cbn [app check_unit].
  destruct (check_item e i); [reflexivity|]. apply IH.
Qed.

Lemma ext_ok : forall T l e, func T -> (forall p, In p (e_seen e) -> In p T) ->
  (forall i, In i l -> is_ext i) -> (forall i, In i l -> In (sig i) T) ->
  check_unit e l = inr (mkE (rev (map sig l) ++ e_seen e) (e_done e)).
Proof.
  induction l as [|i l IH]; intros e F HS HE HT.
  - destruct e; reflexivity.
  - assert (HI := HE i (or_introl eq_refl)). destruct i as [x t| |]; try contradiction.
    cbn [check_unit check_item].
    rewrite (compat_ok T (e_seen e) x t F HS (HT _ (or_introl eq_refl))).
    rewrite IH; auto.
    + cbn [map rev e_seen e_done sig iname ity]. rewrite <- app_assoc. reflexivity.
    + intros p [<-|Hp]; [apply (HT _ (or_introl eq_refl))|auto].
    + intros i Hi. apply HE. right; auto.
    + intros i Hi. apply HT. right; auto.
Qed.

Lemma sta_ok : forall l e, (forall i, In i l -> is_sta i) -> NoDup (map iname l) ->
  (forall i, In i l -> ~ In (iname i) (map fst (e_seen e))) ->
  check_unit e l = inr (mkE (rev (map sig l) ++ e_seen e) (rev (map iname l) ++ e_done e)).
Proof.
  induction l as [|i l IH]; intros e HE N HD.
  - destruct e; reflexivity.
  - assert (HI := HE i (or_introl eq_refl)). destruct i as [|x t|]; try contradiction.
    cbn [check_unit check_item]. cbn [map iname] in N. inversion N; subst.
    destruct (known_name x (e_seen e)) eqn:K.
    { apply known_In in K. exfalso. apply (HD (Sta x t)); [left; reflexivity|exact K]. }
    rewrite IH; auto.
    + cbn [map rev e_seen e_done sig iname ity]. rewrite <- !app_assoc. reflexivity.
    + intros i Hi. apply HE. right; auto.
    + intros i Hi [E|Hin]; [|apply (HD i); [right; auto|auto]].
      cbn [fst] in E. apply H1. rewrite E. apply in_map. exact Hi.
Qed.

Fixpoint resolves (seen : list string) (l : list item) : Prop :=
  match l with
  | [] => True
  | i :: r => (forall x, In x (iuses i) -> In x (iname i :: seen)) /\ resolves (iname i :: seen) r
  end.

Lemma resolves_mono : forall l s s', (forall x, In x s -> In x s') -> resolves s l -> resolves s' l.
Proof.
  induction l as [|i l IH]; intros s s' H R; [exact I|]. destruct R as [R1 R2]. split.
  - intros x Hx. apply R1 in Hx. destruct Hx as [Hx|Hx]; [left; auto|right; auto].
  - revert R2. apply IH. intros x [Hx|Hx]; [left; auto|right; auto].
Qed.
Lemma resolves_app : forall a s b, resolves s a -> resolves (map iname a ++ s) b -> resolves s (a ++ b).
Proof.
  induction a as [|i a IH]; intros s b HA HB; [exact HB|]. destruct HA as [H1 H2]. cbn [app]. split; [exact H1|].
  apply IH; [exact H2|]. revert HB. apply resolves_mono. intros x Hx. cbn [map app] in Hx.
  rewrite in_app_iff. destruct Hx as [Hx|Hx]; [right; left; exact Hx|].
  apply in_app_or in Hx. destruct Hx as [Hx|Hx]; [left; exact Hx|right; right; exact Hx].
Qed.
Lemma resolves_all : forall l s, (forall i, In i l -> forall x, In x (iuses i) -> In x s) -> resolves s l.
Proof.
  induction l as [|i l IH]; intros s H; [exact I|]. split.
  - intros x Hx. right. apply (H i); [left; reflexivity|exact Hx].
  - apply IH. intros j Hj x Hx. right. apply (H j); [right; exact Hj|exact Hx].
Qed.
Lemma resolves_if : forall b l s, (b = true -> resolves s l) -> resolves s (items_if b l).
Proof. intros [] l s H; [apply H; reflexivity|exact I]. Qed.
Lemma resolves_flat : forall A (f : A -> list item) l s, (forall a s, In a l -> resolves s (f a)) ->
  resolves s (flat_map f l).
Proof.
  induction l as [|a l IH]; intros s H; [exact I|]. cbn [flat_map]. apply resolves_app.
  - apply H. left; reflexivity.
  - apply IH. intros b t Hb. apply H. right; exact Hb.
Qed.

Lemma def_ok : forall T l e, func T -> (forall p, In p (e_seen e) -> In (fst p) (map fst T) -> In p T) ->
  (forall i, In i l -> is_def i) -> (forall i, In i l -> In (sig i) T) -> NoDup (map iname l) ->
  (forall i, In i l -> mem_str (iname i) (e_done e) = false) -> resolves (map fst (e_seen e)) l ->
  exists e', check_unit e l = inr e'.
Proof.
  induction l as [|i l IH]; intros e F HS HE HT N HD R.
  - eexists; reflexivity.
  - assert (HI := HE i (or_introl eq_refl)). destruct i as [| |x t us]; try contradiction.
    destruct R as [R1 R2]. cbn [iname iuses] in R1, R2. cbn [map iname] in N. inversion N; subst.
    assert (HX : In (x, t) T) by (apply (HT (Def x t us)); left; reflexivity).
    cbn [check_unit check_item].
    assert (C : compatible x t (e_seen e) = true).
    { unfold compatible. destruct (lookup x (e_seen e)) as [s|] eqn:E; [|reflexivity].
      apply lookup_In in E. apply HS in E; [|apply (in_map fst) in HX; exact HX].
      rewrite (F _ _ _ E HX). apply cty_eqb_refl. }
    rewrite C. cbn [negb]. assert (M := HD (Def x t us) (or_introl eq_refl)). cbn [iname] in M. rewrite M. clear M.
    assert (FD : find (fun u => negb (known_name u ((x, t) :: e_seen e))) us = None).
    { destruct (find _ us) as [v|] eqn:E; [|reflexivity]. apply find_some in E. destruct E as [E1 E2].
      apply R1 in E1. apply negb_true_iff in E2.
      assert (K : known_name v ((x, t) :: e_seen e) = true) by (apply known_In; exact E1). congruence. }
    rewrite FD. apply IH; cbn [e_seen e_done]; auto.
    + intros p [<-|Hp] Q; [exact HX|auto].
    + intros i Hi. apply HE. right; auto.
    + intros i Hi. apply HT. right; auto.
    + intros i Hi. destruct (mem_str (iname i) (x :: e_done e)) eqn:M; [|reflexivity].
      apply mem_str_In in M. destruct M as [M|M].
      * exfalso. apply H1. rewrite M. apply in_map. exact Hi.
      * apply mem_str_In in M. rewrite (HD i) in M; [discriminate|right; exact Hi].
Qed.

(** A file: declarations, then file-local objects, then definitions. *)
Lemma unit_ok : forall T h s d, func T ->
  (forall i, In i h -> is_ext i) -> (forall i, In i h -> In (sig i) T) ->
  (forall i, In i s -> is_sta i) -> NoDup (map iname s) -> (forall i, In i s -> ~ In (iname i) (map iname h)) ->
  (forall i, In i d -> is_def i) -> (forall i, In i d -> In (sig i) T) -> NoDup (map iname d) ->
  (forall i, In i s -> ~ In (iname i) (map iname d)) ->
  resolves (map iname s ++ map iname h) d ->
  exists e, compile (h ++ s ++ d) = inr e.
Proof.
  intros T h s d F H1 H2 S1 S2 S3 D1 D2 D3 D4 R. unfold compile. rewrite check_app.
  rewrite (ext_ok T); auto; [|intros p []]. rewrite check_app. cbn [e_seen e_done].
  assert (HN : forall l : list item, map fst (rev (map sig l) ++ []) = rev (map iname l)).
  { intro l. rewrite app_nil_r, map_rev, map_map. reflexivity. }
  rewrite sta_ok; auto.
  2:{ intros i Hi. cbn [e_seen]. rewrite HN. rewrite <- in_rev. apply S3, Hi. }
  cbn [e_seen e_done]. rewrite !app_nil_r.
  (* only the types of names defined here matter *)
  apply (def_ok (filter (fun p => mem_str (fst p) (map iname d)) T)); cbn [e_seen e_done].
  - intros x a b Ha Hb. apply filter_In in Ha, Hb. apply (F x); tauto.
  - intros p Hp Q. apply in_map_iff in Q. destruct Q as [q [Q1 Q2]]. apply filter_In in Q2. destruct Q2 as [Q2 Q3].
    apply filter_In. rewrite <- Q1. split; [|exact Q3].
    apply mem_str_In in Q3. rewrite Q1 in Q3.
    apply in_app_or in Hp. destruct Hp as [Hp|Hp].
    + exfalso. apply in_rev in Hp. apply in_map_iff in Hp. destruct Hp as [i [<- Hi]]. apply (D4 i Hi Q3).
    + apply in_rev in Hp. apply in_map_iff in Hp. destruct Hp as [i [<- Hi]]. apply H2, Hi.
  - exact D1.
  - intros i Hi. apply filter_In. split; [apply D2, Hi|]. apply mem_str_In. cbn [sig fst]. apply in_map, Hi.
  - exact D3.
  - intros i Hi. destruct (mem_str _ _) eqn:M; [|reflexivity]. apply mem_str_In, in_rev in M.
    apply in_map_iff in M. destruct M as [j [E Hj]]. exfalso. apply (D4 j Hj). rewrite E. apply in_map, Hi.
  - revert R. apply resolves_mono. intros x Hx. rewrite map_app, in_app_iff, !map_rev, !map_map. rewrite <- !in_rev. apply in_app_or in Hx. tauto.
Qed.
