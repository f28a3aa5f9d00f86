(** Proofs about struct types and layouts. *)

From Coq Require Import String List Bool Arith Lia ZArith.
From Verif Require Import Base Config Symbols CTypes CTypesSpec.
Import ListNotations.
Open Scope string_scope.
Open Scope list_scope.

Lemma include_true : forall ys, include true (map workspace_h ys) = ([], flat_map externs ys).
Proof. induction ys as [|y ys IH]; simpl; auto. rewrite IH. reflexivity. Qed.

Lemma types_first : forall y ys, types_of (map workspace_h (y :: ys)) = typedefs y.
Proof. intros. unfold types_of. cbn [map include]. rewrite include_true. cbn [fst h_guarded h_plain workspace_h]. rewrite app_nil_r. reflexivity. Qed.

Lemma decls_all : forall y ys, decls_of (map workspace_h (y :: ys)) = flat_map externs (y :: ys).
Proof. intros. unfold decls_of. cbn [map include]. rewrite include_true. reflexivity. Qed.

Lemma typedefs_distinct : forall y, distinct (map fst (typedefs y)) = true.
Proof.
  intros. unfold typedefs. rewrite !map_app.
  destruct (nonempty (t_duals y)), (is_expl y), (extra_stgs (t_if y)); reflexivity.
Qed.

(** The types a file needs to know for the declarations of a program. *)
Definition fits_in (y z : tin) : Prop :=
  (t_explicit z <> 1 -> t_duals z <> [] -> t_duals y <> [])
  /\ (t_explicit z = 0 -> t_explicit y = 0)
  /\ (extra_stgs (t_if z) = true -> extra_stgs (t_if y) = true).

Lemma known_list : forall y n, known (typedefs y) n = true <->
  In n ["cpg_float"; "cpg_int"; "cpg_csc"; "Canon_Params_t"; "Canon_Outdated_t"; "CPG_Prim_t"; "CPG_Result_t"; "CPG_Delta_t"]
  \/ (n = "CPG_Dual_t" /\ t_duals y <> []) \/ (n = "CPG_Info_t" /\ t_explicit y = 0)
  \/ (n = "Canon_Settings_t" /\ extra_stgs (t_if y) = true).
Proof.
  intros y n.
  assert (K : known (typedefs y) n = mem_str n (map fst (typedefs y))).
  { unfold known. generalize (typedefs y). induction t as [|[a b] t IH]; simpl; auto.
    unfold mem_str in *. simpl. destruct (n =? a)%string; simpl; auto. }
  rewrite K, mem_str_In. unfold typedefs. rewrite !map_app, !in_app_iff.
  assert (D : nonempty (t_duals y) = true <-> t_duals y <> []).
  { destruct (t_duals y); simpl; split; congruence. }
  assert (X : is_expl y = false <-> t_explicit y = 0).
  { unfold is_expl. rewrite negb_false_iff. apply Nat.eqb_eq. }
  destruct (nonempty (t_duals y)) eqn:E1, (is_expl y) eqn:E2, (extra_stgs (t_if y)) eqn:E3; cbn -[String.eqb];
    intuition (subst; try congruence; auto 20).
Qed.

Lemma accepted_iff : forall y zs,
  accepted (map workspace_h (y :: zs)) = true <-> Forall (fits_in y) zs.
Proof.
  intros. unfold accepted. rewrite types_first, decls_all, typedefs_distinct. cbn [andb].
  rewrite forallb_forall, Forall_forall.
  assert (H : forall z, fits_in y z <-> forall d, In d (externs z) -> known (typedefs y) (snd d) = true).
  { intro z. unfold fits_in. split.
    - intros (A & B & C) d Hd. apply known_list. unfold externs in Hd. rewrite !in_app_iff in Hd.
      destruct Hd as [Hd|[Hd|[Hd|[Hd|[Hd|[Hd|[Hd|[Hd|[Hd|Hd]]]]]]]]].
      + destruct Hd as [<-|[]]; simpl; tauto.
      + destruct (inmem (t_if z)); [destruct Hd as [<-|[]]; simpl; tauto | destruct Hd].
      + destruct Hd as [<-|[]]; simpl; tauto.
      + destruct (t_gradient z && negb (two_stage_t z)); [destruct Hd as [<-|[]]; simpl; tauto | destruct Hd].
      + destruct Hd as [<-|[]]; simpl; tauto.
      + destruct (negb (Nat.eqb (t_explicit z) 1)) eqn:E; [|destruct Hd].
        destruct (t_duals z) eqn:E2; [destruct Hd|]. cbn in Hd. destruct Hd as [<-|[]]. right; left.
        split; auto. apply A. apply negb_true_iff, Nat.eqb_neq in E; auto. congruence.
      + unfold is_expl in Hd. rewrite negb_involutive in Hd. destruct (Nat.eqb (t_explicit z) 0) eqn:E; [|destruct Hd].
        destruct Hd as [<-|[]]. right; right; left. split; auto. apply B. apply Nat.eqb_eq; auto.
      + destruct Hd as [<-|[]]; simpl; tauto.
      + destruct (extra_stgs (t_if z)); [|destruct Hd]. destruct Hd as [<-|[]]. right; right; right. auto.
      + destruct (t_gradient z); [destruct Hd as [<-|[]]; simpl; tauto | destruct Hd].
    - intro H. split; [|split].
      + intros E1 E2. assert (K : known (typedefs y) "CPG_Dual_t" = true).
        { apply (H ((t_prefix z ++ "CPG_Dual")%string, "CPG_Dual_t")). unfold externs. rewrite !in_app_iff.
          right; right; right; right; right; left. apply Nat.eqb_neq in E1. rewrite E1.
          destruct (t_duals z); [congruence|]. simpl; auto. }
        apply known_list in K. simpl in K. intuition congruence.
      + intros E1. assert (K : known (typedefs y) "CPG_Info_t" = true).
        { apply (H ((t_prefix z ++ "CPG_Info")%string, "CPG_Info_t")). unfold externs. rewrite !in_app_iff.
          right; right; right; right; right; right; left. unfold is_expl. rewrite E1. simpl; auto. }
        apply known_list in K. simpl in K. intuition congruence.
      + intros E1. assert (K : known (typedefs y) "Canon_Settings_t" = true).
        { apply (H ((t_prefix z ++ "Canon_Settings")%string, "Canon_Settings_t")). unfold externs. rewrite !in_app_iff.
          do 8 right. left. rewrite E1. simpl; auto. }
        apply known_list in K. simpl in K. intuition congruence. }
  split.
  - intros F z Hz. apply H. intros d Hd. apply F. cbn [flat_map]. apply in_or_app. right. apply in_flat_map. exists z; auto.
  - intros F d Hd. cbn [flat_map] in Hd. apply in_app_or in Hd. destruct Hd as [Hd|Hd].
    + revert d Hd. apply H. unfold fits_in. auto.
    + apply in_flat_map in Hd. destruct Hd as (z & Hz & Hd). revert d Hd. apply H. auto.
Qed.

(** ** Layout of structs whose members take eight bytes *)

Lemma up8 : forall k, round_up (8 * k) 8 = 8 * k.
Proof.
  intros. unfold round_up.
  replace (8 * k + 8 - 1) with (7 + k * 8) by lia. rewrite Nat.div_add by lia. simpl. lia.
Qed.

Fixpoint cells8 (e : tenv) (k : nat) (fs : fields) : list (nat * rty * string) :=
  match fs with [] => [] | (n, t) :: tl => (8 * k, resolve e t, n) :: cells8 e (S k) tl end.

Definition eight (e : tenv) (fs : fields) : Prop := Forall (fun f => rsize (resolve e (snd f)) = 8) fs.

Lemma layout_cells : forall e fs k, eight e fs -> layout e (8 * k) fs = cells8 e k fs.
Proof.
  induction fs as [|[n t] fs IH]; intros k H; auto. inversion H as [|? ? H1 H2]; subst. cbn [snd] in H1.
  cbn [layout cells8]. rewrite H1, up8. f_equal. replace (8 * k + 8) with (8 * S k) by lia. apply IH; auto.
Qed.

Lemma cells_ge : forall e fs k c, In c (cells8 e k fs) -> 8 * k <= fst (fst c) /\ In (snd c) (map fst fs).
Proof.
  induction fs as [|[n t] fs IH]; intros k c H; simpl in H; [tauto|]. destruct H as [<-|H].
  - simpl. split; [lia | auto].
  - apply IH in H. simpl. destruct H. split; [lia | auto].
Qed.

Lemma rty_eqb_eq : forall a b, rty_eqb a b = true <-> a = b.
Proof.
  induction a; destruct b; simpl; split; intro H; try discriminate; try congruence.
  - apply String.eqb_eq in H. congruence.
  - injection H as ->. apply String.eqb_refl.
  - apply IHa in H. congruence.
  - injection H as ->. apply IHa. auto.
  - apply String.eqb_eq in H. congruence.
  - injection H as ->. apply String.eqb_refl.
Qed.

Definition pick (f : string) (l : list (nat * rty * string)) := find (fun c => String.eqb (snd c) f) l.
Definition at_cell (o : nat) (r : rty) (l : list (nat * rty * string)) :=
  find (fun c => Nat.eqb (fst (fst c)) o && rty_eqb (snd (fst c)) r) l.
Definition reads (l l' : list (nat * rty * string)) (f : string) : Prop :=
  exists o r n o' r', pick f l = Some (o, r, n) /\ at_cell o r l' = Some (o', r', f).

Lemma member_reads : forall e fs e' fs' f,
  member e fs e' fs' f = Ok f <-> reads (layout e 0 fs) (layout e' 0 fs') f.
Proof.
  intros. unfold member, reads, pick, at_cell. split.
  - destruct (find _ (layout e 0 fs)) as [[[o r] n]|] eqn:E1; [|discriminate].
    destruct (find _ (layout e' 0 fs')) as [[[o' r'] g]|] eqn:E2; [|discriminate].
    intro H. injection H as ->. exists o, r, n, o', r'. auto.
  - intros (o & r & n & o' & r' & E1 & E2). rewrite E1, E2. reflexivity.
Qed.

(** Types are determined by their representation. *)
Definition agree (e e' : tenv) (fs fs' : fields) : Prop :=
  forall t t', In t (map snd fs) -> In t' (map snd fs') -> resolve e t = resolve e' t' -> t = t'.

Lemma pick_name : forall f l c, pick f l = Some c -> snd c = f /\ In c l.
Proof. intros f l c H. apply find_some in H. destruct H as [A B]. apply String.eqb_eq in B. auto. Qed.
Lemma at_cell_spec : forall o r l c, at_cell o r l = Some c -> fst (fst c) = o /\ snd (fst c) = r /\ In c l.
Proof.
  intros o r l c H. apply find_some in H. destruct H as [A B]. apply andb_true_iff in B. destruct B as [B C].
  apply Nat.eqb_eq in B. apply rty_eqb_eq in C. auto.
Qed.

Lemma reads_prefix : forall e e' fs' fs k,
  NoDup (map fst fs') -> agree e e' fs fs' ->
  ((forall f, In f (map fst fs') -> reads (cells8 e k fs) (cells8 e' k fs') f) ->
   starts_with fs fs').
Proof.
  intros e e' fs'. induction fs' as [|[n t'] fs' IH]; intros fs k N A H.
  - exists fs. reflexivity.
  - inversion N as [|? ? N1 N2]; subst.
    destruct (H n) as (o & r & n0 & o' & r' & P & Q); [simpl; auto|].
    apply pick_name in P. destruct P as [P1 P2]. simpl in P1. subst n0.
    apply at_cell_spec in Q. destruct Q as (Q1 & Q2 & Q3). cbn [fst snd] in Q1, Q2. subst o' r'.
    cbn [cells8] in Q3. destruct Q3 as [Q3|Q3].
    2:{ apply cells_ge in Q3. destruct Q3 as [_ Q3]. cbn [snd] in Q3. contradiction. }
    injection Q3 as Qo Qr. subst o.
    destruct fs as [|[m t] fs]; [destruct P2|].
    cbn [cells8] in P2. destruct P2 as [P2|P2].
    2:{ apply cells_ge in P2. cbn [fst] in P2. lia. }
    injection P2 as Er Em. subst m.
    assert (t = t') as ->. { apply A; simpl; auto. congruence. }
    destruct (IH fs (S k)) as [rest R]; auto.
    + intros a b Ha Hb. apply A; simpl; auto.
    + intros f Hf. assert (f <> n) by (intros ->; contradiction).
      destruct (H f) as (o & r0 & n0 & o' & r' & P & Q); [simpl; auto|].
      unfold pick in P. cbn [cells8 find] in P. cbn [snd] in P.
      rewrite (proj2 (String.eqb_neq n f)) in P by auto.
      exists o, r0, n0, o', r'. split; auto.
      pose proof (at_cell_spec _ _ _ _ Q) as (Z1 & Z2 & Z3). cbn [fst snd] in Z1, Z2.
      unfold at_cell in *. cbn [cells8 find] in Q.
      destruct (_ && _) in Q; [injection Q as _ _ Q; congruence | auto].
    + exists rest. rewrite R. reflexivity.
Qed.

Lemma prefix_reads : forall e e' fs' fs k,
  NoDup (map fst fs) -> (forall t, In t (map snd fs') -> resolve e t = resolve e' t) ->
  starts_with fs fs' ->
  forall f, In f (map fst fs') -> reads (cells8 e k fs) (cells8 e' k fs') f.
Proof.
  intros e e' fs'. induction fs' as [|[n t] fs' IH]; intros fs k N A [rest ->] f Hf; [destruct Hf|].
  cbn [app map] in *. inversion N as [|? ? N1 N2]; subst. cbn [fst] in N1.
  unfold reads, pick, at_cell. cbn [cells8 find fst snd].
  destruct (String.eqb n f) eqn:E.
  - apply String.eqb_eq in E. subst f. exists (8 * k), (resolve e t), n, (8 * k), (resolve e' t).
    split; auto. rewrite Nat.eqb_refl, (A t) by (simpl; auto).
    rewrite (proj2 (rty_eqb_eq _ _) eq_refl). reflexivity.
  - apply String.eqb_neq in E. destruct Hf as [Hf|Hf]; [simpl in Hf; congruence|].
    destruct (IH (fs' ++ rest) (S k)) with (f := f) as (o & r & n0 & o' & r' & P & Q); auto.
    { intros u Hu. apply A. simpl; auto. } { exists rest; auto. }
    exists o, r, n0, o', r'. split; auto.
    destruct (Nat.eqb (8 * k) o) eqn:Eo; [|exact Q].
    apply Nat.eqb_eq in Eo. apply pick_name in P. destruct P as [_ P]. apply cells_ge in P. cbn [fst] in P. lia.
Qed.

(** Members that are numbers or pointers to numbers. *)
Definition plain (fs : fields) : Prop := Forall (fun f => snd f = fl \/ snd f = TPtr fl) fs.

Lemma float_ordinary : forall y, ordinary y -> resolve (typedefs y) fl = RB "double".
Proof. intros y [E F]. unfold typedefs, is_expl. rewrite E. simpl. destruct (t_if y); try reflexivity. congruence. Qed.

Lemma plain_eight : forall y fs, ordinary y -> plain fs -> eight (typedefs y) fs.
Proof.
  intros y fs O P. apply Forall_impl with (2 := P). intros [n t] [E|E]; cbn [snd] in *; subst t.
  - rewrite float_ordinary; auto.
  - reflexivity.
Qed.

Lemma plain_members : forall y1 y2 fs fs', ordinary y1 -> ordinary y2 -> plain fs -> plain fs' ->
  NoDup (map fst fs) -> NoDup (map fst fs') ->
  ((forall f, In f (map fst fs') -> member (typedefs y1) fs (typedefs y2) fs' f = Ok f) <-> starts_with fs fs').
Proof.
  intros y1 y2 fs fs' O1 O2 P1 P2 N1 N2.
  assert (L1 : layout (typedefs y1) 0 fs = cells8 (typedefs y1) 0 fs) by (apply (layout_cells _ _ 0), plain_eight; auto).
  assert (L2 : layout (typedefs y2) 0 fs' = cells8 (typedefs y2) 0 fs') by (apply (layout_cells _ _ 0), plain_eight; auto).
  pose proof (float_ordinary y1 O1) as F1. pose proof (float_ordinary y2 O2) as F2.
  unfold plain in *. rewrite Forall_forall in P1, P2.
  assert (A : agree (typedefs y1) (typedefs y2) fs fs').
  { intros t t' Ht Ht' E. apply in_map_iff in Ht, Ht'. destruct Ht as (a & <- & Ha). destruct Ht' as (b & <- & Hb).
    destruct (P1 a Ha) as [X|X], (P2 b Hb) as [Y|Y]; rewrite X, Y in *;
      [reflexivity | rewrite F1 in E; discriminate E | rewrite F2 in E; discriminate E | reflexivity]. }
  assert (B : forall t, In t (map snd fs') -> resolve (typedefs y1) t = resolve (typedefs y2) t).
  { intros t Ht. apply in_map_iff in Ht. destruct Ht as (b & <- & Hb). destruct (P2 b Hb) as [Y|Y]; rewrite Y.
    - rewrite F1, F2. reflexivity.
    - change (RP (resolve (typedefs y1) fl) = RP (resolve (typedefs y2) fl)). rewrite F1, F2. reflexivity. }
  split.
  - intro H. apply reads_prefix with (e := typedefs y1) (e' := typedefs y2) (k := 0); auto.
    intros f Hf. rewrite <- L1, <- L2. apply member_reads; auto.
  - intros H f Hf. apply member_reads. rewrite L1, L2. apply prefix_reads; auto.
Qed.
