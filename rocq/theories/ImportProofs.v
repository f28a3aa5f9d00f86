(** Proofs about generation, import and registration (Import.v, ImportSpec.v). *)

From Coq Require Import String Ascii Arith Bool Lia List.
From Verif Require Import Base Config Import ImportSpec.
Import ListNotations.
Open Scope string_scope.
Open Scope list_scope.

Lemma path_eqb_eq : forall a b, path_eqb a b = true <-> a = b.
Proof.
  induction a as [|x a IH]; intros [|y b]; cbn [path_eqb]; split; intro H; try discriminate; auto.
  - apply andb_true_iff in H. destruct H as [H1 H2]. apply String.eqb_eq in H1. apply IH in H2. congruence.
  - injection H as -> ->. rewrite String.eqb_refl. apply IH. auto.
Qed.
Lemma path_eqb_refl : forall a, path_eqb a a = true.
Proof. intro a. apply path_eqb_eq. auto. Qed.
Lemma path_eqb_neq : forall a b, a <> b -> path_eqb a b = false.
Proof. intros a b H. destruct (path_eqb a b) eqn:E; auto. apply path_eqb_eq in E. contradiction. Qed.
Lemma below_app : forall p q, below p q = true -> exists r, q = p ++ r.
Proof.
  induction p as [|x p IH]; intros [|y q] H; cbn [below] in H; try discriminate; [exists []; auto|exists (y :: q); auto|].
  apply andb_true_iff in H. destruct H as [H1 H2]. apply String.eqb_eq in H1. destruct (IH _ H2) as (r & ->). exists r. cbn. congruence.
Qed.
Lemma below_refl_app : forall p r, below p (p ++ r) = true.
Proof. induction p as [|x p IH]; intros r; cbn; auto. now rewrite String.eqb_refl, IH. Qed.
Lemma below_long : forall p q, length q < length p -> below p q = false.
Proof. intros p q H. destruct (below p q) eqn:E; auto. apply below_app in E. destruct E as (r & ->). rewrite app_length in H. lia. Qed.

(** ** Strings *)

Lemma split_none : forall c s, has c s = false -> split c s = [s].
Proof. induction s as [|a s IH]; intro H; auto. cbn [has split] in *. apply orb_false_iff in H. destruct H as [H1 H2]. rewrite H1, IH; auto. Qed.
Lemma split_nonempty : forall c s, split c s <> [].
Proof. intros c [|a s]; cbn [split]; [discriminate|]. destruct (Ascii.eqb a c); [discriminate|]. destruct (split c s); discriminate. Qed.
Lemma repl_none : forall a b s, has a s = false -> repl a b s = s.
Proof. induction s as [|x s IH]; intro H; auto. cbn [has repl] in *. apply orb_false_iff in H. destruct H as [H1 H2]. rewrite H1, IH; auto. Qed.
Lemma all_has : forall (f : ascii -> bool) c s, f c = false -> all_chars f s = true -> has c s = false.
Proof.
  intros f c s Hf. induction s as [|a s IH]; intro H; auto. cbn [all_chars has] in *. apply andb_true_iff in H. destruct H as [H1 H2]. rewrite IH by auto.
  destruct (Ascii.eqb_spec a c) as [->|]; auto. congruence.
Qed.
Lemma ident_chars : forall d, identifier d = true -> all_chars id_char d = true.
Proof.
  intros [|a t] H; [discriminate|]. cbn [identifier] in H. apply andb_true_iff in H. destruct H as [H _]. apply andb_true_iff in H. destruct H as [H1 H2].
  cbn [all_chars]. unfold id_char at 1. now rewrite H1, H2.
Qed.
Lemma ident_has : forall d c, identifier d = true -> id_char c = false -> has c d = false.
Proof. intros d c H Hc. apply (all_has id_char); auto. apply ident_chars; auto. Qed.
Lemma ident_ne : forall d, identifier d = true -> d <> "" /\ d <> "." /\ d <> "..".
Proof. intros d H. repeat split; intros ->; discriminate. Qed.
Lemma ident_resolve : forall d c, identifier d = true -> resolve c d = c ++ [d].
Proof.
  intros d c H. unfold resolve. rewrite split_none by (apply ident_has; auto). unfold absolute, walk.
  destruct (ident_ne d H) as (N1 & N2 & N3). destruct d as [|a t]; [contradiction|].
  assert (Ha : has slash (String a t) = false) by (apply ident_has; auto). cbn [has] in Ha. apply orb_false_iff in Ha. destruct Ha as [-> _].
  cbn [fold_left]. rewrite (proj2 (String.eqb_neq _ _) N1), (proj2 (String.eqb_neq _ _) N2), (proj2 (String.eqb_neq _ _) N3). reflexivity.
Qed.
Lemma ident_dotted : forall d, identifier d = true -> dotted d = d.
Proof. intros d H. unfold dotted. rewrite (repl_none slash) by (apply ident_has; auto). apply repl_none. apply ident_has; auto. Qed.
Lemma ident_clean : forall d, identifier d = true -> clean d = true.
Proof. intros d H. unfold clean. rewrite (ident_has d slash) by auto. destruct (ident_ne d H) as (N1 & _). rewrite (proj2 (String.eqb_neq _ _) N1). reflexivity. Qed.
Lemma ident_last_dot : forall d, identifier d = true -> last_dot d = false.
Proof.
  intros d H. unfold last_dot. rewrite split_none by (apply ident_has; auto). cbn [last]. destruct (ident_ne d H) as (_ & N2 & N3).
  now rewrite (proj2 (String.eqb_neq _ _) N2), (proj2 (String.eqb_neq _ _) N3).
Qed.

Lemma app_last_inj : forall (a b : path) x y, a ++ [x] = b ++ [y] -> a = b /\ x = y.
Proof. intros a b x y H. apply app_inj_tail in H. auto. Qed.
Lemma snoc_ne : forall (a : path) x, a ++ [x] <> a.
Proof. intros a x H. apply (f_equal (@length _)) in H. rewrite app_length in H. cbn in H. lia. Qed.

(** ** Directories *)

Section Session.
  Variable builtin : string -> bool.
  Variable c0 : path.

  Definition made (fs : files) (d : string) (n : node) : files := put (c0 ++ [d]) n (rmtree c0 d fs).
  Lemma made_here : forall fs d n, made fs d n (c0 ++ [d]) = Some n.
  Proof. intros. unfold made, put. now rewrite path_eqb_refl. Qed.
  Lemma rmtree_other : forall fs d q, identifier d = true -> below (c0 ++ [d]) q = false -> rmtree c0 d fs q = fs q.
  Proof.
    intros fs d q Hd Hq. unfold rmtree. destruct (ident_ne d Hd) as (N1 & _). rewrite (proj2 (String.eqb_neq _ _) N1). cbv zeta. rewrite ident_resolve by auto. rewrite Hq.
    destruct (path_eqb (c0 ++ [d]) q) eqn:E; auto. apply path_eqb_eq in E. subst q. rewrite <- (app_nil_r (c0 ++ [d])) in Hq at 2. now rewrite below_refl_app in Hq.
  Qed.
  Lemma made_cwd : forall fs d n, identifier d = true -> made fs d n c0 = fs c0.
  Proof.
    intros fs d n Hd. unfold made, put. rewrite path_eqb_neq by (intro E; symmetry in E; exact (snoc_ne _ _ E)). apply rmtree_other; auto. apply below_long. rewrite app_length. cbn. lia.
  Qed.
  Lemma made_sub : forall fs d n q m, identifier d = true -> q <> c0 ++ [d] -> made fs d n q = Some m -> fs q = Some m.
  Proof.
    intros fs d n q m Hd Hq. unfold made, put. rewrite path_eqb_neq by auto. unfold rmtree. destruct (ident_ne d Hd) as (N1 & _). rewrite (proj2 (String.eqb_neq _ _) N1). cbv zeta. rewrite ident_resolve by auto.
    rewrite path_eqb_neq by auto. destruct (below _ _); [discriminate|auto].
  Qed.

  Lemma mkdir_ok : forall fs d, identifier d = true -> (c0 = [] \/ exists i a b, fs c0 = Some (NDir i a b)) ->
    exists fs2, mkdir c0 d (rmtree c0 d fs) = inr fs2 /\ forall n q, put (c0 ++ [d]) n fs2 q = made fs d n q.
  Proof.
    intros fs d Hd Hc. unfold mkdir. destruct (ident_ne d Hd) as (N1 & _). rewrite (proj2 (String.eqb_neq _ _) N1). cbv zeta. rewrite ident_resolve by auto.
    assert (E : forall i a b, rmtree c0 d fs (c0 ++ [d]) <> Some (NDir i a b)).
    { intros i a b. unfold rmtree. rewrite (proj2 (String.eqb_neq _ _) N1). cbv zeta. rewrite ident_resolve by auto. rewrite path_eqb_refl, ident_last_dot by auto. intro X. destruct (fs (c0 ++ [d])) as [[? ? ?|]|]; discriminate X. }
    assert (X : match c0 ++ [d] with
      | [] => inl FileExists
      | _ => match removelast (c0 ++ [d]), rmtree c0 d fs (removelast (c0 ++ [d])) with
             | [], _ | _, Some (NDir _ _ _) => inr (fun q => if path_eqb q (c0 ++ [d]) then Some (NDir false None None) else rmtree c0 d fs q)
             | _, _ => inl FileNotFound end end
      = inr (fun q => if path_eqb q (c0 ++ [d]) then Some (NDir false None None) else rmtree c0 d fs q)).
    { destruct (c0 ++ [d]) as [|h r] eqn:El; [destruct c0; discriminate|]. rewrite <- El. rewrite removelast_last. rewrite (rmtree_other fs d c0) by (auto; apply below_long; rewrite app_length; cbn; lia).
      destruct Hc as [->|(i & a & b & ->)]; auto. destruct c0; auto. }
    exists (fun q => if path_eqb q (c0 ++ [d]) then Some (NDir false None None) else rmtree c0 d fs q). split.
    - destruct (rmtree c0 d fs (c0 ++ [d])) as [[i a b|]|] eqn:Ef; [destruct (E _ _ _ eq_refl)| |]; exact X.
    - intros n q. unfold made, put. destruct (path_eqb q (c0 ++ [d])); auto.
  Qed.

  Lemma find_ahead : forall (f : path -> bool) l, existsb (path_eqb c0) l = true -> (forall e, In e (ahead c0 l) -> f e = false) -> f c0 = true -> find f l = Some c0.
  Proof.
    intros f. induction l as [|e l IH]; intros He Ha Hf; [discriminate|]. cbn [existsb find ahead] in *. destruct (path_eqb c0 e) eqn:E.
    - apply path_eqb_eq in E. subst e. now rewrite Hf.
    - rewrite (Ha e (or_introl eq_refl)). apply IH; auto. intros e' He'. apply Ha. right. auto.
  Qed.

  (** sys.path when the module is imported. *)
  Definition path_in (l : list path) : list path := if existsb (path_eqb c0) l then l else c0 :: l.
  Lemma path_in_has : forall l, existsb (path_eqb c0) (path_in l) = true.
  Proof. intro l. unfold path_in. destruct (existsb _ l) eqn:E; auto. cbn. now rewrite path_eqb_refl. Qed.
  Lemma path_in_idem : forall l, path_in (path_in l) = path_in l.
  Proof. intro l. unfold path_in at 1. now rewrite path_in_has. Qed.
  Definition free (fs : files) (l : list path) (d : string) : Prop :=
    existsb (path_eqb c0) l = true -> forall e n, In e (ahead c0 l) -> fs (e ++ [d]) = Some n -> regular n = false.
  Lemma free_in : forall fs l d, free fs l d -> free fs (path_in l) d.
  Proof.
    intros fs l d H _ e n. unfold path_in. destruct (existsb _ l) eqn:E; [apply H; auto|]. cbn [ahead]. rewrite path_eqb_refl. intros [].
  Qed.
  Lemma ahead_ne : forall l e, In e (ahead c0 l) -> e <> c0.
  Proof.
    induction l as [|a l IH]; intros e H; [destruct H|]. cbn [ahead] in H. destruct (path_eqb c0 a) eqn:E; [destruct H|]. destruct H as [<-|H]; [|auto].
    intros ->. now rewrite path_eqb_refl in E.
  Qed.
  Lemma free_made : forall fs l d d' n, identifier d = true -> free fs l d' -> free (made fs d n) l d'.
  Proof.
    intros fs l d d' n Hd H E e m He Hm. apply (H E e m He). apply (made_sub fs d n); auto. intro X. apply app_last_inj in X. destruct X as [-> _]. exact (ahead_ne _ _ He eq_refl).
  Qed.
  Lemma find_made : forall (fs : files) l d py ext, identifier d = true -> free fs l d -> fs (c0 ++ [d]) = Some (NDir true py ext) ->
    find_in fs (path_in l) d = Some (MPkg (c0 ++ [d])).
  Proof.
    intros fs l d py ext Hd Hf E. unfold find_in. rewrite ident_clean by auto. rewrite (find_ahead _ (path_in l)).
    - rewrite E. reflexivity.
    - apply path_in_has.
    - intros e He. destruct (fs (e ++ [d])) as [n|] eqn:En; auto. apply (free_in fs l d Hf (path_in_has l) e n He En).
    - rewrite E. reflexivity.
  Qed.

  (** ** The invariant *)

  Definition mods_ok (mods : list string -> option modl) (loaded : string -> option nat) (d : string) : Prop :=
    match loaded d with
    | Some g => mods [d; "cpg_solver"] = Some (MSolve g g)
    | None => (mods [d] = None \/ mods [d] = Some (MPkg (c0 ++ [d]))) /\ mods [d; "cpg_solver"] = None /\ mods [d; "cpg_module"] = None
    end.
  Record inv (D : string -> Prop) (loaded : string -> option nat) (s : st) : Prop := mkInv
    { i_cwd : s_cwd s = c0;
      i_here : c0 = [] \/ exists i a b, s_fs s c0 = Some (NDir i a b);
      i_free : forall d, D d -> identifier d = true /\ builtin d = false /\ free (s_fs s) (s_path s) d;
      i_mods : forall d, D d -> mods_ok (s_mods s) loaded d }.

  Lemma setmod_same : forall n m f, setmod n m f n = Some m.
  Proof. intros. unfold setmod. now rewrite path_eqb_refl. Qed.
  Lemma setmod_ne : forall n m f k, k <> n -> setmod n m f k = f k.
  Proof. intros. unfold setmod. now rewrite path_eqb_neq. Qed.

  (** Importing the module of a directory that has just been written. *)
  Lemma import_fresh : forall s d g ext, identifier d = true -> builtin d = false -> s_cwd s = c0 -> s_fs s (c0 ++ [d]) = Some (NDir true (Some (g, d)) ext) ->
    free (s_fs s) (s_path s) d -> (s_mods s [d] = None \/ s_mods s [d] = Some (MPkg (c0 ++ [d]))) -> s_mods s [d; "cpg_solver"] = None -> s_mods s [d; "cpg_module"] = None ->
    exists mods r, import_solver builtin (mkSt (s_fs s) (s_cwd s) (path_in (s_path s)) (s_mods s) (s_reg s) (s_next s)) d
        = (mkSt (s_fs s) (s_cwd s) (path_in (s_path s)) mods (s_reg s) (s_next s), r)
      /\ r = match ext with Some c => inr (g, c) | None => inl ImportFailed end
      /\ (forall k, hd "" k <> d -> mods k = s_mods s k)
      /\ mods [d] = Some (MPkg (c0 ++ [d]))
      /\ match ext with
         | Some c => mods [d; "cpg_solver"] = Some (MSolve g c)
         | None => mods [d; "cpg_solver"] = None /\ mods [d; "cpg_module"] = None
         end.
  Proof.
    intros s d g ext Hd Hb Hc Hf Hfree Hm Hs Hx. unfold import_solver. rewrite (split_none dot) by (apply ident_has; auto). cbn [hd app].
    destruct (ident_ne d Hd) as (N1 & _). rewrite (proj2 (String.eqb_neq _ _) N1). cbn [s_mods]. rewrite Hs.
    assert (P : exists mods, import_pkg builtin (mkSt (s_fs s) (s_cwd s) (path_in (s_path s)) (s_mods s) (s_reg s) (s_next s)) [] [d] None
        = (mkSt (s_fs s) (s_cwd s) (path_in (s_path s)) mods (s_reg s) (s_next s), inr (MPkg (c0 ++ [d])))
        /\ (forall k, k <> [d] -> mods k = s_mods s k) /\ mods [d] = Some (MPkg (c0 ++ [d]))).
    { cbn [import_pkg app s_mods s_fs s_path]. destruct Hm as [Hm|Hm]; rewrite Hm.
      - rewrite Hb, (find_made _ _ d (Some (g, d)) ext) by auto. cbn [import_pkg with_mods s_fs s_cwd s_path s_mods s_reg s_next]. eexists. split; [reflexivity|].
        split; [intros k Hk; apply setmod_ne; auto|apply setmod_same].
      - exists (s_mods s). split; [reflexivity|]. split; auto. }
    destruct P as (mods1 & -> & K1 & K2). cbn [s_fs]. rewrite Hf. unfold from_import. rewrite (split_none dot) by (apply ident_has; auto). cbn [hd].
    rewrite (proj2 (String.eqb_neq _ _) N1). cbn [forallb andb]. rewrite Hd. cbn [andb import_pkg app s_mods]. rewrite K2. cbn [import_pkg s_mods app s_fs].
    rewrite (K1 [d; "cpg_module"]) by discriminate. rewrite Hx, Hf. destruct ext as [c|].
    - unfold with_mods. cbn [s_fs s_cwd s_path s_mods s_reg s_next]. eexists _, _. split; [reflexivity|]. split; [reflexivity|].
      split; [|split; [|apply setmod_same]].
      + intros k Hk. rewrite !setmod_ne, K1; auto; intros ->; apply Hk; reflexivity.
      + rewrite !setmod_ne by discriminate. exact K2.
    - exists mods1. eexists. split; [reflexivity|]. split; [reflexivity|]. split; [|split; [exact K2|split]].
      + intros k Hk. apply K1. intros ->. apply Hk. reflexivity.
      + rewrite K1 by discriminate. auto.
      + rewrite K1 by discriminate. auto.
  Qed.

  Lemma step_ok : forall D loaded s p d w b, inv D loaded s -> D d ->
    exists s' loaded', generate builtin s p d w b = (s', match w, loaded d, b with true, None, false => Some ImportFailed | _, _, _ => None end)
      /\ inv D loaded' s' /\ s_next s' = S (s_next s)
      /\ match w, loaded d, b with
         | true, Some g, _ => loaded' = loaded /\ s_reg s' = upd Nat.eqb (s_reg s) p (g, g)
         | true, None, true => loaded' = upd String.eqb loaded d (s_next s) /\ s_reg s' = upd Nat.eqb (s_reg s) p (s_next s, s_next s)
         | _, _, _ => loaded' = loaded /\ s_reg s' = s_reg s
         end.
  Proof.
    intros D loaded s p d w b [IC IH IF IM] HD. destruct (IF d HD) as (Hd & Hb & Hf). pose proof (IM d HD) as Hm.
    unfold generate. rewrite IC. destruct (mkdir_ok (s_fs s) d Hd IH) as (fs2 & -> & Efs). rewrite ident_resolve, ident_dotted by auto.
    assert (Eput : forall n n' q, put (c0 ++ [d]) n (put (c0 ++ [d]) n' fs2) q = made (s_fs s) d n q).
    { intros n n' q. rewrite <- Efs. unfold put. destruct (path_eqb q (c0 ++ [d])); auto. }
    assert (HereN : forall n fs', (forall q, fs' q = made (s_fs s) d n q) -> c0 = [] \/ exists i a b, fs' c0 = Some (NDir i a b)).
    { intros n fs' E. rewrite E, made_cwd by auto. exact IH. }
    assert (FreeN : forall n fs' d', (forall q, fs' q = made (s_fs s) d n q) -> D d' -> free fs' (s_path s) d').
    { intros n fs' d' E HD'. intros He e m Hin Hm'. rewrite E in Hm'. destruct (IF d' HD') as (_ & _ & Hf'). apply (free_made (s_fs s) (s_path s) d d' n Hd Hf' He e m Hin Hm'). }
    destruct w; cbn [orb].
    - set (nd := NDir true (Some (s_next s, d)) (if b then Some (s_next s) else None)). unfold register. cbn [s_fs s_cwd s_path s_mods s_reg s_next].
      set (fs' := put (c0 ++ [d]) nd _). assert (Efs' : forall q, fs' q = made (s_fs s) d nd q) by (intro q; apply Eput). clearbody fs'.
      fold (path_in (s_path s)).
      set (sA := mkSt fs' c0 (s_path s) (s_mods s) (s_reg s) (S (s_next s))).
      change (mkSt fs' c0 (path_in (s_path s)) (s_mods s) (s_reg s) (S (s_next s))) with (mkSt (s_fs sA) (s_cwd sA) (path_in (s_path sA)) (s_mods sA) (s_reg sA) (s_next sA)).
      unfold mods_ok in Hm. destruct (loaded d) as [g|] eqn:El.
      + unfold import_solver at 1. rewrite (split_none dot) by (apply ident_has; auto). cbn [hd app]. destruct (ident_ne d Hd) as (N1 & _). rewrite (proj2 (String.eqb_neq _ _) N1).
        cbn [s_mods sA]. rewrite Hm. cbn [s_fs s_cwd s_path s_mods s_reg s_next sA]. eexists _, loaded. split; [reflexivity|]. split; [|split; [reflexivity|split; reflexivity]].
        constructor; cbn [s_cwd s_fs s_path s_mods]; auto; [apply (HereN nd); auto|]. intros d' HD'. destruct (IF d' HD') as (A1 & A2 & _). split; auto. split; auto. apply free_in. apply (FreeN nd); auto.
      + destruct Hm as (M1 & M2 & M3).
        destruct (import_fresh sA d (s_next s) (if b then Some (s_next s) else None) Hd Hb eq_refl) as (mods & r & E & Er & K1 & K2 & K3); auto.
        { cbn [sA s_fs]. rewrite Efs'. apply made_here. }
        { apply (FreeN nd); auto. }
        rewrite E. subst r. cbn [sA s_fs s_cwd s_path s_mods s_reg s_next] in *.
        assert (Other : forall d' lo, D d' -> d' <> d -> lo d' = loaded d' -> mods_ok mods lo d').
        { intros d' lo HD' Hne Hlo. pose proof (IM d' HD') as H. unfold mods_ok in *. rewrite Hlo. rewrite !K1 by (cbn; auto). exact H. }
        assert (FreeI : forall d', D d' -> identifier d' = true /\ builtin d' = false /\ free fs' (path_in (s_path s)) d').
        { intros d' HD'. destruct (IF d' HD') as (A1 & A2 & _). split; auto. split; auto. apply free_in. apply (FreeN nd); auto. }
        destruct b.
        * eexists _, (upd String.eqb loaded d (s_next s)). split; [reflexivity|]. split; [|split; [reflexivity|split; reflexivity]].
          constructor; cbn [s_cwd s_fs s_path s_mods]; auto; [apply (HereN nd); auto|].
          intros d' HD'. destruct (String.eqb_spec d' d) as [->|Hne].
          -- unfold mods_ok, upd. rewrite String.eqb_refl. exact K3.
          -- apply Other; auto. unfold upd. apply String.eqb_neq in Hne. now rewrite Hne.
        * eexists _, loaded. split; [reflexivity|]. split; [|split; [reflexivity|split; reflexivity]].
          constructor; cbn [s_cwd s_fs s_path s_mods]; auto; [apply (HereN nd); auto|].
          intros d' HD'. destruct (String.eqb_spec d' d) as [->|Hne]; [|apply Other; auto].
          unfold mods_ok. rewrite El. split; [right; exact K2|exact K3].
    - set (nd := NDir true (Some (s_next s, d)) None). eexists _, loaded. split; [reflexivity|]. split; [|split; [reflexivity|split; reflexivity]].
      constructor; cbn [s_cwd s_fs s_path s_mods]; auto; [apply (HereN nd); intro q; apply Efs|]. intros d' HD'. destruct (IF d' HD') as (A1 & A2 & _). split; auto. split; auto.
      apply (FreeN nd); auto.
  Qed.

  Lemma run_ok : forall D os loaded s, inv D loaded s -> Forall (fun o => match o with Gen _ d _ _ => D d | Chdir p => p = c0 end) os ->
    exists s', run builtin s os = (s', snd (expect loaded (s_reg s) (s_next s) os)) /\ s_reg s' = fst (expect loaded (s_reg s) (s_next s) os).
  Proof.
    intros D. induction os as [|o os IH]; intros loaded s I H; [exists s; split; reflexivity|]. apply Forall_cons_iff in H. destruct H as [Ho H].
    destruct o as [p d w b|p]; cbn [run step].
    - destruct (step_ok D loaded s p d w b I Ho) as (s1 & lo & -> & I1 & En & R). destruct (IH lo s1 I1 H) as (s' & -> & Er). rewrite En in *.
      cbn [expect]. exists s'. destruct w; [destruct (loaded d) as [g|]; [|destruct b]|]; destruct R as [-> R]; rewrite R in *;
        destruct (expect _ _ _ os) as [r es]; cbn [fst snd] in *; auto.
    - cbn [expect]. destruct (IH loaded (mkSt (s_fs s) p (s_path s) (s_mods s) (s_reg s) (s_next s))) as (s' & -> & Er); auto.
      { destruct I. constructor; auto. }
      exists s'. cbn [s_reg s_next] in *. destruct (expect loaded (s_reg s) (s_next s) os) as [r es]; cbn [fst snd] in *; auto.
  Qed.
End Session.

Lemma start_inv : forall builtin s, here s -> inv builtin (s_cwd s) (unused builtin s) (fun _ => None) s.
Proof.
  intros builtin s H. constructor; auto.
  - intros d (H1 & H2 & _ & _ & _ & H6). auto.
  - intros d (_ & _ & H3 & H4 & H5 & _). cbn. auto.
Qed.
