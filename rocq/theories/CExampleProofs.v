(** Proofs about the C example program. *)

From Coq Require Import String Arith Bool Lia List.
From Verif Require Import Base Pus Machine Runtime RuntimeSpec Retrieve RetrieveProofs Explicit ExplicitProofs ExplicitVars Symbols SymbolsProofs CExample.
Import ListNotations.
Open Scope string_scope.
Open Scope list_scope.

Lemma assoc_in1 : forall A k (v : A) l, NoDup (map fst l) -> In (k, v) l -> assoc k l = Some v.
Proof.
  induction l as [|[k' w] l IH]; cbn; intros ND H; [easy|]. inversion ND; subst.
  destruct H as [E|H]; [injection E as -> ->; now rewrite String.eqb_refl|].
  destruct (String.eqb_spec k k') as [->|]; [|auto].
  exfalso. apply H2. apply in_map_iff. exists (k', v). auto.
Qed.

Lemma nodup_left : forall A (l l' : list A), NoDup (l ++ l') -> NoDup l.
Proof.
  induction l as [|a l IH]; cbn; intros l' H; [constructor|]. inversion H; subst. constructor; eauto.
  intro I. apply H2, in_or_app. auto.
Qed.

Section Proofs.
  Variable V : Type.
  Variable fmt : V -> string.
  Variable rd : string -> option V.
  Variable x : exin V.
  Notation pre s := (e_prefix x ++ s)%string.

  (** Names are different within each kind, and no derivative function has the name of an
      update function. *)
  Definition names_ok : Prop :=
    NoDup (map fst (e_vars x)) /\ NoDup (map fst (e_duals x))
    /\ NoDup (map fst (e_params x) ++ (if e_grad x then map (fun v => ("d" ++ fst v)%string) (e_vars x) else [])).

  Hypothesis HN : names_ok.
  Hypothesis HR : forall n l v, In (n, l) (e_params x) -> In v l -> rd (fmt v) <> None.

  Lemma pre_inj : forall a b, pre a = pre b -> a = b.
  Proof. apply append_inj_l. Qed.
  Lemma pre_eqb : forall a b, String.eqb (pre a) (pre b) = String.eqb a b.
  Proof.
    intros a b. destruct (String.eqb_spec a b) as [->|N]; [apply String.eqb_refl|].
    apply String.eqb_neq. intro E. now apply N, pre_inj.
  Qed.

  Lemma fty_assoc : forall (l : list (string * nat)) v, NoDup (map fst l) -> In v l ->
    assoc (fst v) (map fty l) = Some (if Nat.eqb (snd v) 1 then TFloat else TFptr).
  Proof.
    intros l v ND H. apply assoc_in1.
    - rewrite map_map. cbn. exact ND.
    - apply in_map_iff. exists v. auto.
  Qed.

  Lemma result_type : typeof rd x (EGlob (pre "CPG_Result")) = Some (TStruct (result_t V x)).
  Proof.
    cbn [typeof]. unfold globals. destruct (Nat.eqb (e_expl x) 1), (Nat.eqb (e_expl x) 0), (e_duals x);
      cbn [app assoc]; repeat rewrite pre_eqb; cbn [String.eqb Ascii.eqb Bool.eqb]; reflexivity.
  Qed.

  Lemma delta_type : e_grad x = true -> typeof rd x (EGlob (pre "CPG_Delta")) = Some (TStruct (delta_t V x)).
  Proof.
    intro Hg. cbn [typeof]. unfold globals. rewrite Hg. destruct (Nat.eqb (e_expl x) 1), (Nat.eqb (e_expl x) 0), (e_duals x);
      cbn [app assoc]; repeat rewrite pre_eqb; cbn [String.eqb Ascii.eqb Bool.eqb]; reflexivity.
  Qed.

  Lemma prim_type : forall v, In v (e_vars x) ->
    typeof rd x (res_field (pre "CPG_Result") "prim" (fst v)) = Some (if Nat.eqb (snd v) 1 then TFloat else TFptr).
  Proof.
    intros v H. unfold res_field. cbn [typeof]. pose proof result_type as E. cbn [typeof] in E. rewrite E.
    cbn [result_t app assoc String.eqb Ascii.eqb Bool.eqb]. apply fty_assoc; [apply HN|exact H].
  Qed.

  Lemma dual_type : forall v, Nat.eqb (e_expl x) 1 = false -> In v (e_duals x) ->
    typeof rd x (res_field (pre "CPG_Result") "dual" (fst v)) = Some (if Nat.eqb (snd v) 1 then TFloat else TFptr).
  Proof.
    intros v H1 H. unfold res_field. cbn [typeof]. pose proof result_type as E. cbn [typeof] in E. rewrite E.
    unfold result_t. rewrite H1. destruct HN as (_ & ND & _). pose proof (fty_assoc (e_duals x) v ND H) as F.
    unfold dual_t. destruct (e_duals x) as [|d ds] eqn:Ed; [destruct H|]. cbn [app assoc String.eqb Ascii.eqb Bool.eqb]. exact F.
  Qed.

  Lemma info_type : Nat.eqb (e_expl x) 0 = true ->
    typeof rd x (res_field (pre "CPG_Result") "info" "obj_val") = Some TFloat.
  Proof.
    intros H0. unfold res_field. cbn [typeof]. pose proof result_type as E. cbn [typeof] in E. rewrite E.
    unfold result_t. rewrite H0. apply Nat.eqb_eq in H0. rewrite H0. destruct (e_duals x); reflexivity.
  Qed.

  Lemma show_check : forall s v,
    typeof rd x (res_field (pre "CPG_Result") s (fst v)) = Some (if Nat.eqb (snd v) 1 then TFloat else TFptr) ->
    check rd x (show x s v) = true.
  Proof.
    intros s v E. unfold show. destruct (Nat.eqb (snd v) 1); cbn [check]; [now rewrite E|].
    cbn [typeof]. now rewrite E.
  Qed.

  Lemma upd_proto : forall n l, In (n, l) (e_params x) ->
    assoc (pre ("cpg_update_" ++ n)) (protos x) = Some (sized (length l)).
  Proof.
    intros n l H. unfold protos. rewrite assoc_app.
    rewrite (assoc_in1 _ _ (sized (length l))); [reflexivity| |].
    - rewrite map_map. cbn [fst]. destruct HN as (_ & _ & ND).
      apply nodup_left in ND. revert ND. clear. induction (e_params x) as [|p t IH]; cbn [map]; [constructor|].
      intro ND. inversion ND; subst. constructor; auto. intro H. apply H1. apply in_map_iff in H as (q & E & Hq).
      apply pre_inj in E. apply (append_inj_l "cpg_update_") in E. rewrite <- E. now apply in_map.
    - apply in_map_iff. exists (n, l). auto.
  Qed.

  Lemma not_param : forall f, (forall n, In n (map fst (e_params x)) -> f <> ("cpg_update_" ++ n)%string) ->
    assoc (pre f) (map (fun p => (pre ("cpg_update_" ++ fst p), sized (length (snd p)))) (e_params x)) = None.
  Proof.
    intros f H. apply assoc_none. rewrite map_map. cbn [fst]. intro I. apply in_map_iff in I as (q & E & Hq).
    apply pre_inj in E. apply (H (fst q)); [now apply in_map|auto].
  Qed.

  Lemma solve_proto : assoc (pre "cpg_solve") (protos x) = Some [].
  Proof.
    unfold protos. rewrite assoc_app, not_param by (intros n _; cbn; discriminate).
    cbn [app assoc]. now rewrite String.eqb_refl.
  Qed.

  Lemma grad_proto : e_grad x = true -> assoc (pre "cpg_gradient") (protos x) = Some [].
  Proof.
    intro Hg. unfold protos. rewrite assoc_app, not_param by (intros n _; cbn; discriminate).
    cbn [app assoc]. rewrite pre_eqb. cbn [String.eqb Ascii.eqb Bool.eqb]. rewrite Hg, assoc_app.
    rewrite assoc_none; [cbn [assoc]; now rewrite String.eqb_refl|].
    rewrite map_map. cbn [fst]. intro I. apply in_map_iff in I as (q & E & _). apply pre_inj in E. discriminate.
  Qed.

  Lemma updd_proto : e_grad x = true -> forall v, In v (e_vars x) ->
    assoc (pre ("cpg_update_d" ++ fst v)) (protos x) = Some (sized (snd v)).
  Proof.
    intros Hg v H. unfold protos. destruct HN as (NV & _ & ND). rewrite Hg in ND. rewrite assoc_app, not_param.
    2: { intros n Hn E. assert (En : n = ("d" ++ fst v)%string).
         { apply (append_inj_l "cpg_update_"). rewrite <- E. reflexivity. }
         rewrite En in Hn. clear - ND H Hn.
         induction (map fst (e_params x)) as [|a l IH]; [destruct Hn|]. cbn in ND. inversion ND; subst.
         destruct Hn as [->|Hn]; [|auto]. apply H2, in_or_app. right. apply in_map_iff. exists v. auto. }
    cbn [app assoc]. rewrite pre_eqb. cbn [append String.eqb Ascii.eqb Bool.eqb]. rewrite Hg, assoc_app.
    rewrite (assoc_in1 _ _ (sized (snd v))); [reflexivity| |].
    - rewrite map_map. cbn [fst]. revert NV. clear. induction (e_vars x) as [|p t IH]; cbn [map]; [constructor|].
      intro ND. inversion ND; subst. constructor; auto. intro H. apply H1. apply in_map_iff in H as (q & E & Hq).
      apply pre_inj in E. apply (append_inj_l "cpg_update_d") in E. rewrite <- E. now apply in_map.
    - apply in_map_iff. exists v. auto.
  Qed.

  Lemma upd_check : forall p c, In p (e_params x) -> upd_call fmt x p = Ok c -> check rd x c = true.
  Proof.
    intros [n l] c H E. unfold upd_call in E. cbn [fst snd] in E. pose proof (upd_proto n l H) as P.
    assert (T : forall v, In v l -> typeof rd x (ELit (fmt v)) = Some TFloat).
    { intros v Hv. cbn [typeof]. destruct (rd (fmt v)) eqn:Er; [reflexivity|]. destruct (HR n l v H Hv Er). }
    destruct l as [|v l]; [discriminate|]. specialize (T v (or_introl eq_refl)).
    destruct l as [|w l]; match type of E with Ok ?a = Ok _ => assert (Ec : c = a) by congruence end; rewrite Ec;
      unfold check; rewrite P; unfold sized; cbn [length Nat.eqb fit_all]; unfold fits; rewrite T; reflexivity.
  Qed.

  (** CPG_Result without prefix is declared only if the prefix is empty. *)
  Lemma no_prefix : e_prefix x <> "" -> typeof rd x (EGlob "CPG_Result") = None.
  Proof.
    intro Hp. cbn [typeof]. apply assoc_none. intro I.
    assert (J : In "CPG_Result" (map (append (e_prefix x)) ["CPG_Prim"; "CPG_Dual"; "CPG_Info"; "CPG_Result"; "CPG_Delta"])).
    { unfold globals in I. rewrite !map_app, !in_app_iff in I. cbn [map fst] in I. cbn [map].
      destruct (Nat.eqb (e_expl x) 1), (Nat.eqb (e_expl x) 0), (e_duals x), (e_grad x); cbn [map fst In] in I |- *; tauto. }
    clear I. destruct (e_prefix x) as [|c s]; [easy|]. clear Hp.
    cbn [map In] in J. cbn [append] in J.
    destruct s as [|c2 [|c3 s]]; cbn [append] in J.
    - destruct J as [J|[J|[J|[J|[J|[]]]]]]; discriminate.
    - destruct J as [J|[J|[J|[J|[J|[]]]]]]; discriminate.
    - assert (L : forall b, String c (String c2 (String c3 (s ++ b))) = "CPG_Result" -> String.length b <= 7).
      { intros b E. apply (f_equal String.length) in E. cbn [String.length] in E. rewrite append_length in E. lia. }
      destruct J as [J|[J|[J|[J|[J|[]]]]]]; apply L in J; cbn in J; lia.
  Qed.

  Lemma updd_check : e_grad x = true -> forall v, In v (e_vars x) ->
    check rd x (upd_d x v) = true <-> e_prefix x = "" /\ snd v <> 1.
  Proof.
    intros Hg v H. pose proof (updd_proto Hg v H) as P. unfold upd_d.
    destruct (Nat.eqb_spec (snd v) 1) as [E1|E1].
    - split; [|tauto]. unfold check. rewrite P, E1. cbn [sized Nat.eqb fit_all]. rewrite andb_true_r. unfold fits.
      assert (Z : typeof rd x (EDiv (EIdx (res_field "CPG_Result" "prim" (fst v)) EI)) = None); [|rewrite Z; discriminate].
      destruct (string_dec (e_prefix x) "") as [Ep|Ep].
      + pose proof (prim_type v H) as T. rewrite Ep in T. cbn [append] in T. rewrite E1 in T.
        cbn [Nat.eqb] in T. cbn [typeof]. rewrite T. reflexivity.
      + unfold res_field. cbn [typeof]. pose proof (no_prefix Ep) as T. cbn [typeof] in T. rewrite T. reflexivity.
    - unfold check. rewrite P. unfold sized. destruct (Nat.eqb_spec (snd v) 1) as [|_]; [contradiction|].
      cbn [fit_all]. rewrite andb_true_r.
      assert (F0 : fits V rd x TInt (ENum 0) = true) by reflexivity. rewrite F0. cbn [andb]. unfold fits.
      destruct (string_dec (e_prefix x) "") as [Ep|Ep].
      + pose proof (prim_type v H) as T. rewrite Ep in T. cbn [append] in T.
        destruct (Nat.eqb_spec (snd v) 1) as [|_]; [contradiction|]. cbn [typeof]. rewrite T. tauto.
      + unfold res_field. cbn [typeof]. pose proof (no_prefix Ep) as T. cbn [typeof] in T. rewrite T.
        split; [discriminate|tauto].
  Qed.

  Lemma showd_check : e_grad x = true -> forall p, In p (e_params x) -> check rd x (show_d x p) = true.
  Proof.
    intros Hg p H.
    assert (T : typeof rd x (EDot (EGlob (pre "CPG_Delta")) (fst p)) = Some TFptr).
    { cbn [typeof]. pose proof (delta_type Hg) as E. cbn [typeof] in E. rewrite E.
      unfold delta_t. apply assoc_in1.
      - rewrite map_map. cbn. destruct HN as (_ & _ & ND). now apply nodup_left in ND.
      - apply in_map_iff. exists p. auto. }
    unfold show_d. destruct (Nat.eqb (length (snd p)) 1); cbn [check typeof]; cbn [typeof] in T; now rewrite T.
  Qed.

  Lemma mapM_in : forall A B (f : A -> res B) l bs b, mapM f l = Ok bs -> In b bs -> exists a, In a l /\ f a = Ok b.
  Proof.
    intros A B f l. induction l as [|a l IH]; intros bs b E H; cbn in E.
    - injection E as <-. destruct H.
    - destruct (f a) as [c|] eqn:Ea; [|discriminate]. cbn in E. destruct (mapM f l) as [cs|]; [|discriminate].
      cbn in E. injection E as <-. destruct H as [<-|H]; [exists a; split; [left|]; auto|].
      destruct (IH cs b eq_refl H) as (a' & I & Ea'). exists a'. split; [right|]; auto.
  Qed.

  Theorem example_checks : forall prog, example fmt x = Ok prog ->
    forallb (check rd x) prog = true
    <-> (e_grad x = true -> forall v, In v (e_vars x) -> e_prefix x = "" /\ snd v <> 1).
  Proof.
    intros prog E. unfold example in E. destruct (mapM (upd_call fmt x) (e_params x)) as [ups|] eqn:Eu; [|discriminate].
    cbn [bind] in E. match type of E with Ok ?a = Ok _ => assert (Ep : prog = a) by congruence end. rewrite Ep. clear Ep E.
    rewrite !forallb_app.
    assert (A1 : forallb (check rd x) ups = true).
    { apply forallb_forall. intros c Hc. destruct (mapM_in _ _ _ _ _ c Eu Hc) as (p & Hp & Ec). eapply upd_check; eauto. }
    assert (A2 : forallb (check rd x) [SCall (pre "cpg_solve") []] = true).
    { cbn [forallb check]. now rewrite solve_proto. }
    assert (A3 : forallb (check rd x) (if Nat.eqb (e_expl x) 0 then [SPrint "obj" (res_field (pre "CPG_Result") "info" "obj_val")] else []) = true).
    { destruct (Nat.eqb (e_expl x) 0) eqn:E0; [|reflexivity]. cbn [forallb check]. now rewrite info_type. }
    assert (A4 : forallb (check rd x) (map (show x "prim") (e_vars x)) = true).
    { apply forallb_forall. intros c Hc. apply in_map_iff in Hc as (v & <- & Hv). apply show_check, prim_type, Hv. }
    assert (A5 : forallb (check rd x) (if Nat.eqb (e_expl x) 1 then [] else map (show x "dual") (e_duals x)) = true).
    { destruct (Nat.eqb (e_expl x) 1) eqn:E1; [reflexivity|]. apply forallb_forall. intros c Hc.
      apply in_map_iff in Hc as (v & <- & Hv). apply show_check, dual_type; auto. }
    rewrite A1, A2, A3, A4, A5. cbn [andb].
    destruct (e_grad x) eqn:Hg; [|split; [discriminate|reflexivity]].
    rewrite !forallb_app.
    assert (A6 : forallb (check rd x) [SCall (pre "cpg_gradient") []] = true).
    { cbn [forallb check]. now rewrite grad_proto. }
    assert (A7 : forallb (check rd x) (map (show_d x) (e_params x)) = true).
    { apply forallb_forall. intros c Hc. apply in_map_iff in Hc as (v & <- & Hv). apply showd_check; auto. }
    rewrite A6, A7, !andb_true_r. split.
    - intros H _ v Hv. apply (updd_check Hg v Hv). rewrite forallb_forall in H. apply H. now apply in_map.
    - intros H. apply forallb_forall. intros c Hc. apply in_map_iff in Hc as (v & <- & Hv). apply updd_check; auto.
  Qed.
End Proofs.

(** ** Behaviour *)
Section Behaviour.
  Variable V : Type.
  Variable fmt : V -> string.
  Variable rd : string -> option V.
  Variable x : exin V.
  Notation pre s := (e_prefix x ++ s)%string.

  Lemma find_param_in : forall ps n l, NoDup (map fst ps) -> In (n, l) ps ->
    find_param x (pre ("cpg_update_" ++ n)) ps = Some n.
  Proof.
    induction ps as [|[m k] ps IH]; intros n l ND H; [destruct H|]. cbn [find_param fst]. inversion ND; subst.
    destruct H as [E|H].
    - injection E as -> ->. now rewrite String.eqb_refl.
    - destruct (String.eqb_spec (pre ("cpg_update_" ++ n)) (pre ("cpg_update_" ++ m))) as [E|_]; [|eauto].
      apply append_inj_l in E. apply (append_inj_l "cpg_update_") in E. subst.
      exfalso. apply H2. apply in_map_iff. exists (m, l). auto.
  Qed.

  Lemma calls_app : forall a b, calls rd x (a ++ b) = calls rd x a ++ calls rd x b.
  Proof.
    induction a as [|c a IH]; intro b; [reflexivity|]. cbn [app calls]. destruct c; auto.
    destruct (find_param x f (e_params x)); auto. destruct (call_arg V rd args) as [[k v]|]; auto. cbn. now rewrite IH.
  Qed.

  Lemma calls_nil : forall cs, (forall f args, In (SCall f args) cs -> call_arg V rd args = None) -> calls rd x cs = [].
  Proof.
    induction cs as [|c cs IH]; intro H; [reflexivity|].
    assert (H' : calls rd x cs = []) by (apply IH; intros f args I; apply (H f); right; exact I).
    destruct c; cbn [calls]; auto. rewrite (H f args (or_introl eq_refl)). destruct (find_param x f (e_params x)); auto.
  Qed.

  (** Each parameter with its first value. *)
  Definition firsts (ps : list (string * list V)) : list (string * nat * V) :=
    flat_map (fun p => match snd p with [] => [] | v :: _ => [(fst p, 0, v)] end) ps.

  Lemma calls_ups : forall ps ups, NoDup (map fst (e_params x)) -> (forall p, In p ps -> In p (e_params x)) ->
    (forall n v l, In (n, v :: l) ps -> rd (fmt v) = Some v) -> mapM (upd_call fmt x) ps = Ok ups ->
    calls rd x ups = firsts ps.
  Proof.
    induction ps as [|[n l] ps IH]; intros ups ND HI HF E; cbn [mapM] in E.
    - injection E as <-. reflexivity.
    - destruct (upd_call fmt x (n, l)) as [c|] eqn:Ec; [|discriminate]. cbn [bind] in E.
      destruct (mapM (upd_call fmt x) ps) as [cs|] eqn:Ep; [|discriminate]. cbn [bind] in E. injection E as <-.
      assert (IHc : calls rd x cs = firsts ps).
      { apply IH; auto; [intros p Hp; apply HI; right; exact Hp|intros m v k Hk; apply (HF m v k); right; exact Hk]. }
      pose proof (find_param_in (e_params x) n l ND (HI _ (or_introl eq_refl))) as Ef.
      unfold upd_call in Ec. cbn [fst snd] in Ec. destruct l as [|v l]; [discriminate|].
      pose proof (HF n v l (or_introl eq_refl)) as Er. cbn [firsts flat_map snd fst app].
      fold (firsts ps). rewrite <- IHc.
      destruct l as [|w l]; match type of Ec with Ok ?a = Ok _ => assert (Ea : c = a) by congruence end; rewrite Ea;
        cbn [calls]; rewrite Ef; cbn [call_arg]; rewrite Er; reflexivity.
  Qed.

  Theorem example_calls : forall prog, NoDup (map fst (e_params x)) ->
    (forall n v l, In (n, v :: l) (e_params x) -> rd (fmt v) = Some v) -> example fmt x = Ok prog ->
    calls rd x prog = firsts (e_params x).
  Proof.
    intros prog ND HF E. unfold example in E. destruct (mapM (upd_call fmt x) (e_params x)) as [ups|] eqn:Eu; [|discriminate].
    cbn [bind] in E. match type of E with Ok ?a = Ok _ => assert (Ep : prog = a) by congruence end. rewrite Ep. clear Ep E.
    rewrite calls_app, (calls_ups (e_params x) ups ND (fun p H => H) HF Eu).
    rewrite <- (app_nil_r (firsts (e_params x))) at 2. f_equal. apply calls_nil. intros f args I.
    rewrite !in_app_iff in I. destruct I as [[I|[]]|[I|[I|[I|I]]]].
    - injection I as _ <-. reflexivity.
    - destruct (Nat.eqb (e_expl x) 0); [destruct I as [I|[]]|destruct I]; discriminate.
    - apply in_map_iff in I as (v & Ev & _). unfold show in Ev. destruct (Nat.eqb (snd v) 1); discriminate.
    - destruct (Nat.eqb (e_expl x) 1); [destruct I|]. apply in_map_iff in I as (v & Ev & _). unfold show in Ev. destruct (Nat.eqb (snd v) 1); discriminate.
    - destruct (e_grad x); [|destruct I]. rewrite !in_app_iff in I. destruct I as [I|[[I|[]]|I]].
      + apply in_map_iff in I as (v & Ev & _). unfold upd_d in Ev. destruct (Nat.eqb (snd v) 1); injection Ev as _ <-; reflexivity.
      + injection I as _ <-. reflexivity.
      + apply in_map_iff in I as (v & Ev & _). unfold show_d in Ev. destruct (Nat.eqb (length (snd v)) 1); discriminate.
  Qed.

  (** Which inputs make generation fail. *)
  Theorem example_fails : forall e, example fmt x = Err e <-> e = IndexError /\ exists n, In (n, []) (e_params x).
  Proof.
    intro e. unfold example.
    assert (G : forall ps, (exists cs, mapM (upd_call fmt x) ps = Ok cs /\ ~ exists n, In (n, []) ps)
                           \/ (mapM (upd_call fmt x) ps = Err IndexError /\ exists n, In (n, []) ps)).
    { induction ps as [|[n l] ps IH]; cbn [mapM].
      - left. exists []. split; auto. intros (n & []).
      - destruct l as [|v l].
        + right. cbn. split; auto. exists n. auto.
        + assert (Ec : exists c, upd_call fmt x (n, v :: l) = Ok c) by (destruct l; cbn; eauto).
          destruct Ec as (c & ->). cbn [bind]. destruct IH as [(cs & -> & H)|(-> & m & H)]; cbn [bind].
          * left. eexists. split; [reflexivity|]. intros (m & [Em|Hm]); [discriminate|eauto].
          * right. split; auto. exists m. right. exact H. }
    destruct (G (e_params x)) as [(cs & -> & H)|(-> & H)]; cbn [bind]; split; try discriminate.
    - intros (_ & H'). tauto.
    - intro E. injection E as <-. auto.
    - intros (-> & _). reflexivity.
  Qed.

  (** The lines for one array or scalar. *)
  Definition lines (n : string) (size : nat) (l : list V) : list (line V) :=
    if Nat.eqb size 1 then map (fun v => (n, None, v)) l
    else map (fun iv => (n, Some (fst iv), snd iv)) (combine (seq 0 (length l)) l).

  Lemma mapM_lines : forall n (l : list V) (f : nat -> res V) k,
    (forall i v, nth_error l i = Some v -> f (k + i) = Ok v) ->
    mapM (fun i => v <- f i;; Ok (n, Some i, v)) (seq k (length l))
    = Ok (map (fun iv => (n, Some (fst iv), snd iv)) (combine (seq k (length l)) l) : list (line V)).
  Proof.
    induction l as [|v l IH]; intros f k H; [reflexivity|]. cbn [length seq mapM].
    pose proof (H 0 v eq_refl) as E0. rewrite Nat.add_0_r in E0. rewrite E0. cbn [bind].
    rewrite IH; [reflexivity|]. intros i w Hi. rewrite <- (H (S i) w Hi). f_equal. lia.
  Qed.

  (** One field: what the glue copies (read_field) is what the example prints. *)
  Lemma read_entries : forall fs ar (st : rstate V) n size l, read_field fs ar st n size = Ok l ->
    (size = 1 -> assoc n fs = Some FScalar /\ l = [r_cells st n 0])
    /\ (size <> 1 -> length l = size /\ forall i v, nth_error l i = Some v -> field_at fs ar st n i = Ok v).
  Proof.
    intros fs ar st n size l E. unfold read_field in E. split; intro Hs.
    - subst size. cbn in E. destruct (assoc n fs) as [[| |]|]; try discriminate. injection E as <-. auto.
    - destruct (Nat.eqb_spec size 1) as [|_]; [contradiction|]. unfold field_at.
      destruct (assoc n fs) as [[| |w o]|]; try discriminate.
      + destruct (assoc n ar) as [z|]; [|discriminate]. destruct (Nat.leb_spec size z); [|discriminate]. injection E as <-.
        split; [now rewrite map_length, seq_length|]. intros i v Hi.
        assert (Li : i < size) by (
          assert (nth_error (map (r_cells st n) (seq 0 size)) i <> None) by congruence;
          apply nth_error_Some in H0; now rewrite map_length, seq_length in H0).
        destruct (Nat.ltb_spec i z); [|lia]. f_equal.
        rewrite nth_error_map in Hi. destruct (nth_error (seq 0 size) i) as [j|] eqn:Ej; [|discriminate].
        cbn in Hi. injection Hi as <-. f_equal. apply nth_error_nth with (d := 0) in Ej. rewrite seq_nth in Ej by lia. lia.
      + destruct (Nat.leb_spec (o + size) (length (r_vecs st w))); [|discriminate]. injection E as <-.
        split; [rewrite firstn_length, skipn_length; lia|]. intros i v Hi. unfold vread.
        assert (Li : i < size).
        { assert (nth_error (firstn size (skipn o (r_vecs st w))) i <> None) by congruence.
          apply nth_error_Some in H0. rewrite firstn_length in H0. lia. }
        assert (En : nth_error (r_vecs st w) (o + i) = Some v); [|now rewrite En].
        rewrite <- Hi. clear - Li. revert size i Li. generalize (r_vecs st w). induction o as [|o IH]; intros l size i Li.
        * cbn. revert size i Li. induction l as [|a l IHl]; intros size i Li; [destruct size, i; reflexivity|].
          destruct size; [lia|]. destruct i; cbn; auto. apply IHl. lia.
        * destruct l as [|a l]; cbn [skipn Nat.add nth_error]; [destruct size, i; reflexivity|]. apply IH. exact Li.
  Qed.

  Lemma show_output : forall (w : world V) s v l, s = "prim" \/ s = "dual" ->
    read_field (if String.eqb s "prim" then w_fs w else w_dfs w) (if String.eqb s "prim" then w_ar w else w_dar w)
      (if String.eqb s "prim" then w_st w else w_dst w) (fst v) (snd v) = Ok l ->
    output w (show x s v) = Ok (lines (fst v) (snd v) l).
  Proof.
    intros w s v l Hs E. apply read_entries in E as (E1 & E2). unfold show, lines.
    assert (Hi : String.eqb s "info" = false) by (destruct Hs; subst; reflexivity).
    destruct (Nat.eqb_spec (snd v) 1) as [H|H].
    - destruct (E1 H) as (Ea & ->). cbn [output eval res_field]. unfold member. rewrite Hi, Ea. reflexivity.
    - destruct (E2 H) as (El & Ef). cbn [output]. rewrite <- El.
      rewrite (mapM_lines (fst v) l (fun i => eval w i (EIdx (res_field (pre "CPG_Result") s (fst v)) EI)) 0); [reflexivity|].
      intros i a Hi'. cbn [Nat.add eval res_field index bind]. unfold member. rewrite Hi. apply Ef, Hi'.
  Qed.

  Definition all_lines (vs : list (string * nat)) (ls : list (list V)) : list (line V) :=
    concat (map (fun vl => lines (fst (fst vl)) (snd (fst vl)) (snd vl)) (combine vs ls)).

  Lemma outputs_app : forall (w : world V) a b la lb, outputs w a = Ok la -> outputs w b = Ok lb -> outputs w (a ++ b) = Ok (la ++ lb).
  Proof.
    intros w a b la lb. unfold outputs. rewrite mapM_app. destruct (mapM (output w) a) as [xa|]; [|discriminate].
    destruct (mapM (output w) b) as [xb|]; [|discriminate]. cbn [bind]. intros Ea Eb. injection Ea as <-. injection Eb as <-.
    now rewrite concat_app.
  Qed.

  Lemma outputs_calls : forall (w : world V) cs, (forall c, In c cs -> exists f a, c = SCall f a) -> outputs w cs = Ok [].
  Proof.
    intros w cs H. unfold outputs.
    assert (E : mapM (output w) cs = Ok (map (fun _ => []) cs)).
    { induction cs as [|c cs IH]; [reflexivity|]. cbn [mapM map]. destruct (H c (or_introl eq_refl)) as (f & a & ->).
      cbn [output bind]. rewrite IH by (intros c Hc; apply H; right; exact Hc). reflexivity. }
    rewrite E. cbn [bind]. f_equal. clear. induction cs; cbn; auto.
  Qed.

  Lemma outputs_shows : forall (w : world V) s vs ls, s = "prim" \/ s = "dual" ->
    Forall2 (fun v l => read_field (if String.eqb s "prim" then w_fs w else w_dfs w) (if String.eqb s "prim" then w_ar w else w_dar w)
      (if String.eqb s "prim" then w_st w else w_dst w) (fst v) (snd v) = Ok l) vs ls ->
    outputs w (map (show x s) vs) = Ok (all_lines vs ls).
  Proof.
    intros w s vs ls Hs H. unfold outputs, all_lines. induction H as [|v l vs ls E H IH]; [reflexivity|].
    cbn [map mapM combine concat fst snd]. rewrite (show_output w s v l Hs E). cbn [bind].
    destruct (mapM (output w) (map (show x s) vs)) as [k|]; [|discriminate]. cbn [bind concat] in *.
    injection IH as IH. now rewrite IH.
  Qed.

  Theorem example_outputs : forall (w : world V) prog pl dl, e_grad x = false -> example fmt x = Ok prog ->
    Forall2 (fun v l => read_field (w_fs w) (w_ar w) (w_st w) (fst v) (snd v) = Ok l) (e_vars x) pl ->
    (e_expl x <> 1 -> Forall2 (fun v l => read_field (w_dfs w) (w_dar w) (w_dst w) (fst v) (snd v) = Ok l) (e_duals x) dl) ->
    outputs w prog = Ok ((if Nat.eqb (e_expl x) 0 then [("obj", None, w_obj w)] else [])
                         ++ all_lines (e_vars x) pl ++ (if Nat.eqb (e_expl x) 1 then [] else all_lines (e_duals x) dl)).
  Proof.
    intros w prog pl dl Hg E Hp Hd. unfold example in E. destruct (mapM (upd_call fmt x) (e_params x)) as [ups|] eqn:Eu; [|discriminate].
    cbn [bind] in E. match type of E with Ok ?a = Ok _ => assert (Ep : prog = a) by congruence end. rewrite Ep, Hg. clear Ep E.
    rewrite app_nil_r.
    assert (A1 : outputs w ups = Ok []).
    { apply outputs_calls. intros c Hc. destruct (mapM_in _ _ _ _ _ c Eu Hc) as ([n l] & _ & Ec). unfold upd_call in Ec.
      cbn [fst snd] in Ec. destruct l as [|v [|u l]]; [discriminate| |]; match type of Ec with Ok ?a = Ok _ => assert (Ea : c = a) by congruence end;
        rewrite Ea; eauto. }
    assert (A2 : outputs w [SCall (pre "cpg_solve") []] = Ok []).
    { apply outputs_calls. intros c [<-|[]]. eauto. }
    assert (A3 : outputs w (if Nat.eqb (e_expl x) 0 then [SPrint "obj" (res_field (pre "CPG_Result") "info" "obj_val")] else [])
                 = Ok (if Nat.eqb (e_expl x) 0 then [("obj", None, w_obj w)] else [])).
    { destruct (Nat.eqb (e_expl x) 0); reflexivity. }
    assert (A4 : outputs w (map (show x "prim") (e_vars x)) = Ok (all_lines (e_vars x) pl)).
    { apply outputs_shows; auto. }
    assert (A5 : outputs w (if Nat.eqb (e_expl x) 1 then [] else map (show x "dual") (e_duals x))
                 = Ok (if Nat.eqb (e_expl x) 1 then [] else all_lines (e_duals x) dl)).
    { destruct (Nat.eqb_spec (e_expl x) 1) as [|H1]; [reflexivity|]. apply outputs_shows; auto. }
    pose proof (outputs_app w _ _ _ _ A1 (outputs_app w _ _ _ _ A2 (outputs_app w _ _ _ _ A3 (outputs_app w _ _ _ _ A4 A5)))) as R.
    exact R.
  Qed.
End Behaviour.
Arguments firsts {V}. Arguments lines {V}. Arguments all_lines {V}.
