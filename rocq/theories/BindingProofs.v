(** When the C++ file of the Python binding compiles. *)

From Coq Require Import String Ascii Arith Bool Lia List.
From Verif Require Import Base Pus Machine Runtime Retrieve Config Symbols SymbolsProofs CTypes ExplicitVars CExampleProofs Binding BindingSpec.
Import ListNotations.
Open Scope string_scope.
Open Scope list_scope.

Lemma pfx_eqb : forall p a b, String.eqb (p ++ a) (p ++ b) = String.eqb a b.
Proof.
  intros p a b. destruct (String.eqb_spec a b) as [->|N]; [apply String.eqb_refl|].
  apply String.eqb_neq. intro E. now apply N, (append_inj_l p).
Qed.
Lemma suf_l : forall p a b, is_suffix a b = false -> String.eqb (p ++ a) b = false.
Proof. intros p a b H. apply String.eqb_neq. intros <-. rewrite is_suffix_app in H. discriminate. Qed.
Lemma suf_r : forall p a b, is_suffix a b = false -> String.eqb b (p ++ a) = false.
Proof. intros. rewrite String.eqb_sym. now apply suf_l. Qed.

(** Decides comparisons of literals, possibly behind the same unknown prefix. *)
Ltac names1 :=
  match goal with
  | |- context [String.eqb (?p ++ ?a) (?p ++ ?b)] => rewrite (pfx_eqb p a b)
  | |- context [String.eqb (?p ++ ?a) ?b] => rewrite (suf_l p a b) by (vm_compute; reflexivity)
  | |- context [String.eqb ?b (?p ++ ?a)] => rewrite (suf_r p a b) by (vm_compute; reflexivity)
  | |- context [String.eqb ?a ?a] => rewrite (String.eqb_refl a)
  | |- context [String.eqb ?a ?b] =>
      let r := eval vm_compute in (String.eqb a b) in
      match r with true => change (String.eqb a b) with true | false => change (String.eqb a b) with false end
  end.
Ltac names := repeat (cbn [app assoc fst snd andb orb negb when_f map]; try names1); cbn [app assoc fst snd andb orb negb when_f map]; try reflexivity.

Lemma distinct_nodup : forall l, NoDup l -> distinct l = true.
Proof.
  induction l as [|a l IH]; cbn; intro H; [auto|]. inversion H; subst. rewrite IH by auto.
  rewrite andb_true_r, negb_true_iff. destruct (mem_str a l) eqn:E; [|auto].
  apply mem_str_In in E. contradiction.
Qed.
Lemma assoc_map : forall A B (f : string * A -> string * B) l v,
  (forall a, fst (f a) = fst a) -> NoDup (map fst l) -> In v l -> assoc (fst v) (map f l) = Some (snd (f v)).
Proof.
  intros A B f l v Hf ND H. apply assoc_in1.
  - rewrite map_map. erewrite map_ext by apply Hf. exact ND.
  - apply in_map_iff. exists v. split; auto. rewrite <- (Hf v). now destruct (f v).
Qed.

Section Typing.
  Variable x : bin.
  Hypothesis HX : binding_ok x.
  Notation pre s := (n_prefix x ++ s)%string.

  Lemma st_params : assoc (pre "CPG_Params_cpp_t") (structs x) = Some (map hpp_field (n_params x)).
  Proof. unfold structs, hpp_structs. names. Qed.
  Lemma st_updated : assoc (pre "CPG_Updated_cpp_t") (structs x) = Some (map (fun p => (fst p, XBool)) (n_params x)).
  Proof. unfold structs, hpp_structs. names. Qed.
  Lemma st_prim : assoc (pre "CPG_Prim_cpp_t") (structs x) = Some (map hpp_field (n_vars x)).
  Proof. unfold structs, hpp_structs. names. Qed.
  Lemma st_dual : has_dual x = true -> assoc (pre "CPG_Dual_cpp_t") (structs x) = Some (map hpp_field (n_duals x)).
  Proof. intro H. unfold structs, hpp_structs. rewrite H. names. Qed.
  Lemma st_gsol : n_gradient x = true -> expl x = false ->
    assoc (pre "CPG_GSol_cpp_t") (structs x) = Some [("primal", XArr (n_nvar x)); ("dual", XArr (n_ncon x))].
  Proof. intros H1 H2. unfold structs, hpp_structs. rewrite H1, H2. destruct (has_dual x); names. Qed.
  Definition info_fields : xfields :=
    when_f (negb (expl x)) [("obj_val", XNum); ("iter", XNum); ("status", if status_int (n_if x) then XNum else XStr);
                        ("pri_res", XNum); ("dua_res", XNum)]
    ++ [("time", XNum)]
    ++ when_f (n_gradient x) (if expl x then [("region", XNum)]
                              else [("gradient_primal", XArr (n_nvar x)); ("gradient_dual", XArr (n_ncon x))]).
  Lemma st_info : assoc (pre "CPG_Info_cpp_t") (structs x) = Some info_fields.
  Proof. unfold structs, hpp_structs. fold info_fields. destruct (has_dual x), (n_gradient x && negb (expl x)); names. Qed.
  Lemma st_result : assoc (pre "CPG_Result_cpp_t") (structs x)
    = Some ([("prim", XRec (pre "CPG_Prim_cpp_t"))] ++ when_f (has_dual x) [("dual", XRec (pre "CPG_Dual_cpp_t"))]
            ++ [("info", XRec (pre "CPG_Info_cpp_t"))]).
  Proof. unfold structs, hpp_structs. fold info_fields. destruct (has_dual x), (n_gradient x && negb (expl x)); names. Qed.
  Lemma st_vdelta : n_gradient x = true -> assoc (pre "CPG_VDelta_cpp_t") (structs x) = Some (map hpp_field (n_vars x)).
  Proof. intro H. unfold structs, hpp_structs. fold info_fields. rewrite H. destruct (has_dual x), (expl x); names. Qed.
  Lemma st_pdelta : n_gradient x = true -> assoc (pre "CPG_PDelta_cpp_t") (structs x) = Some (map hpp_field (n_params x)).
  Proof. intro H. unfold structs, hpp_structs. fold info_fields. rewrite H. destruct (has_dual x), (expl x); names. Qed.

  Lemma st_cprim : assoc "CPG_Prim_t" (structs x) = Some (map c_field (n_vars x)).
  Proof. unfold structs, hpp_structs, c_structs. fold info_fields. destruct (has_dual x), (n_gradient x), (expl x); names. Qed.
  Lemma st_cdual : has_dual x = true -> assoc "CPG_Dual_t" (structs x) = Some (map c_field (n_duals x)).
  Proof.
    intro H. unfold structs, hpp_structs, c_structs. fold info_fields. rewrite H.
    replace (nonempty (n_duals x)) with true by (unfold has_dual in H; now apply andb_true_iff in H as [_ ->]).
    destruct (n_gradient x), (expl x); names.
  Qed.
  Lemma st_cinfo : expl x = false -> assoc "CPG_Info_t" (structs x)
    = Some [("obj_val", XNum); ("iter", XNum); ("status", if status_int (n_if x) then XNum else XStr); ("pri_res", XNum); ("dua_res", XNum)].
  Proof.
    intro H. unfold structs, hpp_structs, c_structs. fold info_fields. rewrite H.
    destruct (has_dual x), (n_gradient x), (nonempty (n_duals x)); names.
  Qed.
  Lemma st_cdelta : assoc "CPG_Delta_t" (structs x) = Some (map (fun p => (fst p, XPtr)) (n_params x)).
  Proof.
    unfold structs, hpp_structs, c_structs. fold info_fields.
    destruct (has_dual x), (n_gradient x), (nonempty (n_duals x)), (expl x); names.
  Qed.

  Lemma ob_prim : assoc (pre "CPG_Prim") (objects x) = Some (XRec "CPG_Prim_t").
  Proof. unfold objects. names. Qed.
  Lemma ob_dual : has_dual x = true -> assoc (pre "CPG_Dual") (objects x) = Some (XRec "CPG_Dual_t").
  Proof. intro H. unfold objects. rewrite H. names. Qed.
  Lemma ob_info : expl x = false -> assoc (pre "CPG_Info") (objects x) = Some (XRec "CPG_Info_t").
  Proof. intro H. unfold objects. rewrite H. destruct (has_dual x); names. Qed.
  Lemma ob_delta : n_gradient x = true -> assoc (pre "CPG_Delta") (objects x) = Some (XRec "CPG_Delta_t").
  Proof. intro H. unfold objects. rewrite H. destruct (has_dual x), (expl x); names. Qed.
  Lemma ob_region : n_gradient x = true -> expl x = true -> assoc "pdaqp_active_region" (objects x) = Some XNum.
  Proof. intros H1 H2. unfold objects. rewrite H1, H2. destruct (has_dual x), (Nat.eqb (n_explicit x) 2); names. Qed.
  Definition osqp : bool := match n_if x with IOSQP => true | _ => false end.
  Lemma longer : forall s, String.eqb s ("gradient_" ++ pre s) = false.
  Proof.
    intro s. apply String.eqb_neq. intro E. apply (f_equal String.length) in E.
    assert (A : forall a b, String.length (a ++ b) = String.length a + String.length b)
      by (induction a; intros; cbn; auto).
    rewrite !A in E. cbn [String.length] in E. lia.
  Qed.
  Lemma diff_sol : String.eqb "sol_y" ("gradient_" ++ pre "sol_x") = false /\ String.eqb "sol_x" ("gradient_" ++ pre "sol_y") = false.
  Proof. split; reflexivity. Qed.
  Lemma ob_sol : n_gradient x = true -> expl x = false ->
    assoc "sol_x" (objects x) = (if osqp then Some XPtr else None) /\ assoc "sol_y" (objects x) = (if osqp then Some XPtr else None).
  Proof.
    intros H1 H2. unfold objects, two_stage_b, osqp. rewrite H1, H2.
    split; destruct (has_dual x), (n_if x); names.
  Qed.

  (** Functions. *)
  Lemma fn_notin : forall p a (l : list (string * nat)) (f : string * nat -> string * list aty),
    (forall q, fst (f q) = (n_prefix x ++ p ++ fst q)%string) -> (forall n, String.eqb a (p ++ n) = false) ->
    assoc (pre a) (map f l) = None.
  Proof.
    intros p a l f Hf Hn. induction l as [|q l IH]; cbn; [auto|].
    specialize (Hf q) as E. destruct (f q) as [n t]. cbn [fst] in E. subst n. rewrite pfx_eqb, Hn. exact IH.
  Qed.
  Lemma fn_in : forall p (l : list (string * nat)) v, NoDup (map fst l) -> In v l ->
    assoc (pre (p ++ fst v)) (map (fun q => (pre (p ++ fst q), proto (snd q))) l) = Some (proto (snd v)).
  Proof.
    intros p l v ND H. apply assoc_in1.
    - rewrite map_map. cbn [fst]. clear H. induction l as [|q l IH]; cbn; [constructor|].
      inversion ND; subst. constructor; [|auto].
      intro I. apply in_map_iff in I as (r & E & I). apply append_inj_l in E. apply append_inj_l in E.
      apply H1. rewrite <- E. now apply in_map.
    - apply in_map_iff. exists v. auto.
  Qed.
  Lemma fn_update : forall p, In p (n_params x) -> assoc (pre ("cpg_update_" ++ fst p)) (functions x) = Some (proto (snd p)).
  Proof.
    intros p H. unfold functions. rewrite assoc_app, (fn_in "cpg_update_") by (auto; apply HX). reflexivity.
  Qed.
  Lemma fn_solve : assoc (pre "cpg_solve") (functions x) = Some [].
  Proof.
    unfold functions. rewrite assoc_app, (fn_notin "cpg_update_") by (intros; reflexivity). names.
  Qed.
  Lemma fn_updated : forall v, n_gradient x = true -> In v (n_vars x) ->
    assoc (pre ("cpg_update_d" ++ fst v)) (functions x) = Some (proto (snd v)).
  Proof.
    intros v G H. unfold functions. rewrite assoc_app.
    rewrite assoc_none.
    2:{ rewrite map_map. cbn [fst]. intro I. apply in_map_iff in I as (q & E & I). apply append_inj_l in E.
        apply (append_inj_l "cpg_update_" (fst q) ("d" ++ fst v)) in E. eapply (bo_delta x HX); eauto. }
    rewrite G. cbn [app assoc when_f]. rewrite pfx_eqb.
    replace (String.eqb ("cpg_update_d" ++ fst v) "cpg_solve") with false by reflexivity.
    rewrite <- app_assoc, assoc_app. rewrite (fn_in "cpg_update_d") by (auto; apply HX). reflexivity.
  Qed.
  Lemma fn_gradient : n_gradient x = true -> assoc (pre "cpg_gradient") (functions x) = Some [].
  Proof.
    intros G. unfold functions. rewrite assoc_app, (fn_notin "cpg_update_") by (intros; reflexivity).
    rewrite G. cbn [app assoc when_f]. rewrite pfx_eqb. cbn [String.eqb Ascii.eqb Bool.eqb].
    rewrite <- app_assoc, assoc_app, (fn_notin "cpg_update_d") by (intros; reflexivity). names.
  Qed.

  (** Types of expressions: locals, then members. *)
  Lemma ty_local : forall env o f t fs u,
    assoc o env = Some (XRec t) -> assoc t (structs x) = Some fs -> assoc f fs = Some u ->
    typeof x env (dot o f) = Some u
    /\ forall i, typeof x env (dot_at o f i)
                 = if ix_ok x i then match u with XArr _ | XPtr => Some XNum | _ => None end else None.
  Proof. intros env o f t fs u H1 H2 H3. unfold typeof, dot, dot_at. cbn [e_root e_fld e_at]. rewrite H1, H2, H3. auto. Qed.
  Lemma ty_global : forall env o f t fs u,
    assoc o env = None -> assoc o (objects x) = Some (XRec t) -> assoc t (structs x) = Some fs -> assoc f fs = Some u ->
    typeof x env (dot o f) = Some u
    /\ forall i, typeof x env (dot_at o f i)
                 = if ix_ok x i then match u with XArr _ | XPtr => Some XNum | _ => None end else None.
  Proof. intros env o f t fs u H0 H1 H2 H3. unfold typeof, dot, dot_at. cbn [e_root e_fld e_at]. rewrite H0, H1, H2, H3. auto. Qed.

  Lemma i_params : forall v, In v (n_params x) -> 1 < snd v -> has_i x = true.
  Proof.
    intros v H L. unfold has_i. replace (existsb (fun v => Nat.ltb 1 (snd v)) (n_params x)) with true; [reflexivity|].
    symmetry. apply existsb_exists. exists v. split; auto. now apply Nat.ltb_lt.
  Qed.
  Lemma i_vars : forall v, In v (n_vars x) -> 1 < snd v -> has_i x = true.
  Proof.
    intros v H L. unfold has_i. replace (existsb (fun v => Nat.ltb 1 (snd v)) (n_vars x)) with true; [now rewrite orb_true_r|].
    symmetry. apply existsb_exists. exists v. split; auto. now apply Nat.ltb_lt.
  Qed.
  Lemma i_duals : forall v, In v (n_duals x) -> 1 < snd v -> has_i x = true.
  Proof.
    intros v H L. unfold has_i. replace (existsb (fun v => Nat.ltb 1 (snd v)) (n_duals x)) with true; [now rewrite orb_true_r|].
    symmetry. apply existsb_exists. exists v. split; auto. now apply Nat.ltb_lt.
  Qed.
  Lemma i_grad : n_gradient x = true -> has_i x = true.
  Proof. intro H. unfold has_i. rewrite H. now rewrite orb_true_r. Qed.

  Lemma hpp_cases : forall v, snd (hpp_field v) = if Nat.ltb 1 (snd v) then XArr (snd v) else XNum.
  Proof. reflexivity. Qed.
  Lemma c_cases : forall v, snd (c_field v) = if Nat.eqb (snd v) 1 then XNum else XPtr.
  Proof. reflexivity. Qed.

  (** A copy of a member: it compiles unless the member is empty. *)
  Lemma copy_check : forall env l r tl tr ns v,
    assoc l env = Some (XRec tl) -> assoc tl (structs x) = Some (map hpp_field ns) ->
    assoc r env = None -> assoc r (objects x) = Some (XRec tr) -> assoc tr (structs x) = Some (map c_field ns) ->
    NoDup (map fst ns) -> In v ns -> (1 < snd v -> has_i x = true) ->
    check x env (copy l r v) = negb (Nat.eqb (snd v) 0).
  Proof.
    intros env l r tl tr ns v Hl Hs Hr Ho Ht ND Hv Hi.
    assert (Al := assoc_map _ _ hpp_field ns v (fun a => eq_refl) ND Hv).
    assert (Ar := assoc_map _ _ c_field ns v (fun a => eq_refl) ND Hv).
    destruct (ty_local _ _ _ _ _ _ Hl Hs Al) as [L1 L2]. destruct (ty_global _ _ _ _ _ _ Hr Ho Ht Ar) as [R1 R2].
    rewrite hpp_cases in L1, L2. rewrite c_cases in R1, R2.
    unfold copy. destruct (snd v) as [|[|k]] eqn:E; cbn [Nat.eqb Nat.ltb Nat.leb] in *; cbn [check].
    - rewrite L2. destruct (ix_ok x II), (has_i x); reflexivity.
    - rewrite L1, R1. reflexivity.
    - rewrite Hi by lia. rewrite L2, R2. cbn [ix_ok]. rewrite Hi by lia. reflexivity.
  Qed.

  Lemma upd_check : forall p, In p (n_params x) -> check x (solve_args x) (upd_param x p) = negb (Nat.eqb (snd p) 0).
  Proof.
    intros p Hp.
    assert (Eu : assoc "CPG_Updated_cpp" (solve_args x) = Some (XRec (pre "CPG_Updated_cpp_t"))) by reflexivity.
    assert (Ep : assoc "CPG_Params_cpp" (solve_args x) = Some (XRec (pre "CPG_Params_cpp_t"))) by reflexivity.
    assert (Au := assoc_map _ _ (fun p : string * nat => (fst p, XBool)) (n_params x) p (fun a => eq_refl) (bo_params x HX) Hp).
    assert (Ap := assoc_map _ _ hpp_field (n_params x) p (fun a => eq_refl) (bo_params x HX) Hp).
    destruct (ty_local _ _ _ _ _ _ Eu st_updated Au) as [U1 _].
    destruct (ty_local _ _ _ _ _ _ Ep st_params Ap) as [P1 P2]. rewrite hpp_cases in P1, P2. cbn [snd] in U1.
    unfold upd_param. cbn [check]. rewrite U1.
    pose proof (fn_update p Hp) as F. pose proof (i_params p Hp) as Hi.
    destruct (snd p) as [|[|k]] eqn:E; cbn [Nat.eqb Nat.ltb Nat.leb proto] in *; cbn [check]; rewrite F; cbn [args_ok arg_ok].
    - rewrite P2. destruct (ix_ok x II), (has_i x); reflexivity.
    - rewrite P1. reflexivity.
    - rewrite P2. cbn [ix_ok]. rewrite Hi by lia. reflexivity.
  Qed.

  (** Bodies. *)
  Lemma body_app : forall a b env, (forall c, In c a -> match c with SDecl _ _ => False | _ => True end) ->
    check_body x env (a ++ b) = forallb (check x env) a && check_body x env b.
  Proof.
    induction a as [|c a IH]; intros b env H; [reflexivity|]. cbn [app check_body forallb].
    rewrite <- andb_assoc. f_equal. rewrite <- IH by (intros; apply H; now right).
    specialize (H c (or_introl eq_refl)). destruct c; [reflexivity..| |reflexivity|reflexivity|reflexivity]; contradiction.
  Qed.
  Lemma body_nodecl : forall a env, (forall c, In c a -> match c with SDecl _ _ => False | _ => True end) ->
    check_body x env a = forallb (check x env) a.
  Proof. intros a env H. rewrite <- (app_nil_r a) at 1. rewrite body_app by auto. cbn. now rewrite andb_true_r. Qed.
End Typing.
