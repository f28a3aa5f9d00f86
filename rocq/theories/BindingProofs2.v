(** When the C++ file of the Python binding compiles: the whole file. *)

From Coq Require Import String Ascii Arith Bool Lia List.
From Verif Require Import Base Pus Machine Runtime Retrieve Config Symbols SymbolsProofs CTypes ExplicitVars CExampleProofs Binding BindingSpec BindingProofs.
Import ListNotations.
Open Scope string_scope.
Open Scope list_scope.

Definition pos (l : list (string * nat)) : bool := forallb (fun v => negb (Nat.eqb (snd v) 0)) l.
Lemma forallb_ext_in : forall A (f g : A -> bool) l, (forall a, In a l -> f a = g a) -> forallb f l = forallb g l.
Proof. induction l as [|a l IH]; cbn; intros H; auto. rewrite H, IH; auto. Qed.
Lemma forallb_map : forall A B (f : A -> B) (g : B -> bool) l, forallb g (map f l) = forallb (fun a => g (f a)) l.
Proof. induction l; cbn; auto. now f_equal. Qed.
Lemma forallb_flat : forall A B (f : A -> list B) (g : B -> bool) l, forallb g (flat_map f l) = forallb (fun a => forallb g (f a)) l.
Proof. induction l; cbn; auto. now rewrite forallb_app, IHl. Qed.
Lemma stored_empty : forall l i, l = [] -> stored i l = [].
Proof. now intros l i ->. Qed.

Section Whole.
  Variable x : bin.
  Hypothesis HX : binding_ok x.
  Notation pre s := (n_prefix x ++ s)%string.

  Definition env1 := ("CPG_Prim_cpp", XRec (pre "CPG_Prim_cpp_t")) :: solve_args x.

  Lemma prim_check : forall v, In v (n_vars x) ->
    forallb (check x env1) (get_prim x v) = expl x || negb (Nat.eqb (snd v) 0).
  Proof.
    intros v Hv. unfold get_prim.
    assert (El : assoc "CPG_Prim_cpp" env1 = Some (XRec (pre "CPG_Prim_cpp_t"))) by reflexivity.
    assert (Er : assoc (pre "CPG_Prim") env1 = None) by (unfold env1, solve_args; names).
    assert (C : check x env1 (copy "CPG_Prim_cpp" (pre "CPG_Prim") v) = negb (Nat.eqb (snd v) 0)).
    { eapply copy_check; eauto using st_prim, st_cprim, ob_prim, bo_vars, i_vars. }
    destruct (expl x) eqn:E; cbn [andb orb].
    2:{ cbn [forallb]. rewrite C. now rewrite andb_true_r. }
    destruct (Nat.eqb (snd v) 1) eqn:E1; cbn [negb forallb].
    { rewrite C. apply Nat.eqb_eq in E1. now rewrite E1. }
    rewrite forallb_map. pose proof (bo_idx x HX v Hv) as HI.
    destruct (Nat.ltb 1 (snd v)) eqn:E2.
    2:{ apply Nat.ltb_ge in E2. apply Nat.eqb_neq in E1. assert (snd v = 0) by lia.
        rewrite stored_empty; [reflexivity|]. apply length_zero_iff_nil. congruence. }
    apply forallb_forall. intros [i k] _. cbn [fst snd].
    assert (Al := assoc_map _ _ hpp_field (n_vars x) v (fun a => eq_refl) (bo_vars x HX) Hv).
    assert (Ar := assoc_map _ _ c_field (n_vars x) v (fun a => eq_refl) (bo_vars x HX) Hv).
    destruct (ty_local x _ _ _ _ _ _ El (st_prim x) Al) as [_ L2].
    destruct (ty_global x _ _ _ _ _ _ Er (ob_prim x) (st_cprim x) Ar) as [_ R2].
    rewrite hpp_cases, E2 in L2. rewrite c_cases, E1 in R2.
    cbn [check]. rewrite L2, R2. reflexivity.
  Qed.

  (** The environment from the declaration of CPG_Dual_cpp on. *)
  Definition env2 := when_f (has_dual x) [("CPG_Dual_cpp", XRec (pre "CPG_Dual_cpp_t"))] ++ env1.
  Definition env3 := ("CPG_Info_cpp", XRec (pre "CPG_Info_cpp_t")) :: env2.
  Definition env4 := ("CPG_Result_cpp", XRec (pre "CPG_Result_cpp_t")) :: env3.

  Lemma dual_check : has_dual x = true -> forall v, In v (n_duals x) ->
    check x env2 (copy "CPG_Dual_cpp" (pre "CPG_Dual") v) = negb (Nat.eqb (snd v) 0).
  Proof.
    intros HD v Hv. unfold env2. rewrite HD. cbn [when_f app].
    eapply copy_check; eauto using st_dual, st_cdual, ob_dual, bo_duals, i_duals.
    - reflexivity.
    - unfold env1, solve_args. names.
  Qed.

  Lemma info_check : expl x = false ->
    forallb (check x env3) (map (fun f => SSet (dot "CPG_Info_cpp" f) (dot (pre "CPG_Info") f)) ["obj_val"; "iter"; "status"; "pri_res"; "dua_res"]) = true.
  Proof.
    intro E. assert (N : assoc (pre "CPG_Info") env3 = None).
    { unfold env3, env2, env1, solve_args. destruct (has_dual x); names. }
    assert (G : forall f t, assoc f (info_fields x) = Some t ->
               assoc f [("obj_val", XNum); ("iter", XNum); ("status", if status_int (n_if x) then XNum else XStr); ("pri_res", XNum); ("dua_res", XNum)] = Some t ->
               xty_eqb t t = true -> check x env3 (SSet (dot "CPG_Info_cpp" f) (dot (pre "CPG_Info") f)) = true).
    { intros f t H1 H2 H3. cbn [check].
      destruct (ty_local x env3 "CPG_Info_cpp" f _ _ _ eq_refl (st_info x) H1) as [-> _].
      destruct (ty_global x env3 _ f _ _ _ N (ob_info x E) (st_cinfo x E) H2) as [-> _]. exact H3. }
    cbn [map forallb]. unfold info_fields in G. rewrite E in G. cbn [negb when_f app] in G.
    rewrite (G "obj_val" XNum), (G "iter" XNum), (G "pri_res" XNum), (G "dua_res" XNum) by reflexivity.
    rewrite (G "status" (if status_int (n_if x) then XNum else XStr)); try reflexivity. now destruct (status_int (n_if x)).
  Qed.
  Lemma time_check : check x env3 (STime (dot "CPG_Info_cpp" "time")) = true.
  Proof.
    cbn [check]. assert (H1 : assoc "time" (info_fields x) = Some XNum) by (unfold info_fields; destruct (expl x); reflexivity).
    destruct (ty_local x env3 "CPG_Info_cpp" "time" _ _ _ eq_refl (st_info x) H1) as [-> _]. reflexivity.
  Qed.
  Definition grad_read : list cst :=
    when_f (n_gradient x)
         (if expl x then [SSet (dot "CPG_Info_cpp" "region") (obj "pdaqp_active_region")]
          else [SFor (n_nvar x) (SSet (dot_at "CPG_Info_cpp" "gradient_primal" II) (obj_at "sol_x" II));
                SFor (n_ncon x) (SSet (dot_at "CPG_Info_cpp" "gradient_dual" II) (obj_at "sol_y" II))]).
  Lemma loc_none : forall n, is_suffix n n = true -> assoc n env3 = None -> forall i, typeof x env3 (obj_at n i)
    = match assoc n (objects x) with Some t => if ix_ok x i then match t with XArr _ | XPtr => Some XNum | _ => None end else None | None => None end.
  Proof. intros n _ H i. unfold typeof, obj_at. cbn [e_root e_fld e_at]. rewrite H. reflexivity. Qed.
  Lemma gread_check : forallb (check x env3) grad_read = negb (two_stage_b x).
  Proof.
    unfold grad_read, two_stage_b. destruct (n_gradient x) eqn:G; [|reflexivity]. cbn [when_f andb].
    destruct (expl x) eqn:E; cbn [negb andb].
    - cbn [forallb check].
      assert (H1 : assoc "region" (info_fields x) = Some XNum) by (unfold info_fields; rewrite G, E; reflexivity).
      destruct (ty_local x env3 "CPG_Info_cpp" "region" _ _ _ eq_refl (st_info x) H1) as [-> _].
      unfold typeof, obj. cbn [e_root e_fld e_at].
      replace (assoc "pdaqp_active_region" env3) with (@None xty) by (unfold env3, env2; destruct (has_dual x); reflexivity).
      rewrite (ob_region x G E). reflexivity.
    - assert (H1 : assoc "gradient_primal" (info_fields x) = Some (XArr (n_nvar x))) by (unfold info_fields; rewrite G, E; reflexivity).
      assert (H2 : assoc "gradient_dual" (info_fields x) = Some (XArr (n_ncon x))) by (unfold info_fields; rewrite G, E; reflexivity).
      destruct (ty_local x env3 "CPG_Info_cpp" _ _ _ _ eq_refl (st_info x) H1) as [_ L1].
      destruct (ty_local x env3 "CPG_Info_cpp" _ _ _ _ eq_refl (st_info x) H2) as [_ L2].
      cbn [forallb check]. rewrite L1, L2, (i_grad x G).
      assert (N1 : assoc "sol_x" env3 = None) by (unfold env3, env2; destruct (has_dual x); reflexivity).
      assert (N2 : assoc "sol_y" env3 = None) by (unfold env3, env2; destruct (has_dual x); reflexivity).
      rewrite (loc_none "sol_x" eq_refl N1), (loc_none "sol_y" eq_refl N2).
      destruct (ob_sol x G E) as [-> ->]. cbn [ix_ok]. rewrite (i_grad x G). unfold osqp.
      destruct (n_if x); reflexivity.
  Qed.
  Lemma result_check : forallb (check x env4)
    ([SSet (dot "CPG_Result_cpp" "prim") (obj "CPG_Prim_cpp")]
     ++ when_f (has_dual x) [SSet (dot "CPG_Result_cpp" "dual") (obj "CPG_Dual_cpp")]
     ++ [SSet (dot "CPG_Result_cpp" "info") (obj "CPG_Info_cpp")]) = true.
  Proof.
    assert (R := st_result x).
    assert (G : forall f t n, assoc f ([("prim", XRec (pre "CPG_Prim_cpp_t"))] ++ when_f (has_dual x) [("dual", XRec (pre "CPG_Dual_cpp_t"))]
            ++ [("info", XRec (pre "CPG_Info_cpp_t"))]) = Some (XRec t) -> assoc n env4 = Some (XRec t) ->
            check x env4 (SSet (dot "CPG_Result_cpp" f) (obj n)) = true).
    { intros f t n H1 H2. cbn [check]. destruct (ty_local x env4 "CPG_Result_cpp" f _ _ _ eq_refl R H1) as [-> _].
      unfold typeof, obj. cbn [e_root e_fld e_at]. rewrite H2. cbn. apply String.eqb_refl. }
    rewrite !forallb_app. cbn [forallb]. rewrite (G "prim" (pre "CPG_Prim_cpp_t")).
    2: reflexivity. 2:{ unfold env4, env3, env2. destruct (has_dual x); reflexivity. }
    rewrite (G "info" (pre "CPG_Info_cpp_t")).
    2:{ destruct (has_dual x); reflexivity. } 2: reflexivity.
    destruct (has_dual x) eqn:HD; [|reflexivity]. cbn [when_f forallb].
    rewrite (G "dual" (pre "CPG_Dual_cpp_t")); try reflexivity.
    unfold env4, env3, env2. rewrite HD. reflexivity.
  Qed.

  Ltac nodecl :=
    let c := fresh in let H := fresh in
    intros c H; repeat (rewrite in_app_iff in H || rewrite in_map_iff in H || rewrite in_flat_map in H);
    repeat match goal with
           | H : _ \/ _ |- _ => destruct H
           | H : exists _, _ |- _ => destruct H
           | H : _ /\ _ |- _ => destruct H
           | H : In _ [] |- _ => destruct H
           | H : In _ (_ :: _) |- _ => destruct H
           | H : _ = _ |- _ => subst
           end; try exact I.

  Lemma copy_nodecl : forall l r v, match copy l r v with SDecl _ _ => False | _ => True end.
  Proof. intros. unfold copy. destruct (Nat.eqb (snd v) 1); exact I. Qed.

  Lemma solve_check : check_body x (solve_args x) (solve_cpp x)
    = pos (n_params x) && (expl x || pos (n_vars x)) && (negb (has_dual x) || pos (n_duals x)) && negb (two_stage_b x).
  Proof.
    unfold solve_cpp. rewrite body_app.
    2:{ intros c H. apply in_map_iff in H as (p & <- & _). exact I. }
    rewrite forallb_map. rewrite (forallb_ext_in _ _ (fun p => negb (Nat.eqb (snd p) 0))) by (intros; now apply upd_check).
    change (forallb (fun p : string * nat => negb (Nat.eqb (snd p) 0)) (n_params x)) with (pos (n_params x)).
    rewrite <- !andb_assoc. f_equal.
    cbn [app check_body]. cbn [check]. rewrite (fn_solve x). cbn [args_ok andb].
    unfold known_struct at 1. rewrite (st_prim x). cbn [andb]. fold env1.
    rewrite body_app.
    2:{ intros c H. apply in_flat_map in H as (v & _ & H). unfold get_prim in H.
        destruct (expl x && negb (Nat.eqb (snd v) 1)); [apply in_map_iff in H as (q & <- & _); exact I|].
        destruct H as [<-|[]]. apply copy_nodecl. }
    rewrite forallb_flat. rewrite (forallb_ext_in _ _ (fun v => expl x || negb (Nat.eqb (snd v) 0))) by (intros; now apply prim_check).
    replace (forallb (fun v : string * nat => expl x || negb (Nat.eqb (snd v) 0)) (n_vars x)) with (expl x || pos (n_vars x)).
    2:{ unfold pos. destruct (expl x); [|reflexivity]. symmetry. apply forallb_forall. auto. }
    f_equal.
    assert (T : check_body x env2
      ([SDecl (pre "CPG_Info_cpp_t") "CPG_Info_cpp"]
      ++ when_f (negb (expl x)) (map (fun f => SSet (dot "CPG_Info_cpp" f) (dot (pre "CPG_Info") f))
                               ["obj_val"; "iter"; "status"; "pri_res"; "dua_res"])
      ++ [STime (dot "CPG_Info_cpp" "time")] ++ grad_read
      ++ [SDecl (pre "CPG_Result_cpp_t") "CPG_Result_cpp"; SSet (dot "CPG_Result_cpp" "prim") (obj "CPG_Prim_cpp")]
      ++ when_f (has_dual x) [SSet (dot "CPG_Result_cpp" "dual") (obj "CPG_Dual_cpp")]
      ++ [SSet (dot "CPG_Result_cpp" "info") (obj "CPG_Info_cpp")]) = negb (two_stage_b x)).
    { cbn [app check_body check]. unfold known_struct at 1. rewrite (st_info x). cbn [andb]. fold env3.
      rewrite body_app.
      2:{ intros c H. destruct (expl x); [destruct H|]. apply in_map_iff in H as (f & <- & _). exact I. }
      replace (forallb _ _) with true.
      2:{ symmetry. destruct (expl x) eqn:E; [reflexivity|]. now apply info_check. }
      cbn [andb check_body]. rewrite time_check. cbn [andb].
      rewrite body_app.
      2:{ intros c H. unfold grad_read in H. destruct (n_gradient x); [|destruct H]. destruct (expl x); cbn in H; intuition (subst; exact I). }
      rewrite gread_check. rewrite <- (andb_true_r (negb (two_stage_b x))) at 2. f_equal.
      cbn [app check_body check]. unfold known_struct. rewrite (st_result x). cbn [andb]. fold env4.
      pose proof result_check as R. cbn [app] in R.
      change (check_body x env4 ((SSet (dot "CPG_Result_cpp" "prim") (obj "CPG_Prim_cpp"))
              :: when_f (has_dual x) [SSet (dot "CPG_Result_cpp" "dual") (obj "CPG_Dual_cpp")]
              ++ [SSet (dot "CPG_Result_cpp" "info") (obj "CPG_Info_cpp")]) = true).
      rewrite body_nodecl; [exact R|]. intros c H. destruct (has_dual x); cbn in H; intuition (subst; exact I). }
    destruct (has_dual x) eqn:HD; cbn [when_f app negb orb].
    - cbn [check_body check]. unfold known_struct at 1. rewrite (st_dual x HD). cbn [andb].
      assert (E2 : ("CPG_Dual_cpp", XRec (pre "CPG_Dual_cpp_t")) :: env1 = env2) by (unfold env2; now rewrite HD).
      rewrite E2. rewrite body_app.
      2:{ intros c H. apply in_map_iff in H as (v & <- & _). apply copy_nodecl. }
      rewrite forallb_map. rewrite (forallb_ext_in _ _ (fun v => negb (Nat.eqb (snd v) 0))) by (intros; now apply dual_check).
      change (forallb (fun v : string * nat => negb (Nat.eqb (snd v) 0)) (n_duals x)) with (pos (n_duals x)).
      f_equal. exact T.
    - assert (E2 : env1 = env2) by (unfold env2; now rewrite HD). rewrite E2. exact T.
  Qed.

  (** ** gradient_cpp *)

  Definition genv := gradient_args x.
  Definition genv2 := ("CPG_PDelta_cpp", XRec (pre "CPG_PDelta_cpp_t")) :: genv.
  Definition put_sol : cst :=
    SIf (obj "use_sol")
       (if expl x then SSet (obj "pdaqp_active_region") (obj "region")
        else SSeq (SFor (n_nvar x) (SSet (obj_at "sol_x" II) (dot_at "CPG_GSol_cpp" "primal" II)))
                  (SFor (n_ncon x) (SSet (obj_at "sol_y" II) (dot_at "CPG_GSol_cpp" "dual" II)))).
  Lemma put_sol_check : n_gradient x = true -> check x genv put_sol = negb (two_stage_b x).
  Proof.
    intro G. unfold put_sol. cbn [check]. unfold typeof at 1, obj at 1. cbn [e_root e_fld e_at].
    assert (U : assoc "use_sol" genv = Some XBool) by (unfold genv, gradient_args; destruct (expl x); reflexivity).
    rewrite U. unfold two_stage_b. rewrite G. cbn [andb]. destruct (expl x) eqn:E; cbn [negb andb].
    - cbn [check]. unfold typeof, obj. cbn [e_root e_fld e_at].
      assert (R : assoc "region" genv = Some XNum) by (unfold genv, gradient_args; rewrite E; reflexivity).
      assert (N : assoc "pdaqp_active_region" genv = None) by (unfold genv, gradient_args; rewrite E; reflexivity).
      rewrite N, R, (ob_region x G E). reflexivity.
    - assert (S : assoc "CPG_GSol_cpp" genv = Some (XRec (pre "CPG_GSol_cpp_t"))) by (unfold genv, gradient_args; rewrite E; reflexivity).
      assert (N1 : assoc "sol_x" genv = None) by (unfold genv, gradient_args; rewrite E; reflexivity).
      assert (N2 : assoc "sol_y" genv = None) by (unfold genv, gradient_args; rewrite E; reflexivity).
      destruct (ty_local x genv "CPG_GSol_cpp" "primal" _ _ (XArr (n_nvar x)) S (st_gsol x G E) eq_refl) as [_ L1].
      destruct (ty_local x genv "CPG_GSol_cpp" "dual" _ _ (XArr (n_ncon x)) S (st_gsol x G E) eq_refl) as [_ L2].
      cbn [check]. rewrite L1, L2. cbn [ix_ok]. rewrite (i_grad x G).
      unfold typeof, obj_at. cbn [e_root e_fld e_at]. rewrite N1, N2. destruct (ob_sol x G E) as [-> ->].
      cbn [ix_ok]. rewrite (i_grad x G). unfold osqp. destruct (n_if x); reflexivity.
  Qed.

  Lemma put_delta_check : n_gradient x = true -> forall v, In v (n_vars x) ->
    forallb (check x genv) (put_delta x v) = expl x || negb (Nat.eqb (snd v) 0).
  Proof.
    intros G v Hv. unfold put_delta.
    assert (El : assoc "CPG_VDelta_cpp" genv = Some (XRec (pre "CPG_VDelta_cpp_t"))) by reflexivity.
    assert (Al := assoc_map _ _ hpp_field (n_vars x) v (fun a => eq_refl) (bo_vars x HX) Hv).
    destruct (ty_local x _ _ _ _ _ _ El (st_vdelta x G) Al) as [L1 L2]. rewrite hpp_cases in L1, L2.
    pose proof (fn_updated x HX v G Hv) as F. unfold proto in F.
    destruct (Nat.eqb (snd v) 1) eqn:E1.
    { apply Nat.eqb_eq in E1. cbn [forallb check]. rewrite F. cbn [args_ok arg_ok]. rewrite L1, E1. cbn. now rewrite orb_true_r. }
    destruct (expl x) eqn:E; cbn [orb].
    - rewrite forallb_map. pose proof (bo_idx x HX v Hv) as HI.
      destruct (Nat.ltb 1 (snd v)) eqn:E2.
      2:{ apply Nat.ltb_ge in E2. apply Nat.eqb_neq in E1. assert (snd v = 0) by lia.
          rewrite stored_empty; [reflexivity|]. apply length_zero_iff_nil. congruence. }
      apply forallb_forall. intros [i k] _. cbn [fst snd check]. rewrite F. cbn [args_ok arg_ok]. rewrite L2. reflexivity.
    - cbn [forallb check]. rewrite F. cbn [args_ok arg_ok]. rewrite L2. cbn [ix_ok]. rewrite (i_grad x G).
      apply Nat.eqb_neq in E1. destruct (Nat.ltb_spec 1 (snd v)).
      + replace (Nat.eqb (snd v) 0) with false by (symmetry; apply Nat.eqb_neq; lia). reflexivity.
      + assert (snd v = 0) as -> by lia. reflexivity.
  Qed.
  Lemma get_delta_check : n_gradient x = true -> forall p, In p (n_params x) ->
    check x genv2 (get_delta x p) = negb (Nat.eqb (snd p) 0).
  Proof.
    intros G p Hp. unfold get_delta.
    assert (El : assoc "CPG_PDelta_cpp" genv2 = Some (XRec (pre "CPG_PDelta_cpp_t"))) by reflexivity.
    assert (Er : assoc (pre "CPG_Delta") genv2 = None) by (unfold genv2, genv, gradient_args; destruct (expl x); names).
    assert (Al := assoc_map _ _ hpp_field (n_params x) p (fun a => eq_refl) (bo_params x HX) Hp).
    assert (Ar := assoc_map _ _ (fun p => (fst p, XPtr)) (n_params x) p (fun a => eq_refl) (bo_params x HX) Hp).
    destruct (ty_local x _ _ _ _ _ _ El (st_pdelta x G) Al) as [L1 L2]. rewrite hpp_cases in L1, L2.
    destruct (ty_global x _ _ _ _ _ _ Er (ob_delta x G) (st_cdelta x) Ar) as [_ R2]. cbn [snd] in R2.
    destruct (Nat.eqb (snd p) 1) eqn:E1; cbn [check].
    - apply Nat.eqb_eq in E1. rewrite L1, R2, E1. reflexivity.
    - rewrite L2, R2. cbn [ix_ok]. rewrite (i_grad x G).
      apply Nat.eqb_neq in E1. destruct (Nat.ltb_spec 1 (snd p)).
      + replace (Nat.eqb (snd p) 0) with false by (symmetry; apply Nat.eqb_neq; lia). reflexivity.
      + assert (snd p = 0) as -> by lia. reflexivity.
  Qed.
  Lemma gradient_check : n_gradient x = true -> check_body x genv (gradient_cpp x)
    = negb (two_stage_b x) && (expl x || pos (n_vars x)) && pos (n_params x).
  Proof.
    intro G. unfold gradient_cpp. fold put_sol. cbn [app check_body]. rewrite (put_sol_check G). rewrite <- andb_assoc. f_equal.
    change (check_body x genv (flat_map (put_delta x) (n_vars x)
      ++ SCall (pre "cpg_gradient") [] :: SDecl (pre "CPG_PDelta_cpp_t") "CPG_PDelta_cpp" :: map (get_delta x) (n_params x))
      = (expl x || pos (n_vars x)) && pos (n_params x)).
    rewrite body_app.
    2:{ intros c H. apply in_flat_map in H as (v & _ & H). unfold put_delta in H.
        destruct (Nat.eqb (snd v) 1); [destruct H as [<-|[]]; exact I|].
        destruct (expl x); [apply in_map_iff in H as (q & <- & _); exact I|]. destruct H as [<-|[]]; exact I. }
    rewrite forallb_flat. rewrite (forallb_ext_in _ _ (fun v => expl x || negb (Nat.eqb (snd v) 0))) by (intros; now apply put_delta_check).
    f_equal.
    { unfold pos. destruct (expl x); [|reflexivity]. cbn. apply forallb_forall. auto. }
    cbn [check_body check]. rewrite (fn_gradient x G). cbn [args_ok andb].
    unfold known_struct. rewrite (st_pdelta x G). cbn [andb]. fold genv2.
    rewrite body_nodecl.
    2:{ intros c H. apply in_map_iff in H as (p & <- & _). unfold get_delta. destruct (Nat.eqb (snd p) 1); exact I. }
    rewrite forallb_map. apply forallb_ext_in. intros p Hp. now apply get_delta_check.
  Qed.

  (** ** Structs, classes and functions *)

  Definition okn (l : list (string * nat)) : bool := forallb (fun v => cpp_name (fst v)) l.
  Lemma fields_ok : forall seen (f : string * nat -> string * xty) l,
    (forall a, fst (f a) = fst a) -> (forall a, match snd (f a) with XRec _ => False | _ => True end) ->
    forallb (fun f => cpp_name (fst f) && match snd f with XRec s => mem_str s seen | _ => true end) (map f l) = okn l.
  Proof.
    intros seen f l H1 H2. rewrite forallb_map. apply forallb_ext_in. intros a _. rewrite H1.
    specialize (H2 a). destruct (snd (f a)); try destruct H2; now rewrite andb_true_r.
  Qed.
  Lemma hpp_flat : forall a, match snd (hpp_field a) with XRec _ => False | _ => True end.
  Proof. intro a. rewrite hpp_cases. destruct (Nat.ltb 1 (snd a)); exact I. Qed.
  Lemma c_flat : forall a, match snd (c_field a) with XRec _ => False | _ => True end.
  Proof. intro a. rewrite c_cases. destruct (Nat.eqb (snd a) 1); exact I. Qed.
  Lemma dist : forall B (f : string * nat -> string * B) l, (forall a, fst (f a) = fst a) -> NoDup (map fst l) -> distinct (map fst (map f l)) = true.
  Proof. intros B f l H ND. apply distinct_nodup. rewrite map_map. erewrite map_ext by apply H. exact ND. Qed.
  Ltac flat := rewrite fields_ok by (first [reflexivity | exact hpp_flat | exact c_flat | (intros; exact I)]);
               rewrite dist by (first [reflexivity | apply HX]).

  Lemma hpp_ok : structs_ok [] (hpp_structs x) = okn (n_params x) && okn (n_vars x) && (negb (has_dual x) || okn (n_duals x)).
  Proof.
    unfold hpp_structs.
    assert (I : forall seen, forallb (fun f => cpp_name (fst f) && match snd f with XRec s => mem_str s seen | _ => true end) (info_fields x) = true
                             /\ distinct (map fst (info_fields x)) = true).
    { intro seen. unfold info_fields. destruct (expl x), (n_gradient x), (status_int (n_if x)); split; reflexivity. }
    fold (info_fields x).
    destruct (has_dual x) eqn:HD; cbn [when_f app structs_ok negb orb].
    all: repeat flat; cbn [andb].
    all: destruct (n_gradient x && negb (expl x)); cbn [when_f app structs_ok].
    all: rewrite !(proj1 (I _)), (proj2 (I [])).
    all: cbn [fst snd forallb map distinct mem_str].
    all: rewrite ?pfx_eqb; cbn [String.eqb Ascii.eqb Bool.eqb].
    all: destruct (n_gradient x); cbn [when_f structs_ok]; repeat flat.
    all: repeat match goal with |- context [mem_str (n_prefix x ++ ?a)%string ?l] =>
      replace (mem_str (n_prefix x ++ a)%string l) with true by (symmetry; apply mem_str_In; cbn; tauto) end;
      destruct (okn (n_params x)), (okn (n_vars x)), (okn (n_duals x)); reflexivity.
  Qed.
  Lemma cst_ok : structs_ok [] (c_structs x) = okn (n_vars x) && okn (n_duals x) && okn (n_params x).
  Proof.
    unfold c_structs. destruct (n_duals x) as [|d ds] eqn:D; cbn [nonempty when_f app structs_ok].
    - destruct (expl x); cbn [negb when_f structs_ok app]; repeat flat.
      all: try (destruct (status_int (n_if x))); destruct (okn (n_vars x)), (okn (n_params x)); reflexivity.
    - rewrite <- D. destruct (expl x); cbn [negb when_f structs_ok app]; repeat flat.
      all: try (destruct (status_int (n_if x))); destruct (okn (n_vars x)), (okn (n_duals x)), (okn (n_params x)); reflexivity.
  Qed.

  Lemma class_same : forall n t fs l, assoc t (structs x) = Some fs -> (forall a, In a l -> In a (map fst fs)) ->
    class_ok x (mkCls n t (same l)) = true.
  Proof.
    intros n t fs l H1 H2. unfold class_ok. cbn [k_struct k_attrs]. rewrite H1. unfold same. rewrite forallb_map.
    apply forallb_forall. intros a Ha. cbn [snd]. destruct (assoc a fs) eqn:E; auto.
    exfalso. apply H2 in Ha. apply in_map_iff in Ha as ((b & u) & <- & Hb). cbn in E.
    clear - E Hb. induction fs as [|[c w] fs IH]; [destruct Hb|]. cbn in E. destruct (String.eqb b c) eqn:Q; [discriminate|].
    destruct Hb as [[= -> ->]|Hb]; [now rewrite String.eqb_refl in Q|]. now apply IH.
  Qed.
  Lemma map_fst_id : forall B (f : string * nat -> string * B) l, (forall a, fst (f a) = fst a) -> map fst (map f l) = map fst l.
  Proof. intros. rewrite map_map. now apply map_ext. Qed.
  Lemma classes_ok : forallb (class_ok x) (classes x) = true.
  Proof.
    assert (P : class_ok x (mkCls (pre "cpg_params") (pre "CPG_Params_cpp_t") (same (names (n_params x)))) = true).
    { eapply class_same; [apply st_params|]. rewrite map_fst_id by reflexivity. auto. }
    assert (U : class_ok x (mkCls (pre "cpg_updated") (pre "CPG_Updated_cpp_t") (same (names (n_params x)))) = true).
    { eapply class_same; [apply st_updated|]. rewrite map_fst_id by reflexivity. auto. }
    assert (M : class_ok x (mkCls (pre "cpg_prim") (pre "CPG_Prim_cpp_t") (same (names (n_vars x)))) = true).
    { eapply class_same; [apply st_prim|]. rewrite map_fst_id by reflexivity. auto. }
    assert (D : has_dual x = true -> class_ok x (mkCls (pre "cpg_dual") (pre "CPG_Dual_cpp_t") (same (names (n_duals x)))) = true).
    { intro H. eapply class_same; [now apply st_dual|]. rewrite map_fst_id by reflexivity. auto. }
    assert (V : n_gradient x = true -> class_ok x (mkCls (pre "cpg_vdelta") (pre "CPG_VDelta_cpp_t") (same (names (n_vars x)))) = true).
    { intro H. eapply class_same; [now apply st_vdelta|]. rewrite map_fst_id by reflexivity. auto. }
    assert (W : n_gradient x = true -> class_ok x (mkCls (pre "cpg_pdelta") (pre "CPG_PDelta_cpp_t") (same (names (n_params x)))) = true).
    { intro H. eapply class_same; [now apply st_pdelta|]. rewrite map_fst_id by reflexivity. auto. }
    assert (S : n_gradient x && negb (expl x) = true -> class_ok x (mkCls (pre "cpg_gsol") (pre "CPG_GSol_cpp_t") (same ["primal"; "dual"])) = true).
    { intro H. apply andb_true_iff in H as [G E]. apply negb_true_iff in E. eapply class_same; [now apply st_gsol|]. cbn. auto. }
    unfold classes. rewrite !forallb_app. cbn [forallb]. rewrite P, U, M.
    assert (I : class_ok x (mkCls (pre "cpg_info") (pre "CPG_Info_cpp_t")
          (same (when_f (negb (expl x)) ["obj_val"; "iter"; "status"; "pri_res"; "dua_res"] ++ ["time"]
                 ++ when_f (n_gradient x) (if expl x then ["region"] else ["gradient_primal"; "gradient_dual"])))) = true).
    { eapply class_same; [apply st_info|]. unfold info_fields. destruct (expl x), (n_gradient x); cbn; tauto. }
    rewrite I.
    replace (class_ok x (mkCls (pre "cpg_result") _ _)) with true.
    2:{ symmetry. unfold class_ok. cbn [k_struct k_attrs]. rewrite (st_result x). destruct (has_dual x); reflexivity. }
    destruct (has_dual x); cbn [when_f forallb]; rewrite ?D by reflexivity;
    destruct (n_gradient x && negb (expl x)); cbn [when_f forallb]; rewrite ?S by reflexivity;
    destruct (n_gradient x); cbn [when_f forallb]; rewrite ?V, ?W by reflexivity; reflexivity.
  Qed.
  Lemma funs_ok : forallb (fun_ok x) (functions_py x) = true.
  Proof.
    apply forallb_forall. intros f Hf. unfold fun_ok. apply mem_str_In. apply in_app_iff.
    unfold functions_py in Hf. rewrite !in_app_iff in Hf. destruct Hf as [Hf|[Hf|Hf]].
    - left. destruct Hf as [<-|[]]. now left.
    - left. destruct (n_gradient x) eqn:G; [|destruct Hf]. destruct Hf as [<-|[]]. unfold defined_cpp. rewrite G. right. now left.
    - right. destruct (expl x) eqn:E; [destruct Hf|]. apply in_map_iff.
      cbn [when_f negb] in Hf. destruct Hf as [<-|Hf].
      + exists (pre "cpg_set_solver_default_settings", []). split; [reflexivity|]. unfold functions. rewrite E. cbn [when_f negb].
        rewrite !in_app_iff. right. right. right. now left.
      + apply in_map_iff in Hf as (s & <- & Hs).
        exists (pre ("cpg_set_solver_" ++ s), [ANum]). split; [reflexivity|]. unfold functions. rewrite E. cbn [when_f negb].
        rewrite !in_app_iff. right. right. right. right. apply in_map_iff. exists s. auto.
  Qed.

  Lemma returns_in : forall l n t, In (SDecl t n) l -> returns l n t = true.
  Proof. intros l n t H. unfold returns. apply existsb_exists. exists (SDecl t n). split; auto. now rewrite !String.eqb_refl. Qed.

  Lemma compiles_eq : compiles x
    = okn (n_params x) && okn (n_vars x) && okn (n_duals x)
      && pos (n_params x) && (expl x || pos (n_vars x)) && (negb (has_dual x) || pos (n_duals x)) && negb (two_stage_b x).
  Proof.
    unfold compiles. rewrite hpp_ok, cst_ok, solve_check, classes_ok, funs_ok.
    rewrite (returns_in (solve_cpp x)).
    2:{ unfold solve_cpp. rewrite !in_app_iff. cbn [In]. tauto. }
    rewrite !andb_true_r.
    replace (if n_gradient x then _ else true) with (if n_gradient x then check_body x genv (gradient_cpp x) else true).
    2:{ destruct (n_gradient x); [|reflexivity]. rewrite (returns_in (gradient_cpp x)); [now rewrite andb_true_r|].
        unfold gradient_cpp. rewrite !in_app_iff. cbn [In]. tauto. }
    destruct (n_gradient x) eqn:G; [rewrite (gradient_check G)|];
      destruct (okn (n_params x)), (okn (n_vars x)), (okn (n_duals x)), (pos (n_params x)), (expl x), (pos (n_vars x)),
        (has_dual x), (pos (n_duals x)), (two_stage_b x); reflexivity.
  Qed.

  Lemma pos_spec : forall l, pos l = true <-> (forall n k, In (n, k) l -> k <> 0).
  Proof.
    intro l. unfold pos. rewrite forallb_forall. split.
    - intros H n k Hk. apply H in Hk. apply negb_true_iff, Nat.eqb_neq in Hk. exact Hk.
    - intros H [n k] Hk. apply negb_true_iff, Nat.eqb_neq. cbn. eauto.
  Qed.
  Lemma okn_spec : forall l, okn l = true <-> (forall n k, In (n, k) l -> cpp_name n = true).
  Proof.
    intro l. unfold okn. rewrite forallb_forall. split.
    - intros H n k Hk. now apply H in Hk.
    - intros H [n k] Hk. cbn. eauto.
  Qed.

  Theorem compiles_iff : compiles x = true <-> binding_cond x.
  Proof.
    rewrite compiles_eq. rewrite !andb_true_iff, !orb_true_iff, !negb_true_iff. rewrite !pos_spec, !okn_spec.
    unfold binding_cond. split.
    - intros ((((((A1 & A2) & A3) & B) & C) & D) & E). split; [|split; [|split; [|split]]].
      + intros n k H. rewrite !in_app_iff in H. destruct H as [H|[H|H]]; eauto.
      + exact B.
      + intros Z. destruct C as [C|C]; auto. unfold expl in C. rewrite Z in C. discriminate.
      + intros Z n k H. destruct D as [D|D]; [|eauto]. unfold has_dual in D. apply Nat.eqb_neq in Z. rewrite Z in D.
        destruct (n_duals x); [destruct H|discriminate].
      + intros G Z. unfold two_stage_b, expl in E. rewrite G, Z in E. destruct (n_if x); try discriminate; reflexivity.
    - intros (A & B & C & D & E). split; [split; [split; [split; [split; [split|]|]|]|]|].
      + intros n k H. apply (A n k). rewrite !in_app_iff. auto.
      + intros n k H. apply (A n k). rewrite !in_app_iff. auto.
      + intros n k H. apply (A n k). rewrite !in_app_iff. auto.
      + exact B.
      + unfold expl. destruct (Nat.eqb_spec (n_explicit x) 0) as [Z|Z]; [right; exact (C Z)|left; reflexivity].
      + unfold has_dual. destruct (Nat.eqb_spec (n_explicit x) 1) as [Z|Z]; [left; reflexivity|right; exact (D Z)].
      + unfold two_stage_b, expl. destruct (n_gradient x); [|reflexivity].
        destruct (Nat.eqb_spec (n_explicit x) 0); [|reflexivity]. rewrite E by auto. reflexivity.
  Qed.

  (** ** cpg_solver.py *)

  Theorem uses_offered :
    (forall n, In n (uses_module x) -> In n (offers x))
    /\ (forall c l a, In (c, l) (uses_attrs x) -> In a l -> In a (attrs_of x c)).
  Proof.
    split.
    - intros n H. unfold offers, classes, functions_py. unfold uses_module in H.
      destruct (expl x), (n_gradient x), (has_dual x); cbn in H |- *; tauto.
    - intros c l a Hc Ha. unfold attrs_of. apply in_flat_map.
      assert (G : forall s at_, In (mkCls c s at_) (classes x) -> In a (map fst at_) ->
                exists k, In k (classes x) /\ In a (if String.eqb (k_name k) c then map fst (k_attrs k) else [])).
      { intros s at_ H1 H2. exists (mkCls c s at_). split; auto. cbn [k_name k_attrs]. now rewrite String.eqb_refl. }
      assert (M : forall l, map fst (same l) = l) by (intro; unfold same; rewrite map_map; apply map_id).
      unfold classes in G at 1. unfold uses_attrs in Hc.
      destruct (expl x), (n_gradient x), (has_dual x); cbn -[same] in Hc;
      repeat (destruct Hc as [Hc|Hc]; [injection Hc as <- <-; eapply G; [cbn -[same]; repeat (first [left; reflexivity | right])|rewrite ?M; cbn in Ha |- *; tauto]|]);
      destruct Hc.
  Qed.
End Whole.
