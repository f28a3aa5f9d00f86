(** C52: global identifiers of the generated code. *)

From Coq Require Import String Ascii List Bool Arith Lia Permutation.
From Verif Require Import Base Config Symbols SymbolsProofs PropConfig.
Import ListNotations.
Open Scope string_scope.
Open Scope list_scope.

(** ** Names a user has to avoid *)

(** Leading strings that vector variable names must not have. *)
Definition heads : list string :=
  ["cpg_"; "canon_"; "Canon_"; "CPG_"; "Scs_"; "scs_"; "ecos_"; "qoco_"; "params_vec"; "canonicalize_";
   "retrieve_"; "copy_"; "set_solver_"; "update_"; "osqp_grad_"].
(** Whole names that vector variables must not have, by solver. *)
Definition words (i : iface) : list string :=
  ["theta"; "solve"; "obj"; "dp"; "gradient"]
  ++ match i with ICLARABEL => ["P"; "A"; "cones"; "settings"; "solver"; "solution"] | _ => [] end.
Fixpoint digits (s : string) : bool :=
  match s with EmptyString => true | String c t => is_digit c && digits t end.
(** CVXPYgen's own names for dual variables: d0, d1, ... *)
Definition dual_name (s : string) : bool :=
  match s with
  | String d (String c t) => Ascii.eqb d "d" && digits (String c t)
  | _ => false
  end.
Definition safe (i : iface) (v : string) : bool :=
  negb (existsb (fun h => starts h v) heads) && negb (mem_str v (words i)) && negb (dual_name v).

(** Names without prefix: those of generated files and of the example program, and those of the
    solvers' own code that the generated code refers to. *)
Definition foreign : list string :=
  ["main"; "sol_x"; "sol_y"; "solver"; "pdaqp_evaluate"; "pdaqp_hp_list"; "pdaqp_feedbacks";
   "pdaqp_active_region"; "n"; "N"; "cpg_grad_a"; "cpg_grad_a_bar"; "cpg_grad_gamma"; "insert_nonzero"; "insert_nonzero_and_value"; "remove_nonzero";
   "symbolic_ldl_update"; "symbolic_ldl_downdate"; "cpg_rank_1_update"; "cpg_ldl_delete"; "cpg_ldl_add";
   "cpg_ldl_symbolic"; "cpg_ldl_numeric"; "cpg_P_to_K"; "cpg_A_to_K"; "cpg_osqp_gradient"].

Record names_ok (y : syms) : Prop := {
  nk_single : two_stage y = false;
  nk_explicit : explicit y = true -> y_if y = IPDAQP;
  nk_blocks : subseq (map b_id (y_blocks y)) (pids (y_if y));
  nk_vars : NoDup (map v_name (y_vars y));
  nk_params : NoDup (y_params y);
  nk_settings : NoDup (y_settings y);
  nk_default : ~ In "default_settings" (y_settings y);
  nk_duals : NoDup (map d_name (y_duals y));
  nk_dual_names : forall d, In d (y_duals y) -> dual_name (d_name d) = true;
  nk_safe : forall v, In v (y_vars y) -> v_scalar v = false -> safe (y_if y) (v_name v) = true;
  nk_foreign : forall v, In v (y_vars y) -> v_scalar v = false ->
    ~ In (y_prefix y ++ v_name v)%string foreign /\ ~ In (y_prefix y ++ "cpg_" ++ v_name v)%string foreign;
  nk_delta : y_gradient y = true -> forall v, In v (y_vars y) -> ~ In ("d" ++ v_name v)%string (y_params y)
}.

(** ** Concrete checks over the fixed names *)

Definition fixed_checks (i : iface) : bool :=
  forallb (fun f => negb (starts "cpg_update_" f)
                    && (match strip "cpg_set_solver_" f with Some s => String.eqb s "default_settings" | None => true end)
                    && negb (safe i f) && negb (dual_name f)
                    && (match strip "cpg_" f with Some s => negb (safe i s) && negb (dual_name s) | None => true end))
          (all_fixed i).
Lemma fixed_checks_ok : forall i, fixed_checks i = true.
Proof. destruct i; vm_compute; reflexivity. Qed.

Definition foreign_checks (i : iface) (us : list string) : bool :=
  forallb (fun u => forallb (fun f => negb (is_suffix f u)) (all_fixed i)) us.
Lemma foreign_checks_ok :
  foreign_checks IOSQP foreign = true /\ foreign_checks IPDAQP foreign = true
  /\ forall i, foreign_checks i ["main"] = true.
Proof. split; [vm_compute; reflexivity|]. split; [vm_compute; reflexivity|]. destruct i; vm_compute; reflexivity. Qed.

Lemma foreign_families : forall u, In u foreign ->
  occurs "cpg_update_" u = false /\ occurs "cpg_set_solver_" u = false.
Proof.
  assert (H : forallb (fun u => negb (occurs "cpg_update_" u) && negb (occurs "cpg_set_solver_" u)) foreign = true)
    by (vm_compute; reflexivity).
  intros u Hu. rewrite forallb_forall in H. apply H in Hu. apply andb_true_iff in Hu.
  destruct Hu as [H1 H2]. apply negb_true_iff in H1, H2. auto.
Qed.

(** No foreign name ends with a digit. *)
Fixpoint last_digit (s : string) : bool :=
  match s with EmptyString => false | String c EmptyString => is_digit c | String _ t => last_digit t end.
Lemma last_digit_app : forall p c t, last_digit (p ++ String c t)%string = last_digit (String c t).
Proof.
  induction p as [|a p IH]; intros c t; [reflexivity|]. cbn [append].
  specialize (IH c t). destruct (p ++ String c t)%string eqn:E; [destruct p; discriminate|].
  cbn [last_digit] in IH |- *. exact IH.
Qed.
Lemma digits_last : forall t c, digits (String c t) = true -> last_digit (String c t) = true.
Proof.
  induction t as [|b t IH]; intros c H; cbn [digits] in H; apply andb_true_iff in H; destruct H as [H1 H2]; [exact H1|].
  cbn [last_digit]. apply (IH b). exact H2.
Qed.
Lemma dual_last : forall s p, dual_name s = true -> last_digit (p ++ s)%string = true.
Proof.
  intros [|a [|c t]] p H; try discriminate. cbn [dual_name] in H. apply andb_true_iff in H. destruct H as [_ H].
  rewrite last_digit_app. cbn [last_digit]. apply digits_last in H. exact H.
Qed.
Lemma foreign_no_digit : forall u, In u foreign -> last_digit u = false.
Proof.
  assert (H : forallb (fun u => negb (last_digit u)) foreign = true) by (vm_compute; reflexivity).
  intros u Hu. rewrite forallb_forall in H. apply H in Hu. apply negb_true_iff in Hu. auto.
Qed.

Lemma safe_heads : forall i v h, safe i v = true -> In h heads -> starts h v = false.
Proof.
  intros i v h H Hh. unfold safe in H. rewrite !andb_true_iff, !negb_true_iff in H. destruct H as [[H _] _].
  destruct (starts h v) eqn:E; [|auto].
  exfalso. assert (existsb (fun h => starts h v) heads = true) by (apply existsb_exists; eauto). congruence.
Qed.
Lemma safe_not_dual : forall i v, safe i v = true -> dual_name v = false.
Proof. intros i v H. unfold safe in H. rewrite !andb_true_iff, !negb_true_iff in H. tauto. Qed.
Lemma dual_not_starts : forall s h, dual_name s = true -> starts (String "c" h) s = false.
Proof.
  intros [|a [|c t]] h H; try discriminate. cbn [dual_name] in H. apply andb_true_iff in H. destruct H as [H _].
  apply Ascii.eqb_eq in H; subst a. unfold starts. cbn [strip]. reflexivity.
Qed.

Section distinct.
  Variable y : syms.
  Hypothesis OK : names_ok y.
  Let p := y_prefix y.

  Definition dual_vec : list string := map d_name (filter (fun d => negb (d_scalar d)) (y_duals y)).

  Lemma var_arrays_spec : forall v, In v (var_arrays y) ->
    safe (y_if y) v = true /\ ~ In (p ++ v)%string foreign /\ ~ In (p ++ "cpg_" ++ v)%string foreign.
  Proof.
    intros v Hv. unfold var_arrays in Hv. apply in_map_iff in Hv. destruct Hv as [x [<- Hx]].
    apply filter_In in Hx. destruct Hx as [Hx Hf]. apply andb_true_iff in Hf. destruct Hf as [Hf _].
    apply negb_true_iff in Hf. split; [apply (nk_safe y OK); auto|]. apply (nk_foreign y OK); auto.
  Qed.
  Lemma dual_vec_spec : forall d, In d dual_vec -> dual_name d = true.
  Proof.
    intros d Hd. apply in_map_iff in Hd. destruct Hd as [x [<- Hx]]. apply filter_In in Hx.
    apply (nk_dual_names y OK). tauto.
  Qed.
  Lemma dual_arrays_incl : subseq (dual_arrays y) dual_vec.
  Proof. apply subseq_when. Qed.
  Lemma var_arrays_NoDup : NoDup (var_arrays y).
  Proof. eapply subseq_NoDup; [apply subseq_map, subseq_filter|]. apply (nk_vars y OK). Qed.
  Lemma dual_vec_NoDup : NoDup dual_vec.
  Proof. eapply subseq_NoDup; [apply subseq_map, subseq_filter|]. apply (nk_duals y OK). Qed.

  (** Families. *)
  Definition fam_update := map update_fn (y_params y).
  Definition fam_setting := when (negb (explicit y)) (map setting_fn (y_settings y)).
  Definition fam_delta := when (y_gradient y) (map update_d_fn (map v_name (y_vars y))).
  Definition fam_pv := map (append "cpg_") (var_arrays y).
  Definition fam_pd := map (append "cpg_") (when (negb (sol_static (y_if y))) dual_vec).

  Lemma in_when : forall b l (x : string), In x (when b l) -> b = true /\ In x l.
  Proof. intros [] l x H; [auto|destruct H]. Qed.

  Lemma update_d_eq : forall n, update_d_fn n = update_fn ("d" ++ n).
  Proof. intro n. reflexivity. Qed.

  Lemma fx : forall f, In f (fixed y ++ scs_phantoms y) ->
    starts "cpg_update_" f = false
    /\ (forall s, f = setting_fn s -> s = "default_settings")
    /\ safe (y_if y) f = false /\ dual_name f = false
    /\ (forall s, f = ("cpg_" ++ s)%string -> safe (y_if y) s = false /\ dual_name s = false).
  Proof.
    intros f Hf. apply (subseq_incl _ _ _ (fixed_sub y (nk_blocks y OK))) in Hf.
    pose proof (fixed_checks_ok (y_if y)) as HC. unfold fixed_checks in HC. rewrite forallb_forall in HC.
    specialize (HC _ Hf). rewrite !andb_true_iff, !negb_true_iff in HC. destruct HC as [[[[H1 H2] H3] H4] H5].
    split; [auto|]. split.
    { intros s ->. unfold setting_fn in H2. rewrite strip_app in H2. apply String.eqb_eq in H2. auto. }
    split; [auto|]. split; [auto|].
    intros s ->. rewrite strip_app in H5. rewrite andb_true_iff, !negb_true_iff in H5. auto.
  Qed.

  Lemma starts_update : forall n, starts "cpg_update_" (update_fn n) = true.
  Proof. intro; apply starts_app. Qed.
  Lemma pv_shape : forall x, In x fam_pv -> exists v, x = ("cpg_" ++ v)%string /\ In v (var_arrays y).
  Proof. intros x H. apply in_map_iff in H. destruct H as [v [<- H]]. eauto. Qed.
  Lemma pd_shape : forall x, In x fam_pd -> exists v, x = ("cpg_" ++ v)%string /\ dual_name v = true.
  Proof.
    intros x H. apply in_map_iff in H. destruct H as [v [<- H]]. apply in_when in H. exists v. split; [auto|].
    apply dual_vec_spec. tauto.
  Qed.
  Lemma starts_cpg : forall h v, starts ("cpg_" ++ h) ("cpg_" ++ v)%string = starts h v.
  Proof. reflexivity. Qed.

  Lemma user_fns_eq : user_fns y = fam_update ++ fam_setting ++ fam_delta.
  Proof. reflexivity. Qed.

  Lemma fns_shape : forall x, In x (user_fns y) ->
    (exists n, x = update_fn n) \/ (exists s, x = setting_fn s /\ In s (y_settings y)).
  Proof.
    intros x H. rewrite user_fns_eq in H. apply in_app_or in H. destruct H as [H|H].
    - left. apply in_map_iff in H. destruct H as [n [<- _]]. eauto.
    - apply in_app_or in H. destruct H as [H|H].
      + right. apply in_when in H. destruct H as [_ H]. apply in_map_iff in H. destruct H as [n [<- H]]. eauto.
      + left. apply in_when in H. destruct H as [_ H]. apply in_map_iff in H. destruct H as [n [<- _]].
        exists ("d" ++ n)%string. reflexivity.
  Qed.

  Lemma fns_NoDup : NoDup (user_fns y).
  Proof.
    rewrite user_fns_eq. unfold fam_update, fam_setting, fam_delta. repeat apply NoDup_app.
    - apply NoDup_map_inj; [apply append_inj_l|apply (nk_params y OK)].
    - eapply subseq_NoDup; [apply subseq_when|]. apply NoDup_map_inj; [apply append_inj_l|apply (nk_settings y OK)].
    - eapply subseq_NoDup; [apply subseq_when|]. apply NoDup_map_inj; [|apply (nk_vars y OK)].
      intros a b H. apply (append_inj_l "cpg_update_d"). exact H.
    - intros x H1 H2. apply in_when in H1. destruct H1 as [_ H1]. apply in_map_iff in H1. destruct H1 as [s [<- _]].
      apply in_when in H2. destruct H2 as [_ H2]. apply in_map_iff in H2. destruct H2 as [n [H2 _]]. discriminate.
    - intros x H1 H2. apply in_map_iff in H1. destruct H1 as [n [<- H1]].
      apply in_app_or in H2. destruct H2 as [H2|H2]; apply in_when in H2; destruct H2 as [G H2];
        apply in_map_iff in H2; destruct H2 as [m [E H2]].
      + discriminate.
      + rewrite update_d_eq in E. apply append_inj_l in E. subst n.
        apply in_map_iff in H2. destruct H2 as [v [<- Hv]]. apply (nk_delta y OK G v Hv H1).
  Qed.

  (** Everything that carries the prefix, phantoms included, is distinct. *)
  Lemma prefixed_NoDup :
    NoDup (((fixed y ++ scs_phantoms y) ++ user_fns y ++ var_arrays y ++ dual_arrays y) ++ fam_pv ++ fam_pd).
  Proof.
    assert (NF : NoDup (fixed y ++ scs_phantoms y))
      by (eapply subseq_NoDup; [apply (fixed_sub y (nk_blocks y OK))|apply all_fixed_NoDup]).
    pose proof fx as FX. pose proof fns_NoDup as NU. pose proof fns_shape as FS.
    pose proof var_arrays_NoDup as NV.
    assert (ND : NoDup (dual_arrays y)) by (eapply subseq_NoDup; [apply dual_arrays_incl|apply dual_vec_NoDup]).
    apply NoDup_app; [apply NoDup_app; [exact NF|apply NoDup_app; [exact NU|apply NoDup_app; [exact NV|exact ND|]|]|]|
                      apply NoDup_app|].
    - intros x H1 H2. apply var_arrays_spec in H1. destruct H1 as [H1 _]. apply safe_not_dual in H1.
      apply (subseq_incl _ _ _ dual_arrays_incl), dual_vec_spec in H2. congruence.
    - intros x H1 H2. apply in_app_or in H2. destruct H2 as [H2|H2].
      + apply var_arrays_spec in H2. destruct H2 as [H2 _].
        apply (safe_heads _ _ "cpg_") in H2; [|vm_compute; auto].
        apply fns_shape in H1. destruct H1 as [[n ->]|[s [-> _]]]; discriminate.
      + apply (subseq_incl _ _ _ dual_arrays_incl), dual_vec_spec in H2.
        apply fns_shape in H1. destruct H1 as [[n ->]|[s [-> _]]]; discriminate.
    - intros x H1 H2. apply fx in H1. destruct H1 as [F1 [F2 [F3 [F4 F5]]]].
      apply in_app_or in H2. destruct H2 as [H2|H2].
      + apply fns_shape in H2. destruct H2 as [[n ->]|[s [-> Hs]]].
        * rewrite starts_update in F1; discriminate.
        * specialize (F2 s eq_refl). subst s. apply (nk_default y OK Hs).
      + apply in_app_or in H2. destruct H2 as [H2|H2].
        * apply var_arrays_spec in H2. destruct H2 as [H2 _]. congruence.
        * apply (subseq_incl _ _ _ dual_arrays_incl), dual_vec_spec in H2. congruence.
    - apply NoDup_map_inj; [apply append_inj_l|apply var_arrays_NoDup].
    - apply NoDup_map_inj; [apply append_inj_l|]. eapply subseq_NoDup; [apply subseq_when|apply dual_vec_NoDup].
    - intros x H1 H2. apply pv_shape in H1. destruct H1 as [v [-> H1]]. apply pd_shape in H2.
      destruct H2 as [w [E H2]]. apply append_inj_l in E. subst w.
      apply var_arrays_spec in H1. destruct H1 as [H1 _]. apply safe_not_dual in H1. congruence.
    - intros x H1 H2.
      assert (Hs : exists v, x = ("cpg_" ++ v)%string
                 /\ ((safe (y_if y) v = true /\ starts "update_" v = false /\ starts "set_solver_" v = false)
                     \/ dual_name v = true)).
      { apply in_app_or in H2. destruct H2 as [H2|H2].
        - apply pv_shape in H2. destruct H2 as [v [-> H2]]. exists v. split; [auto|]. left.
          apply var_arrays_spec in H2. destruct H2 as [H2 _]. split; [auto|].
          split; eapply safe_heads; eauto; vm_compute; auto 20.
        - apply pd_shape in H2. destruct H2 as [v [-> H2]]. exists v. auto. }
      destruct Hs as [v [-> Hv]].
      apply in_app_or in H1. destruct H1 as [H1|H1].
      + apply fx in H1. destruct H1 as [_ [_ [_ [_ F5]]]]. specialize (F5 v eq_refl). destruct F5 as [F5 F6].
        destruct Hv as [[Hv _]|Hv]; congruence.
      + apply in_app_or in H1. destruct H1 as [H1|H1].
        * apply fns_shape in H1. destruct H1 as [[n E]|[s [E _]]].
          -- unfold update_fn in E. change "cpg_update_" with ("cpg_" ++ "update_")%string in E.
             rewrite append_assoc in E. apply append_inj_l in E. subst v.
             destruct Hv as [[_ [Hv _]]|Hv]; [rewrite starts_app in Hv|]; discriminate.
          -- unfold setting_fn in E. change "cpg_set_solver_" with ("cpg_" ++ "set_solver_")%string in E.
             rewrite append_assoc in E. apply append_inj_l in E. subst v.
             destruct Hv as [[_ [_ Hv]]|Hv]; [rewrite starts_app in Hv|]; discriminate.
        * apply in_app_or in H1. destruct H1 as [H1|H1].
          -- apply var_arrays_spec in H1. destruct H1 as [H1 _].
             apply (safe_heads _ _ "cpg_") in H1; [|vm_compute; auto]. rewrite starts_app in H1; discriminate.
          -- apply (subseq_incl _ _ _ dual_arrays_incl), dual_vec_spec in H1. discriminate.
  Qed.

  Lemma provided_foreign : forall u, In u (provided y) -> In u foreign.
  Proof.
    intros u Hu. apply mem_str_In. revert u Hu. apply forallb_forall.
    unfold provided. destruct (y_if y); vm_compute; reflexivity.
  Qed.

  Lemma unprefixed_foreign : forall u, In u (unprefixed y ++ provided y) -> In u foreign.
  Proof.
    intros u0 H0. apply in_app_or in H0. destruct H0 as [H0|H0]; [|apply provided_foreign; exact H0].
    revert u0 H0.
    assert (H : forall u, In u compute_fns -> In u foreign).
    { intros u Hu. apply mem_str_In. revert u Hu. apply forallb_forall. vm_compute; reflexivity. }
    intros u Hu. unfold unprefixed in Hu. apply in_app_or in Hu. destruct Hu as [[<-|[]]|Hu]; [left; auto|].
    apply in_app_or in Hu. destruct Hu as [Hu|Hu].
    { apply in_when in Hu. destruct Hu as [_ [<-|[]]]. vm_compute; auto. }
    apply in_app_or in Hu. destruct Hu as [Hu|Hu].
    { apply in_when in Hu. destruct Hu as [_ [<-|[]]]. vm_compute; auto. }
    apply in_when in Hu. apply H; tauto.
  Qed.

  Lemma suffix_check : forall us, foreign_checks (y_if y) us = true ->
    forall f u, In f (fixed y ++ scs_phantoms y) -> In u us -> (p ++ f)%string <> u.
  Proof.
    intros us HC f u Hf Hu E. apply (subseq_incl _ _ _ (fixed_sub y (nk_blocks y OK))) in Hf.
    unfold foreign_checks in HC. rewrite forallb_forall in HC. specialize (HC u Hu). rewrite forallb_forall in HC.
    specialize (HC f Hf). rewrite <- E, is_suffix_app in HC. discriminate.
  Qed.

  Lemma fixed_unprefixed : forall f u, In f (fixed y ++ scs_phantoms y) -> In u (unprefixed y ++ provided y) ->
    (p ++ f)%string <> u.
  Proof.
    intros f u Hf Hu. destruct foreign_checks_ok as [HO [HP HM]].
    assert (HH : y_if y = IOSQP \/ y_if y = IPDAQP \/ unprefixed y ++ provided y = ["main"]).
    { pose proof (nk_single y OK) as HS. pose proof (nk_explicit y OK) as HE.
      destruct (explicit y) eqn:EX; [right; left; auto|]. unfold two_stage in HS. rewrite EX in HS.
      destruct (iface_eqb (y_if y) IOSQP) eqn:EI.
      - left. apply iface_eqb_true in EI. auto.
      - destruct (iface_eqb (y_if y) IPDAQP) eqn:ED; [right; left; apply iface_eqb_true in ED; auto|].
        right. right. unfold unprefixed. rewrite EX.
        assert (provided y = []) as -> by (unfold provided; destruct (y_if y); try discriminate; reflexivity).
        destruct (y_gradient y); [discriminate|].
        assert (y_explicit y = 0) as ->.
        { unfold explicit in EX. apply negb_false_iff in EX. apply Nat.eqb_eq in EX. auto. }
        reflexivity. }
    destruct HH as [HH|[HH|HH]].
    - apply (suffix_check foreign); auto; [rewrite HH; exact HO|apply unprefixed_foreign; auto].
    - apply (suffix_check foreign); auto; [rewrite HH; exact HP|apply unprefixed_foreign; auto].
    - apply (suffix_check ["main"]); auto. rewrite <- HH; auto.
  Qed.

  Lemma fns_foreign : forall x u, In x (user_fns y) -> In u foreign -> (p ++ x)%string <> u.
  Proof.
    intros x u Hx Hu E. apply foreign_families in Hu. destruct Hu as [H1 H2].
    apply fns_shape in Hx. destruct Hx as [[n ->]|[s [-> _]]]; subst u.
    - unfold update_fn in H1. rewrite occurs_app in H1. discriminate.
    - unfold setting_fn in H2. rewrite occurs_app in H2. discriminate.
  Qed.

  Lemma unprefixed_NoDup : NoDup (unprefixed y ++ provided y).
  Proof.
    pose proof (nk_explicit y OK) as HE. unfold unprefixed.
    destruct (explicit y) eqn:EX.
    - assert (HP : provided y = ["pdaqp_evaluate"; "pdaqp_hp_list"; "pdaqp_feedbacks"; "pdaqp_active_region"])
        by (unfold provided; rewrite (HE eq_refl); reflexivity).
      rewrite HP.
      match goal with |- NoDup (_ ++ ?pr) => apply (subseq_NoDup _ _ ((["main"] ++ ["sol_x"] ++ ["sol_y"] ++ compute_fns) ++ pr)) end.
      + repeat apply subseq_app; try apply subseq_refl; apply subseq_when.
      + apply nodupb_NoDup. vm_compute; reflexivity.
    - assert (y_explicit y = 0) as ->
        by (unfold explicit in EX; apply negb_false_iff in EX; apply Nat.eqb_eq in EX; exact EX).
      cbn [Nat.eqb when app].
      apply (subseq_NoDup _ _ ((["main"] ++ compute_fns) ++ provided y)).
      + change (subseq ((["main"] ++ when (y_gradient y && negb false) compute_fns) ++ provided y)
                       ((["main"] ++ compute_fns) ++ provided y)).
        repeat apply subseq_app; try apply subseq_refl; apply subseq_when.
      + apply nodupb_NoDup. unfold provided. destruct (y_if y); vm_compute; reflexivity.
  Qed.
End distinct.

(** ** C52 *)

(** Single-stage code: all global definitions are pairwise distinct and differ from all other
    declarations in the headers, and from the names of the solver's own code that are used. *)
Theorem C52_distinct : forall y, names_ok y ->
  NoDup (defs y ++ provided y ++ map (append (y_prefix y)) (phantoms y)).
Proof.
  intros y OK. unfold defs.
  assert (N := prefixed_NoDup y OK).
  assert (HP : NoDup (map (append (y_prefix y)) (bases y ++ phantoms y))).
  { apply NoDup_map_inj; [apply append_inj_l|].
    unfold bases, phantoms. rewrite map_app. fold (dual_vec y). fold (scs_phantoms y). fold (fam_pv y).
    fold (fam_pd y). unfold fixed in N.
    revert N. generalize (workspace_fixed y) (solve_fixed y) (gradient_fixed y) (scs_phantoms y) (user_fns y)
                         (var_arrays y) (dual_arrays y) (fam_pv y) (fam_pd y).
    intros a b c s f v d pv pd N.
    apply (Permutation_NoDup (l := (((a ++ b ++ c) ++ s) ++ f ++ v ++ d) ++ pv ++ pd)); [|exact N].
    rewrite <- !app_assoc. do 3 apply Permutation_app_head.
    rewrite !app_assoc. rewrite <- (app_assoc s). rewrite <- !app_assoc.
    apply (Permutation_trans (l' := (f ++ v ++ d ++ pv ++ pd) ++ s));
      [apply Permutation_app_comm|].
    rewrite <- !app_assoc. apply Permutation_refl. }
  rewrite map_app in HP.
  set (X := map (append (y_prefix y)) (bases y)) in *. set (Y := map (append (y_prefix y)) (phantoms y)) in *.
  apply (Permutation_NoDup (l := (X ++ Y) ++ (unprefixed y ++ provided y))).
  { rewrite <- !app_assoc. apply Permutation_app_head. rewrite (app_assoc (unprefixed y)). apply Permutation_app_comm. }
  apply NoDup_app; [exact HP|apply (unprefixed_NoDup y OK)|].
  intros x H1 Hu. pose proof (unprefixed_foreign y x Hu) as Hf.
  assert (HB : exists b, x = (y_prefix y ++ b)%string /\ In b (bases y ++ phantoms y)).
  { unfold X, Y in H1. rewrite <- map_app in H1. apply in_map_iff in H1. destruct H1 as [b [<- H1]]. eauto. }
  destruct HB as [b [-> Hb]].
  assert (HC : In b (fixed y ++ scs_phantoms y) \/ In b (user_fns y) \/ In b (var_arrays y) \/ In b (dual_vec y)
               \/ In b (fam_pv y) \/ In b (fam_pd y)).
  { unfold bases, phantoms in Hb. rewrite map_app in Hb. fold (dual_vec y) in Hb. fold (scs_phantoms y) in Hb.
    fold (fam_pv y) in Hb. fold (fam_pd y) in Hb. unfold fixed. repeat rewrite in_app_iff in Hb. repeat rewrite in_app_iff.
    pose proof (subseq_incl _ _ _ (dual_arrays_incl y) b). tauto. }
  destruct HC as [HC|[HC|[HC|[HC|[HC|HC]]]]].
  - apply (fixed_unprefixed y OK b _ HC Hu eq_refl).
  - apply (fns_foreign y b _ HC Hf eq_refl).
  - apply (var_arrays_spec y OK) in HC. tauto.
  - apply (dual_vec_spec y OK), (dual_last b (y_prefix y)) in HC. apply foreign_no_digit in Hf. congruence.
  - apply pv_shape in HC. destruct HC as [v [-> HC]]. apply (var_arrays_spec y OK) in HC. tauto.
  - apply (pd_shape y OK) in HC. destruct HC as [v [-> HC]].
    apply (dual_last v (y_prefix y ++ "cpg_")) in HC. rewrite append_assoc in HC.
    apply foreign_no_digit in Hf. congruence.
Qed.
Print Assumptions C52_distinct.

(** A QP for OSQP with gradient, a symmetric and a scalar variable. *)
Definition osqp_blocks : list block :=
  [mkBlock "P" true false; mkBlock "q" true false; mkBlock "d" false false; mkBlock "A" false false;
   mkBlock "l" false true; mkBlock "u" true false].
Definition osqp_syms (prefix : string) (grad : bool) (vars : list uvar) (params : list string) : syms :=
  mkSyms IOSQP prefix grad 0 osqp_blocks vars false [mkDual "d0" false; mkDual "d1" true] params
         ["max_iter"; "eps_abs"] false.
Ltac names_by_compute :=
  constructor; try (vm_compute; reflexivity); try discriminate;
  try (apply nodupb_NoDup; vm_compute; reflexivity);
  try (apply Bool.not_true_iff_false; reflexivity).
Lemma subseqb : forall l m : list string,
  (fix go l m := match l, m with
                 | [], _ => true
                 | _ :: _, [] => false
                 | x :: l', z :: m' => if String.eqb x z then go l' m' else go l m'
                 end) l m = true -> subseq l m.
Proof.
  intros l m; revert l. induction m as [|z m IH]; intros [|x l] H; auto; [discriminate|].
  destruct (String.eqb x z) eqn:E.
  - apply String.eqb_eq in E; subst. constructor. auto.
  - constructor. apply IH. exact H.
Qed.
Lemma not_mem : forall s l, mem_str s l = false -> ~ In s l.
Proof. intros s l H Hx. apply mem_str_In in Hx. congruence. Qed.

Example C52_distinct_example :
  let y := osqp_syms "qp_" true [mkVar "X" false true; mkVar "A" false false; mkVar "t" true false] ["a"; "b"; "dy"] in
  names_ok y /\ length (defs y) = 113.
Proof.
  split; [|vm_compute; reflexivity].
  constructor; try (vm_compute; reflexivity).
  - discriminate.
  - apply subseqb. vm_compute; reflexivity.
  - apply nodupb_NoDup; vm_compute; reflexivity.
  - apply nodupb_NoDup; vm_compute; reflexivity.
  - apply nodupb_NoDup; vm_compute; reflexivity.
  - apply not_mem; reflexivity.
  - apply nodupb_NoDup; vm_compute; reflexivity.
  - intros d [<-|[<-|[]]]; reflexivity.
  - intros v [<-|[<-|[<-|[]]]] H; [vm_compute; reflexivity|vm_compute; reflexivity|discriminate].
  - intros v [<-|[<-|[<-|[]]]] H; [| |discriminate]; split; apply not_mem; vm_compute; reflexivity.
  - intros _ v [<-|[<-|[<-|[]]]]; apply not_mem; vm_compute; reflexivity.
Qed.

Lemma ws_iff : forall y x, In x (["cpg_params_vec"]) \/ In x (when (explicit y) ["cpg_params_vec_lower"; "cpg_params_vec_upper"]) \/ In x (flat_map map_names (y_blocks y)) \/ In x (flat_map (canon_names (inmem (y_if y))) (filter (kept (y_explicit y) (y_reduced y)) (y_blocks y))) \/ In x (when (explicit y) ["cpg_theta"]) \/ In x (["Canon_Params"]) \/ In x (opt (inmem (y_if y)) "Canon_Params_conditioning") \/ In x (["Canon_Outdated"]) \/ In x (opt (y_gradient y && negb (two_stage y)) "Canon_Outdated_Grad") \/ In x (["CPG_Prim"]) \/ In x (opt (negb (y_explicit y =? 1)%nat && negb (match y_duals y with [] => true | _ => false end)) "CPG_Dual") \/ In x (opt (negb (explicit y)) "CPG_Info") \/ In x (["CPG_Result"]) \/ In x (opt (negb (explicit y) && extra_stgs (y_if y)) "Canon_Settings") \/ In x (when (negb (ws_static (y_if y))) (solver_names (y_if y) (has_block "P" (y_blocks y)) (y_soc y))) \/ In x (when (y_gradient y) ["cpg_dp"; "CPG_Delta"]) ->
  In x (workspace_fixed y).
Proof. intros y x H. unfold workspace_fixed. rewrite !in_app_iff. exact H. Qed.
Lemma sv_iff : forall y x, In x (flat_map (fun b => opt (b_changes b) ("cpg_canonicalize_" ++ b_id b)%string) (y_blocks y)) \/ In x (opt (ret_prim (y_if y) (y_vars y)) "cpg_retrieve_prim") \/ In x (opt (negb (y_explicit y =? 1)%nat && (ret_dual (y_if y) (y_duals y) || two_stage y)) "cpg_retrieve_dual") \/ In x (opt (negb (explicit y)) "cpg_retrieve_info") \/ In x (when (inmem (y_if y)) (flat_map (fun b => opt (negb (String.eqb (b_id b) "d")) ("cpg_copy_" ++ b_id b)%string) (y_blocks y) ++ ["cpg_copy_all"])) \/ In x (["cpg_solve"]) \/ In x (opt (explicit y && negb (y_reduced y)) "cpg_obj") \/ In x (opt (negb (explicit y)) "cpg_set_solver_default_settings") ->
  In x (solve_fixed y).
Proof. intros y x H. unfold solve_fixed. rewrite !in_app_iff. exact H. Qed.

(** *** Clashes when a name is not avoided *)

Lemma NoDup_app_disj : forall A (a b : list A) x, NoDup (a ++ b) -> In x a -> In x b -> False.
Proof.
  induction a as [|z a IH]; intros b x N Ha Hb; [destruct Ha|]. cbn [app] in N. inversion N; subst.
  destruct Ha as [<-|Ha]; [|eauto]. apply H1, in_or_app. auto.
Qed.
Lemma NoDup_app_l : forall A (a b : list A), NoDup (a ++ b) -> NoDup a.
Proof.
  induction a as [|z a IH]; intros b N; [constructor|]. cbn [app] in N. inversion N; subst.
  constructor; eauto. intro H; apply H1, in_or_app; auto.
Qed.
Lemma bases_NoDup : forall y, NoDup (defs y) -> NoDup (bases y).
Proof. intros y N. unfold defs in N. apply NoDup_app_l in N. apply NoDup_map_inv in N. auto. Qed.
Lemma in_when_intro : forall b l (x : string), b = true -> In x l -> In x (when b l).
Proof. intros b l x -> H. exact H. Qed.

Definition array_var (y : syms) (n : string) : Prop :=
  exists v, In v (y_vars y) /\ v_name v = n /\ v_scalar v = false
            /\ (v_sym v = true \/ sol_static (y_if y) = false).
Lemma array_var_In : forall y n, array_var y n -> In n (var_arrays y).
Proof.
  intros y n [v [H1 [<- [H2 H3]]]]. unfold var_arrays. apply in_map. apply filter_In. split; [auto|].
  rewrite H2. destruct H3 as [H3|H3]; rewrite H3; [reflexivity|apply orb_true_r].
Qed.

(** With Clarabel every vector variable named P, A, cones, settings, solver or solution is
    defined twice. *)
Theorem C52_clash_solver : forall y n, y_if y = ICLARABEL ->
  In n ["P"; "A"; "cones"; "settings"; "solver"; "solution"] -> array_var y n -> ~ NoDup (defs y).
Proof.
  intros y n HI Hn Hv N. apply bases_NoDup in N. unfold bases in N.
  apply (NoDup_app_disj _ _ _ n N).
  - apply ws_iff. rewrite HI. do 14 right. left.
    apply in_when_intro; [reflexivity|]. exact Hn.
  - rewrite !in_app_iff. do 3 right. left. apply array_var_In, Hv.
Qed.
Print Assumptions C52_clash_solver.

(** When solution arrays are defined by CVXPYgen, a vector variable named like a vector dual
    variable (d0, d1, ...) is defined twice. *)
Theorem C52_clash_dual : forall y d, sol_static (y_if y) = false -> y_explicit y = 0%nat ->
  In d (y_duals y) -> d_scalar d = false -> array_var y (d_name d) -> ~ NoDup (defs y).
Proof.
  intros y d HS HX Hd Hs Hv N. apply bases_NoDup in N. unfold bases in N. rewrite !app_assoc in N.
  apply (NoDup_app_disj _ _ _ (d_name d) N).
  - rewrite !in_app_iff. right. apply array_var_In, Hv.
  - unfold dual_arrays. rewrite HS, HX. cbn [when negb andb Nat.eqb]. apply in_map, filter_In.
    rewrite Hs. auto.
Qed.
Print Assumptions C52_clash_dual.

(** With gradients, the variable [x] together with the parameter [dx] defines cpg_update_dx
    twice. *)
Theorem C52_clash_delta : forall y v, y_gradient y = true -> In v (y_vars y) ->
  In ("d" ++ v_name v)%string (y_params y) -> ~ NoDup (defs y).
Proof.
  intros y v HG Hv Hp N. apply bases_NoDup in N. unfold bases in N.
  assert (N' : NoDup (user_fns y)).
  { rewrite !app_assoc in N. apply NoDup_app_l, NoDup_app_l in N.
    apply Permutation_NoDup with (l' := user_fns y ++ ((workspace_fixed y ++ solve_fixed y) ++ gradient_fixed y)) in N;
      [|apply Permutation_app_comm]. apply NoDup_app_l in N. auto. }
  unfold user_fns in N'. apply (NoDup_app_disj _ _ _ (update_d_fn (v_name v)) N').
  - rewrite update_d_eq. apply in_map, Hp.
  - rewrite in_app_iff. right. apply in_when_intro; [auto|]. apply in_map, in_map, Hv.
Qed.
Print Assumptions C52_clash_delta.

(** A vector variable with an array of its own named [solve] contradicts the function
    cpg_solve. *)
Theorem C52_clash_declaration : forall y, array_var y "solve" ->
  ~ NoDup (defs y ++ map (append (y_prefix y)) (phantoms y)).
Proof.
  intros y Hv N. apply (NoDup_app_disj _ _ _ (y_prefix y ++ "cpg_solve")%string N).
  - unfold defs. rewrite in_app_iff. left. apply in_map. unfold bases. apply in_or_app. right. apply in_or_app. left. apply sv_iff. do 5 right. left. left. reflexivity.
  - apply in_map. unfold phantoms. rewrite map_app, !in_app_iff. left. left.
    change "cpg_solve" with ("cpg_" ++ "solve")%string. apply in_map, array_var_In, Hv.
Qed.
Print Assumptions C52_clash_declaration.

Definition conic_syms (i : iface) (blocks : list block) (vars : list uvar) : syms :=
  mkSyms i "" false 0 blocks vars false [mkDual "d0" false] ["a"] ["verbose"] false.
Definition clarabel_blocks : list block :=
  [mkBlock "q" true false; mkBlock "d" false false; mkBlock "A" false false; mkBlock "b" true false].

(** A problem with variable A solved by Clarabel; the same problem with the variable named x
    meets all conditions. *)
Theorem C52_clarabel_refuted : exists y,
  ~ NoDup (defs y) /\ array_var y "A" /\ y_prefix y = ""
  /\ names_ok (mkSyms (y_if y) (y_prefix y) (y_gradient y) (y_explicit y) (y_blocks y) [mkVar "x" false false]
                      (y_reduced y) (y_duals y) (y_params y) (y_settings y) (y_soc y)).
Proof.
  exists (conic_syms ICLARABEL clarabel_blocks [mkVar "A" false false]).
  assert (HA : array_var (conic_syms ICLARABEL clarabel_blocks [mkVar "A" false false]) "A").
  { exists (mkVar "A" false false). vm_compute. auto 6. }
  split; [|split; [exact HA|split; [reflexivity|]]].
  - apply (C52_clash_solver _ "A"); [reflexivity|cbn; auto|exact HA].
  - constructor; try (vm_compute; reflexivity).
    + discriminate.
    + apply subseqb. vm_compute; reflexivity.
    + apply nodupb_NoDup; vm_compute; reflexivity.
    + apply nodupb_NoDup; vm_compute; reflexivity.
    + apply nodupb_NoDup; vm_compute; reflexivity.
    + apply not_mem; reflexivity.
    + apply nodupb_NoDup; vm_compute; reflexivity.
    + intros d [<-|[]]; reflexivity.
    + intros v [<-|[]] H; vm_compute; reflexivity.
    + intros v [<-|[]] H; split; apply not_mem; vm_compute; reflexivity.
    + discriminate.
Qed.
Print Assumptions C52_clarabel_refuted.
Theorem C52_dual_refuted : exists y, y_if y = IECOS /\ array_var y "d0" /\ ~ NoDup (defs y).
Proof.
  exists (conic_syms IECOS [mkBlock "c" true false] [mkVar "d0" false false]).
  assert (HA : array_var (conic_syms IECOS [mkBlock "c" true false] [mkVar "d0" false false]) "d0").
  { exists (mkVar "d0" false false). vm_compute. auto 6. }
  split; [reflexivity|]. split; [exact HA|]. apply (C52_clash_dual _ (mkDual "d0" false)); auto. left; reflexivity.
Qed.
Theorem C52_delta_refuted : exists y, y_if y = IOSQP /\ y_vars y = [mkVar "x" false false] /\ y_params y = ["dx"]
  /\ ~ NoDup (defs y).
Proof.
  exists (osqp_syms "" true [mkVar "x" false false] ["dx"]). repeat split; auto.
  apply (C52_clash_delta _ (mkVar "x" false false)); [reflexivity|left; reflexivity|left; reflexivity].
Qed.

(** The names without prefix: in a program without prefix, a variable with an array of its own
    cannot be called like a global of the factor code (n and N, for instance) or like an
    identifier of the solver. *)
Theorem C52_clash_unprefixed : forall y n, y_prefix y = "" -> array_var y n ->
  In n (unprefixed y ++ provided y) -> ~ NoDup (defs y ++ provided y).
Proof.
  intros y n HP HV HI N. unfold defs in N. rewrite <- app_assoc in N.
  apply (NoDup_app_disj _ _ _ n N); [|exact HI].
  rewrite HP. apply in_map_iff. exists n. split; [reflexivity|].
  unfold bases. rewrite !in_app_iff. apply array_var_In in HV. auto 10.
Qed.
Print Assumptions C52_clash_unprefixed.
Theorem C52_dimension_refuted : exists y, y_if y = IOSQP /\ y_gradient y = true
  /\ y_vars y = [mkVar "N" false true] /\ ~ NoDup (defs y).
Proof.
  exists (osqp_syms "" true [mkVar "N" false true] ["a"]).
  split; [reflexivity|]. split; [reflexivity|]. split; [reflexivity|].
  intro N. unfold defs in N.
  refine (NoDup_app_disj _ _ _ "N" N _ _); apply mem_str_In; vm_compute; reflexivity.
Qed.
Theorem C52_solver_name_refuted : exists y, y_if y = IOSQP /\ y_gradient y = false
  /\ y_vars y = [mkVar "solver" false true] /\ NoDup (defs y) /\ ~ NoDup (defs y ++ provided y).
Proof.
  exists (osqp_syms "" false [mkVar "solver" false true] ["a"]).
  split; [reflexivity|]. split; [reflexivity|]. split; [reflexivity|]. split.
  - apply nodupb_NoDup. vm_compute. reflexivity.
  - apply (C52_clash_unprefixed _ "solver"); [reflexivity| |vm_compute; auto].
    exists (mkVar "solver" false true). vm_compute. auto 6.
Qed.

(** *** References *)

(** Single-stage code refers only to names it defines or the solver's code provides, when SCS
    has non-empty data and gradient code has no prefix. *)
Record refs_ok (y : syms) : Prop := {
  rk_single : two_stage y = false;
  rk_explicit : explicit y = true <-> y_if y = IPDAQP;
  rk_ids : forall b, In b (y_blocks y) -> In (b_id b) (pids (y_if y));
  rk_scs : y_if y = ISCS -> forall n, n = "A" \/ n = "b" \/ n = "c" \/ (n = "P" /\ has_block "P" (y_blocks y) = true) ->
    exists b, In b (y_blocks y) /\ b_id b = n /\ b_empty b = false;
  rk_example : y_gradient y = true -> y_prefix y = ""
}.

Section closed.
  Variable y : syms.
  Hypothesis OK : refs_ok y.

  Lemma ws_base : forall b, In b (workspace_fixed y) -> In b (bases y).
  Proof. intros b H. unfold bases. rewrite in_app_iff. auto. Qed.
  Lemma solve_base : forall b, In b (solve_fixed y) -> In b (bases y).
  Proof. intros b H. unfold bases. rewrite !in_app_iff. auto. Qed.
  Lemma grad_base : forall b, In b (gradient_fixed y) -> In b (bases y).
  Proof. intros b H. unfold bases. rewrite !in_app_iff. auto. Qed.
  Lemma fns_base : forall b, In b (user_fns y) -> In b (bases y).
  Proof. intros b H. unfold bases. rewrite !in_app_iff. auto. Qed.
  Lemma var_base : forall b, In b (var_arrays y) -> In b (bases y).
  Proof. intros b H. unfold bases. rewrite !in_app_iff. auto 6. Qed.
  Lemma dual_base : forall b, In b (dual_arrays y) -> In b (bases y).
  Proof. intros b H. unfold bases. rewrite !in_app_iff. auto 6. Qed.

  Lemma in_opt : forall b s (x : string), In x (opt b s) <-> b = true /\ x = s.
  Proof. intros [] s x; cbn [opt In]; split; intro H; [destruct H as [<-|[]]; auto|destruct H as [_ ->]; auto|destruct H|destruct H; discriminate]. Qed.
  Lemma in_when_iff : forall b l (x : string), In x (when b l) <-> b = true /\ In x l.
  Proof. intros [] l x; cbn [when In]; split; [auto|intros [_ H]; exact H|intros []|intros [E _]; discriminate]. Qed.

  Lemma map_base : forall b, In b (y_blocks y) -> b_changes b = true ->
    In ("canon_" ++ b_id b ++ "_map")%string (bases y).
  Proof.
    intros b Hb Hc. apply ws_base. apply ws_iff. do 2 right. left.
    apply in_flat_map. exists b. split; [auto|]. unfold map_names. rewrite Hc. cbn [when mat_names In]. auto.
  Qed.
  Lemma canonicalize_base : forall b, In b (y_blocks y) -> b_changes b = true ->
    In ("cpg_canonicalize_" ++ b_id b)%string (bases y).
  Proof.
    intros b Hb Hc. apply solve_base. apply sv_iff. left.
    apply in_flat_map. exists b. split; [auto|]. apply in_opt. auto.
  Qed.
  Lemma param_base : forall b x, In b (y_blocks y) -> kept (y_explicit y) (y_reduced y) b = true ->
    In x (canon_names (inmem (y_if y)) b) -> In x (bases y).
  Proof.
    intros b x Hb Hk Hx. apply ws_base. apply ws_iff. do 3 right. left.
    apply in_flat_map. exists b. split; [|auto]. apply filter_In. auto.
  Qed.
  Lemma scs_kept : y_if y = ISCS -> forall b, kept (y_explicit y) (y_reduced y) b = true.
  Proof.
    intros HI b. unfold kept. destruct (explicit y) eqn:E.
    - apply (rk_explicit y OK) in E. congruence.
    - unfold explicit in E. apply negb_false_iff in E. rewrite E. reflexivity.
  Qed.
  Lemma scs_param : y_if y = ISCS -> forall n x,
    n = "A" \/ n = "b" \/ n = "c" \/ (n = "P" /\ has_block "P" (y_blocks y) = true) ->
    In x (canon_names false (full n)) -> In x (bases y).
  Proof.
    intros HI n x Hn Hx. destruct (rk_scs y OK HI n Hn) as [b [H1 [H2 H3]]].
    apply (param_base b); auto; [apply scs_kept; auto|]. rewrite HI. cbn [inmem].
    destruct b as [i c e]. cbn [b_id b_empty] in *. subst i e. exact Hx.
  Qed.
  Lemma is_nil : forall A (l : list A), negb (match l with [] => true | _ => false end) = true -> l <> [].
  Proof. intros A [|] H; [discriminate|discriminate]. Qed.

  Ltac fin := rewrite ?in_app_iff, ?in_opt, ?in_when_iff; cbn [In]; intuition (auto; congruence).

  Lemma solver_base : explicit y = false -> forall x, In x (ws_used (y_if y) (y_soc y)) -> In x (bases y).
  Proof.
    intros EX x Hx.
    assert (HS : extra_stgs (y_if y) = true -> In "Canon_Settings" (bases y)).
    { intro HE. apply ws_base. apply ws_iff. rewrite EX, HE. do 13 right. left. left. reflexivity. }
    assert (HW : forall z, ws_static (y_if y) = false ->
               In z (solver_names (y_if y) (has_block "P" (y_blocks y)) (y_soc y)) -> In z (bases y)).
    { intros z HE Hz. apply ws_base. apply ws_iff. rewrite HE. do 14 right. left. exact Hz. }
    destruct (y_if y) eqn:EI; cbn [ws_used In app] in Hx.
    - destruct Hx.
    - apply HW; [reflexivity|]. cbn [solver_names]. rewrite !in_app_iff. cbn [In].
      repeat (destruct Hx as [<-|Hx]; [solve [auto 20]|]); destruct Hx.
    - rewrite ?in_opt in Hx.
      destruct Hx as [<-|[<-|[<-|Hx]]]; [| |apply HS; reflexivity|]; apply HW; try reflexivity; cbn [solver_names];
        rewrite ?in_app_iff, ?in_opt; cbn [In]; first [tauto | auto 6].
    - repeat (destruct Hx as [<-|Hx]; [first [apply HW; [reflexivity|cbn [solver_names In]; solve [auto 10]] | apply HS; reflexivity]|]).
      destruct Hx.
    - rewrite ?in_opt in Hx.
      destruct Hx as [<-|[<-|[<-|Hx]]]; [| |apply HS; reflexivity|]; apply HW; try reflexivity; cbn [solver_names];
        rewrite ?in_app_iff, ?in_opt; cbn [In]; first [tauto | auto 6].
    - destruct Hx as [<-|[]]. apply HW; [reflexivity|]. cbn [solver_names].
      rewrite ?in_app_iff, ?in_opt; cbn [In]; first [tauto | auto 6].
    - destruct Hx.
  Qed.

  Lemma prefixed_closed : forall x,
    In x (workspace_uses y ++ solve_uses y ++ gradient_uses y ++ compute_uses y ++ module_uses y ++ example_uses y) ->
    In x (bases y).
  Proof.
    assert (W : forall x, In x (workspace_uses y) -> In x (bases y)).
    { intros x Hx. unfold workspace_uses in Hx. rewrite !in_app_iff in Hx.
      destruct Hx as [Hx|[Hx|[Hx|[Hx|[Hx|[Hx|[Hx|Hx]]]]]]].
      - apply in_flat_map in Hx. destruct Hx as [b [Hb Hx]]. apply filter_In in Hb. destruct Hb as [Hb Hk].
        destruct (String.eqb (b_id b) "d") eqn:Ed; [destruct Hx|]. destruct (b_empty b) eqn:Ee; [destruct Hx|].
        cbn [orb] in Hx. apply (param_base b); auto. unfold canon_names. rewrite Ed.
        apply in_app_iff in Hx. apply in_app_iff. destruct Hx as [Hx|Hx].
        + left. destruct Hx as [<-|[]]. unfold param_names. rewrite Ee, append_nil_r.
          destruct (is_matrix (b_id b)); cbn [mat_names In]; auto.
        + right. apply in_opt in Hx. destruct Hx as [Hi ->]. apply in_when_intro; [auto|].
          unfold param_names. rewrite Ee. destruct (is_matrix (b_id b)); cbn [mat_names In]; auto.
      - apply var_base; auto.
      - apply dual_base; auto.
      - apply ws_base. apply ws_iff. do 9 right. left. exact Hx.
      - apply ws_base. apply ws_iff. do 10 right. left. exact Hx.
      - apply ws_base. apply ws_iff. do 11 right. left. exact Hx.
      - apply in_when_iff in Hx. destruct Hx as [HI Hx]. apply iface_eqb_true in HI.
        assert (HW : forall z, In z (solver_names (y_if y) (has_block "P" (y_blocks y)) (y_soc y)) -> In z (bases y)).
        { intros z Hz. apply ws_base. apply ws_iff. do 14 right. left.
          apply in_when_intro; [rewrite HI; reflexivity|auto]. }
        rewrite HI in HW. cbn [solver_names] in HW.
        apply in_app_iff in Hx. destruct Hx as [Hx|Hx].
        { apply in_when_iff in Hx. destruct Hx as [HP Hx].
          destruct Hx as [<-|[<-|[<-|[<-|[]]]]]; try (apply (scs_param HI "P"); [solve [auto 6]|vm_compute; solve [auto 6]]).
          apply HW. rewrite !in_app_iff, HP. left. left. reflexivity. }
        apply in_app_iff in Hx. destruct Hx as [Hx|Hx].
        + repeat (destruct Hx as [<-|Hx];
            [first [apply (scs_param HI "A"); [solve [auto 6]|vm_compute; solve [auto 6]]
                   |apply (scs_param HI "b"); [solve [auto 6]|vm_compute; solve [auto 6]]
                   |apply (scs_param HI "c"); [solve [auto 6]|vm_compute; solve [auto 6]]
                   |apply HW; rewrite !in_app_iff; cbn [In]; solve [auto 20]]|]).
          destruct Hx.
        + apply HW. rewrite !in_app_iff. right. right. left. exact Hx.
      - apply ws_base. apply ws_iff. do 15 right.
        apply in_opt in Hx. destruct Hx as [HG ->]. rewrite HG. left. reflexivity. }
    assert (FP : forall x, In x (map update_fn (y_params y)) -> In x (bases y)).
    { intros x Hx. apply fns_base. unfold user_fns. rewrite in_app_iff. auto. }
    assert (SV : In "cpg_solve" (bases y)).
    { apply solve_base. apply sv_iff. do 5 right. left. left. reflexivity. }
    assert (GR : forall x, In x (when (y_gradient y)
                      (map update_d_fn (map v_name (y_vars y)) ++ ["cpg_gradient"; "CPG_Delta"])) -> In x (bases y)).
    { intros x Hx. apply in_when_iff in Hx. destruct Hx as [HG Hx]. apply in_app_iff in Hx. destruct Hx as [Hx|[<-|[<-|[]]]].
      - apply fns_base. unfold user_fns. rewrite !in_app_iff, HG. right. right. exact Hx.
      - apply grad_base. unfold gradient_fixed. rewrite HG. cbn [when]. rewrite in_app_iff. right. left. reflexivity.
      - apply ws_base. apply ws_iff. rewrite HG. do 15 right. right. left. reflexivity. }
    assert (PR : In "CPG_Prim" (bases y)).
    { apply ws_base. apply ws_iff. do 9 right. left. left. reflexivity. }
    assert (CP : In "Canon_Params" (bases y)).
    { apply ws_base. apply ws_iff. do 5 right. left. left. reflexivity. }
    assert (SG : forall x, y_gradient y = true -> x = "Canon_Outdated_Grad" -> In x (bases y)).
    { intros x HG ->. apply ws_base. apply ws_iff. do 8 right. left.
      apply in_opt. rewrite HG, (rk_single y OK). auto. }
    intros x Hx. rewrite !in_app_iff in Hx. destruct Hx as [Hx|[Hx|[Hx|[Hx|[Hx|Hx]]]]].
    - apply W, Hx.
    - unfold solve_uses in Hx. rewrite !in_app_iff in Hx.
      destruct Hx as [Hx|[Hx|[Hx|[Hx|[Hx|[Hx|[Hx|[Hx|Hx]]]]]]]].
      + destruct Hx as [<-|[<-|[<-|[<-|[]]]]]; auto; apply ws_base; apply ws_iff.
        * left. left. reflexivity.
        * do 7 right. left. left. reflexivity.
      + apply in_when_iff in Hx. destruct Hx as [HE Hx]. apply ws_base. apply ws_iff. rewrite HE.
        destruct Hx as [<-|[<-|[<-|[]]]].
        * right. left. left. reflexivity.
        * right. left. right. left. reflexivity.
        * do 4 right. left. left. reflexivity.
      + apply in_opt in Hx. destruct Hx as [HG Hx]. auto.
      + apply in_flat_map in Hx. destruct Hx as [b [Hb Hx]]. apply in_when_iff in Hx. destruct Hx as [Hc Hx].
        destruct Hx as [<-|[<-|[]]]; [apply map_base|apply canonicalize_base]; auto.
      + apply solve_base. apply sv_iff. right. left. exact Hx.
      + apply in_when_iff in Hx. destruct Hx as [Hc Hx]. apply andb_true_iff in Hc. destruct Hc as [H1 H2].
        apply in_app_iff in Hx. destruct Hx as [[<-|[]]|Hx].
        * apply solve_base. apply sv_iff. do 2 right. left. apply in_opt. rewrite H1, H2. auto.
        * apply in_opt in Hx. destruct Hx as [Hx ->]. apply ws_base. apply ws_iff. do 10 right. left.
          apply in_opt. rewrite H1, Hx. auto.
      + apply in_when_iff in Hx. destruct Hx as [Hc [<-|[<-|[]]]].
        * apply ws_base. apply ws_iff. do 11 right. left. apply in_opt. auto.
        * apply solve_base. apply sv_iff. do 3 right. left. apply in_opt. auto.
      + apply in_when_iff in Hx. destruct Hx as [Hc Hx]. rewrite in_app_iff in Hx. destruct Hx as [[<-|[<-|[]]]|Hx].
        * apply ws_base. apply ws_iff. do 6 right. left. apply in_opt. auto.
        * apply solve_base. apply sv_iff. do 4 right. left. rewrite Hc. cbn [when].
          rewrite in_app_iff. right. left. reflexivity.
        * apply solve_base. apply sv_iff. do 4 right. left. rewrite Hc. cbn [when].
          rewrite in_app_iff. left. exact Hx.
      + apply in_when_iff in Hx. destruct Hx as [Hc Hx]. apply negb_true_iff in Hc. apply solver_base; auto.
    - unfold gradient_uses in Hx. apply in_when_iff in Hx. destruct Hx as [HG Hx]. rewrite !in_app_iff in Hx.
      destruct Hx as [[<-|[]]|[Hx|Hx]].
      + apply ws_base. apply ws_iff. rewrite HG. do 15 right. left. reflexivity.
      + apply in_when_iff in Hx. destruct Hx as [HE [<-|[<-|[<-|[]]]]]; auto.
        apply grad_base. unfold gradient_fixed. rewrite HG, HE. cbn [when]. rewrite in_app_iff. left.
        apply mem_str_In. vm_compute; reflexivity.
      + apply in_flat_map in Hx. destruct Hx as [b [Hb Hx]]. apply in_when_iff in Hx. destruct Hx as [Hc [<-|[]]].
        apply andb_true_iff in Hc. apply map_base; tauto.
    - unfold compute_uses in Hx. apply in_when_iff in Hx. destruct Hx as [HG [<-|[]]]. apply andb_true_iff in HG.
      destruct HG as [HG HE]. apply grad_base. unfold gradient_fixed. rewrite HG, HE. cbn [when]. rewrite in_app_iff. left.
      apply mem_str_In. vm_compute; reflexivity.
    - unfold module_uses in Hx. rewrite !in_app_iff in Hx. destruct Hx as [Hx|[[<-|[<-|[]]]|[Hx|[Hx|[Hx|Hx]]]]]; auto.
      + apply ws_base. apply ws_iff. do 10 right. left. exact Hx.
      + apply ws_base. apply ws_iff. do 11 right. left. exact Hx.
      + apply fns_base. unfold user_fns. rewrite !in_app_iff. right. left. exact Hx.
    - unfold example_uses in Hx. rewrite !in_app_iff in Hx. destruct Hx as [Hx|[[<-|[<-|[]]]|Hx]]; auto.
      + apply ws_base. apply ws_iff. do 12 right. left. left. reflexivity.
  Qed.
End closed.

Theorem C52_closed : forall y, refs_ok y -> forall u, In u (uses y) -> In u (defs y) \/ In u (provided y).
Proof.
  intros y OK u Hu. unfold uses in Hu. apply in_app_iff in Hu. destruct Hu as [Hu|Hu].
  { left. apply in_map_iff in Hu. destruct Hu as [b [<- Hb]]. unfold defs. apply in_app_iff. left.
    apply in_map, prefixed_closed; auto. }
  unfold raw_uses in Hu. rewrite !in_app_iff in Hu. destruct Hu as [Hu|[Hu|Hu]].
  - pose proof (rk_explicit y OK) as HE. unfold provided. destruct (y_if y) eqn:EI; try (destruct Hu; fail).
    + right. exact Hu.
    + destruct HE as [_ HE]. specialize (HE eq_refl). rewrite !in_app_iff in Hu. destruct Hu as [Hu|[Hu|Hu]].
      * destruct Hu as [<-|[<-|[]]]; [|right; left; reflexivity].
        left. unfold defs, unprefixed. rewrite !in_app_iff, HE. do 2 right. left. left. reflexivity.
      * apply in_when_iff in Hu. destruct Hu as [H2 Hu]. left. unfold defs, unprefixed. rewrite !in_app_iff, H2.
        do 3 right. left. exact Hu.
      * apply in_when_iff in Hu. right. right. tauto.
  - left. apply in_when_iff in Hu. destruct Hu as [HG Hu]. unfold defs, unprefixed. rewrite !in_app_iff, HG. do 4 right.
    cbn [when]. rewrite in_app_iff in Hu. destruct Hu as [Hu|Hu].
    + destruct Hu as [<-|[<-|[<-|[]]]]; apply mem_str_In; vm_compute; reflexivity.
    + apply in_flat_map in Hu. destruct Hu as [b [_ Hu]]. apply in_opt in Hu. destruct Hu as [Hc ->].
      apply andb_true_iff in Hc. destruct Hc as [_ Hc]. apply mem_str_In in Hc.
      destruct Hc as [<-|[<-|[]]]; apply mem_str_In; vm_compute; reflexivity.
  - left. apply in_opt in Hu. destruct Hu as [HG ->]. apply andb_true_iff in HG. destruct HG as [HG _].
    unfold defs. apply in_app_iff. left. rewrite (rk_example y OK HG).
    apply in_map_iff. exists "CPG_Result". split; [reflexivity|]. apply ws_base.
    apply ws_iff. do 12 right. left. left. reflexivity.
Qed.
Print Assumptions C52_closed.

Definition scs_syms (e : bool) : syms :=
  mkSyms ISCS "p_" false 0 [mkBlock "c" true false; mkBlock "d" false false; mkBlock "A" false e; mkBlock "b" true e]
         [mkVar "x" false false] false [mkDual "d0" false] ["a"] ["verbose"] true.
Example C52_closed_example :
  refs_ok (osqp_syms "" true [mkVar "X" false true; mkVar "t" true false] ["a"; "b"])
  /\ refs_ok (scs_syms false) /\ length (uses (scs_syms false)) = 43.
Proof.
  split; [|split; [|vm_compute; reflexivity]].
  - constructor; try (vm_compute; reflexivity).
    + split; discriminate.
    + intros b Hb. apply mem_str_In. revert b Hb. apply forallb_forall. vm_compute; reflexivity.
    + discriminate.
  - constructor; try (vm_compute; reflexivity).
    + split; discriminate.
    + intros b Hb. apply mem_str_In. revert b Hb. apply forallb_forall. vm_compute; reflexivity.
    + intros _ n [->|[->|[->|[-> H]]]]; [exists (mkBlock "A" false false)|exists (mkBlock "b" true false)|exists (mkBlock "c" true false)|discriminate];
        vm_compute; auto 8.
    + discriminate.
Qed.

(** Outside those conditions references dangle: the example program of gradient code with a
    prefix uses CPG_Result without the prefix ... *)
Lemma not_defs : forall y u, mem_str u (defs y ++ provided y) = false -> ~ (In u (defs y) \/ In u (provided y)).
Proof. intros y u H Hu. apply not_mem in H. apply H, in_or_app, Hu. Qed.
Theorem C52_example_prefix_refuted : exists y u,
  two_stage y = false /\ y_prefix y = "qp_" /\ y_gradient y = true
  /\ In u (uses y) /\ ~ (In u (defs y) \/ In u (provided y)).
Proof.
  exists (osqp_syms "qp_" true [mkVar "x" false false] ["a"]), "CPG_Result".
  repeat split.
  - apply mem_str_In. vm_compute; reflexivity.
  - apply not_defs. vm_compute; reflexivity.
Qed.
Print Assumptions C52_example_prefix_refuted.
(** ... and SCS's data structures refer to arrays that are not written for empty blocks. *)
Theorem C52_scs_empty_refuted : exists y u,
  two_stage y = false /\ y_if y = ISCS /\ In u (uses y) /\ ~ (In u (defs y) \/ In u (provided y)).
Proof.
  exists (scs_syms true), "p_canon_A_x". repeat split.
  - apply mem_str_In. vm_compute; reflexivity.
  - apply not_defs. vm_compute; reflexivity.
Qed.
Print Assumptions C52_scs_empty_refuted.

(** *** Two-stage gradient code *)

(** Its gradient file refers to the factor workspace under the gradient prefix, which no file
    defines -- for every problem whose vector variables avoid the reserved names. *)
Lemma app_same_length : forall a b c d, String.length a = String.length b -> (a ++ c)%string = (b ++ d)%string -> a = b /\ c = d.
Proof.
  induction a as [|x a IH]; intros [|z b] c d L H; try discriminate; [auto|].
  cbn [append] in H. injection H as -> H. injection L as L. destruct (IH _ _ _ L H). subst. auto.
Qed.
Lemma suffix_of : forall s a b, (a ++ s)%string = b -> is_suffix s b = true.
Proof. intros s a b <-. apply is_suffix_app. Qed.
(** [p ++ b] ends with the text [w]; [b] is at least as long. *)
Lemma common_suffix : forall p b q w, (p ++ b)%string = (q ++ w)%string ->
  String.length w <= String.length b -> is_suffix w b = true.
Proof.
  induction p as [|c p IH]; intros b q w H L.
  - cbn [append] in H. subst b. apply is_suffix_app.
  - destruct q as [|d q].
    + cbn [append] in H. subst w. cbn [String.length] in L. rewrite append_length in L. lia.
    + cbn [append] in H. injection H as _ H. eauto.
Qed.

Record names2_ok (y : syms) (first : list block) : Prop := {
  n2_two : two_stage y = true;
  n2_blocks : subseq (map b_id (y_blocks y)) (pids (y_if y));
  n2_first : subseq (map b_id first) (pids IOSQP);
  n2_dual_names : forall d, In d (y_duals y) -> dual_name (d_name d) = true;
  n2_vars : forall v, In v (var_arrays y) -> is_suffix "CPG_OSQP_Grad" v = false;
  n2_params : forall n, In n (y_params y) \/ In n (map v_name (y_vars y)) \/ In n (y_settings y) ->
    occurs "CPG_OSQP_Grad" n = false
}.

Lemma suffix_occurs : forall w b, is_suffix w b = true -> occurs w b = true.
Proof.
  intros w b; induction b as [|c b IH]; intro H; cbn [is_suffix] in H; cbn [occurs]; apply orb_true_iff in H; apply orb_true_iff.
  - destruct H as [H|H]; [|discriminate]. apply String.eqb_eq in H; subst w. left; reflexivity.
  - destruct H as [H|H]; [left|right; auto]. apply String.eqb_eq in H; subst w.
    unfold starts. rewrite <- (append_nil_r (String c b)) at 2. rewrite strip_app. reflexivity.
Qed.
Lemma fixed_no_grad : forall i f, In f (all_fixed i) -> is_suffix "CPG_OSQP_Grad" f = true -> f = "CPG_OSQP_Grad".
Proof.
  intros i f Hf Hs.
  assert (H : forallb (fun f => negb (is_suffix "CPG_OSQP_Grad" f) || String.eqb f "CPG_OSQP_Grad") (all_fixed i) = true)
    by (destruct i; vm_compute; reflexivity).
  rewrite forallb_forall in H. specialize (H f Hf). rewrite Hs in H. cbn [negb orb] in H. apply String.eqb_eq, H.
Qed.
(** Removing a head that does not overlap with the searched text. *)
Lemma occurs_update : forall n, occurs "CPG_OSQP_Grad" (update_fn n) = occurs "CPG_OSQP_Grad" n.
Proof. intro n. reflexivity. Qed.
Lemma occurs_update_d : forall n, occurs "CPG_OSQP_Grad" (update_d_fn n) = occurs "CPG_OSQP_Grad" n.
Proof. intro n. reflexivity. Qed.
Lemma occurs_setting : forall n, occurs "CPG_OSQP_Grad" (setting_fn n) = occurs "CPG_OSQP_Grad" n.
Proof. intro n. reflexivity. Qed.

Theorem C52_two_stage_undefined : forall y first, names2_ok y first ->
  In (gprefix y ++ "CPG_OSQP_Grad")%string (uses2 y)
  /\ ~ In (gprefix y ++ "CPG_OSQP_Grad")%string (defs2 y first).
Proof.
  intros y first OK. split; [left; reflexivity|]. intro H. unfold defs2 in H. apply in_app_iff in H. destruct H as [H|H].
  - unfold defs in H. apply in_app_iff in H. destruct H as [H|H].
    + apply in_map_iff in H. destruct H as [b [E H]].
      assert (L : String.length b = 22).
      { apply (f_equal String.length) in E. unfold gprefix in E. rewrite !append_length in E. cbn [String.length] in E. lia. }
      pose proof (common_suffix _ _ _ _ E) as HS. rewrite L in HS.
      specialize (HS ltac:(cbn [String.length]; lia)).
      unfold bases in H. rewrite !app_assoc in H. rewrite !in_app_iff in H.
      assert (HF : In b (fixed y) -> False).
      { intro HF. assert (HF' : In b (fixed y ++ scs_phantoms y)) by (apply in_or_app; auto).
        apply (subseq_incl _ _ _ (fixed_sub y (n2_blocks y first OK))) in HF'.
        apply fixed_no_grad in HF'; [|exact HS]. subst b. discriminate. }
      unfold fixed in HF. rewrite !in_app_iff in HF.
      destruct H as [[[[[H|H]|H]|H]|H]|H]; [tauto|tauto|tauto| | |].
      * apply suffix_occurs in HS. unfold user_fns in H. rewrite !in_app_iff in H. destruct H as [H|[H|H]].
        -- apply in_map_iff in H. destruct H as [n [<- H]]. rewrite occurs_update in HS.
           rewrite (n2_params y first OK n) in HS; [discriminate|auto].
        -- apply in_when in H. destruct H as [_ H]. apply in_map_iff in H. destruct H as [n [<- H]].
           rewrite occurs_setting in HS. rewrite (n2_params y first OK n) in HS; [discriminate|auto].
        -- apply in_when in H. destruct H as [_ H]. apply in_map_iff in H. destruct H as [n [<- H]].
           rewrite occurs_update_d in HS. rewrite (n2_params y first OK n) in HS; [discriminate|auto].
      * rewrite (n2_vars y first OK b H) in HS. discriminate.
      * apply (subseq_incl _ _ _ (dual_arrays_incl y)) in H. apply in_map_iff in H. destruct H as [d [<- H]].
        apply filter_In in H. destruct H as [H _]. apply (n2_dual_names y first OK) in H.
        assert (EX : exists s, d_name d = (s ++ "CPG_OSQP_Grad")%string).
        { clear - HS. revert HS. generalize (d_name d). induction s as [|c s IH]; intro H; cbn [is_suffix] in H.
          - discriminate.
          - apply orb_true_iff in H. destruct H as [H|H].
            + apply String.eqb_eq in H. exists "". auto.
            + destruct (IH H) as [t ->]. exists (String c t). reflexivity. }
        destruct EX as [s EX]. rewrite EX in H. apply (dual_last _ "") in H. cbn [append] in H.
        change "CPG_OSQP_Grad" with (String "C" "PG_OSQP_Grad") in H. rewrite last_digit_app in H. discriminate.
    + pose proof (unprefixed_foreign y _ (in_or_app _ _ _ (or_introl H))) as HF.
      assert (HC : forallb (fun u => negb (starts "gradient_" u)) foreign = true) by (vm_compute; reflexivity).
      rewrite forallb_forall in HC. apply HC in HF. unfold gprefix in HF. rewrite append_assoc, starts_app in HF. discriminate.
  - apply in_map_iff in H. destruct H as [b [E H]]. apply append_inj_l in E. subst b.
    assert (HA : In "CPG_OSQP_Grad" (flat_map (fun n => map_names (full n)) (pids IOSQP)
                  ++ flat_map (fun n => canon_names true (full n)) (pids IOSQP)
                  ++ ["Canon_Params"; "Canon_Outdated_Grad"; "sol_x"; "sol_y"]
                  ++ ["cpg_retrieve_intermediate_primal"] ++ ["cpg_retrieve_intermediate_dual"]
                  ++ flat_map (fun n => [("cpg_canonicalize_" ++ n)%string]) (pids IOSQP))).
    { revert H. apply subseq_incl. unfold gradient_stage.
      assert (FS : forall (f : block -> list string) g, (forall b, subseq (f b) (g (b_id b))) ->
                     subseq (flat_map f first) (flat_map g (pids IOSQP))).
      { intros f g H. eapply subseq_trans; [apply subseq_flat_map_l, (n2_first y first OK)|]. rewrite flat_map_map.
        apply subseq_flat_map. auto. }
      repeat apply subseq_app; try apply subseq_refl; try apply subseq_opt; auto.
      - apply FS. intro; apply map_names_sub.
      - apply FS. intro; apply canon_names_sub.
      - apply FS. intro; apply subseq_opt. }
    revert HA. apply not_mem. vm_compute; reflexivity.
Qed.
Print Assumptions C52_two_stage_undefined.

(** In the same way the factor code and the Python module refer to an intermediate solution
    that is defined under another prefix only, and with SCS and a scalar variable cpg_solve.c
    calls a function that does not exist. *)
Definition two_stage_syms (i : iface) (blocks : list block) : syms :=
  mkSyms i "p_" true 0 blocks [mkVar "x" false false; mkVar "t" true false] false [mkDual "d0" false] ["a"] ["verbose"] false.
Definition scs_blocks : list block := [mkBlock "P" false false; mkBlock "c" true false; mkBlock "d" false false;
                                       mkBlock "A" false false; mkBlock "b" true false].
Theorem C52_two_stage_refuted : exists y first, names2_ok y first
  /\ forall u, In u [(y_prefix y ++ "sol_x")%string; (y_prefix y ++ "sol_y")%string; "sol_x"; "sol_y";
                     (gprefix y ++ "CPG_OSQP_Grad")%string; (gprefix y ++ "cpg_retrieve_intermediate_primal")%string] ->
     In u (uses2 y) /\ ~ In u (defs2 y first).
Proof.
  exists (two_stage_syms ISCS scs_blocks), osqp_blocks. split.
  - constructor; try (vm_compute; reflexivity).
    + apply subseqb. vm_compute; reflexivity.
    + apply subseqb. vm_compute; reflexivity.
    + intros d [<-|[]]; reflexivity.
    + intros v Hv. vm_compute in Hv. destruct Hv.
    + intros n Hn. vm_compute in Hn.
      destruct Hn as [[<-|[]]|[[<-|[<-|[]]]|[<-|[]]]]; vm_compute; reflexivity.
  - intros u Hu. repeat (destruct Hu as [<-|Hu];
      [split; [apply mem_str_In; vm_compute; reflexivity|apply not_mem; vm_compute; reflexivity]|]). destruct Hu.
Qed.
Print Assumptions C52_two_stage_refuted.

(** *** Two programs in one executable *)

(** Apart from names without prefix, two generated programs with independent prefixes share no
    definition; programs without gradients and not in explicit mode have only [main] without
    prefix. *)
Theorem C52_two_programs : forall y1 y2 a b, a <> "" -> b <> "" -> ~ is_prefix a b -> ~ is_prefix b a ->
  y_prefix y1 = gen_prefix a -> y_prefix y2 = gen_prefix b ->
  forall x, In x (map (append (y_prefix y1)) (bases y1)) -> In x (map (append (y_prefix y2)) (bases y2)) -> False.
Proof.
  intros y1 y2 a b Ha Hb H1 H2 E1 E2 x Hx1 Hx2. rewrite E1 in Hx1. rewrite E2 in Hx2.
  apply in_map_iff in Hx1. destruct Hx1 as [b1 [<- _]].
  apply in_map_iff in Hx2. destruct Hx2 as [b2 [E _]].
  apply (C47_independent_prefixes a b Ha Hb H1 H2 b1 b2). auto.
Qed.
Print Assumptions C52_two_programs.
Theorem C52_plain_programs : forall y, y_gradient y = false -> y_explicit y = 0 -> unprefixed y = ["main"].
Proof. intros y HG HE. unfold unprefixed, explicit. rewrite HG, HE. reflexivity. Qed.
(** Two gradient programs always clash, whatever their prefixes. *)
Theorem C52_gradient_programs_clash : forall y1 y2,
  y_gradient y1 = true -> y_gradient y2 = true -> y_explicit y1 = 0 -> y_explicit y2 = 0 ->
  In "cpg_ldl_add" (defs y1) /\ In "cpg_ldl_add" (defs y2).
Proof.
  assert (H : forall y, y_gradient y = true -> y_explicit y = 0 -> In "cpg_ldl_add" (defs y)).
  { intros y HG HE. unfold defs, unprefixed, explicit. rewrite HG, HE. apply in_or_app. right.
    apply mem_str_In. vm_compute; reflexivity. }
  auto.
Qed.
Print Assumptions C52_gradient_programs_clash.
