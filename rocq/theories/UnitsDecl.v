(** Every declaration and definition of the generated files has the type of one list with
    distinct names. *)

From Coq Require Import String Ascii List Bool Arith Lia Permutation.
From Verif Require Import Base Config Symbols SymbolsProofs PropSymbols Units UnitsProofs UnitsNames.
Import ListNotations.
Open Scope string_scope.
Open Scope list_scope.

(** What the theorems assume: names as for C52, explicit mode exactly for PDAQP, SCS data that
    is not empty, and no array called cpg_dx or cpg_dtheta next to the explicit gradient. *)
Record units_ok (u : uin) : Prop := {
  uk_names : names_ok (to_syms u);
  uk_pdaqp : u_if u = IPDAQP -> expl u = true;
  uk_level : u_explicit u <= 2;
  uk_scs : u_if u = ISCS -> forall n,
    n = "A" \/ n = "b" \/ n = "c" \/ (n = "P" /\ existsb (fun b => String.eqb (k_id b) "P") (u_blocks u) = true) ->
    exists b, In b (u_blocks u) /\ k_id b = n /\ block_empty b = false;
  uk_local : expl u = true -> u_gradient u = true -> forall v, In v (u_vars u) -> own_array u v = true ->
    ~ In (pre u ("cpg_" ++ w_name v)%string) ["cpg_dx"; "cpg_dtheta"]
}.

Lemma in_if : forall b l i, In i (items_if b l) <-> b = true /\ In i l.
Proof. intros [] l i; cbn [items_if In]; split; [auto|intros [_ H]; exact H|intros []|intros [E _]; discriminate]. Qed.

Section Decl.
  Variable u : uin.
  Hypothesis OK : units_ok u.
  Let y := to_syms u.

  Lemma ids : forall b, In b (u_blocks u) -> In (k_id b) (pids (u_if u)).
  Proof.
    intros b Hb. apply (subseq_incl _ _ _ (nk_blocks y (uk_names u OK))). cbn [y to_syms y_blocks].
    rewrite map_map. apply (in_map k_id) in Hb. exact Hb.
  Qed.
  Lemma ids_NoDup : NoDup (map k_id (u_blocks u)).
  Proof.
    assert (H : NoDup (map b_id (y_blocks y))).
    { eapply subseq_NoDup; [apply (nk_blocks y (uk_names u OK))|]. apply nodupb_NoDup.
      destruct (y_if y); vm_compute; reflexivity. }
    cbn [y to_syms y_blocks] in H. rewrite map_map in H. exact H.
  Qed.
  Lemma expl_pdaqp : expl u = true -> u_if u = IPDAQP.
  Proof. apply (nk_explicit y (uk_names u OK)). Qed.

  (** The hidden names. *)
  Lemma hidden_shape : forall x, In x (map iname (hidden_items u)) ->
    expl u = true /\ exists n, x = pre u ("canon_" ++ n)%string /\ (n = "A" \/ (n = "P" /\ u_reduced u = true)).
  Proof.
    intros x Hx. apply in_map_iff in Hx. destruct Hx as [i [<- Hi]]. apply in_flat_map in Hi.
    destruct Hi as [b [Hb Hi]]. apply filter_In in Hb. destruct Hb as [Hb Hk].
    apply negb_true_iff in Hk. unfold block_kept in Hk. apply orb_false_iff in Hk. destruct Hk as [H1 H2].
    apply negb_false_iff in H1, H2. split; [exact H1|]. exists (k_id b).
    unfold param_ext in Hi. destruct (block_empty b); [destruct Hi|]. destruct Hi as [<-|[]]. cbn [iname].
    rewrite append_nil_r. split; [reflexivity|].
    apply orb_true_iff in H2. destruct H2 as [H2|H2].
    - apply String.eqb_eq in H2. auto.
    - apply andb_true_iff in H2. destruct H2 as [H2 H3]. apply String.eqb_eq in H3. auto.
  Qed.
  Lemma hidden_NoDup : NoDup (map iname (hidden_items u)).
  Proof.
    unfold hidden_items.
    assert (E : forall l, map iname (flat_map (fun b => param_ext u b "") l)
                = map (fun n => pre u ("canon_" ++ n)%string) (map k_id (filter (fun b => negb (block_empty b)) l))).
    { induction l as [|b l IH]; [reflexivity|]. cbn [flat_map filter]. rewrite map_app, IH. unfold param_ext.
      destruct (block_empty b); [reflexivity|]. cbn [negb map iname app]. rewrite append_nil_r. reflexivity. }
    rewrite E. apply NoDup_map_inj.
    - intros a b H. apply append_inj_l in H. apply append_inj_l in H. exact H.
    - eapply subseq_NoDup; [|apply ids_NoDup]. apply subseq_map. eapply subseq_trans; apply subseq_filter.
  Qed.

  Lemma hidden_fixed : expl u = true -> forall n, n = "A" \/ (n = "P" /\ u_reduced u = true) ->
    ~ In ("canon_" ++ n)%string (fixed y ++ scs_phantoms y).
  Proof.
    intros EX n Hn Hx. pose proof (expl_pdaqp EX) as HI.
    assert (HIy : y_if y = IPDAQP) by exact HI. assert (EXy : explicit y = true) by exact EX.
    assert (BI : forall b, In b (y_blocks y) -> In (b_id b) ["P"; "q"; "d"; "A"; "l"; "u"]).
    { intros b Hb. apply (in_map b_id) in Hb. apply (subseq_incl _ _ _ (nk_blocks y (uk_names u OK))) in Hb.
      fold y in Hb. rewrite HIy in Hb. exact Hb. }
    assert (Hn2 : n = "A" \/ n = "P") by tauto.
    unfold fixed, scs_phantoms, workspace_fixed, solve_fixed, gradient_fixed in Hx.
    rewrite HIy, EXy in Hx. cbn [iface_eqb negb andb when opt inmem extra_stgs ws_static] in Hx.
    rewrite !in_app_iff in Hx.
    repeat match type of Hx with
           | _ \/ _ => destruct Hx as [Hx|Hx]
           end;
    try solve [
      repeat match type of Hx with context [opt ?b _] => destruct b; cbn [opt] in Hx end;
      repeat match type of Hx with context [when ?b _] => destruct b; cbn [when app] in Hx end;
      destruct Hn2 as [-> | ->]; apply mem_str_In in Hx; vm_compute in Hx; discriminate ].
    - apply in_flat_map in Hx. destruct Hx as [b [Hb Hx]]. apply BI in Hb. unfold map_names in Hx.
      destruct (b_changes b); [|destruct Hx]. cbn [when] in Hx.
      destruct Hb as [E|[E|[E|[E|[E|[E|[]]]]]]]; rewrite <- E in Hx;
        destruct Hn2 as [-> | ->]; apply mem_str_In in Hx; vm_compute in Hx; discriminate.
    - apply in_flat_map in Hx. destruct Hx as [b [Hb Hx]]. apply filter_In in Hb. destruct Hb as [Hb Hk]. apply BI in Hb.
      unfold kept in Hk. change (y_explicit y =? 0)%nat with (u_explicit u =? 0)%nat in Hk.
      unfold expl in EX. apply negb_true_iff in EX. rewrite EX in Hk. cbn [orb] in Hk.
      apply negb_true_iff, orb_false_iff in Hk. destruct Hk as [Hk1 Hk2].
      unfold canon_names, param_names in Hx. cbn [when] in Hx. rewrite app_nil_r in Hx.
      destruct Hb as [E|[E|[E|[E|[E|[E|[]]]]]]]; rewrite <- E in Hx, Hk1, Hk2;
        try discriminate Hk1; destruct (b_empty b); cbn [String.eqb Ascii.eqb Bool.eqb] in Hx; try contradiction;
        destruct Hn as [-> |[-> R]];
        try (apply mem_str_In in Hx; vm_compute in Hx; discriminate);
        change (y_reduced y) with (u_reduced u) in Hk2; rewrite R in Hk2; discriminate.
    - apply in_flat_map in Hx. destruct Hx as [b [Hb Hx]]. apply BI in Hb.
      destruct (b_changes b); [|destruct Hx]. cbn [opt] in Hx.
      destruct Hb as [E|[E|[E|[E|[E|[E|[]]]]]]]; rewrite <- E in Hx;
        destruct Hn2 as [-> | ->]; apply mem_str_In in Hx; vm_compute in Hx; discriminate.
  Qed.

  Lemma hidden_new : forall x, In x (map iname (hidden_items u)) ->
    ~ In x (defs y ++ provided y ++ map (pre u) (phantoms y)).
  Proof.
    intros x Hh Hx. apply hidden_shape in Hh. destruct Hh as [EX [n [-> Hn]]].
    pose proof (hidden_fixed EX n Hn) as HF. pose proof (expl_pdaqp EX) as HI.
    assert (Hn2 : n = "A" \/ n = "P") by tauto. pose proof (uk_names u OK) as NK. fold y in NK.
    assert (HB : forall b, In b (bases y ++ phantoms y) -> b <> ("canon_" ++ n)%string).
    { intros b Hb E. subst b.
      assert (HC : In ("canon_" ++ n)%string (fixed y ++ scs_phantoms y) \/ In ("canon_" ++ n)%string (user_fns y)
                   \/ In ("canon_" ++ n)%string (var_arrays y) \/ In ("canon_" ++ n)%string (dual_vec y)
                   \/ In ("canon_" ++ n)%string (fam_pv y) \/ In ("canon_" ++ n)%string (fam_pd y)).
      { unfold bases, phantoms in Hb. rewrite map_app in Hb. fold (dual_vec y) in Hb. fold (scs_phantoms y) in Hb.
        fold (fam_pv y) in Hb. fold (fam_pd y) in Hb. unfold fixed. repeat rewrite in_app_iff in Hb. repeat rewrite in_app_iff.
        pose proof (subseq_incl _ _ _ (dual_arrays_incl y) ("canon_" ++ n)%string). tauto. }
      destruct HC as [HC|[HC|[HC|[HC|[HC|HC]]]]].
      - contradiction.
      - apply fns_shape in HC. destruct HC as [[m E]|[s [E _]]]; discriminate.
      - apply (var_arrays_spec y NK) in HC. destruct HC as [HC _].
        apply (safe_heads _ _ "canon_") in HC; [|vm_compute; auto]. rewrite starts_app in HC. discriminate.
      - apply (dual_vec_spec y NK) in HC. discriminate.
      - apply pv_shape in HC. destruct HC as [v [E _]]. discriminate.
      - apply (pd_shape y NK) in HC. destruct HC as [v [E _]]. discriminate. }
    assert (HU : forall z, In z (unprefixed y ++ provided y) -> pre u ("canon_" ++ n)%string <> z).
    { intros z Hz E. apply unprefixed_foreign in Hz. destruct foreign_checks_ok as [_ [HP _]].
      unfold foreign_checks in HP. rewrite forallb_forall in HP. specialize (HP z Hz). rewrite forallb_forall in HP.
      specialize (HP ("canon_" ++ n)%string). rewrite <- E in HP. unfold pre in HP. rewrite is_suffix_app in HP.
      assert (Q : negb true = true); [apply HP|discriminate].
      apply mem_str_In. destruct Hn2 as [-> | ->]; vm_compute; reflexivity. }
    unfold defs in Hx. rewrite !in_app_iff in Hx.
    assert (HM : forall l, In (pre u ("canon_" ++ n)%string) (map (pre u) l) -> In ("canon_" ++ n)%string l).
    { intros l H. apply in_map_iff in H. destruct H as [b [E H]]. apply append_inj_l in E. subst b. exact H. }
    destruct Hx as [[Hx|Hx]|[Hx|Hx]].
    - apply HM in Hx. apply (HB _ (in_or_app _ _ _ (or_introl Hx)) eq_refl).
    - apply (HU _ (in_or_app _ _ _ (or_introl Hx)) eq_refl).
    - apply (HU _ (in_or_app _ _ _ (or_intror Hx)) eq_refl).
    - apply HM in Hx. apply (HB _ (in_or_app _ _ _ (or_intror Hx)) eq_refl).
  Qed.

  Lemma all_NoDup : NoDup ("main" :: map iname (all_items u)).
  Proof.
    eapply Permutation_NoDup; [symmetry; apply (all_names u (nk_single y (uk_names u OK)))|].
    fold y. change (pre u) with (append (y_prefix y)).
    rewrite (app_assoc (provided y)), app_assoc. apply NoDup_app.
    - apply (C52_distinct y (uk_names u OK)).
    - apply hidden_NoDup.
    - intros x H1 H2. apply (hidden_new x H2 H1).
  Qed.
  Definition T : list (string * cty) := map sig (all_items u).
  Lemma T_func : func T.
  Proof.
    apply NoDup_func. unfold T. rewrite map_map. pose proof all_NoDup as H. inversion H; subst. exact H3.
  Qed.

  (** *** Declarations *)
  Definition known (i : item) : Prop := In (sig i) T.
  Lemma known_item : forall i j, In j (all_items u) -> sig i = sig j -> known i.
  Proof. intros i j Hj E. unfold known. rewrite E. apply in_map, Hj. Qed.
  Lemma all_iff : forall i, In i (all_items u) <->
    In i (workspace_c u) \/ In i (solve_ext u) \/ In i (items_if (u_gradient u) (gradient_ext u))
    \/ In i (items_if (single_grad u) (grad_workspace_c u ++ compute_c u))
    \/ In i (provided_items u) \/ In i (phantom_vars u) \/ In i (phantom_duals u) \/ In i (phantom_scs u)
    \/ In i (hidden_items u).
  Proof. intro i. unfold all_items. rewrite !in_app_iff. tauto. Qed.

  Lemma header_known : forall i, In i (solver_header u) -> known i.
  Proof.
    intros i Hi. apply (known_item i i); [|reflexivity]. apply all_iff. do 4 right. left.
    unfold solver_header in Hi. unfold provided_items.
    destruct (u_if u); try contradiction.
    - cbn [In] in *. tauto.
    - rewrite in_app_iff, in_if in Hi. cbn [In] in *. tauto.
  Qed.

  Lemma in_sig_if : forall b l s, In s (map sig (items_if b l)) <-> b = true /\ In s (map sig l).
  Proof. intros [] l s; cbn [items_if map In]; split; [auto|intros [_ H]; exact H|intros []|intros [E _]; discriminate]. Qed.
  Lemma known_ws : forall i, In (sig i) (map sig (workspace_c u)) -> known i.
  Proof.
    intros i Hi. apply in_map_iff in Hi. destruct Hi as [j [E Hj]]. apply (known_item i j); [|congruence].
    apply all_iff. left. exact Hj.
  Qed.
  Lemma sig_l : forall a b s, In s (map sig a) -> In s (map sig (a ++ b)).
  Proof. intros a b s H. rewrite map_app, in_app_iff. auto. Qed.
  Lemma sig_r : forall a b s, In s (map sig b) -> In s (map sig (a ++ b)).
  Proof. intros a b s H. rewrite map_app, in_app_iff. auto. Qed.
  Ltac here :=
    first [ apply in_sig_if; split; [solve [assumption|reflexivity]|here]
          | first [left; exact eq_refl | right; left; exact eq_refl] ].
  Ltac pick := first [ solve [apply sig_l; here] | apply sig_r; pick | here ].
  Ltac ws := apply known_ws; unfold workspace_c; pick.

  Lemma solver_known : ws_static (u_if u) = false -> forall i, In i (solver_ext u) -> known i.
  Proof.
    intros HW i Hi.
    assert (HD : In (sig i) (map sig (solver_def u)) \/ In i (phantom_scs u)).
    { unfold solver_ext in Hi. unfold solver_def, phantom_scs. destruct (u_if u); try discriminate HW;
        cbn [iface_eqb] in *;
        rewrite ?in_app_iff, ?in_if in Hi; rewrite ?map_app, ?in_app_iff, ?in_sig_if; cbn [items_if];
        rewrite ?in_app_iff, ?in_if; cbn [map In sig iname ity scs_matrix] in *.
      all: repeat match type of Hi with
                  | _ \/ _ => destruct Hi as [Hi|Hi]
                  | _ /\ _ => destruct Hi as [?Hi0 Hi]
                  | False => destruct Hi
                  | _ = ?w => subst w; cbn [sig iname ity]
                  end; auto 20. }
    destruct HD as [HD|HD].
    - apply known_ws. unfold workspace_c. rewrite !map_app, !in_app_iff, !in_sig_if.
      do 16 right. left. rewrite HW. auto.
    - apply (known_item i i); [|reflexivity]. apply all_iff. tauto.
  Qed.

  Lemma params_known : forall b i, In b (u_blocks u) -> k_id b <> "d" ->
    In i (param_ext u b "" ++ items_if (inmem (u_if u)) (param_ext u b "_conditioning")) -> known i.
  Proof.
    intros b i Hb Hd Hi.
    assert (P : forall s, In i (param_ext u b s) -> In (sig i) (map sig (param_def u b s))).
    { intros s H. unfold param_ext in H. unfold param_def. destruct (block_empty b); [destruct H|].
      destruct H as [<-|[]]. destruct (is_matrix (k_id b)); cbn [map In mat_def sig iname ity]; auto. }
    assert (B : In (sig i) (map sig (block_def u b))).
    { unfold block_def. apply String.eqb_neq in Hd. rewrite Hd, map_app, in_app_iff, in_sig_if.
      rewrite in_app_iff, in_if in Hi. destruct Hi as [Hi|[HM Hi]]; [left|right; split; [exact HM|]]; apply P, Hi. }
    destruct (block_kept u b) eqn:K.
    - apply known_ws. unfold workspace_c. rewrite !map_app, !in_app_iff. do 3 right. left.
      apply in_map_iff in B. destruct B as [j [E Hj]]. rewrite <- E. apply in_map, in_flat_map. exists b. split; [|exact Hj].
      apply filter_In. auto.
    - apply (known_item i i); [|reflexivity]. apply all_iff. do 8 right. unfold hidden_items. apply in_flat_map.
      exists b. split; [apply filter_In; rewrite K; auto|].
      rewrite in_app_iff, in_if in Hi. destruct Hi as [Hi|[HM Hi]]; [exact Hi|].
      unfold block_kept in K. apply orb_false_iff in K. destruct K as [K _]. apply negb_false_iff in K.
      rewrite (expl_pdaqp K) in HM. discriminate.
  Qed.

  Lemma workspace_h_known : forall i, In i (workspace_h u) -> known i.
  Proof.
    intros i Hi. unfold workspace_h in Hi. rewrite !in_app_iff, !in_if in Hi.
    repeat match type of Hi with
           | In _ (solver_header _) \/ _ => destruct Hi as [Hi|Hi]; [apply header_known; exact Hi|]
           | In _ (flat_map _ _) \/ _ => destruct Hi as [Hi|Hi]
           | In _ (map _ _) \/ _ => destruct Hi as [Hi|Hi]
           | (negb (ws_static _) = true /\ _) \/ _ => destruct Hi as [Hi|Hi]
           | (negb (sol_static _) = true /\ _) \/ _ => destruct Hi as [Hi|Hi]
           | _ \/ _ => destruct Hi as [Hi|Hi]
           | _ /\ _ => let H := fresh "B" in destruct Hi as [H Hi]
           | In _ [] => destruct Hi
           | In _ (_ :: _) => destruct Hi as [Hi|Hi]
           | _ = ?w => subst w
           end.
    all: try solve [ws].
    - apply in_flat_map in Hi. destruct Hi as [b [Hb Hi]]. apply in_if in Hi. destruct Hi as [C Hi].
      destruct Hi as [<-|[]]. apply known_ws. unfold workspace_c. do 2 apply sig_r. apply sig_l.
      apply in_map_iff. eexists. split; [|apply in_flat_map; exists b; split; [exact Hb|unfold map_def; rewrite C;
        cbn [items_if mat_def In]; do 3 right; left; reflexivity]]. reflexivity.
    - apply in_flat_map in Hi. destruct Hi as [b [Hb Hi]]. apply in_if in Hi. destruct Hi as [C Hi].
      apply negb_true_iff, String.eqb_neq in C. apply (params_known b i Hb C Hi).
    - apply (known_item i i); [|reflexivity]. apply all_iff. do 5 right. left. exact Hi.
    - apply (known_item i i); [|reflexivity]. apply all_iff. do 6 right. left. unfold phantom_duals. apply in_if. auto.
    - apply known_ws. unfold workspace_c. do 12 apply sig_r. apply sig_l. apply in_sig_if. split; [exact B|].
      apply sig_r. left. reflexivity.
    - apply known_ws. unfold workspace_c. do 15 apply sig_r. apply sig_l. apply in_sig_if. split; [|left; reflexivity].
      rewrite B, andb_true_r. destruct (expl u) eqn:EX; [|reflexivity]. rewrite (expl_pdaqp EX) in B. discriminate.
    - apply negb_true_iff in B. apply (solver_known B i Hi).
  Qed.

  Lemma solve_ext_known : forall i, In i (solve_ext u) -> known i.
  Proof. intros i Hi. apply (known_item i i); [|reflexivity]. apply all_iff. auto. Qed.
  Lemma gradient_ext_known : u_gradient u = true -> forall i, In i (gradient_ext u) -> known i.
  Proof. intros G i Hi. apply (known_item i i); [|reflexivity]. apply all_iff. do 2 right. left. apply in_if. auto. Qed.
  Lemma grad_known : single_grad u = true -> forall i, In i (grad_workspace_c u ++ compute_c u) -> known i.
  Proof. intros G i Hi. apply (known_item i i); [|reflexivity]. apply all_iff. do 3 right. left. apply in_if. auto. Qed.
  Lemma grad_workspace_h_known : single_grad u = true -> forall i, In i (grad_workspace_h u) -> known i.
  Proof.
    intros G i Hi. unfold grad_workspace_h in Hi. apply in_app_or in Hi. destruct Hi as [Hi|[<-|[]]].
    - apply workspace_h_known, Hi.
    - eapply known_item; [apply all_iff; do 3 right; left; apply in_if; split; [exact G|]|].
      + apply in_or_app. left. unfold grad_workspace_c. apply in_or_app. right. left. reflexivity.
      + reflexivity.
  Qed.
  Lemma grad_compute_h_known : single_grad u = true -> forall i, In i (grad_compute_h u) -> known i.
  Proof.
    intros G i Hi. unfold grad_compute_h in Hi. apply in_app_or in Hi. destruct Hi as [Hi|Hi].
    - apply grad_workspace_h_known; auto.
    - assert (H : In (sig i) (map sig (compute_c u))).
      { apply (in_map sig) in Hi. cbn [map sig iname ity] in Hi. unfold compute_c. cbn [map sig iname ity].
        cbn [In] in Hi |- *. unfold gi, gm in *. tauto. }
      apply in_map_iff in H. destruct H as [j [E Hj]]. apply (known_item i j); [|congruence].
      apply all_iff. do 3 right. left. apply in_if. split; [exact G|]. apply in_or_app. auto.
  Qed.
End Decl.
