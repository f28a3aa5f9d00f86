(** The names of the translation units of Units.v against the identifier lists of Symbols.v. *)

From Coq Require Import String Ascii List Bool Arith Lia Permutation.
From Verif Require Import Base Config Symbols SymbolsProofs PropSymbols Units UnitsProofs.
Import ListNotations.
Open Scope string_scope.
Open Scope list_scope.

Definition to_block (b : ublock) : block := mkBlock (k_id b) (k_changes b) (block_empty b).
Definition to_var (v : uvar3) : uvar := mkVar (w_name v) (scalar_var v) (w_sym v).
Definition to_dual (d : string * nat) : udual := mkDual (fst d) (Nat.eqb (snd d) 1).
Definition to_syms (u : uin) : syms :=
  mkSyms (u_if u) (u_prefix u) (u_gradient u) (u_explicit u) (map to_block (u_blocks u)) (map to_var (u_vars u))
         (u_reduced u) (map to_dual (u_duals u)) (map fst (u_params u)) (map fst (u_settings u))
         (negb (Nat.eqb (u_soc u) 0)).

Lemma names_if : forall b l, map iname (items_if b l) = when b (map iname l).
Proof. intros [] l; reflexivity. Qed.
Lemma when_map : forall b f (l : list string), when b (map f l) = map f (when b l).
Proof. intros [] f l; reflexivity. Qed.
Lemma when_one : forall b x, when b [x] = opt b x.
Proof. intros [] x; reflexivity. Qed.
Lemma names_flat : forall A (f : A -> list item) (g : A -> list string) p l,
  (forall a, In a l -> map iname (f a) = map p (g a)) -> map iname (flat_map f l) = map p (flat_map g l).
Proof.
  induction l as [|a l IH]; intro H; [reflexivity|]. cbn [flat_map]. rewrite !map_app, IH, H; auto.
  - left; reflexivity.
  - intros b Hb. apply H. right; exact Hb.
Qed.
Lemma map_filter : forall A B (f : A -> B) (g : B -> bool) l, filter g (map f l) = map f (filter (fun a => g (f a)) l).
Proof.
  induction l as [|a l IH]; [reflexivity|]. cbn [map filter]. rewrite IH. destruct (g (f a)); reflexivity.
Qed.
Lemma filter_eq : forall A (f g : A -> bool) l, (forall a, f a = g a) -> filter f l = filter g l.
Proof. intros A f g l H. induction l as [|a l IH]; [reflexivity|]. cbn [filter]. rewrite H, IH. reflexivity. Qed.
Lemma existsb_map : forall A B (f : A -> B) (g : B -> bool) l, existsb g (map f l) = existsb (fun a => g (f a)) l.
Proof. induction l as [|a l IH]; [reflexivity|]. cbn [map existsb]. rewrite IH. reflexivity. Qed.

Lemma map_opt : forall p b x, map p (opt b x) = when b [p x].
Proof. intros p [] x; reflexivity. Qed.
Ltac perm :=
  apply (Permutation_count_occ string_dec); let x := fresh "x" in intro x;
  repeat rewrite count_occ_app; lia.

Section Names.
  Variable u : uin.
  Let y := to_syms u.
  Let p := pre u.

  Lemma pre_assoc : forall a b, (pre u a ++ b)%string = pre u (a ++ b)%string.
  Proof. intros a b. apply append_assoc. Qed.

  Lemma mat_names_eq : forall n num idx ty k c,
    map iname (mat_def (p n) num idx ty k c) = map p (mat_names n).
  Proof. intros. unfold mat_def, mat_names, p. cbn [map iname]. rewrite !pre_assoc. reflexivity. Qed.
  Lemma map_def_eq : forall b, map iname (map_def u b) = map p (map_names (to_block b)).
  Proof.
    intro b. unfold map_def, map_names. cbn [to_block b_changes b_id]. rewrite names_if.
    fold (p ("canon_" ++ k_id b ++ "_map")%string). rewrite mat_names_eq, when_map. reflexivity.
  Qed.
  Lemma param_def_eq : forall b s, map iname (param_def u b s) = map p (param_names (to_block b) s).
  Proof.
    intros b s. unfold param_def, param_names. cbn [to_block b_empty b_id].
    destruct (block_empty b); [reflexivity|]. destruct (is_matrix (k_id b)); [|reflexivity].
    fold (p ("canon_" ++ k_id b ++ s)%string). apply mat_names_eq.
  Qed.
  Lemma block_def_eq : forall b, map iname (block_def u b) = map p (canon_names (inmem (u_if u)) (to_block b)).
  Proof.
    intro b. unfold block_def, canon_names. cbn [to_block b_id]. destruct (String.eqb (k_id b) "d"); [reflexivity|].
    rewrite !map_app, names_if, !param_def_eq, when_map. reflexivity.
  Qed.
  Lemma kept_eq : forall b, kept (u_explicit u) (u_reduced u) (to_block b) = block_kept u b.
  Proof.
    intro b. unfold kept, block_kept, expl. cbn [to_block b_id]. rewrite negb_involutive. reflexivity.
  Qed.
  Lemma own_eq : filter (own_array u) (u_vars u)
    = filter (fun v => negb (v_scalar (to_var v)) && (v_sym (to_var v) || negb (sol_static (y_if y)))) (u_vars u).
  Proof. reflexivity. Qed.
  Lemma var_arrays_eq : map w_name (filter (own_array u) (u_vars u)) = var_arrays y.
  Proof. unfold var_arrays. cbn [y to_syms y_vars]. rewrite map_filter, map_map. reflexivity. Qed.
  Lemma dual_vec_eq : map fst (vec_duals u) = dual_vec y.
  Proof. unfold dual_vec, vec_duals. cbn [y to_syms y_duals]. rewrite map_filter, map_map. reflexivity. Qed.
  Lemma nil_duals : forall (b c : bool), (match u_duals u with [] => b | _ => c end) = (match y_duals y with [] => b | _ => c end).
  Proof. intros b c. cbn [y to_syms y_duals]. destruct (u_duals u); reflexivity. Qed.
  Lemma quad_eq : existsb (fun b => String.eqb (k_id b) "P") (u_blocks u) = has_block "P" (y_blocks y).
  Proof. unfold has_block. cbn [y to_syms y_blocks]. rewrite existsb_map. reflexivity. Qed.

  Lemma solver_def_eq : map iname (solver_def u) = map p (solver_names (u_if u) (has_block "P" (y_blocks y)) (y_soc y)).
  Proof.
    unfold solver_def. rewrite <- quad_eq. cbn [y to_syms y_soc].
    destruct (existsb _ (u_blocks u)), (negb (Nat.eqb (u_soc u) 0)), (u_if u); reflexivity.
  Qed.

  Hypothesis ONE : two_stage y = false.

  Lemma workspace_names :
    Permutation (map iname (workspace_c u))
      (map p (workspace_fixed y ++ var_arrays y ++ dual_arrays y)
       ++ when (expl u) ["sol_x"] ++ when (Nat.eqb (u_explicit u) 2) ["sol_y"]).
  Proof.
    unfold workspace_c. rewrite !map_app, !names_if, !map_app, !names_if.
    rewrite (names_flat _ (map_def u) (fun b => map_names (to_block b)) p) by (intros; apply map_def_eq).
    rewrite (names_flat _ (block_def u) (fun b => canon_names (inmem (u_if u)) (to_block b)) p) by (intros; apply block_def_eq).
    rewrite solver_def_eq, !map_map.
    rewrite <- (flat_map_map _ _ _ to_block map_names), <- (flat_map_map _ _ _ to_block (canon_names (inmem (u_if u)))).
    change (fun x : uvar3 => iname (Def (pre u (w_name x)) (CArr fl (w_size x)) [])) with (fun x => p (w_name x)).
    change (fun x : string * nat => iname (Def (pre u (fst x)) (CArr fl (snd x)) [])) with (fun x : string * nat => p (fst x)).
    rewrite <- (map_map w_name p), <- (map_map fst p), var_arrays_eq, dual_vec_eq.
    assert (FK : map to_block (filter (block_kept u) (u_blocks u))
                 = filter (kept (y_explicit y) (y_reduced y)) (y_blocks y)).
    { cbn [y to_syms y_blocks y_explicit y_reduced]. rewrite map_filter. f_equal. apply filter_eq.
      intro b. symmetry. apply kept_eq. }
    rewrite FK.
    unfold workspace_fixed. rewrite ONE. unfold dual_arrays. fold (dual_vec y).
    cbn [negb]. rewrite andb_true_r.
    change (y_if y) with (u_if u). change (explicit y) with (expl u). change (y_explicit y) with (u_explicit u).
    change (y_gradient y) with (u_gradient u). change (y_blocks y) with (map to_block (u_blocks u)).
    unfold has_dual. rewrite nil_duals. cbn [map iname].
    assert (DV : match y_duals y with [] => true | _ :: _ => false end = true -> dual_vec y = []).
    { unfold dual_vec. destruct (y_duals y); [reflexivity|discriminate]. }
    revert DV. generalize (match y_duals y with [] => true | _ :: _ => false end).
    generalize (flat_map map_names (map to_block (u_blocks u))).
    generalize (flat_map (canon_names (inmem (u_if u))) (filter (kept (u_explicit u) (y_reduced y)) (map to_block (u_blocks u)))).
    generalize (solver_names (u_if u) (has_block "P" (map to_block (u_blocks u))) (y_soc y)).
    generalize (var_arrays y) (dual_vec y). intros va dv sn cn mn nil DV.
    rewrite !map_app, !map_opt, <- !when_map. fold p. cbn [map].
    assert (E : forall x : string, count_occ string_dec
                (when (negb ((u_explicit u =? 1)%nat) && negb nil) (when (negb (sol_static (u_if u))) (map p dv) ++ [p "CPG_Dual"])) x
              = count_occ string_dec (when (negb ((u_explicit u =? 1)%nat) && negb (sol_static (u_if u))) (map p dv)) x
                + count_occ string_dec (when (negb ((u_explicit u =? 1)%nat) && negb nil) [p "CPG_Dual"]) x).
    { intro x. destruct nil; [rewrite (DV eq_refl)|]; destruct (negb ((u_explicit u =? 1)%nat)), (negb (sol_static (u_if u)));
        cbn [when andb negb map app]; rewrite ?count_occ_app; reflexivity. }
    assert (E2 : forall x : string, count_occ string_dec (when (expl u) [p "cpg_theta"; "sol_x"]) x
              = count_occ string_dec (when (expl u) [p "cpg_theta"]) x + count_occ string_dec (when (expl u) ["sol_x"]) x).
    { intro x. destruct (expl u); [|reflexivity]. cbn [when]. rewrite <- count_occ_app. reflexivity. }
    apply (Permutation_count_occ string_dec). intro x. repeat rewrite count_occ_app. rewrite E, E2. lia.
  Qed.

  Lemma some_var_eq : ret_prim (u_if u) (y_vars y) = some_var u.
  Proof. unfold ret_prim, some_var. cbn [y to_syms y_vars]. rewrite !existsb_map. reflexivity. Qed.
  Lemma some_dual_eq : ret_dual (u_if u) (y_duals y) = some_dual u.
  Proof. unfold ret_dual, some_dual. cbn [y to_syms y_duals]. rewrite existsb_map. reflexivity. Qed.

  Lemma flat_opt : forall (c : ublock -> bool) (f : string -> string) t,
    map iname (flat_map (fun b => items_if (c b) [Ext (pre u (f (k_id b))) t]) (u_blocks u))
    = map p (flat_map (fun b => opt (c b) (f (k_id b))) (u_blocks u)).
  Proof. intros c f t. apply names_flat. intros b _. rewrite names_if, map_opt. reflexivity. Qed.

  Lemma solve_names :
    Permutation (map iname (solve_ext u))
      (map p (solve_fixed y ++ map update_fn (y_params y) ++ when (negb (explicit y)) (map setting_fn (y_settings y)))).
  Proof.
    unfold solve_ext. rewrite !map_app, !names_if, !map_app.
    rewrite (flat_opt k_changes (fun s => ("cpg_canonicalize_" ++ s)%string)).
    rewrite (flat_opt not_d (fun s => ("cpg_copy_" ++ s)%string)).
    unfold solve_fixed. rewrite ONE, orb_false_r.
    change (y_if y) with (u_if u). change (explicit y) with (expl u). change (y_explicit y) with (u_explicit u).
    rewrite some_var_eq, some_dual_eq. cbn [y to_syms y_params y_settings y_blocks y_reduced].
    rewrite !(flat_map_map _ _ _ to_block).
    rewrite !map_app, !map_opt, <- !when_map. fold p. rewrite !map_app, !map_map. cbn [map iname].
    change (fun x : ublock => opt (b_changes (to_block x)) ("cpg_canonicalize_" ++ b_id (to_block x)))
      with (fun b : ublock => opt (k_changes b) ("cpg_canonicalize_" ++ k_id b)).
    change (fun x : ublock => opt (negb (String.eqb (b_id (to_block x)) "d")) ("cpg_copy_" ++ b_id (to_block x)))
      with (fun b : ublock => opt (not_d b) ("cpg_copy_" ++ k_id b)).
    change (fun x : string * nat => iname (Ext (pre u (update_fn (fst x))) (update_ty (snd x))))
      with (fun x : string * nat => p (update_fn (fst x))).
    assert (E : forall x : string, count_occ string_dec
                (when (negb (expl u)) ([p "cpg_set_solver_default_settings"]
                   ++ map (fun x => iname (Ext (pre u (setting_fn (fst x))) (CFun "void" [snd x]))) (u_settings u))) x
              = count_occ string_dec (when (negb (expl u)) [p "cpg_set_solver_default_settings"]) x
                + count_occ string_dec (when (negb (expl u)) (map (fun x => p (setting_fn (fst x))) (u_settings u))) x).
    { intro x. destruct (negb (expl u)); cbn [when]; rewrite ?count_occ_app; reflexivity. }
    apply (Permutation_count_occ string_dec). intro x. repeat rewrite count_occ_app.
    rewrite E. lia.
  Qed.

  Lemma gradient_names :
    map iname (gradient_ext u) = map p (map update_d_fn (map v_name (y_vars y)) ++ ["cpg_gradient"]).
  Proof.
    unfold gradient_ext. cbn [y to_syms y_vars]. rewrite !map_app, !map_map. reflexivity.
  Qed.
  Lemma grad_workspace_names : map iname (grad_workspace_c u) = map p grad_arrays.
  Proof.
    unfold grad_workspace_c. rewrite map_app.
    rewrite (names_flat _ (grad_array u)
               (fun a => match snd (fst a) with
                         | GCsc => mat_names ("cpg_osqp_grad_" ++ fst (fst a))
                         | _ => [("cpg_osqp_grad_" ++ fst (fst a))%string] end) p).
    - reflexivity.
    - intros [[n k] len] _. cbn [fst snd grad_array]. destruct k; try reflexivity. apply mat_names_eq.
  Qed.
  Lemma compute_names : map iname (compute_c u) = compute_fns.
  Proof. reflexivity. Qed.

  (** ** All typed names *)

  Definition provided_items : list item :=
    match u_if u with
    | IOSQP => [Ext "sol_x" (CArr (CT "OSQPFloat") (u_nvar u));
                Ext "sol_y" (CArr (CT "OSQPFloat") (u_neq u + u_nineq u)); Ext "solver" (CT "OSQPSolver")]
    | IPDAQP => [Ext "pdaqp_evaluate" (CFun "void" ["c_float*"; "c_float*"]); Ext "pdaqp_hp_list" (CPtr (CT "c_int"));
                 Ext "pdaqp_feedbacks" (CPtr (CT "c_float_store")); Ext "pdaqp_active_region" (CT "int")]
    | _ => []
    end.
  Definition phantom_vars : list item :=
    map (fun v => Ext (pre u ("cpg_" ++ w_name v)%string) (CArr fl (w_size v))) (filter (own_array u) (u_vars u)).
  Definition phantom_duals : list item :=
    items_if (negb (sol_static (u_if u)))
       (map (fun d => Ext (pre u ("cpg_" ++ fst d)%string) (CArr fl (snd d))) (vec_duals u)).
  Definition phantom_scs : list item :=
    items_if (iface_eqb (u_if u) ISCS)
      (items_if (existsb (fun b => String.eqb (k_id b) "P") (u_blocks u)) [Ext (pre u "scs_P") (CT "ScsMatrix")]
       ++ [Ext (pre u "scs_A") (CT "ScsMatrix")]).
  (** Declared although explicit mode does not define them. *)
  Definition hidden_items : list item :=
    flat_map (fun b => param_ext u b "") (filter (fun b => negb (block_kept u b)) (u_blocks u)).

  Definition single_grad : bool := u_gradient u && negb (expl u).
  Definition all_items : list item :=
    workspace_c u ++ solve_ext u ++ items_if (u_gradient u) (gradient_ext u)
    ++ items_if single_grad (grad_workspace_c u ++ compute_c u)
    ++ provided_items ++ phantom_vars ++ phantom_duals ++ phantom_scs ++ hidden_items.

  Lemma provided_names : map iname provided_items = provided y.
  Proof. unfold provided_items, provided. change (y_if y) with (u_if u). destruct (u_if u); reflexivity. Qed.
  Lemma phantom_names : map iname (phantom_vars ++ phantom_duals ++ phantom_scs) = map p (phantoms y).
  Proof.
    unfold phantom_vars, phantom_duals, phantom_scs, phantoms. fold (dual_vec y).
    rewrite <- var_arrays_eq, <- dual_vec_eq, <- quad_eq. change (y_if y) with (u_if u).
    rewrite !map_app, !names_if, !map_app, !names_if, !map_map, <- app_assoc. f_equal. f_equal.
    - destruct (negb (sol_static (u_if u))); [|reflexivity]. cbn [when]. rewrite !map_map. reflexivity.
    - destruct (iface_eqb (u_if u) ISCS), (existsb _ (u_blocks u)); reflexivity.
  Qed.

  Lemma all_names : Permutation ("main" :: map iname all_items)
    (defs y ++ provided y ++ map p (phantoms y) ++ map iname hidden_items).
  Proof.
    unfold all_items. rewrite !(map_app iname (workspace_c u)), (map_app iname (solve_ext u)),
      (map_app iname (items_if (u_gradient u) _)), (map_app iname (items_if single_grad _)), (map_app iname provided_items).
    rewrite (app_assoc phantom_vars), (app_assoc (phantom_vars ++ phantom_duals)), (map_app iname ((phantom_vars ++ phantom_duals) ++ phantom_scs)).
    rewrite <- (app_assoc phantom_vars), phantom_names, provided_names.
    rewrite (Permutation_app_tail _ workspace_names), !names_if, gradient_names, (map_app iname (grad_workspace_c u)), grad_workspace_names, compute_names.
    rewrite (Permutation_app_tail _ solve_names).
    unfold defs, unprefixed, bases, user_fns, gradient_fixed. change (append (y_prefix y)) with p.
    change (explicit y) with (expl u). change (y_explicit y) with (u_explicit u). change (y_gradient y) with (u_gradient u).
    generalize (phantoms y) (provided y) (map iname hidden_items) (workspace_fixed y) (solve_fixed y) (var_arrays y) (dual_arrays y).
    generalize (map update_fn (y_params y)) (map setting_fn (y_settings y)) (map update_d_fn (map v_name (y_vars y))).
    generalize grad_arrays compute_fns. intros ga cf up st ud ph pr hi wf sf va da. unfold single_grad.
    apply (Permutation_count_occ string_dec). intro x.
    change ("main" :: ?l) with (["main"] ++ l).
    rewrite !map_app. repeat rewrite count_occ_app.
    destruct (u_gradient u), (expl u); cbn [when andb negb map app]; rewrite ?map_app; repeat rewrite count_occ_app; cbn [map];
      change (count_occ string_dec [] x) with 0; lia.
  Qed.
End Names.
