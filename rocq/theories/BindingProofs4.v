(** What solve and gradient of the Python binding return. *)

From Coq Require Import String Ascii Arith Bool Lia List.
From Verif Require Import Base Pus Machine Runtime RuntimeProofs Retrieve RetrieveProofs Config Symbols SymbolsProofs CTypes ExplicitVars CExampleProofs Binding BindingSpec BindingProofs BindingProofs3.
Import ListNotations.
Open Scope string_scope.
Open Scope list_scope.

Lemma bind_ok : forall A B (r : res A) (f : A -> res B) b, (a <- r;; f a) = Ok b <-> exists a, r = Ok a /\ f a = Ok b.
Proof.
  intros A B r f b. destruct r as [a|e]; cbn [bind].
  - split; [intro H; exists a; auto|]. now intros (a' & [= <-] & H).
  - split; [discriminate|]. now intros (a' & H & _).
Qed.

Section Holds.
  Variable x : bin.
  Hypothesis HX : binding_ok x.
  Variable V : Type.
  Variable v0 : V.
  Variable S : Type.
  Variable L : clib V S.
  Variable clock : V.
  Notation pre s := (n_prefix x ++ s)%string.

  Lemma num_ok : forall (r : res (xval V)) v, (w <- r;; num V w) = Ok v <-> r = Ok (VNum v).
  Proof.
    intros r v. rewrite bind_ok. split.
    - intros (w & -> & H). destruct w; try discriminate. injection H as ->. reflexivity.
    - intros ->. eauto.
  Qed.
  Lemma rd_arr_holds : forall g idx l, rd_arr V v0 g idx = Ok l <->
    length l = length idx
    /\ forall k v, nth_error l k = Some v -> match nth_error idx k with Some (Some j) => g j = Ok (VNum v) | _ => v = v0 end.
  Proof.
    intros g. unfold rd_arr. induction idx as [|o idx IH]; intro l; cbn [mapM].
    - split.
      + intros [= <-]. split; [reflexivity|]. intros [|k] v H; discriminate.
      + intros [H _]. destruct l; [reflexivity|discriminate].
    - rewrite bind_ok. split.
      + intros (a & Ha & H). apply bind_ok in H as (bs & Hb & H). injection H as <-. apply IH in Hb as [H1 H2].
        split; [cbn; lia|]. intros [|k] v Hk; [|now apply H2].
        injection Hk as <-. cbn. destruct o; [now apply num_ok|now injection Ha].
      + intros [H1 H2]. destruct l as [|a bs]; [discriminate|]. exists a.
        split.
        * specialize (H2 0 a eq_refl). cbn in H2. destruct o; [now apply num_ok|now subst].
        * apply bind_ok. exists bs. split; [|reflexivity]. apply IH. cbn in H1. split; [lia|].
          intros k v Hk. exact (H2 (Datatypes.S k) v Hk).
  Qed.
  Lemma rd_holds : forall o m n one idx s w, (n <> 1 -> length idx = n) ->
    (rd V v0 S L o m n one idx s = Ok w <-> c_holds V v0 S L o m n one idx s w).
  Proof.
    intros o m n one idx s w HL. unfold rd, c_holds. destruct (Nat.eqb_spec n 1) as [E|E].
    - split; [intro H; split; auto; contradiction|]. intros [H _]; auto.
    - rewrite bind_ok. split.
      + intros (l & H1 & H2). injection H2 as <-. split; [contradiction|]. intros _.
        apply rd_arr_holds in H1 as [H3 H4]. exists l. rewrite H3. auto.
      + intros [_ H]. destruct (H E) as (l & -> & H3 & H4). exists l. split; [|reflexivity].
        apply rd_arr_holds. split; [|exact H4]. rewrite HL; auto.
  Qed.
  Lemma all_len : forall n, length (all_of n) = n.
  Proof. intro n. unfold all_of. now rewrite map_length, seq_length. Qed.
  Lemma all_nth : forall n k, k < n -> nth_error (all_of n) k = Some (Some k).
  Proof.
    intros n k H. unfold all_of. rewrite nth_error_map.
    rewrite (nth_error_nth' _ 0) by (rewrite seq_length; lia). rewrite seq_nth by lia. reflexivity.
  Qed.
  Lemma rd_all_holds : forall g n l, rd_arr V v0 g (all_of n) = Ok l <->
    length l = n /\ forall k v, nth_error l k = Some v -> g k = Ok (VNum v).
  Proof.
    intros g n l. rewrite rd_arr_holds, all_len. split; intros [H1 H2]; split; auto; intros k v Hk; pose proof (H2 k v Hk) as Q.
    - assert (k < n) by (rewrite <- H1; apply nth_error_Some; congruence). now rewrite all_nth in Q.
    - assert (k < n) by (rewrite <- H1; apply nth_error_Some; congruence). now rewrite all_nth.
  Qed.

  Lemma rec_holds : forall o ns one idx s w,
    (forall n, In n ns -> snd n <> 1 -> length (idx n) = snd n) ->
    ((exists ws, mapM (fun v => rd V v0 S L o (Some (fst v)) (snd v) one (idx v) s) ns = Ok ws /\ w = VRec (combine (map fst ns) ws))
     <-> c_record V v0 S L o ns one idx s w).
  Proof.
    intros o ns one idx s w HL. unfold c_record. split.
    - intros (ws & H & ->). exists ws. split; auto. apply mapM_Forall2 in H.
      revert HL. induction H as [|v b ns bs H1 _ IH]; intro HL; constructor.
      + apply rd_holds; auto. apply HL. now left.
      + apply IH. intros. apply HL; auto. now right.
    - intros (ws & -> & H). exists ws. split; auto. apply mapM_Forall2.
      revert HL. induction H as [|v b ns bs H1 _ IH]; intro HL; constructor.
      + apply rd_holds; auto. apply HL. now left.
      + apply IH. intros. apply HL; auto. now right.
  Qed.

  Lemma expl_true : expl x = true <-> n_explicit x <> 0.
  Proof. unfold expl. rewrite negb_true_iff, Nat.eqb_neq. reflexivity. Qed.
  Lemma expl_false : expl x = false <-> n_explicit x = 0.
  Proof. unfold expl. rewrite negb_false_iff, Nat.eqb_eq. reflexivity. Qed.

  Lemma info_ok : forall s w, info_val x V v0 S L clock s = Ok w <-> info_holds x V S L clock s w.
  Proof.
    intros s w. unfold info_val, info_holds. rewrite bind_ok. split.
    - intros (fs & H1 & H). apply bind_ok in H as (gs & H2 & H). injection H as <-.
      exists fs, gs. split; [reflexivity|].
      destruct (expl x) eqn:E.
      + pose proof (proj1 expl_true E). injection H1 as <-. split; [auto|]. split; [contradiction|].
        destruct (n_gradient x) eqn:G.
        * apply bind_ok in H2 as (r & H2 & H3). injection H3 as <-. split; [discriminate|]. split; [eauto|]. contradiction.
        * injection H2 as <-. split; [auto|]. split; discriminate.
      + pose proof (proj1 expl_false E). apply bind_ok in H1 as (ws & H1 & H3). injection H3 as <-.
        split; [contradiction|]. split.
        { intros _. exists ws. split; [reflexivity|]. apply mapM_Forall2 in H1. exact H1. }
        destruct (n_gradient x) eqn:G.
        * apply bind_ok in H2 as (a & H2 & H3). apply bind_ok in H3 as (b & H3 & H4). injection H4 as <-.
          apply rd_all_holds in H2 as [A1 A2]. apply rd_all_holds in H3 as [B1 B2].
          split; [discriminate|]. split; [contradiction|]. intros _ _. exists a, b. auto.
        * injection H2 as <-. split; [auto|]. split; discriminate.
    - intros (fs & gs & -> & F1 & F2 & G1 & G2 & G3). exists fs. split.
      + destruct (expl x) eqn:E.
        * pose proof (proj1 expl_true E). now rewrite F1.
        * pose proof (proj1 expl_false E) as Z. destruct (F2 Z) as (ws & -> & H). apply bind_ok. exists ws. split; [|reflexivity].
          apply mapM_Forall2. exact H.
      + apply bind_ok. exists gs. split; [|reflexivity].
        destruct (n_gradient x) eqn:G; [|now rewrite G1].
        destruct (expl x) eqn:E.
        * pose proof (proj1 expl_true E) as Z. destruct (G2 eq_refl Z) as (r & -> & H). rewrite H. reflexivity.
        * pose proof (proj1 expl_false E) as Z. destruct (G3 eq_refl Z) as (a & b & -> & A1 & B1 & A2 & B2).
          apply bind_ok. exists a. split; [now apply rd_all_holds|]. apply bind_ok. exists b. split; [now apply rd_all_holds|]. reflexivity.
  Qed.

  Lemma result_ok : forall s w, result_val x V v0 S L clock s = Ok w <-> solve_holds x V v0 S L clock s w.
  Proof.
    intros s w. unfold result_val, solve_holds, prim_val, dual_val. rewrite bind_ok.
    assert (I1 : forall n, In n (n_vars x) -> snd n <> 1 -> length (idx_of x n) = snd n).
    { intros n Hn _. unfold idx_of. destruct (Nat.eqb (n_explicit x) 0); [apply all_len|now apply bo_idx]. }
    assert (I2 : forall n : string * nat, In n (n_duals x) -> snd n <> 1 -> length (all_of (snd n)) = snd n) by (intros; apply all_len).
    assert (D : has_dual x = true <-> n_explicit x <> 1 /\ n_duals x <> []).
    { unfold has_dual. rewrite andb_true_iff, negb_true_iff, Nat.eqb_neq. destruct (n_duals x); cbn; intuition congruence. }
    split.
    - intros (p & H1 & H). apply bind_ok in H as (d & H2 & H). apply bind_ok in H as (i & H3 & H). injection H as <-.
      exists (VRec (combine (map fst (n_vars x)) p)), d, i. split; [reflexivity|]. split.
      { apply (proj1 (rec_holds _ _ _ _ _ _ I1)). eauto. }
      split; [|split; [|now apply info_ok]].
      + intro Z. destruct (has_dual x); [|now injection H2].
        destruct (proj1 D eq_refl) as [Z1 Z2]. destruct Z; contradiction.
      + intros Z1 Z2. rewrite (proj2 D (conj Z1 Z2)) in H2. apply bind_ok in H2 as (l & H2 & H4). injection H4 as <-.
        eexists. split; [reflexivity|]. apply (proj1 (rec_holds _ _ _ _ _ _ I2)). eauto.
    - intros (p & ds & i & -> & HPr & D1 & D2 & HI). apply (proj2 (rec_holds _ _ _ _ _ _ I1)) in HPr as (ws & E1 & ->).
      exists ws. split; [exact E1|]. apply bind_ok. exists ds. split.
      + destruct (has_dual x) eqn:E.
        * destruct (proj1 D eq_refl) as [Z1 Z2]. destruct (D2 Z1 Z2) as (d & -> & Hd).
          apply (proj2 (rec_holds _ _ _ _ _ _ I2)) in Hd as (l & El & ->). apply bind_ok. eauto.
        * rewrite D1; [reflexivity|]. destruct (Nat.eq_dec (n_explicit x) 1); [now left|]. right.
          destruct (n_duals x) eqn:Q; [reflexivity|]. assert (false = true) by (apply D; split; congruence). discriminate.
      + apply bind_ok. exists i. split; [now apply info_ok|reflexivity].
  Qed.

  (** ** gradient *)

  Notation EX := (exec x v0 L clock).
  Notation EB := (exec_body x v0 L clock).
  Notation calls := (do_calls V S L).
  Notation sets := (do_sets V S L).
  Lemma sets_app : forall a b s, sets (a ++ b) s = (s' <- sets a s;; sets b s').
  Proof. induction a as [|[[o k] v] a IH]; intros; [reflexivity|]. cbn [app do_sets]. rewrite bind_assoc3. apply bind_ext3. auto. Qed.

  Lemma store_glob : forall o loc s i k v, assoc o loc = None ->
    store L loc s i (obj_at o k) v = (s' <- c_set L o (Some (at_ix i k)) v s;; Ok (loc, s')).
  Proof. intros. unfold store, obj_at. cbn [e_root e_fld e_at]. now rewrite H. Qed.
  Lemma set_loop : forall o r loc l a s, assoc o loc = None ->
    (forall s k v, nth_error l k = Some v -> eval L loc s (a + k) r = Ok (VNum v)) ->
    loop (EX (SSet (obj_at o II) r)) (seq a (length l)) (loc, s)
    = (s' <- sets (map (fun k => (o, Some (fst k), VNum (snd k))) (combine (seq a (length l)) l)) s;; Ok (loc, s')).
  Proof.
    intros o r loc. induction l as [|v l IH]; intros a s HO H; [reflexivity|].
    cbn [length seq loop map combine do_sets]. rewrite ex_set.
    assert (H0 : eval L loc s a r = Ok (VNum v)) by (rewrite <- (Nat.add_0_r a); now apply H).
    rewrite H0. cbn [bind]. rewrite store_glob by auto. cbn [at_ix fst snd].
    rewrite !bind_assoc3. apply bind_ext3. intro s'. cbn [bind]. rewrite (IH (Datatypes.S a) s'); [reflexivity|auto|].
    intros t k w Hk. rewrite Nat.add_succ_comm. now apply H.
  Qed.

  Variable vals : string -> list V.
  Variable use : bool.
  Definition vrec : xval V := VRec (map (fun n => (fst n, entries V (vals (fst n)))) (n_vars x)).
  Definition gframe (sol : xval V) : frame V :=
    [("CPG_VDelta_cpp", vrec); (if expl x then "region" else "CPG_GSol_cpp", sol); ("use_sol", VBool use)].
  (** What is written before the calls. *)
  Definition sol_sets (sol : xval V) : list (string * option nat * xval V) :=
    if expl x then [("pdaqp_active_region", None, sol)]
    else match sol with
         | VRec [(_, VArr a); (_, VArr b)] => set_all V "sol_x" a ++ set_all V "sol_y" b
         | _ => []
         end.
  Definition sol_ok (sol : xval V) : Prop :=
    expl x = false -> exists a b, sol = VRec [("primal", VArr a); ("dual", VArr b)] /\ length a = n_nvar x /\ length b = n_ncon x.

  Lemma sol_run : forall sol s, sol_ok sol ->
    EX (SIf (obj "use_sol")
       (if expl x then SSet (obj "pdaqp_active_region") (obj "region")
        else SSeq (SFor (n_nvar x) (SSet (obj_at "sol_x" II) (dot_at "CPG_GSol_cpp" "primal" II)))
                  (SFor (n_ncon x) (SSet (obj_at "sol_y" II) (dot_at "CPG_GSol_cpp" "dual" II))))) 0 (gframe sol, s)
    = (s' <- (if use then sets (sol_sets sol) s else Ok s);; Ok (gframe sol, s')).
  Proof.
    intros sol s HS. rewrite ex_if. unfold obj at 1.
    assert (U : eval L (gframe sol) s 0 (Ex "use_sol" None None) = Ok (VBool use)).
    { unfold eval, gframe. cbn [e_root e_fld e_at]. destruct (expl x); reflexivity. }
    rewrite U. cbn [bind]. destruct use eqn:EU; [|reflexivity]. unfold sol_sets, gframe. destruct (expl x) eqn:E.
    - rewrite ex_set. unfold eval, store, obj. cbn. now rewrite bind_assoc3.
    - destruct (HS E) as (a & b & -> & Ha & Hb).
      set (fr := [("CPG_VDelta_cpp", vrec); ("CPG_GSol_cpp", VRec [("primal", VArr a); ("dual", VArr b)]); ("use_sol", VBool use)]).
      change (EX (SSeq (SFor (n_nvar x) (SSet (obj_at "sol_x" II) (dot_at "CPG_GSol_cpp" "primal" II)))
                       (SFor (n_ncon x) (SSet (obj_at "sol_y" II) (dot_at "CPG_GSol_cpp" "dual" II)))) 0 (fr, s))
        with (st <- EX (SFor (n_nvar x) (SSet (obj_at "sol_x" II) (dot_at "CPG_GSol_cpp" "primal" II))) 0 (fr, s);;
              EX (SFor (n_ncon x) (SSet (obj_at "sol_y" II) (dot_at "CPG_GSol_cpp" "dual" II))) 0 st).
      rewrite ex_for, <- Ha, set_loop; [|reflexivity|].
      2:{ intros t k v Hk. unfold eval, fr, dot_at. cbn. now rewrite Hk. }
      rewrite sets_app, !bind_assoc3. apply bind_ext3. intro s'. cbn [bind].
      rewrite ex_for, <- Hb, set_loop; [reflexivity|reflexivity|].
      intros t k v Hk. unfold eval, fr, dot_at. cbn. now rewrite Hk.
  Qed.

  Hypothesis HV : forall v, In v (n_vars x) -> length (vals (fst v)) = snd v.
  Lemma stored_calls : forall f o v loc, assoc o loc = Some vrec -> In v (n_vars x) -> snd v <> 1 ->
    forall idx l a s, vals (fst v) = a ++ l -> length idx = length l ->
    EB (map (fun ik => SCall f [AIx (IN (snd ik)); AEx (dot_at o (fst v) (IN (fst ik)))]) (stored (length a) idx)) (loc, s)
    = (s' <- calls (flat_map (fun kl => match fst kl with Some j => [(f, [CIx j; CVal (VNum (snd kl))])] | None => [] end) (combine idx l)) s;; Ok (loc, s')).
  Proof.
    intros f o v loc HO Hv H1. induction idx as [|j idx IH]; intros l a s HL HE.
    - destruct l; [reflexivity|discriminate].
    - destruct l as [|w l]; [discriminate|]. cbn in HE.
      assert (N : vals (fst v) = (a ++ [w]) ++ l) by (rewrite HL, <- app_assoc; reflexivity).
      assert (LL : Datatypes.S (length a) = length (a ++ [w])) by (rewrite app_length; cbn; lia).
      assert (HE' : length idx = length l) by lia.
      cbn [stored combine flat_map fst snd]. destruct j as [j|].
      + cbn [map exec_body fst snd]. rewrite ex_call. cbn [mapM eval_arg at_ix bind]. unfold dot_at at 1.
        rewrite (arg_field V S L loc o v (n_vars x) (fun n => entries V (vals (fst n))) s 0 _ HO (bo_vars x HX) Hv).
        rewrite not_one by (rewrite HV; auto). cbn [at_ix]. rewrite HL, nth_error_app2, Nat.sub_diag by lia. cbn [nth_error bind app do_calls].
        rewrite !bind_assoc3. apply bind_ext3. intro s'. cbn [bind]. rewrite LL. now apply IH.
      + rewrite LL. now apply IH.
  Qed.
  Lemma delta_run : forall v sol s, In v (n_vars x) ->
    EB (Binding.put_delta x v) (gframe sol, s) = (s' <- calls (delta_calls x V v (vals (fst v))) s;; Ok (gframe sol, s')).
  Proof.
    intros v sol s Hv. unfold put_delta, delta_calls.
    pose proof (fun f => hand_run x V v0 S L clock vals (gframe sol) "CPG_VDelta_cpp" f v (n_vars x) s eq_refl (bo_vars x HX) Hv (HV v Hv)) as HR.
    destruct (Nat.eqb (snd v) 1) eqn:E1.
    - rewrite orb_true_r. cbn [exec_body]. rewrite HR, bind_assoc3. apply bind_ext3. reflexivity.
    - rewrite orb_false_r. unfold expl. destruct (Nat.eqb (n_explicit x) 0); cbn [negb].
      + cbn [exec_body]. rewrite HR, bind_assoc3. apply bind_ext3. reflexivity.
      + apply Nat.eqb_neq in E1.
        apply (stored_calls (pre ("cpg_update_d" ++ fst v)) "CPG_VDelta_cpp" v (gframe sol) eq_refl Hv E1 (n_idx x (fst v)) (vals (fst v)) [] s eq_refl).
        rewrite HV by auto. now apply bo_idx.
  Qed.
  Lemma deltas_run : forall sol s,
    EB (flat_map (Binding.put_delta x) (n_vars x)) (gframe sol, s)
    = (s' <- calls (flat_map (fun v => delta_calls x V v (vals (fst v))) (n_vars x)) s;; Ok (gframe sol, s')).
  Proof.
    intro sol.
    assert (G : forall vs, (forall v, In v vs -> In v (n_vars x)) -> forall s, EB (flat_map (Binding.put_delta x) vs) (gframe sol, s)
      = (s' <- calls (flat_map (fun v => delta_calls x V v (vals (fst v))) vs) s;; Ok (gframe sol, s'))).
    { induction vs as [|v vs IH]; intros HI s; [reflexivity|]. cbn [flat_map]. rewrite eb_app, calls_app, delta_run by auto with datatypes.
      rewrite !bind_assoc3. apply bind_ext3. intro s'. cbn [bind]. apply IH. auto with datatypes. }
    apply G. auto.
  Qed.

  Hypothesis HG : n_gradient x = true.
  Hypothesis HP : forall p, In p (n_params x) -> snd p <> 0.
  Lemma gdelta_run : forall p done rest loc s, assoc (pre "CPG_Delta") loc = None ->
    ~ In (fst p) (map fst done) -> snd p <> 0 ->
    EB [get_delta x p] (("CPG_PDelta_cpp", VRec (done ++ ini V v0 p :: rest)) :: loc, s)
    = (w <- rd V v0 S L (pre "CPG_Delta") (Some (fst p)) (snd p) (Some 0) (all_of (snd p)) s;;
       Ok (("CPG_PDelta_cpp", VRec (done ++ (fst p, w) :: rest)) :: loc, s)).
  Proof.
    intros p done rest loc s E2 HD H0.
    assert (E1 : String.eqb (pre "CPG_Delta") "CPG_PDelta_cpp" = false) by (apply suf_l; reflexivity).
    cbn [exec_body]. unfold get_delta, rd. destruct (Nat.eqb_spec (snd p) 1) as [E|E].
    - rewrite ini_one by auto. rewrite ex_set. unfold dot_at at 1. rewrite glob by now apply loc_cons. cbn [option_map at_ix].
      rewrite bind_assoc3. apply bind_ext3. intro w. rewrite store_whole by auto. reflexivity.
    - rewrite ini_arr by auto. rewrite ex_for.
      pose proof (fill_loop x V v0 S L clock "CPG_PDelta_cpp" (fst p) done rest loc s (dot_at (pre "CPG_Delta") (fst p) II)
                    (fun j => c_get L (pre "CPG_Delta") (Some (fst p)) (Some j) s) HD) as F.
      specialize (F (fun l k => glob V S L _ s k (pre "CPG_Delta") (Some (fst p)) (Some II) (loc_cons V _ _ _ loc E1 E2)) (snd p) []).
      cbn [length app] in F. rewrite F, (rd_all V v0), !bind_assoc3. apply bind_ext3. reflexivity.
  Qed.

  Theorem gradient_run : forall sol s, sol_ok sol ->
    run_gradient x v0 L clock vrec sol use s
    = (s1 <- (if use then sets (sol_sets sol) s else Ok s);;
       s2 <- calls (gradient_calls x V vals) s1;;
       ws <- mapM (fun p => rd V v0 S L (pre "CPG_Delta") (Some (fst p)) (snd p) (Some 0) (all_of (snd p)) s2) (n_params x);;
       Ok (s2, VRec (combine (map fst (n_params x)) ws))).
  Proof.
    intros sol s HS. unfold run_gradient, call_cpp, gradient_cpp. fold (gframe sol). cbn [app exec_body].
    rewrite (sol_run sol s HS). rewrite !bind_assoc3. apply bind_ext3. intro s1. cbn [bind].
    rewrite eb_app, deltas_run. unfold gradient_calls. rewrite calls_app, !bind_assoc3. apply bind_ext3. intro s'. cbn [bind].
    cbn [exec_body do_calls]. rewrite ex_call. cbn [mapM bind]. rewrite !bind_assoc3. apply bind_ext3. intro s2. cbn [bind].
    pose proof (decl_run x V v0 S L clock "CPG_PDelta_cpp" _ (n_params x) (fun p => [get_delta x p]) (gframe sol) s2 
                 (fun p => rd V v0 S L (pre "CPG_Delta") (Some (fst p)) (snd p) (Some 0) (all_of (snd p)) s2) (st_pdelta x HG) (bo_params x HX)) as DD.
    assert (M : map (get_delta x) (n_params x) = flat_map (fun p => [get_delta x p]) (n_params x)) by reflexivity.
    rewrite M. cbn [exec_body exec bind] in DD. cbn [exec bind]. rewrite DD.
    - rewrite bind_assoc3. apply bind_ext3. reflexivity.
    - intros p done rest Hp Hd. apply gdelta_run; auto. unfold gframe. destruct (expl x); names.
  Qed.
End Holds.
