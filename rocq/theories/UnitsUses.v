(** Every generated file of Units.v passes the checks: proofs. *)

From Coq Require Import String Ascii List Bool Arith Lia Permutation.
From Verif Require Import Base Config Symbols SymbolsProofs PropConfig PropSymbols Units UnitsProofs UnitsNames UnitsDecl.
Import ListNotations.
Open Scope string_scope.
Open Scope list_scope.

(** ** The parameters that get an update function *)

Lemma dict_set_In : forall c n d x, In x (map snd (dict_set c n d)) -> x = n \/ In x (map snd d).
Proof.
  induction d as [|[c' m] d IH]; intros x H; cbn [dict_set] in H.
  - destruct H as [H|[]]. left. symmetry. exact H.
  - destruct (Nat.eqb c' c); cbn [map snd In] in *; destruct H as [H|H]; auto.
    apply IH in H. tauto.
Qed.
Lemma dict_set_NoDup : forall c n d, NoDup (n :: map snd d) -> NoDup (map snd (dict_set c n d)).
Proof.
  induction d as [|[c' m] d IH]; intro N; cbn [dict_set]; [exact N|].
  inversion N as [|? ? N1 N2]; subst. cbn [map snd] in N1, N2. inversion N2 as [|? ? N3 N4]; subst.
  destruct (Nat.eqb c' c); cbn [map snd].
  - constructor; [|exact N4]. intro H. apply N1. right; exact H.
  - constructor.
    + intro H. apply dict_set_In in H. destruct H as [->|H]; [apply N1; left; reflexivity|contradiction].
    + apply IH. constructor; [|exact N4]. intro H. apply N1. right; exact H.
Qed.
Lemma col_to_name_ok : forall ps cum d, NoDup (map snd d ++ map fst ps) ->
  NoDup (map snd (col_to_name cum ps d))
  /\ forall x, In x (map snd (col_to_name cum ps d)) -> In x (map snd d) \/ In x (map fst ps).
Proof.
  induction ps as [|[n s] ps IH]; intros cum d N; cbn [col_to_name].
  - cbn [map] in N. rewrite app_nil_r in N. auto.
  - cbn [map fst] in N.
    assert (P : Permutation (map snd d ++ n :: map fst ps) ((n :: map snd d) ++ map fst ps))
      by (symmetry; apply Permutation_middle).
    apply (Permutation_NoDup P) in N.
    destruct (IH (cum + s) (dict_set cum n d)) as [H1 H2].
    + apply NoDup_app.
      * apply dict_set_NoDup. apply (NoDup_app_l _ _ _ N).
      * clear -N. induction (n :: map snd d) as [|z l IHl]; [exact N|]. cbn [app] in N. inversion N; auto.
      * intros x Hx Hy. apply dict_set_In in Hx. apply (NoDup_app_disj _ _ _ x N); [|exact Hy].
        destruct Hx as [->|Hx]; [left; reflexivity|right; exact Hx].
    + split; [exact H1|]. intros x Hx. apply H2 in Hx. cbn [map fst In]. destruct Hx as [Hx|Hx]; [|auto].
      apply dict_set_In in Hx. destruct Hx as [->|Hx]; auto.
Qed.
(** Without empty parameters nothing is lost. *)
Lemma dict_set_new : forall c n d, (forall q, In q d -> fst q < c) -> dict_set c n d = d ++ [(c, n)].
Proof.
  induction d as [|[c' m] d IH]; intro H; [reflexivity|]. cbn [dict_set].
  assert (c' < c) by (apply (H (c', m)); left; reflexivity).
  destruct (Nat.eqb c' c) eqn:E; [apply Nat.eqb_eq in E; lia|]. cbn [app]. rewrite IH; [reflexivity|].
  intros q Hq. apply H. right; exact Hq.
Qed.
Lemma col_to_name_all : forall ps cum d, (forall q, In q d -> fst q < cum \/ (d = [] /\ cum = 0)) ->
  (forall q, In q d -> fst q < cum) -> (forall q, In q ps -> 0 < snd q) ->
  map snd (col_to_name cum ps d) = map snd d ++ map fst ps.
Proof.
  induction ps as [|[n s] ps IH]; intros cum d H0 H1 H2; cbn [col_to_name].
  - cbn [map]. rewrite app_nil_r. reflexivity.
  - assert (S0 : 0 < s) by (apply (H2 (n, s)); left; reflexivity).
    rewrite dict_set_new by exact H1. rewrite IH.
    + rewrite map_app, <- app_assoc. reflexivity.
    + intros q Hq. left. apply in_app_or in Hq. destruct Hq as [Hq|[<-|[]]]; [apply H1 in Hq; lia|cbn; lia].
    + intros q Hq. apply in_app_or in Hq. destruct Hq as [Hq|[<-|[]]]; [apply H1 in Hq; lia|cbn; lia].
    + intros q Hq. apply H2. right; exact Hq.
Qed.
Lemma size_of_ok : forall ps n, In n (map fst ps) -> In (n, size_of ps n) ps.
Proof.
  intros ps n H. unfold size_of. destruct (find (fun p => String.eqb (fst p) n) ps) as [[m s]|] eqn:E.
  - apply find_some in E. destruct E as [E1 E2]. cbn [fst] in E2. apply String.eqb_eq in E2. subst m. exact E1.
  - exfalso. apply in_map_iff in H. destruct H as [[m s] [<- H]]. apply (find_none _ _ E) in H. cbn [fst] in H.
    rewrite String.eqb_refl in H. discriminate.
Qed.

(** ** Names in headers *)

Lemma nm_l : forall a b x, In x (map iname a) -> In x (map iname (a ++ b)).
Proof. intros a b x H. rewrite map_app, in_app_iff. auto. Qed.
Lemma nm_r : forall a b x, In x (map iname b) -> In x (map iname (a ++ b)).
Proof. intros a b x H. rewrite map_app, in_app_iff. auto. Qed.
Lemma nm_if : forall c l x, c = true -> In x (map iname l) -> In x (map iname (items_if c l)).
Proof. intros c l x -> H. exact H. Qed.
Ltac nlit := first [left; exact eq_refl | right; nlit].
Ltac nhere :=
  first [ apply nm_if; [solve [assumption|reflexivity]|nhere] | nlit ].
Ltac npick := first [ solve [apply nm_l; nhere] | apply nm_r; npick | nhere ].

Lemma names_same : forall A (f g : A -> list item) l, (forall a, map iname (f a) = map iname (g a)) ->
  map iname (flat_map f l) = map iname (flat_map g l).
Proof. intros A f g l H. induction l as [|a l IH]; [reflexivity|]. cbn [flat_map]. rewrite !map_app, IH, H. reflexivity. Qed.

Section Uses.
  Variable u : uin.
  Hypothesis OK : units_ok u.
  Let y := to_syms u.
  Let W x := In x (map iname (workspace_h u)).

  Lemma w_params_vec : W (pre u "cpg_params_vec"). Proof. unfold W, workspace_h. npick. Qed.
  Lemma w_outdated : W (pre u "Canon_Outdated"). Proof. unfold W, workspace_h. npick. Qed.
  Lemma w_lower : expl u = true -> W (pre u "cpg_params_vec_lower"). Proof. intro. unfold W, workspace_h. npick. Qed.
  Lemma w_upper : expl u = true -> W (pre u "cpg_params_vec_upper"). Proof. intro. unfold W, workspace_h. npick. Qed.
  Lemma w_theta : expl u = true -> W (pre u "cpg_theta"). Proof. intro. unfold W, workspace_h. npick. Qed.
  Lemma w_solx : expl u = true -> W "sol_x". Proof. intro. unfold W, workspace_h. npick. Qed.
  Lemma w_soly : Nat.eqb (u_explicit u) 2 = true -> W "sol_y". Proof. intro. unfold W, workspace_h. npick. Qed.
  Lemma w_outgrad : u_gradient u = true -> W (pre u "Canon_Outdated_Grad"). Proof. intro. unfold W, workspace_h. npick. Qed.
  Lemma w_cparams : W (pre u "Canon_Params"). Proof. unfold W, workspace_h. npick. Qed.
  Lemma w_ccond : inmem (u_if u) = true -> W (pre u "Canon_Params_conditioning"). Proof. intro. unfold W, workspace_h. npick. Qed.
  Lemma w_prim : W (pre u "CPG_Prim"). Proof. unfold W, workspace_h. npick. Qed.
  Lemma w_dual : has_dual u = true -> W (pre u "CPG_Dual"). Proof. unfold has_dual. intro. unfold W, workspace_h. npick. Qed.
  Lemma w_info : negb (expl u) = true -> W (pre u "CPG_Info"). Proof. intro. unfold W, workspace_h. npick. Qed.
  Lemma w_settings : extra_stgs (u_if u) = true -> W (pre u "Canon_Settings"). Proof. intro. unfold W, workspace_h. npick. Qed.
  Lemma w_dp : u_gradient u = true -> W (pre u "cpg_dp"). Proof. intro. unfold W, workspace_h. npick. Qed.
  Lemma w_header : forall x, In x (map iname (solver_header u)) -> W x.
  Proof. intros x H. unfold W, workspace_h. apply nm_l, H. Qed.
  Lemma w_solver : ws_static (u_if u) = false -> forall x, In x (map iname (solver_ext u)) -> W x.
  Proof.
    intros HW x H. unfold W, workspace_h. do 18 apply nm_r. apply nm_l. apply nm_if; [rewrite HW; reflexivity|exact H].
  Qed.
  Lemma w_map : forall b, In b (u_blocks u) -> k_changes b = true -> W (pre u ("canon_" ++ k_id b ++ "_map")%string).
  Proof.
    intros b Hb C. unfold W, workspace_h. do 3 apply nm_r. apply nm_l.
    apply in_map_iff. exists (Ext (pre u ("canon_" ++ k_id b ++ "_map")%string) csc). split; [reflexivity|].
    apply in_flat_map. exists b. split; [exact Hb|]. rewrite C. left; reflexivity.
  Qed.
  Lemma w_block : forall b s, In b (u_blocks u) -> k_id b <> "d" -> block_empty b = false ->
    s = "" \/ (s = "_conditioning" /\ inmem (u_if u) = true) ->
    W (pre u ("canon_" ++ k_id b ++ s)%string).
  Proof.
    intros b s Hb D E Hs. unfold W, workspace_h. do 4 apply nm_r. apply nm_l.
    apply in_map_iff. exists (Ext (pre u ("canon_" ++ k_id b ++ s)%string) (if is_matrix (k_id b) then csc else CArr fl (k_len b))).
    split; [reflexivity|]. apply in_flat_map. exists b. split; [exact Hb|]. apply in_if.
    split; [apply negb_true_iff, String.eqb_neq, D|]. apply in_or_app.
    destruct Hs as [->|[-> HM]]; [left|right; apply in_if; split; [exact HM|]]; unfold param_ext; rewrite E; left; reflexivity.
  Qed.

  Lemma pdaqp_expl : u_if u = IPDAQP -> expl u = true.
  Proof. apply (uk_pdaqp u OK). Qed.
  Lemma w_prim_ptr : W (prim_ptr u).
  Proof.
    pose proof pdaqp_expl as PE. pose proof w_header as WH. pose proof w_solver as WS. pose proof w_solx as WX.
    unfold prim_ptr, solver_header, solver_ext in *. destruct (u_if u).
    - apply WH. right; left; reflexivity.
    - apply WS; [reflexivity|]. npick.
    - apply WS; [reflexivity|]. npick.
    - apply WS; [reflexivity|]. do 5 right. left. reflexivity.
    - apply WS; [reflexivity|]. npick.
    - apply WS; [reflexivity|]. npick.
    - apply WX, PE. reflexivity.
  Qed.
  Lemma w_dual_ptr : has_dual u = true -> W (dual_ptr u).
  Proof.
    intro HD. pose proof pdaqp_expl as PE. pose proof w_header as WH. pose proof w_solver as WS. pose proof w_soly as WY.
    pose proof (uk_level u OK) as L. unfold has_dual in HD. apply andb_true_iff in HD. destruct HD as [HD _].
    unfold dual_ptr, solver_header, solver_ext in *. destruct (u_if u).
    - apply WH. do 2 right; left; reflexivity.
    - apply WS; [reflexivity|]. npick.
    - apply WS; [reflexivity|]. npick.
    - apply WS; [reflexivity|]. do 5 right. left. reflexivity.
    - apply WS; [reflexivity|]. npick.
    - apply WS; [reflexivity|]. npick.
    - apply WY. specialize (PE eq_refl). unfold expl in PE. apply negb_true_iff in PE, HD.
      apply Nat.eqb_neq in PE, HD. apply Nat.eqb_eq. lia.
  Qed.

  (** *** cpg_workspace.c *)

  Lemma resolves_mat : forall n num idx ty k c s, resolves s (mat_def n num idx ty k c).
  Proof.
    intros. unfold mat_def. cbn [resolves iuses iname In].
    repeat split; intros x Hx; try contradiction. tauto.
  Qed.
  Lemma resolves_block : forall b s, resolves s (block_def u b).
  Proof.
    intros b s. unfold block_def. destruct (String.eqb (k_id b) "d"); [exact I|].
    assert (P : forall f s, resolves s (param_def u b f)).
    { intros f t. unfold param_def. destruct (block_empty b); [exact I|].
      destruct (is_matrix (k_id b)); [apply resolves_mat|]. split; [intros x []|exact I]. }
    apply resolves_app; [apply P|]. apply resolves_if. intros _. apply P.
  Qed.
  Lemma params_uses_ok : forall f, f = "" \/ (f = "_conditioning" /\ inmem (u_if u) = true) ->
    forall x, In x (params_uses u f) -> W x.
  Proof.
    intros f Hf x Hx. apply in_flat_map in Hx. destruct Hx as [b [Hb Hx]]. apply filter_In in Hb. destruct Hb as [Hb _].
    destruct (block_empty b) eqn:E; [destruct Hx|]. cbn [orb] in Hx.
    destruct (String.eqb (k_id b) "d") eqn:D; [destruct Hx|]. destruct Hx as [<-|[]].
    apply w_block; auto. apply String.eqb_neq, D.
  Qed.
  Lemma scs_block : u_if u = ISCS -> forall n,
    n = "A" \/ n = "b" \/ n = "c" \/ (n = "P" /\ existsb (fun b => String.eqb (k_id b) "P") (u_blocks u) = true) ->
    forall x, In x (map iname (param_def u (mkUB n true 1 0 0 0) "")) ->
    In x (map iname (flat_map (block_def u) (filter (block_kept u) (u_blocks u)))).
  Proof.
    intros HI n Hn x Hx. destruct (uk_scs u OK HI n Hn) as [b [H1 [H2 H3]]].
    assert (EQ : map iname (param_def u (mkUB n true 1 0 0 0) "") = map iname (param_def u b "")).
    { unfold param_def. rewrite H2, H3. cbn [block_empty k_len Nat.eqb k_id]. destruct (is_matrix n); reflexivity. }
    rewrite EQ in Hx. apply in_map_iff in Hx.
    assert (B : exists j, iname j = x /\ In j (block_def u b)).
    { destruct Hx as [j [E Hj]]. exists j. split; [exact E|]. unfold block_def. rewrite H2.
      assert (D : String.eqb n "d" = false) by (destruct Hn as [->|[->|[->|[-> _]]]]; reflexivity).
      rewrite D. apply in_or_app. left. exact Hj. }
    destruct B as [j [<- Hj]]. apply in_map, in_flat_map. exists b. split; [|exact Hj]. apply filter_In. split; [exact H1|].
    unfold block_kept. destruct (expl u) eqn:EX; [|reflexivity]. rewrite (expl_pdaqp u OK EX) in HI. discriminate.
  Qed.

  Lemma one_ok : forall i s, (forall x, In x (iuses i) -> In x (iname i :: s)) -> resolves s [i].
  Proof. intros i s H. split; [exact H|exact I]. Qed.
  Lemma none_ok : forall l s, (forall i, In i l -> iuses i = []) -> resolves s l.
  Proof. intros l s H. apply resolves_all. intros i Hi x Hx. rewrite (H i Hi) in Hx. destruct Hx. Qed.

  Lemma solver_def_ok : ws_static (u_if u) = false -> forall s,
    (forall x, W x -> In x s) ->
    (u_if u = ISCS -> forall n x,
       n = "A" \/ n = "b" \/ n = "c" \/ (n = "P" /\ existsb (fun b => String.eqb (k_id b) "P") (u_blocks u) = true) ->
       In x (map iname (param_def u (mkUB n true 1 0 0 0) "")) -> In x s) ->
    resolves s (solver_def u).
  Proof.
    intros HW s HS HB. pose proof (w_solver HW) as WS. unfold solver_def, solver_ext in *.
    destruct (u_if u); try discriminate HW.
    2: { apply resolves_app; [apply resolves_if; intros _|]; apply none_ok; cbn [In]; intuition (subst; reflexivity). }
    2: { apply none_ok; cbn [In]; intuition (subst; reflexivity). }
    2: { apply resolves_app; [apply resolves_if; intros _|]; apply none_ok; cbn [In]; intuition (subst; reflexivity). }
    2: { apply resolves_app; [apply resolves_if; intros _|]; apply none_ok; cbn [In]; intuition (subst; reflexivity). }
    assert (MX : forall n s', (forall x, In x s -> In x s') ->
               n = "A" \/ (n = "P" /\ existsb (fun b => String.eqb (k_id b) "P") (u_blocks u) = true) ->
               resolves s' [scs_matrix u n]).
    { intros n s' Hs Hn. apply one_ok. unfold scs_matrix. cbn [iuses iname]. intros x Hx. right. apply Hs.
      apply (HB eq_refl n); [tauto|]. unfold param_def. cbn [block_empty k_len Nat.eqb k_id].
      assert (M : is_matrix n = true) by (destruct Hn as [->|[-> _]]; reflexivity). rewrite M.
      unfold mat_def. cbn [map iname In] in *. rewrite !pre_assoc. rewrite ?append_nil_r.
      destruct Hx as [<-|[<-|[<-|[]]]]; rewrite ?append_assoc; auto 6. }
    apply resolves_app; [apply resolves_if; intro Q; apply (MX "P"); auto|].
    assert (SX : forall x, In x s -> In x (map iname (items_if (existsb (fun b => String.eqb (k_id b) "P") (u_blocks u)) [scs_matrix u "P"]) ++ s))
      by (intros x Hx; apply in_or_app; auto).
    change ([scs_matrix u "A"; Def (pre u "Scs_D") (CT "ScsData")
        ([pre u "Scs_A"] ++ (if existsb (fun b => String.eqb (k_id b) "P") (u_blocks u) then [pre u "Scs_P"] else []) ++ [pre u "canon_b"; pre u "canon_c"])])
      with ([scs_matrix u "A"] ++ [Def (pre u "Scs_D") (CT "ScsData")
        ([pre u "Scs_A"] ++ (if existsb (fun b => String.eqb (k_id b) "P") (u_blocks u) then [pre u "Scs_P"] else []) ++ [pre u "canon_b"; pre u "canon_c"])]).
    apply resolves_app; [apply resolves_app; [apply (MX "A"); auto|]|].
    { apply one_ok. cbn [iuses iname map app]. intros x Hx. right. cbn [In] in Hx. rewrite in_app_iff in Hx. cbn [In] in Hx.
      destruct Hx as [<-|[Hx|[<-|[<-|[]]]]].
      - left. reflexivity.
      - right. apply in_or_app. left. destruct (existsb _ _); [|destruct Hx]. destruct Hx as [<-|[]]. left; reflexivity.
      - right. apply in_or_app. right. apply (HB eq_refl "b"); [auto|]. left; reflexivity.
      - right. apply in_or_app. right. apply (HB eq_refl "c"); [auto|]. left; reflexivity. }
    apply resolves_app; [apply resolves_if; intros _; apply none_ok; cbn [In]; intuition (subst; reflexivity)|].
    apply resolves_all. intros i Hi x Hx. cbn [In] in Hi.
    apply in_or_app. right. apply in_or_app. right. apply in_or_app. right. apply HS.
    destruct Hi as [<-|[<-|[<-|[<-|[<-|[<-|[<-|[<-|[]]]]]]]]]; cbn [iuses In] in Hx; try contradiction.
    - destruct (Nat.eqb (u_soc u) 0) eqn:E; [destruct Hx|]. destruct Hx as [<-|[]]. apply WS.
      do 2 apply nm_r. apply nm_l. left; reflexivity.
    - destruct Hx as [<-|[<-|[<-|[]]]]; apply WS; npick.
  Qed.

  Lemma step : forall a b s, (forall x, W x -> In x s) ->
    (forall s, (forall x, W x -> In x s) -> resolves s a) ->
    (forall s', (forall x, W x -> In x s') -> incl (map iname a) s' -> incl s s' -> resolves s' b) ->
    resolves s (a ++ b).
  Proof.
    intros a b s U HA HB. apply resolves_app; [apply HA, U|]. apply HB.
    - intros x Hx. apply in_or_app. right. auto.
    - intros x Hx. apply in_or_app. auto.
    - intros x Hx. apply in_or_app. auto.
  Qed.
  Lemma step_if : forall c a b s, (forall x, W x -> In x s) ->
    (c = true -> forall s, (forall x, W x -> In x s) -> resolves s a) ->
    (forall s', (forall x, W x -> In x s') -> incl (map iname (items_if c a)) s' -> incl s s' -> resolves s' b) ->
    resolves s (items_if c a ++ b).
  Proof. intros c a b s U HA HB. apply step; auto. intros t HT. apply resolves_if. intro C. apply HA; auto. Qed.
  Ltac quiet := apply none_ok; cbn [In]; intuition (subst; reflexivity).
  Ltac single := apply one_ok; cbn [iuses iname]; intros ?x ?Hx; right.

  Lemma workspace_resolves : resolves (map iname (workspace_h u)) (workspace_c u).
  Proof.
    unfold workspace_c.
    apply step; [auto|intros; quiet|intros s1 U1 _ _].
    apply step_if; [auto|intros; quiet|intros s2 U2 _ _].
    apply step; [auto|intros s U; apply resolves_flat; intros b t _; unfold map_def; apply resolves_if; intros _; apply resolves_mat
                |intros s3 U3 _ _].
    apply step; [auto|intros s U; apply resolves_flat; intros b t _; apply resolves_block|intros s4 U4 A4 _].
    apply step_if; [auto|intros; quiet|intros s5 U5 _ J5].
    apply step_if; [auto|intros; quiet|intros s6 U6 _ J6].
    apply step; [auto|intros s U; single; apply U; apply (params_uses_ok ""); auto|intros s7 U7 _ J7].
    apply step_if; [auto|intros C s U; single; apply U; apply (params_uses_ok "_conditioning"); auto|intros s8 U8 _ J8].
    apply step; [auto|intros; quiet|intros s9 U9 _ J9].
    apply step_if; [auto|intros; quiet|intros s10 U10 _ J10].
    apply step; [auto|intros s U; apply none_ok; intros i Hi; apply in_map_iff in Hi; destruct Hi as [v [<- _]]; reflexivity
                |intros s11 U11 A11 J11].
    apply resolves_app; [single; apply in_map_iff in Hx; destruct Hx as [v [<- Hv]]; apply filter_In in Hv; destruct Hv as [Hv _];
      destruct (own_array u v) eqn:O;
      [apply A11; rewrite map_map; cbn [iname]; apply (in_map (fun x => pre u (w_name x))); apply filter_In; auto
      |apply U11, w_prim_ptr]|].
    match goal with |- resolves ?s _ => assert (U12 : forall x, W x -> In x s) by (intros; apply in_or_app; auto);
      assert (J12 : incl s11 s) by (intros z Hz; apply in_or_app; auto); revert U12 J12; generalize s; intros s12 U12 J12 end.
    apply step_if; [auto| |intros s13 U13 _ J13].
    { intros HD s U. apply resolves_app.
      - apply resolves_if. intros _. apply none_ok. intros i Hi. apply in_map_iff in Hi. destruct Hi as [d [<- _]]. reflexivity.
      - single. apply in_map_iff in Hx. destruct Hx as [d [<- Hd]]. apply in_or_app. destruct (sol_static (u_if u)).
        + right. apply U, w_dual_ptr, HD.
        + left. cbn [negb items_if]. rewrite map_map. cbn [iname]. apply (in_map (fun x : string * nat => pre u (fst x))), Hd. }
    apply step_if; [auto|intros; quiet|intros s14 U14 _ J14].
    apply step; [auto| |intros s15 U15 _ J15].
    { intros s U. single. apply U. rewrite !in_app_iff in Hx. destruct Hx as [[<-|[]]|[Hx|Hx]]; [apply w_prim| |].
      - destruct (has_dual u) eqn:HD; [|destruct Hx]. destruct Hx as [<-|[]]. apply w_dual, HD.
      - destruct (expl u) eqn:EX; [destruct Hx|]. destruct Hx as [<-|[]]. apply w_info. rewrite EX. reflexivity. }
    apply step_if; [auto|intros; quiet|intros s16 U16 _ J16].
    apply resolves_app.
    - apply resolves_if. intro C. apply negb_true_iff in C. apply solver_def_ok; auto.
      intros HI n x Hn Hx. apply J16, J15, J14, J13, J12, J11, J10, J9, J8, J7, J6, J5, A4. apply (scs_block HI n Hn x Hx).
    - apply resolves_if. intro G. split; [intros x []|]. split; [|exact I]. cbn [iuses iname In].
      intros x [<-|[]]. right. left. reflexivity.
  Qed.

  (** *** cpg_solve.c *)

  Let S x := In x (map iname (solve_h u ++ workspace_h u)).
  Lemma S_W : forall x, W x -> S x.
  Proof. intros x Hx. apply nm_r. exact Hx. Qed.
  Lemma S_E : forall x, In x (map iname (solve_ext u)) -> S x.
  Proof. intros x Hx. apply nm_l. unfold solve_h. do 2 apply nm_r. exact Hx. Qed.

  Lemma canon_fn_S : forall x, In x (canon_fns u) -> S x.
  Proof.
    intros x Hx. unfold canon_fns in Hx. apply in_flat_map in Hx. destruct Hx as [b [Hb Hx]].
    destruct (k_changes b) eqn:C; [|destruct Hx]. destruct Hx as [<-|[]]. apply S_E. unfold solve_ext.
    apply nm_r, nm_l. apply in_map_iff. exists (Ext (pre u ("cpg_canonicalize_" ++ k_id b)%string) void_fn).
    split; [reflexivity|]. apply in_flat_map. exists b. rewrite C. split; [exact Hb|left; reflexivity].
  Qed.
  Lemma copy_fn_S : inmem (u_if u) = true -> forall x, In x (copy_fns u) -> S x.
  Proof.
    intros HM x Hx. unfold copy_fns in Hx. apply in_flat_map in Hx. destruct Hx as [b [Hb Hx]].
    destruct (not_d b) eqn:C; [|destruct Hx]. destruct Hx as [<-|[]]. apply S_E. unfold solve_ext.
    do 5 apply nm_r. apply nm_l, nm_if; [exact HM|]. apply nm_l.
    apply in_map_iff. exists (Ext (pre u ("cpg_copy_" ++ k_id b)%string) void_fn).
    split; [reflexivity|]. apply in_flat_map. exists b. rewrite C. split; [exact Hb|left; reflexivity].
  Qed.
  Lemma info_S : expl u = false -> forall x, In x (info_uses u) -> S x.
  Proof.
    intros EX x Hx. apply S_W. pose proof w_header as WH. pose proof w_solver as WS.
    unfold info_uses, solver_header, solver_ext in *. destruct (u_if u); cbn [In] in Hx;
      repeat match type of Hx with _ \/ _ => destruct Hx as [Hx|Hx]; [subst x|] end; try contradiction.
    - apply WH. left; reflexivity.
    - apply WS; [reflexivity|npick].
    - apply WS; [reflexivity|npick].
    - apply WS; [reflexivity|npick].
    - apply WS; [reflexivity|npick].
    - apply WS; [reflexivity|npick].
    - apply WS; [reflexivity|npick].
  Qed.
  Lemma solver_S : forall x, In x (solver_uses u) -> S x.
  Proof.
    intros x Hx. apply S_W. pose proof w_header as WH. pose proof w_solver as WS. pose proof w_settings as WT.
    pose proof pdaqp_expl as PE. pose proof w_solx as WX. pose proof w_soly as WY.
    unfold solver_uses, solver_header, solver_ext in *. apply in_app_or in Hx.
    destruct (negb (Nat.eqb (u_soc u) 0)) eqn:Q; destruct (u_if u); cbn [ws_used opt app map In] in Hx.
    all: repeat match type of Hx with
                | False => destruct Hx
                | _ = ?w => subst w
                | _ \/ _ => destruct Hx as [Hx|Hx]
                end.
    all: try solve [apply WH; npick]; try solve [apply WS; [reflexivity|npick]]; try solve [apply WT; reflexivity];
         try solve [apply WX, PE; reflexivity].
    all: destruct (Nat.eqb (u_explicit u) 2) eqn:E2; [|destruct Hx]; destruct Hx as [<-|[]]; apply WY; reflexivity.
  Qed.
  Lemma setting_S : expl u = false -> forall x, In x (setting_uses u) -> S x.
  Proof.
    intros EX x Hx. apply S_W. pose proof w_header as WH. pose proof w_solver as WS. pose proof w_settings as WT.
    pose proof pdaqp_expl as PE. unfold setting_uses, solver_header, solver_ext in *.
    destruct (u_if u); destruct Hx as [<-|[]];
      first [ solve [apply WT; reflexivity] | solve [apply WH; npick] | solve [apply WS; [reflexivity|npick]]
            | specialize (PE eq_refl); congruence ].
  Qed.

  Lemma solve_fns_def : forall i, In i (solve_fns u) -> is_def i /\ known u i /\ forall x, In x (iuses i) ->
    In x (map iname (solve_sta u)) \/ S x.
  Proof.
    intros i Hi. pose proof (nk_params y (uk_names u OK)) as NP. cbn [y to_syms y_params] in NP.
    pose proof S_W as SW. unfold solve_fns in Hi.
    apply in_app_or in Hi. destruct Hi as [Hi|Hi].
    { apply in_map_iff in Hi. destruct Hi as [n [<- Hn]]. split; [exact I|]. split.
      - destruct (col_to_name_ok (u_params u) 0 [] NP) as [_ H]. apply H in Hn. destruct Hn as [[]|Hn].
        apply size_of_ok in Hn. apply (known_item u _ (Ext (pre u (update_fn n)) (update_ty (size_of (u_params u) n)))).
        + apply all_iff. right; left. unfold solve_ext. apply in_or_app. left.
          apply in_map_iff. exists (n, size_of (u_params u) n). auto.
        + reflexivity.
      - intros x Hx. right. apply SW. cbn [iuses] in Hx. rewrite !in_app_iff in Hx.
        destruct Hx as [[<-|[<-|[]]]|[Hx|Hx]]; [apply w_params_vec|apply w_outdated| |].
        + destruct (expl u) eqn:EX; [|destruct Hx]. destruct Hx as [<-|[<-|[]]]; [apply w_lower, EX|apply w_upper, EX].
        + destruct (u_gradient u) eqn:G; [|destruct Hx]. destruct Hx as [<-|[]]. apply w_outgrad, G. }
    assert (KE : forall j, In j (solve_ext u) -> sig i = sig j -> known u i).
    { intros j Hj E. apply (known_item u i j); [|exact E]. apply all_iff. auto. }
    apply in_app_or in Hi. destruct Hi as [Hi|Hi].
    { apply in_flat_map in Hi. destruct Hi as [b [Hb Hi]]. apply in_if in Hi. destruct Hi as [C [<-|[]]].
      split; [exact I|]. split.
      - apply (KE (Ext (pre u ("cpg_canonicalize_" ++ k_id b)%string) void_fn)); [|reflexivity].
        unfold solve_ext. apply in_or_app. right. apply in_or_app. left. apply in_flat_map. exists b. split; [exact Hb|].
        rewrite C. left; reflexivity.
      - intros x Hx. cbn [iuses In] in Hx. unfold solve_sta.
        destruct Hx as [<-|[<-|[<-|[<-|[<-|[]]]]]].
        + left. left. reflexivity.
        + left. right. left. reflexivity.
        + right. apply SW, w_cparams.
        + right. apply SW, w_map; auto.
        + right. apply SW, w_params_vec. }
    apply in_app_or in Hi. destruct Hi as [Hi|Hi].
    { apply in_if in Hi. destruct Hi as [C [<-|[]]]. split; [exact I|]. split.
      - apply (KE (Ext (pre u "cpg_retrieve_prim") void_fn)); [|reflexivity].
        unfold solve_ext. do 2 (apply in_or_app; right). apply in_or_app. left. apply in_if. split; [exact C|left; reflexivity].
      - intros x [<-|[<-|[]]]; right; apply SW; [apply w_prim|apply w_prim_ptr]. }
    apply in_app_or in Hi. destruct Hi as [Hi|Hi].
    { apply in_if in Hi. destruct Hi as [C [<-|[]]]. split; [exact I|]. split.
      - apply (KE (Ext (pre u "cpg_retrieve_dual") void_fn)); [|reflexivity].
        unfold solve_ext. do 3 (apply in_or_app; right). apply in_or_app. left. apply in_if. split; [exact C|left; reflexivity].
      - intros x Hx. cbn [iuses] in Hx. destruct (has_dual u) eqn:HD; [|destruct Hx].
        destruct Hx as [<-|[<-|[]]]; right; apply SW; [apply w_dual, HD|apply w_dual_ptr, HD]. }
    apply in_app_or in Hi. destruct Hi as [Hi|Hi].
    { apply in_if in Hi. destruct Hi as [C [<-|[]]]. split; [exact I|]. split.
      - apply (KE (Ext (pre u "cpg_retrieve_info") void_fn)); [|reflexivity].
        unfold solve_ext. do 4 (apply in_or_app; right). apply in_or_app. left. apply in_if. split; [exact C|left; reflexivity].
      - intros x Hx. cbn [iuses] in Hx. right. destruct Hx as [<-|[<-|Hx]]; [apply SW, w_info, C|apply SW, w_cparams|].
        apply negb_true_iff in C. apply info_S; auto. }
    apply in_app_or in Hi. destruct Hi as [Hi|Hi].
    { apply in_if in Hi. destruct Hi as [C Hi]. apply in_app_or in Hi. destruct Hi as [Hi|Hi].
      - apply in_flat_map in Hi. destruct Hi as [b [Hb Hi]]. apply in_if in Hi. destruct Hi as [D [<-|[]]].
        split; [exact I|]. split.
        + apply (KE (Ext (pre u ("cpg_copy_" ++ k_id b)%string) void_fn)); [|reflexivity].
          unfold solve_ext. do 5 (apply in_or_app; right). apply in_or_app. left. apply in_if. split; [exact C|].
          apply in_or_app. left. apply in_flat_map. exists b. split; [exact Hb|]. rewrite D. left; reflexivity.
        + intros x Hx. cbn [iuses In] in Hx. destruct Hx as [<-|[<-|[<-|[]]]].
          * left. left. reflexivity.
          * right. apply SW, w_ccond, C.
          * right. apply SW, w_cparams.
      - destruct Hi as [<-|[]]. split; [exact I|]. split.
        + apply (KE (Ext (pre u "cpg_copy_all") void_fn)); [|reflexivity].
          unfold solve_ext. do 5 (apply in_or_app; right). apply in_or_app. left. apply in_if. split; [exact C|].
          apply in_or_app. right. left; reflexivity.
        + intros x Hx. right. apply copy_fn_S; auto. }
    apply in_app_or in Hi. destruct Hi as [Hi|Hi].
    { destruct Hi as [<-|[]]. split; [exact I|]. split.
      - apply (KE (Ext (pre u "cpg_solve") void_fn)); [|reflexivity].
        unfold solve_ext. do 6 (apply in_or_app; right). apply in_or_app. left. left; reflexivity.
      - intros x Hx. right. cbn [iuses] in Hx. rewrite !in_app_iff in Hx.
        destruct Hx as [[<-|[<-|[]]]|[Hx|[Hx|[Hx|[Hx|[Hx|[Hx|Hx]]]]]]].
        + apply SW, w_outdated.
        + apply SW, w_cparams.
        + apply canon_fn_S, Hx.
        + destruct (expl u) eqn:EX; [|destruct Hx]. destruct Hx as [<-|[]]. apply SW, w_theta, EX.
        + destruct (inmem (u_if u)) eqn:C; [|destruct Hx]. cbn [app In] in Hx. destruct Hx as [<-|[<-|Hx]].
          * apply SW, w_ccond, C.
          * apply S_E. unfold solve_ext. do 5 apply nm_r. apply nm_l, nm_if; [exact C|]. apply nm_r. left; reflexivity.
          * apply copy_fn_S; auto.
        + apply solver_S, Hx.
        + destruct (some_var u) eqn:C; [|destruct Hx]. destruct Hx as [<-|[]]. apply S_E. unfold solve_ext.
          do 2 apply nm_r. apply nm_l, nm_if; [exact C|left; reflexivity].
        + destruct (negb (u_explicit u =? 1)%nat && some_dual u) eqn:C; [|destruct Hx]. destruct Hx as [<-|[]]. apply S_E. unfold solve_ext.
          do 3 apply nm_r. apply nm_l, nm_if; [exact C|left; reflexivity].
        + destruct (expl u) eqn:EX; [destruct Hx|]. destruct Hx as [<-|[]]. apply S_E. unfold solve_ext.
          do 4 apply nm_r. apply nm_l, nm_if; [rewrite EX; reflexivity|left; reflexivity]. }
    apply in_app_or in Hi. destruct Hi as [Hi|Hi].
    { apply in_if in Hi. destruct Hi as [C [<-|[]]]. split; [exact I|]. split.
      - apply (KE (Ext (pre u "cpg_obj") (CFun "cpg_float" []))); [|reflexivity].
        unfold solve_ext. do 7 (apply in_or_app; right). apply in_or_app. left. apply in_if. split; [exact C|left; reflexivity].
      - apply andb_true_iff in C. destruct C as [EX _]. intros x Hx. cbn [iuses In] in Hx. unfold solve_sta. rewrite EX.
        destruct Hx as [<-|[<-|[<-|[<-|[<-|[]]]]]].
        + left. do 2 right. left. reflexivity.
        + left. left. reflexivity.
        + left. right. left. reflexivity.
        + right. apply SW, w_cparams.
        + right. apply SW, w_solx, EX. }
    apply in_if in Hi. destruct Hi as [EX Hi]. apply in_app_or in Hi. destruct Hi as [Hi|Hi].
    - destruct Hi as [<-|[]]. split; [exact I|]. split.
      + apply (KE (Ext (pre u "cpg_set_solver_default_settings") void_fn)); [|reflexivity].
        unfold solve_ext. do 8 (apply in_or_app; right). apply in_if. split; [exact EX|]. left; reflexivity.
      + intros x Hx. right. apply negb_true_iff in EX. apply setting_S; auto.
    - apply in_map_iff in Hi. destruct Hi as [t [<- Ht]]. split; [exact I|]. split.
      + apply (KE (Ext (pre u (setting_fn (fst t))) (CFun "void" [snd t]))); [|reflexivity].
        unfold solve_ext. do 8 (apply in_or_app; right). apply in_if. split; [exact EX|]. right.
        apply in_map_iff. exists t. auto.
      + intros x Hx. right. apply negb_true_iff in EX. apply setting_S; auto.
  Qed.

  Lemma NoDup_all : forall l, (exists a b, all_items u = a ++ l ++ b) -> NoDup (map iname l).
  Proof.
    intros l [a [b E]]. pose proof (all_NoDup u OK) as N. apply NoDup_cons_iff in N. destruct N as [_ N2].
    rewrite E, !map_app in N2.
    clear -N2. revert N2. generalize (map iname a). intro q. induction q as [|z q IH]; intro N.
    - cbn [app] in N. apply NoDup_app_l in N. exact N.
    - inversion N; auto.
  Qed.
  Lemma NoDup_swap : forall a a' r : list string, NoDup (a ++ r) -> NoDup a' -> incl a' a -> NoDup (a' ++ r).
  Proof.
    intros a a' r N N' H. apply NoDup_app; [exact N'| |].
    - clear -N. induction a as [|z a IH]; [exact N|]. inversion N; auto.
    - intros x Hx Hr. apply (NoDup_app_disj _ _ _ x N); auto.
  Qed.
  Lemma solve_fns_names : exists r,
    map iname (solve_ext u) = map (fun q => pre u (update_fn (fst q))) (u_params u) ++ r
    /\ map iname (solve_fns u) = map (fun n => pre u (update_fn n)) (written_params u) ++ r.
  Proof.
    unfold solve_fns, solve_ext. rewrite map_app.
    match goal with |- exists r, ?a ++ map iname ?b = _ /\ _ => exists (map iname b) end.
    split; [rewrite map_map; reflexivity|]. rewrite map_app, map_map. cbn [iname]. f_equal.
    rewrite !map_app, !names_if, !map_app, !map_map. cbn [iname map].
    rewrite (names_same _ (fun b : ublock => items_if (k_changes b) [Ext (pre u ("cpg_canonicalize_" ++ k_id b)) void_fn])
               (fun b : ublock => items_if (k_changes b) [Def (pre u ("cpg_canonicalize_" ++ k_id b)) void_fn
                   ["i"; "j"; pre u "Canon_Params"; pre u ("canon_" ++ k_id b ++ "_map")%string; pre u "cpg_params_vec"]]))
      by (intro b; rewrite !names_if; reflexivity).
    rewrite (names_same _ (fun b : ublock => items_if (not_d b) [Ext (pre u ("cpg_copy_" ++ k_id b)) void_fn])
               (fun b : ublock => items_if (not_d b) [Def (pre u ("cpg_copy_" ++ k_id b)) void_fn
                   ["i"; pre u "Canon_Params_conditioning"; pre u "Canon_Params"]]))
      by (intro b; rewrite !names_if; reflexivity).
    reflexivity.
  Qed.
  Lemma written_incl : forall n, In n (written_params u) -> In n (map fst (u_params u)).
  Proof.
    intros n Hn. pose proof (nk_params y (uk_names u OK)) as NP. cbn [y to_syms y_params] in NP.
    destruct (col_to_name_ok (u_params u) 0 [] NP) as [_ W2]. apply W2 in Hn. destruct Hn as [[]|Hn]. exact Hn.
  Qed.
  Lemma solve_fns_incl : forall x, In x (map iname (solve_fns u)) -> In x (map iname (solve_ext u)).
  Proof.
    intros x Hx. destruct solve_fns_names as [r [E1 E2]]. rewrite E1. rewrite E2 in Hx. apply in_or_app.
    apply in_app_or in Hx. destruct Hx as [Hx|Hx]; [left|right; exact Hx].
    apply in_map_iff in Hx. destruct Hx as [n [<- Hn]]. apply written_incl in Hn. apply in_map_iff in Hn.
    destruct Hn as [q [<- Hq]]. apply in_map_iff. exists q. auto.
  Qed.
  Lemma solve_fns_NoDup : NoDup (map iname (solve_fns u)).
  Proof.
    assert (NE : NoDup (map iname (solve_ext u))).
    { apply NoDup_all. exists (workspace_c u). eexists. unfold all_items. reflexivity. }
    pose proof (nk_params y (uk_names u OK)) as NP. cbn [y to_syms y_params] in NP.
    destruct (col_to_name_ok (u_params u) 0 [] NP) as [W1 W2].
    destruct solve_fns_names as [r [E1 E2]]. rewrite E1 in NE. rewrite E2. apply (NoDup_swap _ _ _ NE).
    - apply (NoDup_map_inj _ _ (fun x => pre u (update_fn x))); [|exact W1].
      intros a b E. do 2 apply append_inj_l in E. exact E.
    - intros x Hx. apply in_map_iff in Hx. destruct Hx as [n [<- Hn]]. apply written_incl in Hn.
      apply in_map_iff in Hn. destruct Hn as [q [<- Hq]]. apply in_map_iff. exists q. auto.
  Qed.

  (** *** Gradient files *)

  Lemma gradient_single : u_gradient u = true -> expl u = false -> u_if u = IOSQP.
  Proof.
    intros G EX. pose proof (nk_single y (uk_names u OK)) as H. unfold two_stage in H.
    change (y_gradient y) with (u_gradient u) in H. change (explicit y) with (expl u) in H. change (y_if y) with (u_if u) in H.
    rewrite G, EX in H. cbn [andb negb] in H. rewrite andb_true_r in H. apply negb_false_iff, iface_eqb_true in H. exact H.
  Qed.
  Lemma w_maps : forall l x, In x (maps_of u l) -> W x.
  Proof.
    intros l x Hx. unfold maps_of in Hx. apply in_flat_map in Hx. destruct Hx as [b [Hb Hx]].
    destruct (k_changes b) eqn:C; cbn [andb opt] in Hx; [|destruct Hx].
    destruct (mem_str (k_id b) l); [|destruct Hx]. destruct Hx as [<-|[]]. apply w_map; auto.
  Qed.
  Lemma gradient_fns_names : map iname (gradient_fns u) = map iname (gradient_ext u).
  Proof. unfold gradient_fns, gradient_ext. rewrite !map_app, !map_map. reflexivity. Qed.
  Lemma gradient_fns_NoDup : u_gradient u = true -> NoDup (map iname (gradient_fns u)).
  Proof.
    intro G. rewrite gradient_fns_names. apply NoDup_all. exists (workspace_c u ++ solve_ext u). eexists.
    unfold all_items. rewrite G. cbn [items_if]. rewrite <- app_assoc. reflexivity.
  Qed.
  Lemma gradient_fns_known : u_gradient u = true -> forall i, In i (gradient_fns u) -> is_def i /\ known u i.
  Proof.
    intros G i Hi. unfold gradient_fns in Hi. apply in_app_or in Hi. destruct Hi as [Hi|[<-|[]]].
    - apply in_map_iff in Hi. destruct Hi as [v [<- Hv]]. split; [exact I|].
      apply (known_item u _ (Ext (pre u (update_d_fn (w_name v))) (update_ty (w_size v)))); [|reflexivity].
      apply all_iff. do 2 right. left. apply in_if. split; [exact G|]. apply in_or_app. left. apply in_map_iff. exists v. auto.
    - split; [exact I|]. apply (known_item u _ (Ext (pre u "cpg_gradient") void_fn)); [|reflexivity].
      apply all_iff. do 2 right. left. apply in_if. split; [exact G|]. apply in_or_app. right. left; reflexivity.
  Qed.
  Lemma gradient_fns_uses : u_gradient u = true -> forall i, In i (gradient_fns u) -> forall x, In x (iuses i) ->
    In x (map iname (gradient_sta u)) \/ W x
    \/ (expl u = false /\ In x (map iname (grad_compute_h u))).
  Proof.
    intros G i Hi x Hx. unfold gradient_sta. unfold gradient_fns in Hi. apply in_app_or in Hi. destruct Hi as [Hi|[<-|[]]].
    - apply in_map_iff in Hi. destruct Hi as [v [<- Hv]]. cbn [iuses] in Hx. destruct Hx as [<-|[]].
      destruct (expl u); [left; npick|]. right. right. split; [reflexivity|]. unfold grad_compute_h, grad_workspace_h.
      apply nm_l, nm_r. left; reflexivity.
    - cbn [iuses] in Hx. destruct (expl u) eqn:EX.
      + apply in_app_or in Hx. destruct Hx as [Hx|Hx]; [|right; left; apply w_maps in Hx; exact Hx].
        pose proof (expl_pdaqp u OK EX) as HI. pose proof w_header as WH. unfold solver_header in WH. rewrite HI, G in WH.
        cbn [In] in Hx. destruct Hx as [<-|[<-|[<-|[<-|[<-|[<-|[<-|[<-|[<-|[]]]]]]]]]]; try (left; npick); right; left;
          try (apply w_dp, G); apply WH; npick.
      + rewrite !in_app_iff in Hx. destruct Hx as [Hx|[Hx|Hx]].
        * cbn [In] in Hx. destruct Hx as [<-|[<-|[<-|[<-|[<-|[<-|[<-|[<-|[<-|[<-|[]]]]]]]]]]]; try (left; npick).
          -- right; left; apply w_outgrad, G.
          -- right; left; apply w_cparams.
          -- right; right; split; [reflexivity|]. unfold grad_compute_h, grad_workspace_h. apply nm_l, nm_r. left; reflexivity.
          -- right; left; apply w_dp, G.
          -- right; right; split; [reflexivity|]. apply nm_r. npick.
          -- right; right; split; [reflexivity|]. apply nm_r. npick.
          -- right; right; split; [reflexivity|]. apply nm_r. npick.
        * right; right; split; [reflexivity|]. apply nm_r.
          apply in_flat_map in Hx. destruct Hx as [b [Hb Hx]]. destruct (k_changes b); [|destruct Hx].
          cbn [andb] in Hx. destruct (mem_str (k_id b) ["P"; "A"]) eqn:M; [|destruct Hx]. destruct Hx as [<-|[]].
          apply mem_str_In in M. destruct M as [<-|[<-|[]]]; npick.
        * right; left. apply w_maps in Hx. exact Hx.
  Qed.

  Lemma grad_workspace_resolves : forall s, resolves s (grad_workspace_c u).
  Proof.
    intro s. unfold grad_workspace_c. apply resolves_app.
    - apply resolves_flat. intros [[n k] len] t _. cbn [grad_array].
      destruct k; [split; [intros x []|exact I]|split; [intros x []|exact I]|apply resolves_mat].
    - apply one_ok. cbn [iuses]. intros x Hx. right. apply in_or_app. left. apply in_map_iff in Hx.
      destruct Hx as [[[n k] len] [<- Ha]]. cbn [fst].
      assert (H : exists j, iname j = pre u ("cpg_osqp_grad_" ++ n) /\ In j (grad_array u (n, k, len))).
      { cbn [grad_array]. destruct k.
        - eexists; split; [|left; reflexivity]. reflexivity.
        - eexists; split; [|left; reflexivity]. reflexivity.
        - eexists; split; [|do 3 right; left; reflexivity]. reflexivity. }
      destruct H as [j [<- Hj]]. apply in_map, in_flat_map. exists (n, k, len). auto.
  Qed.
  Lemma compute_resolves : single_grad u = true -> resolves (map iname (grad_workspace_h u)) (compute_c u).
  Proof.
    intro G. unfold single_grad in G. apply andb_true_iff in G. destruct G as [G EX]. apply negb_true_iff in EX.
    pose proof (gradient_single G EX) as HI.
    assert (H1 : In (pre u "CPG_OSQP_Grad") (map iname (grad_workspace_h u))) by (apply nm_r; left; reflexivity).
    assert (H2 : In "sol_x" (map iname (grad_workspace_h u))).
    { apply nm_l. unfold workspace_h, solver_header. rewrite HI. npick. }
    assert (H3 : In "sol_y" (map iname (grad_workspace_h u))).
    { apply nm_l. unfold workspace_h, solver_header. rewrite HI. npick. }
    unfold compute_c. revert H1 H2 H3. generalize (map iname (grad_workspace_h u)) (pre u "CPG_OSQP_Grad").
    intros s w H1 H2 H3. cbn [resolves iuses iname].
    repeat split; intros x Hx; cbn [In] in Hx;
      repeat match type of Hx with
             | False => destruct Hx
             | _ \/ _ => destruct Hx as [Hx|Hx]
             end; try contradiction; subst x;
      repeat first [left; exact eq_refl | right; assumption | right].
  Qed.
  Lemma grad_defs : forall i, In i (grad_workspace_c u ++ compute_c u) -> is_def i.
  Proof.
    intros i Hi. apply in_app_or in Hi. destruct Hi as [Hi|Hi].
    - unfold grad_workspace_c in Hi. apply in_app_or in Hi. destruct Hi as [Hi|[<-|[]]]; [|exact I].
      apply in_flat_map in Hi. destruct Hi as [[[n k] len] [_ Hi]]. cbn [grad_array] in Hi.
      destruct k; unfold mat_def in Hi; cbn [In] in Hi; intuition (subst; exact I).
    - unfold compute_c in Hi. cbn [In] in Hi. intuition (subst; exact I).
  Qed.

  (** *** File-local names *)

  (** The shapes of the names in the headers. *)
  Definition shape (x : string) : Prop :=
    In x foreign \/ (exists f, In f (all_fixed (u_if u)) /\ x = pre u f)
    \/ (exists n, x = pre u (update_fn n)) \/ (exists n, x = pre u (setting_fn n))
    \/ (exists v, In v (u_vars u) /\ own_array u v = true /\ x = pre u ("cpg_" ++ w_name v)%string)
    \/ (sol_static (u_if u) = false /\ exists d, x = pre u ("cpg_" ++ d)%string).
  Lemma shape_fixed : forall f, mem_str f (all_fixed (u_if u)) = true -> shape (pre u f).
  Proof. intros f H. right. left. exists f. split; [apply mem_str_In, H|reflexivity]. Qed.
  Definition literals : list string :=
    ["cpg_params_vec"; "cpg_params_vec_lower"; "cpg_params_vec_upper"; "cpg_theta"; "Canon_Params"; "Canon_Params_conditioning";
     "Canon_Outdated"; "Canon_Outdated_Grad"; "CPG_Prim"; "CPG_Dual"; "CPG_Info"; "CPG_Result"; "cpg_dp"; "CPG_Delta"].
  Lemma literals_fixed : forall i, forallb (fun f => mem_str f (all_fixed i)) literals = true.
  Proof. destruct i; vm_compute; reflexivity. Qed.
  Lemma shape_literal : forall f, mem_str f literals = true -> shape (pre u f).
  Proof.
    intros f H. apply shape_fixed. pose proof (literals_fixed (u_if u)) as L. rewrite forallb_forall in L. apply L.
    apply mem_str_In, H.
  Qed.
  Lemma blocks_fixed : forall i, forallb (fun n => mem_str ("canon_" ++ n ++ "_map") (all_fixed i)
      && (String.eqb n "d" || (mem_str ("canon_" ++ n ++ "") (all_fixed i) && mem_str ("canon_" ++ n ++ "_conditioning") (all_fixed i)))) (pids i) = true.
  Proof. destruct i; vm_compute; reflexivity. Qed.
  Lemma extra_fixed : forall i, extra_stgs i = true -> mem_str "Canon_Settings" (all_fixed i) = true.
  Proof. destruct i; intro H; try discriminate H; vm_compute; reflexivity. Qed.

  Lemma workspace_shape : forall x, W x -> shape x.
  Proof.
    intros x Hx. apply in_map_iff in Hx. destruct Hx as [i [<- Hi]].
    unfold workspace_h in Hi. rewrite !in_app_iff, !in_if in Hi.
    repeat match type of Hi with
           | _ \/ _ => destruct Hi as [Hi|Hi]
           | _ /\ _ => let H := fresh "B" in destruct Hi as [H Hi]
           | In _ [] => destruct Hi
           | In _ (_ :: _) => destruct Hi as [Hi|Hi]
           | _ = ?w => subst w
           end; cbn [iname].
    all: try (apply shape_literal; vm_compute; reflexivity).
    all: try (left; apply mem_str_In; vm_compute; reflexivity).
    - left. apply mem_str_In. unfold solver_header in Hi. destruct (u_if u); try contradiction.
      + cbn [In] in Hi. intuition (subst i; vm_compute; reflexivity).
      + rewrite in_app_iff, in_if in Hi. cbn [In] in Hi. intuition (subst i; vm_compute; reflexivity).
    - apply in_flat_map in Hi. destruct Hi as [b [Hb Hi]]. apply in_if in Hi. destruct Hi as [_ [<-|[]]]. cbn [iname].
      apply shape_fixed. pose proof (blocks_fixed (u_if u)) as L. rewrite forallb_forall in L.
      specialize (L _ (ids u OK b Hb)). apply andb_true_iff in L. tauto.
    - apply in_flat_map in Hi. destruct Hi as [b [Hb Hi]]. apply in_if in Hi. destruct Hi as [D Hi].
      apply negb_true_iff in D. pose proof (blocks_fixed (u_if u)) as L. rewrite forallb_forall in L.
      specialize (L _ (ids u OK b Hb)). rewrite D in L. cbn [orb] in L. rewrite !andb_true_iff in L. destruct L as [_ [L1 L2]].
      rewrite in_app_iff, in_if in Hi. unfold param_ext in Hi. destruct (block_empty b); cbn [In] in Hi; [tauto|].
      destruct Hi as [[<-|[]]|[_ [<-|[]]]]; apply shape_fixed; assumption.
    - apply in_map_iff in Hi. destruct Hi as [v [<- Hv]]. apply filter_In in Hv. do 4 right. left. exists v. tauto.
    - apply in_map_iff in Hi. destruct Hi as [d [<- Hd]]. do 5 right. apply negb_true_iff in B. split; [exact B|].
      exists (fst d). reflexivity.
    - apply shape_fixed, extra_fixed, B.
    - unfold solver_ext in Hi. pose proof shape_fixed as SF. destruct (u_if u); rewrite ?in_app_iff, ?in_if in Hi;
        cbn [In] in Hi;
        repeat match type of Hi with
           | _ \/ _ => destruct Hi as [Hi|Hi]
           | _ /\ _ => let H := fresh "B" in destruct Hi as [H Hi]
           | False => destruct Hi
           | _ = ?w => subst w; cbn [iname]
           end; apply SF; vm_compute; reflexivity.
  Qed.
  Lemma solve_shape : forall x, In x (map iname (solve_ext u)) -> shape x.
  Proof.
    intros x Hx. apply (Permutation_in x (solve_names u (nk_single y (uk_names u OK)))) in Hx.
    apply in_map_iff in Hx. destruct Hx as [f [<- Hf]]. rewrite !in_app_iff in Hf. destruct Hf as [Hf|[Hf|Hf]].
    - apply (subseq_incl _ _ _ (solve_sub y (nk_blocks y (uk_names u OK)))) in Hf.
      right. left. exists f. split; [|reflexivity]. unfold all_fixed. rewrite !in_app_iff. auto.
    - apply in_map_iff in Hf. destruct Hf as [n [<- _]]. do 2 right. left. exists n. reflexivity.
    - apply in_when in Hf. destruct Hf as [_ Hf]. apply in_map_iff in Hf. destruct Hf as [n [<- _]]. do 3 right. left.
      exists n. reflexivity.
  Qed.
  Lemma gradient_shape : forall x, In x (map iname (gradient_ext u)) -> shape x.
  Proof.
    intros x Hx. rewrite (gradient_names u) in Hx. apply in_map_iff in Hx. destruct Hx as [f [<- Hf]].
    apply in_app_or in Hf. destruct Hf as [Hf|[<-|[]]].
    - apply in_map_iff in Hf. destruct Hf as [n [<- _]]. do 2 right. left. exists ("d" ++ n)%string. reflexivity.
    - apply shape_fixed. destruct (u_if u); vm_compute; reflexivity.
  Qed.
  Lemma compute_h_shape : forall x, In x (map iname (grad_compute_h u)) -> shape x.
  Proof.
    intros x Hx. unfold grad_compute_h, grad_workspace_h in Hx. rewrite !map_app, !in_app_iff in Hx.
    destruct Hx as [[Hx|Hx]|Hx].
    - apply workspace_shape, Hx.
    - destruct Hx as [<-|[]]. apply shape_fixed. destruct (u_if u); vm_compute; reflexivity.
    - left. apply mem_str_In. cbn [map iname In] in Hx. intuition (subst x; vm_compute; reflexivity).
  Qed.

  Definition locals : list string := ["i"; "j"; "k"; "kk"; "obj_val"].
  Definition local_check (i : iface) (l : string) : bool :=
    negb (mem_str l foreign) && forallb (fun f => negb (is_suffix f l)) (all_fixed i)
    && negb (occurs "cpg_update_" l) && negb (occurs "cpg_set_solver_" l).
  Lemma locals_ok : forall i, forallb (fun l => local_check i l && negb (occurs "cpg_" l)) locals = true.
  Proof. destruct i; vm_compute; reflexivity. Qed.
  Lemma deltas_ok : forallb (local_check IPDAQP) ["cpg_dx"; "cpg_dtheta"] = true.
  Proof. vm_compute; reflexivity. Qed.

  Lemma local_free : forall l, local_check (u_if u) l = true ->
    (forall v, In v (u_vars u) -> own_array u v = true -> pre u ("cpg_" ++ w_name v)%string <> l) ->
    (sol_static (u_if u) = false -> forall d, pre u ("cpg_" ++ d)%string <> l) -> ~ shape l.
  Proof.
    intros l C HV HD [H|[[f [Hf E]]|[[n E]|[[n E]|[[v [Hv [O E]]]|[Q [d E]]]]]]].
    - unfold local_check in C. rewrite !andb_true_iff in C. destruct C as [[[C _] _] _]. apply mem_str_In in H. rewrite H in C. discriminate.
    - unfold local_check in C. rewrite !andb_true_iff in C. destruct C as [[[_ C] _] _]. rewrite forallb_forall in C.
      apply C in Hf. rewrite E in Hf. unfold pre in Hf. rewrite is_suffix_app in Hf. discriminate.
    - unfold local_check in C. rewrite !andb_true_iff in C. destruct C as [[_ C] _]. rewrite E in C. unfold pre, update_fn in C.
      rewrite occurs_app in C. discriminate.
    - unfold local_check in C. rewrite !andb_true_iff in C. destruct C as [_ C]. rewrite E in C. unfold pre, setting_fn in C.
      rewrite occurs_app in C. discriminate.
    - apply (HV v Hv O). symmetry. exact E.
    - apply (HD Q d). symmetry. exact E.
  Qed.
  Lemma locals_free : forall l, In l locals -> ~ shape l.
  Proof.
    intros l Hl. pose proof (locals_ok (u_if u)) as L. rewrite forallb_forall in L. specialize (L l Hl).
    apply andb_true_iff in L. destruct L as [L1 L2]. apply negb_true_iff in L2.
    apply local_free; [exact L1| |].
    - intros v _ _ E. rewrite <- E in L2. unfold pre in L2. rewrite occurs_app in L2. discriminate.
    - intros _ d E. rewrite <- E in L2. unfold pre in L2. rewrite occurs_app in L2. discriminate.
  Qed.
  Lemma deltas_free : expl u = true -> u_gradient u = true -> forall l, In l ["cpg_dx"; "cpg_dtheta"] -> ~ shape l.
  Proof.
    intros EX G l Hl. pose proof (expl_pdaqp u OK EX) as HI. pose proof deltas_ok as L. rewrite forallb_forall in L.
    specialize (L l Hl). rewrite <- HI in L. apply local_free; [exact L| |].
    - intros v Hv O E. apply (uk_local u OK EX G v Hv O). rewrite E. exact Hl.
    - intros Q. rewrite HI in Q. discriminate.
  Qed.

  (** *** The files *)

  Lemma exts_workspace : forall i, In i (workspace_h u) -> is_ext i.
  Proof.
    intros i Hi. unfold workspace_h in Hi. rewrite !in_app_iff, !in_if in Hi.
    repeat match type of Hi with
           | _ \/ _ => destruct Hi as [Hi|Hi]
           | _ /\ _ => let H := fresh "B" in destruct Hi as [H Hi]
           | In _ [] => destruct Hi
           | In _ (_ :: _) => destruct Hi as [Hi|Hi]
           | _ = ?w => subst w; exact I
           end.
    - unfold solver_header in Hi. destruct (u_if u); try contradiction; rewrite ?in_app_iff, ?in_if in Hi; cbn [In] in Hi;
        intuition (subst i; exact I).
    - apply in_flat_map in Hi. destruct Hi as [b [_ Hi]]. apply in_if in Hi. destruct Hi as [_ [<-|[]]]. exact I.
    - apply in_flat_map in Hi. destruct Hi as [b [_ Hi]]. apply in_if in Hi. destruct Hi as [_ Hi].
      rewrite in_app_iff, in_if in Hi. unfold param_ext in Hi. destruct (block_empty b); cbn [In] in Hi; intuition (subst i; exact I).
    - apply in_map_iff in Hi. destruct Hi as [v [<- _]]. exact I.
    - apply in_map_iff in Hi. destruct Hi as [v [<- _]]. exact I.
    - unfold solver_ext in Hi. destruct (u_if u); rewrite ?in_app_iff, ?in_if in Hi; cbn [In] in Hi; intuition (subst i; exact I).
  Qed.
  Lemma exts_header : forall i, In i (solver_header u) -> is_ext i.
  Proof. intros i Hi. apply exts_workspace. apply in_or_app. left. exact Hi. Qed.
  Lemma exts_solve : forall i, In i (solve_ext u) -> is_ext i.
  Proof.
    intros i Hi. unfold solve_ext in Hi. rewrite !in_app_iff, !in_if, !in_app_iff in Hi.
    repeat match type of Hi with
           | _ \/ _ => destruct Hi as [Hi|Hi]
           | _ /\ _ => let H := fresh "B" in destruct Hi as [H Hi]
           | In _ [] => destruct Hi
           | In _ (_ :: _) => destruct Hi as [Hi|Hi]
           | In _ (map _ _) => apply in_map_iff in Hi; destruct Hi as [?v [Hi _]]
           | In _ (flat_map _ _) => apply in_flat_map in Hi; destruct Hi as [?b [_ Hi]]; apply in_if in Hi
           | _ = ?w => subst w; exact I
           end.
  Qed.
  Lemma exts_gradient : forall i, In i (gradient_ext u) -> is_ext i.
  Proof.
    intros i Hi. unfold gradient_ext in Hi. apply in_app_or in Hi. destruct Hi as [Hi|[<-|[]]]; [|exact I].
    apply in_map_iff in Hi. destruct Hi as [v [<- _]]. exact I.
  Qed.
  Lemma exts_compute : forall i, In i (grad_compute_h u) -> is_ext i.
  Proof.
    intros i Hi. unfold grad_compute_h, grad_workspace_h in Hi. rewrite !in_app_iff in Hi. destruct Hi as [[Hi|[<-|[]]]|Hi].
    - apply exts_workspace, Hi.
    - exact I.
    - cbn [In] in Hi. intuition (subst i; exact I).
  Qed.
  Lemma defs_workspace : forall i, In i (workspace_c u) -> is_def i.
  Proof.
    intros i Hi. unfold workspace_c in Hi. rewrite !in_app_iff, !in_if, !in_app_iff, !in_if in Hi.
    assert (MD : forall n num idx ty k c, In i (mat_def n num idx ty k c) -> is_def i).
    { intros n num idx ty k c H. unfold mat_def in H. cbn [In] in H. intuition (subst i; exact I). }
    repeat match type of Hi with
           | _ \/ _ => destruct Hi as [Hi|Hi]
           | _ /\ _ => let H := fresh "B" in destruct Hi as [H Hi]
           | In _ [] => destruct Hi
           | In _ (_ :: _) => destruct Hi as [Hi|Hi]
           | In _ (map _ _) => apply in_map_iff in Hi; destruct Hi as [?v [Hi _]]
           | _ = ?w => subst w; exact I
           end.
    - apply in_flat_map in Hi. destruct Hi as [b [_ Hi]]. apply in_if in Hi. destruct Hi as [_ Hi]. apply (MD _ _ _ _ _ _ Hi).
    - apply in_flat_map in Hi. destruct Hi as [b [_ Hi]]. unfold block_def in Hi. destruct (String.eqb (k_id b) "d"); [destruct Hi|].
      rewrite in_app_iff, in_if in Hi. unfold param_def in Hi. destruct (block_empty b); cbn [In] in Hi; [tauto|].
      destruct (is_matrix (k_id b)); [destruct Hi as [Hi|[_ Hi]]; apply (MD _ _ _ _ _ _ Hi)|].
      cbn [In] in Hi. intuition (subst i; exact I).
    - unfold solver_def in Hi. destruct (u_if u); rewrite ?in_app_iff, ?in_if in Hi; cbn [In] in Hi; intuition (subst i; exact I).
  Qed.
End Uses.
