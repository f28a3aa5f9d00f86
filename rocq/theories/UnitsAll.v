(** Every generated file of Units.v passes the checks of a translation unit: assembly. *)

From Coq Require Import String Ascii List Bool Arith Lia Permutation.
From Verif Require Import Base Config Symbols SymbolsProofs PropConfig PropSymbols Units UnitsProofs UnitsNames UnitsDecl UnitsUses.
Import ListNotations.
Open Scope string_scope.
Open Scope list_scope.

Section All.
  Variable u : uin.
  Hypothesis OK : units_ok u.

  Lemma unit_workspace : exists e, compile (workspace_h u ++ workspace_c u) = inr e.
  Proof.
    change (workspace_h u ++ workspace_c u) with (workspace_h u ++ [] ++ workspace_c u).
    apply (unit_ok (T u)).
    - apply T_func, OK.
    - apply (exts_workspace u).
    - apply (workspace_h_known u OK).
    - intros i [].
    - constructor.
    - intros i [].
    - apply (defs_workspace u).
    - intros i Hi. apply (known_item u i i); [|reflexivity]. apply all_iff. auto.
    - apply (NoDup_all u OK). exists []. eexists. unfold all_items. reflexivity.
    - intros i [].
    - apply (workspace_resolves u OK).
  Qed.

  Lemma sta_solve : forall i, In i (solve_sta u) -> is_sta i /\ In (iname i) locals.
  Proof.
    intros i Hi. unfold solve_sta in Hi. rewrite in_app_iff, in_if in Hi. cbn [In] in Hi.
    unfold locals. intuition (subst i; cbn; auto 10).
  Qed.
  Lemma sta_solve_NoDup : NoDup (map iname (solve_sta u)).
  Proof. apply nodupb_NoDup. unfold solve_sta. destruct (expl u); reflexivity. Qed.

  Lemma unit_solve : exists e, compile ((solve_h u ++ workspace_h u) ++ solve_c u) = inr e.
  Proof.
    assert (HS : forall x, In x (map iname (solve_h u ++ workspace_h u)) -> shape u x).
    { intros x Hx. unfold solve_h in Hx. rewrite !map_app, !in_app_iff, names_if in Hx.
      destruct Hx as [[Hx|[Hx|Hx]]|Hx]; [apply (workspace_shape u OK), Hx| |apply (solve_shape u OK), Hx|apply (workspace_shape u OK), Hx].
      apply in_when in Hx. apply (workspace_shape u OK). unfold workspace_h. apply nm_l. tauto. }
    apply (unit_ok (T u)).
    - apply T_func, OK.
    - intros i Hi. unfold solve_h in Hi. rewrite !in_app_iff, in_if in Hi.
      destruct Hi as [[Hi|[[_ Hi]|Hi]]|Hi]; [apply (exts_workspace u)|apply (exts_header u)|apply (exts_solve u)|apply (exts_workspace u)]; exact Hi.
    - intros i Hi. unfold solve_h in Hi. rewrite !in_app_iff, in_if in Hi.
      destruct Hi as [[Hi|[[_ Hi]|Hi]]|Hi]; [apply (workspace_h_known u OK)|apply (header_known u)|apply (solve_ext_known u)|apply (workspace_h_known u OK)]; exact Hi.
    - intros i Hi. apply sta_solve, Hi.
    - apply sta_solve_NoDup.
    - intros i Hi H. apply HS in H. apply sta_solve in Hi. destruct Hi as [_ Hi]. apply (locals_free u _ Hi H).
    - intros i Hi. apply (solve_fns_def u OK), Hi.
    - intros i Hi. apply (solve_fns_def u OK), Hi.
    - apply (solve_fns_NoDup u OK).
    - intros i Hi H. apply sta_solve in Hi. destruct Hi as [_ Hi]. apply (locals_free u _ Hi). apply (solve_shape u OK).
      apply (solve_fns_incl u OK), H.
    - apply resolves_all. intros i Hi x Hx. apply (solve_fns_def u OK) in Hi. destruct Hi as [_ [_ Hi]]. apply Hi in Hx.
      apply in_or_app. exact Hx.
  Qed.

  Lemma sta_gradient : u_gradient u = true -> forall i, In i (gradient_sta u) -> is_sta i /\ ~ shape u (iname i).
  Proof.
    intros G i Hi. unfold gradient_sta in Hi. destruct (expl u) eqn:EX.
    - assert (C : is_sta i /\ (In (iname i) locals \/ In (iname i) ["cpg_dx"; "cpg_dtheta"])).
      { cbn [In] in Hi. unfold locals. intuition (subst i; cbn; auto 10). }
      split; [tauto|]. destruct C as [_ [C|C]]; [apply (locals_free u _ C)|apply (deltas_free u OK EX G _ C)].
    - assert (C : is_sta i /\ In (iname i) locals).
      { cbn [In] in Hi. unfold locals. intuition (subst i; cbn; auto 10). }
      split; [tauto|]. apply (locals_free u). tauto.
  Qed.
  Lemma sta_gradient_NoDup : NoDup (map iname (gradient_sta u)).
  Proof. apply nodupb_NoDup. unfold gradient_sta. destruct (expl u); reflexivity. Qed.

  Lemma unit_gradient : u_gradient u = true -> forall h,
    (forall i, In i h -> In i (gradient_h u) \/ (expl u = false /\ In i (grad_compute_h u))) ->
    (forall i, In i (workspace_h u) -> In i h) ->
    (expl u = false -> forall i, In i (grad_compute_h u) -> In i h) ->
    exists e, compile (h ++ gradient_c u) = inr e.
  Proof.
    intros G h H1 H2 H3. unfold gradient_c.
    assert (HE : forall i, In i h -> is_ext i /\ known u i /\ shape u (iname i)).
    { intros i Hi. apply H1 in Hi. destruct Hi as [Hi|[EX Hi]].
      - unfold gradient_h in Hi. apply in_app_or in Hi. destruct Hi as [Hi|Hi].
        + split; [apply (exts_workspace u), Hi|]. split; [apply (workspace_h_known u OK), Hi|apply (workspace_shape u OK), in_map, Hi].
        + split; [apply (exts_gradient u), Hi|]. split; [apply (gradient_ext_known u G), Hi|apply (gradient_shape u), in_map, Hi].
      - split; [apply (exts_compute u), Hi|].
        split; [apply (grad_compute_h_known u OK); [unfold single_grad; rewrite G, EX; reflexivity|exact Hi]|
                apply (compute_h_shape u OK), in_map, Hi]. }
    apply (unit_ok (T u)).
    - apply T_func, OK.
    - intros i Hi. apply HE, Hi.
    - intros i Hi. apply HE, Hi.
    - intros i Hi. apply (sta_gradient G), Hi.
    - apply sta_gradient_NoDup.
    - intros i Hi H. apply (sta_gradient G) in Hi. destruct Hi as [_ Hi]. apply Hi. apply in_map_iff in H.
      destruct H as [j [E Hj]]. rewrite <- E. apply HE, Hj.
    - intros i Hi. apply (gradient_fns_known u G), Hi.
    - intros i Hi. apply (gradient_fns_known u G), Hi.
    - apply (gradient_fns_NoDup u OK G).
    - intros i Hi H. apply (sta_gradient G) in Hi. destruct Hi as [_ Hi]. apply Hi. rewrite (gradient_fns_names u) in H.
      apply (gradient_shape u), H.
    - apply resolves_all. intros i Hi x Hx. apply in_or_app.
      destruct (gradient_fns_uses u OK G i Hi x Hx) as [H|[H|[EX H]]]; [left; exact H| |];
        right; apply in_map_iff in H; destruct H as [j [<- Hj]]; apply in_map; auto.
  Qed.

  Lemma unit_grad : single_grad u = true -> forall d, d = grad_workspace_c u \/ d = compute_c u ->
    exists e, compile (grad_workspace_h u ++ d) = inr e.
  Proof.
    intros G d Hd. change (grad_workspace_h u ++ d) with (grad_workspace_h u ++ [] ++ d).
    assert (Q : forall i, In i (grad_workspace_h u) -> In i (grad_compute_h u)).
    { intros i Hi. apply in_or_app. left. exact Hi. }
    assert (D : forall i, In i d -> In i (grad_workspace_c u ++ compute_c u)).
    { intros i Hi. apply in_or_app. destruct Hd as [->| ->]; auto. }
    apply (unit_ok (T u)).
    - apply T_func, OK.
    - intros i Hi. apply (exts_compute u), Q, Hi.
    - intros i Hi. apply (grad_compute_h_known u OK G), Q, Hi.
    - intros i [].
    - constructor.
    - intros i [].
    - intros i Hi. apply (grad_defs u), D, Hi.
    - intros i Hi. apply (known_item u i i); [|reflexivity]. apply all_iff. do 3 right. left. apply in_if.
      split; [exact G|]. apply D, Hi.
    - apply (NoDup_all u OK). unfold all_items. rewrite G. cbn [items_if].
      destruct Hd as [->| ->].
      + exists (workspace_c u ++ solve_ext u ++ items_if (u_gradient u) (gradient_ext u)). eexists.
        rewrite <- !app_assoc. reflexivity.
      + exists (workspace_c u ++ solve_ext u ++ items_if (u_gradient u) (gradient_ext u) ++ grad_workspace_c u). eexists.
        rewrite <- !app_assoc. reflexivity.
    - intros i [].
    - cbn [map app]. destruct Hd as [->| ->]; [apply (grad_workspace_resolves u)|apply (compute_resolves u OK G)].
  Qed.

  Lemma units_compile : forall f h d, In (f, h, d) (units u) -> exists e, compile (h ++ d) = inr e.
  Proof.
    intros f h d H. unfold units in H. apply in_app_or in H. destruct H as [[E|[E|[]]]|H].
    - injection E as <- <- <-. apply unit_workspace.
    - injection E as <- <- <-. apply unit_solve.
    - destruct (u_gradient u) eqn:G; [|destruct H]. destruct (expl u) eqn:EX.
      + destruct H as [E|[]]. injection E as <- <- <-. apply (unit_gradient G).
        * intros i Hi. left. rewrite !in_app_iff in Hi. destruct Hi as [Hi|[Hi|Hi]]; [exact Hi| |]; apply in_or_app; left;
            [exact Hi|apply in_or_app; left; exact Hi].
        * intros i Hi. rewrite !in_app_iff. auto.
        * congruence.
      + assert (SG : single_grad u = true) by (unfold single_grad; rewrite G, EX; reflexivity).
        destruct H as [E|[E|[E|[]]]]; injection E as <- <- <-.
        * apply (unit_gradient G).
          -- intros i Hi. rewrite !in_app_iff in Hi. destruct Hi as [Hi|[Hi|Hi]]; auto.
             right. split; [exact EX|]. apply in_or_app. auto.
          -- intros i Hi. apply in_or_app. left. apply in_or_app. auto.
          -- intros _ i Hi. rewrite !in_app_iff. auto.
        * apply (unit_grad SG). auto.
        * apply (unit_grad SG). auto.
  Qed.
End All.
