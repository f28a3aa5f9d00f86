(** C79: declarations, definitions and uses in the generated C files. *)

From Coq Require Import String Ascii List Bool Arith Lia Permutation.
From Verif Require Import Base Config Symbols SymbolsProofs PropConfig PropSymbols Units UnitsProofs UnitsNames UnitsDecl UnitsUses UnitsAll.
Import ListNotations.
Open Scope string_scope.
Open Scope list_scope.

(** ** What a C compiler demands of one file, without the checking function *)

Definition name_of (i : item) : string := match i with Ext x _ | Sta x _ | Def x _ _ => x end.
Definition type_of (i : item) : cty := match i with Ext _ t | Sta _ t | Def _ t _ => t end.
Definition creates (i : item) : bool := match i with Ext _ _ => false | _ => true end.

Record valid_file (l : list item) : Prop := {
  vf_types : forall i j, In i l -> In j l -> name_of i = name_of j -> type_of i = type_of j;
  vf_once : NoDup (map name_of (filter creates l));
  vf_static : forall a x t b, l = a ++ Sta x t :: b -> ~ In x (map name_of a);
  vf_uses : forall a x t us b, l = a ++ Def x t us :: b -> forall w, In w us -> w = x \/ In w (map name_of a)
}.

(** The checking function accepts a file exactly when it is valid in this sense. *)
Lemma lookup_In : forall x l t, lookup x l = Some t -> In (x, t) l.
Proof.
  induction l as [|[z t'] l IH]; intros t H; cbn [lookup] in H; [discriminate|].
  destruct (String.eqb_spec z x) as [->|].
  - injection H as ->. left; reflexivity.
  - right. apply IH, H.
Qed.
Lemma lookup_None : forall x l, lookup x l = None -> ~ In x (map fst l).
Proof.
  induction l as [|[z t'] l IH]; intros H; cbn [lookup] in H; [intros []|].
  destruct (String.eqb_spec z x) as [->|N]; [discriminate|]. intros [E|E]; [exact (N E)|]. apply (IH H E).
Qed.

Definition seen_of (l : list item) : list (string * cty) := rev (map (fun i => (name_of i, type_of i)) l).
Definition done_of (l : list item) : list string := rev (map name_of (filter creates l)).
Lemma seen_names : forall l x, In x (map fst (seen_of l)) <-> In x (map name_of l).
Proof.
  intros l x. unfold seen_of. rewrite map_rev, map_map. rewrite <- in_rev. reflexivity.
Qed.
Lemma seen_snoc : forall l i, seen_of (l ++ [i]) = (name_of i, type_of i) :: seen_of l.
Proof. intros l i. unfold seen_of. rewrite map_app, rev_app_distr. reflexivity. Qed.

Lemma known_name_iff : forall x l, known_name x l = true <-> In x (map fst l).
Proof.
  intros x l. unfold known_name. destruct (lookup x l) eqn:E.
  - split; [intros _|reflexivity]. apply lookup_In in E. apply (in_map fst) in E. exact E.
  - split; [discriminate|]. intro H. apply lookup_None in E. contradiction.
Qed.
Lemma compatible_iff : forall x t l, (forall p q, In p l -> In q l -> fst p = fst q -> snd p = snd q) ->
  (compatible x t l = true <-> forall p, In p l -> fst p = x -> snd p = t).
Proof.
  intros x t l F. unfold compatible. destruct (lookup x l) as [t'|] eqn:E.
  - apply lookup_In in E. split.
    + intros H p Hp Ep. apply cty_eqb_eq in H. subst t'. apply (F p (x, t) Hp E). exact Ep.
    + intro H. pose proof (H _ E eq_refl) as Q. cbn [snd] in Q. subst t'. apply cty_eqb_refl.
  - apply lookup_None in E. split; [|reflexivity]. intros _ p Hp Ep. exfalso. apply E. subst x. apply in_map, Hp.
Qed.

Lemma split_snoc : forall A (l : list A) i a (x : A) b, l ++ [i] = a ++ x :: b ->
  (b = [] /\ l = a /\ i = x) \/ (exists b', b = b' ++ [i] /\ l = a ++ x :: b').
Proof.
  intros A l i a x b E. destruct b as [|z b] using rev_ind.
  - left. apply app_inj_tail in E. tauto.
  - right. exists b. clear IHb. change (a ++ x :: b ++ [z]) with (a ++ (x :: b) ++ [z]) in E. rewrite app_assoc in E.
    apply app_inj_tail in E. destruct E as [-> ->]. auto.
Qed.

Lemma valid_nil : valid_file [].
Proof.
  constructor.
  - intros i j [].
  - constructor.
  - intros a x t b E. destruct a; discriminate.
  - intros a x t us b E. destruct a; discriminate.
Qed.
Lemma valid_prefix : forall l i, valid_file (l ++ [i]) -> valid_file l.
Proof.
  intros l i [H1 H2 H3 H4]. constructor.
  - intros a b Ha Hb. apply H1; apply in_or_app; auto.
  - rewrite filter_app, map_app in H2. apply (NoDup_app_l _ _ _ H2).
  - intros a x t b E. apply (H3 a x t (b ++ [i])). rewrite E, <- app_assoc. reflexivity.
  - intros a x t us b E. apply (H4 a x t us (b ++ [i])). rewrite E, <- app_assoc. reflexivity.
Qed.

Lemma check_step : forall l i, valid_file l ->
  (valid_file (l ++ [i]) <-> check_item (mkE (seen_of l) (done_of l)) i
     = inr (mkE (seen_of (l ++ [i])) (done_of (l ++ [i])))) /\
  (valid_file (l ++ [i]) \/ exists e, check_item (mkE (seen_of l) (done_of l)) i = inl e).
Proof.
  intros l i V.
  assert (F : forall p q, In p (seen_of l) -> In q (seen_of l) -> fst p = fst q -> snd p = snd q).
  { intros p q Hp Hq E. unfold seen_of in Hp, Hq. apply in_rev in Hp, Hq. apply in_map_iff in Hp, Hq.
    destruct Hp as [a [<- Ha]], Hq as [b [<- Hb]]. cbn [fst snd] in *. apply (vf_types l V); auto. }
  assert (C : forall x t, (forall p, In p (seen_of l) -> fst p = x -> snd p = t)
               <-> (forall j, In j l -> name_of j = x -> type_of j = t)).
  { intros x t. split; intro H.
    - intros j Hj E. apply (H (name_of j, type_of j)); [|exact E]. unfold seen_of. apply in_rev. rewrite rev_involutive.
      apply (in_map (fun i => (name_of i, type_of i)) _ _ Hj).
    - intros p Hp E. unfold seen_of in Hp. apply in_rev in Hp. apply in_map_iff in Hp. destruct Hp as [j [<- Hj]].
      apply H; auto. }
  assert (V1 : valid_file (l ++ [i]) ->
     (forall j, In j l -> name_of j = name_of i -> type_of j = type_of i)
     /\ (creates i = true -> ~ In (name_of i) (map name_of (filter creates l)))
     /\ (forall x t, i = Sta x t -> ~ In x (map name_of l))
     /\ (forall x t us, i = Def x t us -> forall w, In w us -> w = x \/ In w (map name_of l))).
  { intros [H1 H2 H3 H4]. split; [|split; [|split]].
    - intros j Hj E. apply H1; [apply in_or_app; auto|apply in_or_app; right; left; reflexivity|exact E].
    - intros Hc Hin. rewrite filter_app in H2. cbn [filter] in H2. rewrite Hc, map_app in H2. cbn [map] in H2.
      apply (NoDup_app_disj _ _ _ (name_of i) H2 Hin). left; reflexivity.
    - intros x t ->. apply (H3 l x t []). reflexivity.
    - intros x t us ->. apply (H4 l x t us []). reflexivity. }
  assert (V2 : (forall j, In j l -> name_of j = name_of i -> type_of j = type_of i) ->
     (creates i = true -> ~ In (name_of i) (map name_of (filter creates l))) ->
     (forall x t, i = Sta x t -> ~ In x (map name_of l)) ->
     (forall x t us, i = Def x t us -> forall w, In w us -> w = x \/ In w (map name_of l)) -> valid_file (l ++ [i])).
  { intros A1 A2 A3 A4. constructor.
    - intros a b Ha Hb E. apply in_app_or in Ha, Hb. destruct Ha as [Ha|[<-|[]]], Hb as [Hb|[<-|[]]]; auto.
      + apply (vf_types l V); auto.
      + symmetry. apply A1; auto.
    - rewrite filter_app, map_app. cbn [filter]. destruct (creates i) eqn:Hc; cbn [map]; [|rewrite app_nil_r; apply (vf_once l V)].
      apply NoDup_app; [apply (vf_once l V)|constructor; [intros []|constructor]|].
      intros x Hx [<-|[]]. apply (A2 eq_refl Hx).
    - intros a x t b E. apply split_snoc in E. destruct E as [[-> [<- E]]|[b' [-> E]]]; [apply (A3 x t E)|].
      apply (vf_static l V a x t b' E).
    - intros a x t us b E. apply split_snoc in E. destruct E as [[-> [<- E]]|[b' [-> E]]]; [apply (A4 x t us E)|].
      apply (vf_uses l V a x t us b' E). }
  assert (DC : forall x, mem_str x (done_of l) = true <-> In x (map name_of (filter creates l))).
  { intro x. rewrite mem_str_In. unfold done_of. rewrite <- in_rev. reflexivity. }
  destruct i as [x t|x t|x t us]; cbn [check_item e_seen e_done]; rewrite seen_snoc; cbn [name_of type_of];
    unfold done_of at 2 3; rewrite filter_app, map_app; cbn [filter creates map app]; rewrite ?app_nil_r, ?rev_app_distr;
    cbn [rev app name_of]; fold (done_of l).
  - destruct (compatible x t (seen_of l)) eqn:E.
    + pose proof (proj1 (C x t) (proj1 (compatible_iff x t _ F) E)) as E'; clear E; rename E' into E.
      assert (VV : valid_file (l ++ [Ext x t])).
      { apply V2; [exact E|discriminate|discriminate|discriminate]. }
      split; [split; auto|left; exact VV].
    + split; [split; [|discriminate]|right; eauto]. intro VV. exfalso. apply V1 in VV. destruct VV as [VV _].
      cbn [name_of type_of] in VV. pose proof (proj2 (compatible_iff x t _ F) (proj2 (C x t) VV)) as K. congruence.
  - destruct (known_name x (seen_of l)) eqn:E.
    + apply known_name_iff, seen_names in E. split; [split; [|discriminate]|right; eauto].
      intro VV. exfalso. apply V1 in VV. destruct VV as [_ [_ [VV _]]]. apply (VV x t eq_refl E).
    + assert (N : ~ In x (map name_of l)).
      { intro H. apply seen_names, known_name_iff in H. congruence. }
      assert (VV : valid_file (l ++ [Sta x t])).
      { apply V2.
        - cbn [name_of]. intros j Hj Ej. exfalso. apply N. rewrite <- Ej. apply in_map, Hj.
        - intros _ H. apply N. cbn [name_of] in H. apply in_map_iff in H. destruct H as [j [Ej Hj]].
          apply filter_In in Hj. rewrite <- Ej. apply in_map. tauto.
        - intros x' t' Ei. injection Ei as <- <-. exact N.
        - discriminate. }
      split; [split; auto|left; exact VV].
  - destruct (compatible x t (seen_of l)) eqn:E; cbn [negb].
    + pose proof (proj1 (C x t) (proj1 (compatible_iff x t _ F) E)) as E'; clear E; rename E' into E.
      destruct (mem_str x (done_of l)) eqn:M.
      { split; [split; [|discriminate]|right; eauto]. intro VV. exfalso. apply V1 in VV. destruct VV as [_ [VV _]].
        apply (VV eq_refl). apply DC, M. }
      match goal with |- context [find ?f us] => destruct (find f us) as [w|] eqn:FD end.
      * apply find_some in FD. destruct FD as [Hw FD]. apply negb_true_iff in FD.
        split; [split; [|discriminate]|right; eauto]. intro VV. exfalso. apply V1 in VV. destruct VV as [_ [_ [_ VV]]].
        assert (K : known_name w ((x, t) :: seen_of l) = true).
        { apply known_name_iff. cbn [map fst]. destruct (VV x t us eq_refl w Hw) as [->|H]; [left; reflexivity|right].
          apply seen_names, H. }
        congruence.
      * assert (VV : valid_file (l ++ [Def x t us])).
        { apply V2.
          - exact E.
          - intros _ H. cbn [name_of] in H. apply DC in H. congruence.
          - discriminate.
          - intros x' t' us' Ei w Hw. injection Ei as <- <- <-. pose proof (find_none _ _ FD w Hw) as K.
            apply negb_false_iff, known_name_iff in K. cbn [map fst] in K. destruct K as [->|K]; [left; reflexivity|right].
            apply seen_names, K. }
        split; [split; auto|left; exact VV].
    + split; [split; [|discriminate]|right; eauto]. intro VV. exfalso. apply V1 in VV. destruct VV as [VV _].
      cbn [name_of type_of] in VV. pose proof (proj2 (compatible_iff x t _ F) (proj2 (C x t) VV)) as K. congruence.
Qed.

Lemma check_unit_valid : forall r l, valid_file l ->
  ((exists e, check_unit (mkE (seen_of l) (done_of l)) r = inr e) <-> valid_file (l ++ r)).
Proof.
  induction r as [|i r IH]; intros l V.
  - rewrite app_nil_r. cbn [check_unit]. split; [intros _; exact V|intros _; eauto].
  - destruct (check_step l i V) as [S1 S2]. cbn [check_unit].
    change (i :: r) with ([i] ++ r). rewrite app_assoc. destruct S2 as [VV|[e E]].
    + pose proof (proj1 S1 VV) as E. rewrite E. apply IH, VV.
    + rewrite E. split; [intros [e' H]; discriminate|]. intro H. exfalso.
      assert (VV : valid_file (l ++ [i])).
      { clear -H. revert H. generalize (l ++ [i]). intros m. induction r as [|z r IHr] using rev_ind; intro H.
        - rewrite app_nil_r in H. exact H.
        - rewrite app_assoc in H. apply valid_prefix in H. apply IHr, H. }
      apply S1 in VV. congruence.
Qed.

(** ** The theorems *)

Theorem C79_check : forall l, (exists e, compile l = inr e) <-> valid_file l.
Proof. intro l. apply (check_unit_valid l []). apply valid_nil. Qed.

(** Every generated C file is valid together with the generated headers it includes. *)
Theorem C79_files : forall u, units_ok u -> forall f h d, In (f, h, d) (units u) -> valid_file (h ++ d).
Proof. intros u OK f h d H. apply C79_check. apply (units_compile u OK f h d H). Qed.

(** Across files: two declarations or definitions of one name agree in type, and no name is
    defined in two places. *)
Definition external (i : item) : Prop := match i with Sta _ _ => False | _ => True end.
Definition in_file (u : uin) (i : item) : Prop := exists f h d, In (f, h, d) (units u) /\ In i (h ++ d).

Lemma in_file_known : forall u, units_ok u -> forall i, in_file u i -> external i -> In (name_of i, type_of i) (T u).
Proof.
  intros u OK i [f [h [d [Hu Hi]]]] X.
  assert (G : sig i = (name_of i, type_of i)) by (destruct i; reflexivity). rewrite <- G.
  pose proof (workspace_h_known u OK) as KW. pose proof (header_known u) as KH. pose proof (solve_ext_known u) as KS.
  assert (KC : forall i, In i (workspace_c u) -> In (sig i) (T u)).
  { intros j Hj. apply (known_item u j j); [|reflexivity]. apply all_iff. auto. }
  unfold units in Hu. apply in_app_or in Hu. destruct Hu as [[E|[E|[]]]|Hu].
  - injection E as <- <- <-. apply in_app_or in Hi. destruct Hi as [Hi|Hi]; [apply KW, Hi|apply KC, Hi].
  - injection E as <- <- <-. unfold solve_h, solve_c in Hi. rewrite !in_app_iff, in_if in Hi.
    destruct Hi as [[[Hi|[[_ Hi]|Hi]]|Hi]|[Hi|Hi]]; [apply KW, Hi|apply KH, Hi|apply KS, Hi|apply KW, Hi| |].
    + apply (sta_solve u) in Hi. destruct i; cbn in Hi, X; tauto.
    + apply (solve_fns_def u OK), Hi.
  - destruct (u_gradient u) eqn:GR; [|destruct Hu].
    assert (KG : forall i, In i (gradient_c u) -> external i -> In (sig i) (T u)).
    { intros j Hj XJ. unfold gradient_c in Hj. apply in_app_or in Hj. destruct Hj as [Hj|Hj].
      - apply (sta_gradient u OK GR) in Hj. destruct j; cbn in Hj, XJ; tauto.
      - apply (gradient_fns_known u GR), Hj. }
    pose proof (gradient_ext_known u GR) as KE.
    destruct (expl u) eqn:EX.
    + destruct Hu as [E|[]]. injection E as <- <- <-. unfold gradient_h in Hi. rewrite !in_app_iff in Hi.
      destruct Hi as [[[Hi|Hi]|[Hi|Hi]]|Hi]; [apply KW, Hi|apply KE, Hi|apply KW, Hi|apply KH, Hi|apply KG; auto].
    + assert (SG : single_grad u = true) by (unfold single_grad; rewrite GR, EX; reflexivity).
      pose proof (grad_compute_h_known u OK SG) as KP.
      assert (KQ : forall i, In i (grad_workspace_h u) -> In (sig i) (T u)).
      { intros j Hj. apply KP, in_or_app. auto. }
      assert (KD : forall i, In i (grad_workspace_c u ++ compute_c u) -> In (sig i) (T u)).
      { intros j Hj. apply (known_item u j j); [|reflexivity]. apply all_iff. do 3 right. left. apply in_if. auto. }
      destruct Hu as [E|[E|[E|[]]]]; injection E as <- <- <-; unfold gradient_h in Hi; rewrite !in_app_iff in Hi.
      * destruct Hi as [[[Hi|Hi]|[Hi|Hi]]|Hi]; [apply KW, Hi|apply KE, Hi|apply KQ, Hi|apply KP, Hi|apply KG; auto].
      * destruct Hi as [Hi|Hi]; [apply KQ, Hi|apply KD, in_or_app; auto].
      * destruct Hi as [Hi|Hi]; [apply KQ, Hi|apply KD, in_or_app; auto].
Qed.

Theorem C79_types : forall u, units_ok u -> forall i j, in_file u i -> in_file u j -> external i -> external j ->
  name_of i = name_of j -> type_of i = type_of j.
Proof.
  intros u OK i j Hi Hj Xi Xj E. apply (in_file_known u OK) in Hi, Hj; auto.
  rewrite E in Hi. apply (T_func u OK _ _ _ Hi Hj).
Qed.

Definition global_defs (u : uin) : list string :=
  flat_map (fun f => map name_of (filter (fun i => match i with Def _ _ _ => true | _ => false end) (snd f))) (units u).

Lemma defs_only : forall l, (forall i, In i l -> is_def i) ->
  map name_of (filter (fun i => match i with Def _ _ _ => true | _ => false end) l) = map iname l.
Proof.
  induction l as [|i l IH]; intro H; [reflexivity|]. pose proof (H i (or_introl eq_refl)) as Hi.
  destruct i; try contradiction Hi. cbn [filter map name_of iname]. f_equal. apply IH. intros j Hj. apply H. right; exact Hj.
Qed.
Lemma stas_only : forall l, (forall i, In i l -> is_sta i) ->
  filter (fun i => match i with Def _ _ _ => true | _ => false end) l = [].
Proof.
  induction l as [|i l IH]; intro H; [reflexivity|]. pose proof (H i (or_introl eq_refl)) as Hi.
  destruct i; try contradiction Hi. cbn [filter]. apply IH. intros j Hj. apply H. right; exact Hj.
Qed.

Lemma global_defs_eq : forall u, units_ok u -> global_defs u =
  map iname (workspace_c u) ++ map iname (solve_fns u)
  ++ when (u_gradient u) (map iname (gradient_ext u))
  ++ when (single_grad u) (map iname (grad_workspace_c u ++ compute_c u)).
Proof.
  intros u OK. unfold global_defs, units. rewrite flat_map_app. cbn [flat_map snd].
  rewrite (defs_only (workspace_c u)) by apply (defs_workspace u).
  unfold solve_c. rewrite filter_app, stas_only by (intros i Hi; apply (sta_solve u), Hi). cbn [app].
  rewrite defs_only by (intros i Hi; apply (solve_fns_def u OK), Hi).
  rewrite app_nil_r, <- app_assoc. f_equal. f_equal. unfold single_grad.
  destruct (u_gradient u) eqn:G; [|reflexivity]. cbn [when andb].
  assert (GC : map name_of (filter (fun i => match i with Def _ _ _ => true | _ => false end) (gradient_c u)) = map iname (gradient_ext u)).
  { unfold gradient_c. rewrite filter_app, stas_only by (intros i Hi; apply (sta_gradient u OK G), Hi). cbn [app].
    rewrite defs_only by (intros i Hi; apply (gradient_fns_known u G), Hi). apply (gradient_fns_names u). }
  destruct (expl u); cbn [flat_map snd negb when]; rewrite GC, ?app_nil_r; [reflexivity|].
  rewrite (defs_only (grad_workspace_c u)) by (intros i Hi; apply (grad_defs u), in_or_app; auto).
  rewrite (defs_only (compute_c u)) by (intros i Hi; apply (grad_defs u), in_or_app; auto).
  rewrite map_app. reflexivity.
Qed.

Theorem C79_once : forall u, units_ok u -> NoDup (global_defs u).
Proof.
  intros u OK. rewrite (global_defs_eq u OK).
  assert (N : NoDup (map iname (solve_ext u ++ workspace_c u ++ items_if (u_gradient u) (gradient_ext u)
                ++ items_if (single_grad u) (grad_workspace_c u ++ compute_c u)))).
  { pose proof (NoDup_all u OK (workspace_c u ++ solve_ext u ++ items_if (u_gradient u) (gradient_ext u)
       ++ items_if (single_grad u) (grad_workspace_c u ++ compute_c u))) as N.
    assert (Q : exists a b, all_items u = a ++ (workspace_c u ++ solve_ext u ++ items_if (u_gradient u) (gradient_ext u)
       ++ items_if (single_grad u) (grad_workspace_c u ++ compute_c u)) ++ b).
    { exists []. eexists. unfold all_items. cbn [app]. rewrite <- !app_assoc. reflexivity. }
    specialize (N Q). revert N. apply Permutation_NoDup. apply Permutation_map.
    rewrite !app_assoc. do 2 apply Permutation_app_tail. apply Permutation_app_comm. }
  rewrite map_app in N. apply (NoDup_swap _ (map iname (solve_fns u))) in N.
  - revert N. apply Permutation_NoDup. rewrite !map_app, !names_if. rewrite !app_assoc.
    do 2 apply Permutation_app_tail. apply Permutation_app_comm.
  - apply (solve_fns_NoDup u OK).
  - intros x Hx. apply (solve_fns_incl u OK), Hx.
Qed.

(** Declared in a generated header and defined nowhere: exactly these names. *)
Inductive left_out (u : uin) : string -> Prop :=
  | lo_var : forall v, In v (u_vars u) -> w_size v <> 1 -> (w_sym v = true \/ sol_static (u_if u) = false) ->
      left_out u (u_prefix u ++ "cpg_" ++ w_name v)
  | lo_dual : forall n s, In (n, s) (u_duals u) -> s <> 1 -> sol_static (u_if u) = false ->
      left_out u (u_prefix u ++ "cpg_" ++ n)
  | lo_scs_A : u_if u = ISCS -> left_out u (u_prefix u ++ "scs_A")
  | lo_scs_P : u_if u = ISCS -> (exists b, In b (u_blocks u) /\ k_id b = "P") -> left_out u (u_prefix u ++ "scs_P")
  | lo_A : forall b, In b (u_blocks u) -> u_explicit u <> 0 -> k_id b = "A" -> k_len b <> 0 ->
      left_out u (u_prefix u ++ "canon_A")
  | lo_P : forall b, In b (u_blocks u) -> u_explicit u <> 0 -> u_reduced u = true -> k_id b = "P" -> k_len b <> 0 ->
      left_out u (u_prefix u ++ "canon_P")
  | lo_param : forall n s, In (n, s) (u_params u) -> ~ In n (written_params u) ->
      left_out u (u_prefix u ++ "cpg_update_" ++ n).

(** Names of the solver's own code. *)
Definition from_solver (u : uin) (x : string) : Prop := In x (map name_of (provided_items u)).

Lemma iname_eq : forall i, name_of i = iname i. Proof. destruct i; reflexivity. Qed.
Lemma left_out_phantom : forall u x, In x (map iname (phantom_vars u ++ phantom_duals u ++ phantom_scs u)) -> left_out u x.
Proof.
  intros u x H. rewrite !map_app, !in_app_iff in H. destruct H as [H|[H|H]]; apply in_map_iff in H; destruct H as [i [<- Hi]].
  - unfold phantom_vars in Hi. apply in_map_iff in Hi. destruct Hi as [v [<- Hv]]. apply filter_In in Hv. destruct Hv as [Hv O].
    unfold own_array, scalar_var in O. rewrite andb_true_iff, orb_true_iff, !negb_true_iff in O. destruct O as [O1 O2].
    apply Nat.eqb_neq in O1. apply (lo_var u v); tauto.
  - unfold phantom_duals in Hi. apply in_if in Hi. destruct Hi as [S0 Hi]. apply negb_true_iff in S0.
    apply in_map_iff in Hi. destruct Hi as [[n s] [<- Hd]]. unfold vec_duals in Hd. apply filter_In in Hd. destruct Hd as [Hd N].
    apply negb_true_iff, Nat.eqb_neq in N. apply (lo_dual u n s); auto.
  - unfold phantom_scs in Hi. apply in_if in Hi. destruct Hi as [S0 Hi]. apply iface_eqb_true in S0.
    apply in_app_or in Hi. destruct Hi as [Hi|[<-|[]]]; [|apply (lo_scs_A u S0)].
    apply in_if in Hi. destruct Hi as [E [<-|[]]]. apply existsb_exists in E. destruct E as [b [Hb E]]. apply String.eqb_eq in E.
    apply (lo_scs_P u S0). eauto.
Qed.
Lemma left_out_hidden : forall u x, In x (map iname (hidden_items u)) -> left_out u x.
Proof.
  intros u x H. apply in_map_iff in H. destruct H as [i [<- Hi]]. unfold hidden_items in Hi. apply in_flat_map in Hi.
  destruct Hi as [b [Hb Hi]]. apply filter_In in Hb. destruct Hb as [Hb K]. unfold block_kept in K.
  rewrite negb_true_iff, orb_false_iff, !negb_false_iff in K. destruct K as [EX K].
  unfold expl in EX. apply negb_true_iff, Nat.eqb_neq in EX.
  unfold param_ext in Hi. destruct (block_empty b) eqn:EB; [destruct Hi|]. destruct Hi as [<-|[]]. cbn [iname].
  unfold block_empty in EB. apply Nat.eqb_neq in EB.
  apply orb_true_iff in K. destruct K as [K|K].
  - apply String.eqb_eq in K. rewrite K. apply (lo_A u b); auto.
  - apply andb_true_iff in K. destruct K as [R K]. apply String.eqb_eq in K. rewrite K. apply (lo_P u b); auto.
Qed.
Lemma phantom_left_out : forall u, units_ok u -> forall x, left_out u x ->
  In x (map iname (phantom_vars u ++ phantom_duals u ++ phantom_scs u ++ hidden_items u))
  \/ exists n s, In (n, s) (u_params u) /\ ~ In n (written_params u) /\ x = pre u (update_fn n).
Proof.
  intros u OK x H. destruct H as [v Hv N O|n s Hd N S0|S0|S0 [b [Hb E]]|b Hb EX K L|b Hb EX R K L|n s Hp N].
  - left. rewrite map_app. apply in_or_app. left. unfold phantom_vars. rewrite map_map. cbn [iname].
    apply (in_map (fun v => pre u ("cpg_" ++ w_name v)%string)). apply filter_In. split; [exact Hv|].
    unfold own_array, scalar_var. apply andb_true_iff. rewrite orb_true_iff, !negb_true_iff, Nat.eqb_neq. tauto.
  - left. rewrite !map_app, !in_app_iff. right. left. unfold phantom_duals. rewrite S0. cbn [negb items_if]. rewrite map_map. cbn [iname].
    apply (in_map (fun d => pre u ("cpg_" ++ fst d)%string) _ (n, s)). apply filter_In. split; [exact Hd|].
    apply negb_true_iff, Nat.eqb_neq. exact N.
  - left. rewrite !map_app, !in_app_iff. do 2 right. left. unfold phantom_scs. rewrite S0. cbn [iface_eqb items_if].
    rewrite map_app. apply in_or_app. right. left. reflexivity.
  - left. rewrite !map_app, !in_app_iff. do 2 right. left. unfold phantom_scs. rewrite S0. cbn [iface_eqb items_if].
    rewrite map_app. apply in_or_app. left.
    replace (existsb (fun b => String.eqb (k_id b) "P") (u_blocks u)) with true; [left; reflexivity|].
    symmetry. apply existsb_exists. exists b. split; [exact Hb|]. apply String.eqb_eq, E.
  - left. rewrite !map_app, !in_app_iff. do 3 right. unfold hidden_items. apply in_map_iff.
    exists (Ext (pre u ("canon_" ++ "A" ++ "")%string) csc). split; [reflexivity|]. apply in_flat_map. exists b. split.
    + apply filter_In. split; [exact Hb|]. unfold block_kept, expl. apply Nat.eqb_neq in EX. rewrite EX, K. reflexivity.
    + unfold param_ext, block_empty. apply Nat.eqb_neq in L. rewrite L, K. left; reflexivity.
  - left. rewrite !map_app, !in_app_iff. do 3 right. unfold hidden_items. apply in_map_iff.
    exists (Ext (pre u ("canon_" ++ "P" ++ "")%string) csc). split; [reflexivity|]. apply in_flat_map. exists b. split.
    + apply filter_In. split; [exact Hb|]. unfold block_kept, expl. apply Nat.eqb_neq in EX. rewrite EX, K, R. reflexivity.
    + unfold param_ext, block_empty. apply Nat.eqb_neq in L. rewrite L, K. left; reflexivity.
  - right. exists n, s. auto.
Qed.

(** Names in the two parts of all_items. *)
Lemma all_parts : forall u x, In x (map iname (all_items u)) <->
  In x (map iname (workspace_c u)) \/ In x (map iname (solve_ext u)) \/ In x (when (u_gradient u) (map iname (gradient_ext u)))
  \/ In x (when (single_grad u) (map iname (grad_workspace_c u ++ compute_c u)))
  \/ In x (map iname (provided_items u))
  \/ In x (map iname (phantom_vars u ++ phantom_duals u ++ phantom_scs u ++ hidden_items u)).
Proof.
  intros u x. unfold all_items.
  rewrite (map_app iname (workspace_c u)), (map_app iname (solve_ext u)), (map_app iname (items_if (u_gradient u) _)),
    (map_app iname (items_if (single_grad u) _)), (map_app iname (provided_items u)), !in_app_iff, !names_if. reflexivity.
Qed.

Lemma header_in_all : forall u, units_ok u -> forall x, In x (map iname (headers u)) -> In x (map iname (all_items u)).
Proof.
  intros u OK x Hx. apply in_map_iff in Hx. destruct Hx as [i [<- Hi]].
  assert (K : In (sig i) (T u)).
  { unfold headers in Hi. rewrite !in_app_iff, in_if, in_app_iff, in_if in Hi.
    destruct Hi as [Hi|[Hi|[G [Hi|[EX Hi]]]]].
    - apply (workspace_h_known u OK), Hi.
    - apply (solve_ext_known u), Hi.
    - apply (gradient_ext_known u G), Hi.
    - apply (grad_compute_h_known u OK); [unfold single_grad; rewrite G, EX; reflexivity|exact Hi]. }
  unfold T in K. apply in_map_iff in K. destruct K as [j [E Hj]]. apply (f_equal fst) in E. 
  assert (EQ : iname j = iname i) by (destruct i, j; exact E). rewrite <- EQ. apply in_map, Hj.
Qed.

Lemma phantom_declared : forall u, units_ok u -> forall i,
  In i (phantom_vars u ++ phantom_duals u ++ phantom_scs u ++ hidden_items u) -> In i (workspace_h u).
Proof.
  intros u OK i Hi. rewrite !in_app_iff in Hi. unfold workspace_h. rewrite !in_app_iff.
  destruct Hi as [Hi|[Hi|[Hi|Hi]]].
  - do 11 right. left. exact Hi.
  - do 12 right. left. exact Hi.
  - do 18 right. left. unfold phantom_scs in Hi. apply in_if in Hi. destruct Hi as [S0 Hi]. apply iface_eqb_true in S0.
    unfold solver_ext. rewrite S0. cbn [ws_static negb items_if]. apply in_app_or in Hi. apply in_or_app. destruct Hi as [Hi|[<-|[]]]; [left; exact Hi|right; left; reflexivity].
  - do 4 right. left. unfold hidden_items in Hi. apply in_flat_map in Hi. destruct Hi as [b [Hb Hi]]. apply filter_In in Hb.
    destruct Hb as [Hb K]. apply in_flat_map. exists b. split; [exact Hb|]. apply in_if. split; [|apply in_or_app; left; exact Hi].
    unfold block_kept in K. rewrite negb_true_iff, orb_false_iff, !negb_false_iff in K. destruct K as [_ K].
    apply negb_true_iff. destruct (String.eqb_spec (k_id b) "d") as [E|]; [|reflexivity].
    rewrite E in K. cbn in K. rewrite andb_false_r in K. discriminate.
Qed.

Lemma NoDup_tail : forall (a b : list string), NoDup (a ++ b) -> NoDup b.
Proof. induction a as [|z a IH]; intros b N; [exact N|]. inversion N; subst. auto. Qed.
Theorem C79_undefined : forall u, units_ok u -> forall x, In x (map name_of (headers u)) ->
  ((In x (global_defs u) \/ from_solver u x) <-> ~ left_out u x).
Proof.
  intros u OK x Hx. unfold from_solver. rewrite (map_ext _ _ iname_eq) in Hx. rewrite (map_ext _ _ iname_eq).
  rewrite (global_defs_eq u OK), !in_app_iff.
  pose proof (all_NoDup u OK) as N. apply NoDup_cons_iff in N. destruct N as [_ N].
  destruct (solve_fns_names u) as [r [E1 E2]].
  split.
  - intros H L. apply (phantom_left_out u OK) in L. destruct L as [L|[n [s [Hp [HN ->]]]]].
    + set (p := phantom_vars u ++ phantom_duals u ++ phantom_scs u ++ hidden_items u) in *.
      set (a := workspace_c u ++ solve_ext u ++ items_if (u_gradient u) (gradient_ext u)
        ++ items_if (single_grad u) (grad_workspace_c u ++ compute_c u) ++ provided_items u).
      assert (EA : all_items u = a ++ p) by (unfold all_items, a, p; rewrite <- !app_assoc; reflexivity).
      rewrite EA, map_app in N. apply (NoDup_app_disj _ _ _ x N); [|exact L]. unfold a.
      rewrite (map_app iname (workspace_c u)), (map_app iname (solve_ext u)), (map_app iname (items_if (u_gradient u) _)),
          (map_app iname (items_if (single_grad u) _)), !in_app_iff, !names_if.
      destruct H as [[H|[H|[H|H]]]|H]; auto 6. apply (solve_fns_incl u OK) in H. auto.
    + assert (M : In (pre u (update_fn n)) (map (fun q => pre u (update_fn (fst q))) (u_params u))).
      { apply (in_map (fun q => pre u (update_fn (fst q))) _ (n, s)), Hp. }
      unfold all_items in N. rewrite (map_app iname (workspace_c u)), (map_app iname (solve_ext u)), (map_app iname (items_if (u_gradient u) _)),
          (map_app iname (items_if (single_grad u) _)), (map_app iname (provided_items u)), !names_if, E1 in N. rewrite E2 in H.
      revert N H M. generalize (map iname (workspace_c u)) (map iname (provided_items u)) (when (u_gradient u) (map iname (gradient_ext u)))
        (when (single_grad u) (map iname (grad_workspace_c u ++ compute_c u))).
      intros w pr g sg N H M. rewrite <- app_assoc in N.
      assert (D1 : ~ In (pre u (update_fn n)) w).
      { intro K. apply (NoDup_app_disj _ _ _ _ N K). apply in_or_app. auto. }
      apply NoDup_tail in N.
      assert (D2 : forall K, In (pre u (update_fn n)) (r ++ g ++ sg ++ pr ++ K) ->
                    NoDup (map (fun q => pre u (update_fn (fst q))) (u_params u) ++ r ++ g ++ sg ++ pr ++ K) -> False).
      { intros K HK NK. apply (NoDup_app_disj _ _ _ _ NK M HK). }
      assert (R : In (pre u (update_fn n)) r \/ In (pre u (update_fn n)) g \/ In (pre u (update_fn n)) sg \/ In (pre u (update_fn n)) pr -> False).
      { intro K. eapply D2; [|exact N]. rewrite !in_app_iff. tauto. }
      rewrite in_app_iff in H. destruct H as [[H|[[H|H]|[H|H]]]|H]; try tauto.
      apply in_map_iff in H. destruct H as [m [E Hm]]. do 2 apply append_inj_l in E. subst m. contradiction.
  - intro NL. apply (header_in_all u OK) in Hx. apply all_parts in Hx.
    destruct Hx as [Hx|[Hx|[Hx|[Hx|[Hx|Hx]]]]]; auto 6.
    + rewrite E1 in Hx. apply in_app_or in Hx. destruct Hx as [Hx|Hx].
      * apply in_map_iff in Hx. destruct Hx as [[n s] [<- Hq]]. cbn [fst] in NL |- *.
        destruct (in_dec string_dec n (written_params u)) as [HW|HW].
        -- left. right. left. rewrite E2. apply in_or_app. left. apply (in_map (fun n => pre u (update_fn n))), HW.
        -- exfalso. apply NL. apply (lo_param u n s); auto.
      * left. right. left. rewrite E2. apply in_or_app. auto.
    + exfalso. apply NL. rewrite !app_assoc, map_app in Hx. apply in_app_or in Hx. destruct Hx as [Hx|Hx].
      * apply left_out_phantom. rewrite app_assoc. exact Hx.
      * apply left_out_hidden, Hx.
Qed.
(** And these names are indeed declared. *)
Theorem C79_declared : forall u, units_ok u -> forall x, left_out u x -> In x (map name_of (headers u)).
Proof.
  intros u OK x L. rewrite (map_ext _ _ iname_eq). apply (phantom_left_out u OK) in L. unfold headers.
  destruct L as [L|[n [s [Hp [_ ->]]]]].
  - apply in_map_iff in L. destruct L as [i [<- Hi]]. apply in_map, in_or_app. left. apply (phantom_declared u OK), Hi.
  - rewrite !map_app. apply in_or_app. right. apply in_or_app. left. destruct (solve_fns_names u) as [r [E1 _]]. rewrite E1.
    apply in_or_app. left. apply (in_map (fun q => pre u (update_fn (fst q))) _ (n, s)), Hp.
Qed.

(** Parameters with at least one entry all get their update function, in order. *)
Theorem C79_params : forall u, (forall n s, In (n, s) (u_params u) -> 0 < s) -> written_params u = map fst (u_params u).
Proof.
  intros u H. unfold written_params. rewrite (col_to_name_all (u_params u) 0 []).
  - reflexivity.
  - intros q [].
  - intros q [].
  - intros [n s] Hq. apply (H n s Hq).
Qed.

(** The initialiser of the gradient workspace gives the 28 fields of the struct in order, each
    with the field's type. *)
Theorem C79_gradient_struct : forall u, grad_init u = grad_struct.
Proof. intro u. reflexivity. Qed.

(** ** Concrete programs *)

Definition b5 (n : string) (c : bool) (k : nat) : ublock := mkUB n c k 3 k 9.
Definition osqp_u : uin :=
  mkU IOSQP "qp_" true 0 [b5 "P" true 2; b5 "q" true 2; b5 "d" false 1; b5 "A" true 6; b5 "l" false 3; b5 "u" true 3]
      [mkUV "X" 4 true; mkUV "x" 3 false; mkUV "t" 1 false] false [] [("d0", 2); ("d1", 1)] [("a", 3); ("b", 1)]
      [("max_iter", "cpg_int"); ("eps_abs", "cpg_float")] 5 0 0 8 1 2 0 0.
Definition pdaqp_u (p : string) (vs : list uvar3) (ps : list (string * nat)) : uin :=
  mkU IPDAQP p true 2 [b5 "P" true 2; b5 "q" true 2; b5 "d" true 1; b5 "A" true 6; b5 "l" false 3; b5 "u" true 3]
      vs false [2; 3] [("d0", 2); ("d1", 1)] ps [("max_iter", "cpg_int")] 5 2 3 5 1 2 0 0.
Definition scs_u (nA : nat) : uin :=
  mkU ISCS "" false 0 [b5 "P" false 2; b5 "c" true 2; b5 "d" true 1; b5 "A" true nA; b5 "b" true 3]
      [mkUV "x" 3 false; mkUV "t" 1 false] false [] [("d0", 2); ("d1", 1)] [("a", 3); ("b", 1)]
      [("max_iters", "cpg_int")] 5 0 0 8 1 2 1 0.

Ltac concrete := try discriminate; try (vm_compute; reflexivity);
  try (apply subseqb; vm_compute; reflexivity); try (apply nodupb_NoDup; vm_compute; reflexivity);
  try (apply not_mem; vm_compute; reflexivity).
Lemma forall_mem : forall A (l : list A) (f : A -> bool), forallb f l = true -> forall a, In a l -> f a = true.
Proof. intros A l f H. apply forallb_forall, H. Qed.

Lemma osqp_u_ok : units_ok osqp_u.
Proof.
  constructor.
  - constructor; concrete.
    + intros d [<-|[<-|[]]]; reflexivity.
    + intros v [<-|[<-|[<-|[]]]] H; vm_compute in H |- *; congruence.
    + intros v [<-|[<-|[<-|[]]]] H; try discriminate H; split; apply not_mem; vm_compute; reflexivity.
    + intros _ v [<-|[<-|[<-|[]]]]; apply not_mem; vm_compute; reflexivity.
  - discriminate.
  - cbn. lia.
  - discriminate.
  - discriminate.
Qed.
Lemma pdaqp_u_ok : forall k, units_ok (pdaqp_u "" [mkUV "X" 4 true; mkUV "t" 1 false] [("a", k); ("b", 1)]).
Proof.
  intro k. constructor.
  - constructor; concrete.
    + intros d [<-|[<-|[]]]; reflexivity.
    + intros v [<-|[<-|[]]] H; vm_compute in H |- *; congruence.
    + intros v [<-|[<-|[]]] H; try discriminate H; split; apply not_mem; vm_compute; reflexivity.
    + intros _ v [<-|[<-|[]]]; apply not_mem; vm_compute; reflexivity.
  - reflexivity.
  - cbn. lia.
  - discriminate.
  - intros _ _ v [<-|[<-|[]]] _; apply not_mem; vm_compute; reflexivity.
Qed.
Lemma scs_u_ok : units_ok (scs_u 6).
Proof.
  constructor.
  - constructor; concrete.
    + intros d [<-|[<-|[]]]; reflexivity.
    + intros v [<-|[<-|[]]] H; vm_compute in H |- *; congruence.
    + intros v [<-|[<-|[]]] H; try discriminate H; split; apply not_mem; vm_compute; reflexivity.
  - discriminate.
  - cbn. lia.
  - intros _ n [->|[->|[->|[-> _]]]]; [exists (b5 "A" true 6)|exists (b5 "b" true 3)|exists (b5 "c" true 2)|exists (b5 "P" false 2)];
      cbn; auto 10.
  - discriminate.
Qed.

Definition sizes (u : uin) := map (fun f => (fst (fst f), length (snd (fst f)), length (snd f))) (units u).
Example C79_files_example : units_ok osqp_u /\ units_ok (pdaqp_u "" [mkUV "X" 4 true; mkUV "t" 1 false] [("a", 3); ("b", 1)])
  /\ units_ok (scs_u 6)
  /\ sizes osqp_u = [("cpg_workspace.c", 24, 39); ("cpg_solve.c", 61, 15); ("cpg_gradient.c", 86, 7);
                       ("cpg_osqp_grad_workspace.c", 25, 43); ("cpg_osqp_grad_compute.c", 25, 18)].
Proof. split; [apply osqp_u_ok|]. split; [apply pdaqp_u_ok|]. split; [apply scs_u_ok|]. vm_compute. reflexivity. Qed.

Example C79_check_example : valid_file [Ext "f" (CFun "void" ["cpg_int"]); Sta "i" it; Def "f" (CFun "void" ["cpg_int"]) ["i"]]
  /\ ~ valid_file [Ext "f" (CFun "void" ["cpg_int"]); Def "f" (CFun "void" ["cpg_float"]) []].
Proof.
  split.
  - apply C79_check. eexists. vm_compute. reflexivity.
  - intro H. apply C79_check in H. destruct H as [e H]. vm_compute in H. discriminate.
Qed.
Example C79_types_example : let u := osqp_u in
  in_file u (Ext "qp_cpg_update_a" (CFun "void" ["cpg_int"; "cpg_float"]))
  /\ length (global_defs u) = 117.
Proof.
  split; [|vm_compute; reflexivity]. exists "cpg_solve.c". eexists. eexists. split; [right; left; reflexivity|].
  apply in_or_app. left. vm_compute. tauto.
Qed.
Example C79_once_example : units_ok (scs_u 6) /\ length (global_defs (scs_u 6)) = 57.
Proof. split; [apply scs_u_ok|vm_compute; reflexivity]. Qed.
Example C79_undefined_example : let u := pdaqp_u "" [mkUV "X" 4 true; mkUV "t" 1 false] [("a", 3); ("b", 1)] in
  units_ok u /\ filter (fun x => negb (mem_str x (global_defs u ++ map name_of (provided_items u)))) (map name_of (headers u))
                = ["canon_A"; "cpg_X"].
Proof. split; [apply pdaqp_u_ok|vm_compute; reflexivity]. Qed.
Example C79_declared_example : left_out (scs_u 6) "scs_P" /\ left_out osqp_u "qp_cpg_X".
Proof.
  split.
  - apply (lo_scs_P (scs_u 6)); [reflexivity|]. exists (b5 "P" false 2). cbn. auto.
  - apply (lo_var osqp_u (mkUV "X" 4 true)); [left; reflexivity|discriminate|left; reflexivity].
Qed.
Example C79_params_example : written_params osqp_u = ["a"; "b"].
Proof. apply C79_params. intros n s [E|[E|[]]]; injection E as <- <-; lia. Qed.
Example C79_gradient_struct_example : length (grad_init osqp_u) = 28.
Proof. reflexivity. Qed.

Lemma dx_names : names_ok (to_syms (pdaqp_u "" [mkUV "dx" 4 true; mkUV "t" 1 false] [("a", 3); ("b", 1)])).
Proof.
  constructor; concrete.
  - intros d [<-|[<-|[]]]; reflexivity.
  - intros v [<-|[<-|[]]] H; vm_compute in H |- *; congruence.
  - intros v [<-|[<-|[]]] H; try discriminate H; split; apply not_mem; vm_compute; reflexivity.
  - intros _ v [<-|[<-|[]]]; apply not_mem; vm_compute; reflexivity.
Qed.
Lemma scs_0_names : names_ok (to_syms (scs_u 0)).
Proof.
  constructor; concrete.
  - intros d [<-|[<-|[]]]; reflexivity.
  - intros v [<-|[<-|[]]] H; vm_compute in H |- *; congruence.
  - intros v [<-|[<-|[]]] H; try discriminate H; split; apply not_mem; vm_compute; reflexivity.
Qed.

(** Outside the conditions. A symmetric variable dx next to the explicit gradient: cpg_gradient.c
    has a file-local array of the name that cpg_workspace.h declares. *)
Theorem C79_local_refuted : exists u f h d,
  names_ok (to_syms u) /\ u_if u = IPDAQP /\ u_explicit u = 2 /\ u_gradient u = true /\ u_prefix u = ""
  /\ u_vars u = [mkUV "dx" 4 true; mkUV "t" 1 false]
  /\ In (f, h, d) (units u) /\ f = "cpg_gradient.c" /\ compile (h ++ d) = inl (Conflict "cpg_dx") /\ ~ valid_file (h ++ d).
Proof.
  set (u := pdaqp_u "" [mkUV "dx" 4 true; mkUV "t" 1 false] [("a", 3); ("b", 1)]).
  exists u, "cpg_gradient.c", (gradient_h u ++ workspace_h u ++ solver_header u), (gradient_c u).
  assert (C : compile ((gradient_h u ++ workspace_h u ++ solver_header u) ++ gradient_c u) = inl (Conflict "cpg_dx"))
    by (vm_compute; reflexivity).
  split; [|split; [reflexivity|split; [reflexivity|split; [reflexivity|split; [reflexivity|split; [reflexivity|split]]]]]].
  - apply dx_names.
  - do 2 right. left. reflexivity.
  - split; [reflexivity|]. split; [exact C|]. intro V. apply C79_check in V. destruct V as [e V]. congruence.
Qed.

(** A parameter without entries that is not the last: its update function is declared (and
    called by the example program and the Python binding) but not written. *)
Theorem C79_empty_refuted : exists u n, units_ok u /\ In (n, 0) (u_params u)
  /\ In (u_prefix u ++ "cpg_update_" ++ n)%string (map name_of (headers u))
  /\ ~ In (u_prefix u ++ "cpg_update_" ++ n)%string (global_defs u).
Proof.
  exists (pdaqp_u "" [mkUV "X" 4 true; mkUV "t" 1 false] [("a", 0); ("b", 1)]), "a".
  split; [apply pdaqp_u_ok|]. split; [left; reflexivity|]. split; [|apply not_mem; vm_compute; reflexivity].
  apply mem_str_In. vm_compute. reflexivity.
Qed.

(** SCS with a constraint matrix that stores nothing: the initialisers use its name, which is
    neither declared nor defined. *)
Theorem C79_scs_refuted : exists u f h d, names_ok (to_syms u) /\ u_if u = ISCS
  /\ In (f, h, d) (units u) /\ (exists x, compile (h ++ d) = inl (Undeclared x)) /\ ~ valid_file (h ++ d).
Proof.
  exists (scs_u 0), "cpg_workspace.c", (workspace_h (scs_u 0)), (workspace_c (scs_u 0)).
  assert (C : exists x, compile (workspace_h (scs_u 0) ++ workspace_c (scs_u 0)) = inl (Undeclared x))
    by (eexists; vm_compute; reflexivity).
  split; [|split; [reflexivity|split; [left; reflexivity|split; [exact C|]]]].
  - apply scs_0_names.
  - intro V. apply C79_check in V. destruct V as [e V], C as [x C]. congruence.
Qed.

Print Assumptions C79_check.
Print Assumptions C79_files.
Print Assumptions C79_types.
Print Assumptions C79_once.
Print Assumptions C79_undefined.
Print Assumptions C79_declared.
Print Assumptions C79_params.
Print Assumptions C79_gradient_struct.
Print Assumptions C79_local_refuted.
Print Assumptions C79_empty_refuted.
Print Assumptions C79_scs_refuted.
