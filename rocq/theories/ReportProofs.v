(** Proofs for C74. *)

From Coq Require Import String Ascii Arith Bool ZArith QArith Lia List.
From Verif Require Import Base Pus Machine Runtime Retrieve RetrieveProofs Wrapper Literals LiteralsProofs Report ReportSpec.
Import ListNotations.
Open Scope list_scope.
Open Scope nat_scope.

(** ** Dictionaries *)

Lemma dict_set_keys : forall A k (v : A) l,
    map fst (dict_set k v l) = if mem_str k (map fst l) then map fst l else map fst l ++ [k].
Proof.
  induction l as [|[k' v'] t IH]; simpl; auto.
  destruct (String.eqb k k') eqn:E; simpl.
  - auto.
  - rewrite IH. unfold mem_str. destruct (existsb (String.eqb k) (map fst t)); auto.
Qed.

Lemma dict_set_nodup : forall A k (v : A) l, NoDup (map fst l) -> NoDup (map fst (dict_set k v l)).
Proof.
  intros A k v l H. rewrite dict_set_keys. destruct (mem_str k (map fst l)) eqn:E; auto.
  apply NoDup_app'; auto. { constructor; [intros []|constructor]. }
  intros x H1 [<-|[]]. apply mem_str_In in H1. congruence.
Qed.

Definition dput {A} (d : list (string * A)) (kv : string * A) := dict_set (fst kv) (snd kv) d.

Lemma fold_nodup : forall A (l : list (string * A)) d, NoDup (map fst d) -> NoDup (map fst (fold_left dput l d)).
Proof. induction l; simpl; intros; auto. apply IHl. apply dict_set_nodup. auto. Qed.

Lemma dict_nodup : forall A (l : list (string * A)), NoDup (map fst (dict_of l)).
Proof. intros. apply (fold_nodup A l []). constructor. Qed.

Lemma fold_assoc_none : forall A (l : list (string * A)) d k, ~ In k (map fst l) -> assoc k (fold_left dput l d) = assoc k d.
Proof.
  induction l as [|[k' v] t IH]; simpl; intros d k H; auto.
  rewrite IH by tauto. apply assoc_dict_set_neq. intro; apply H; auto.
Qed.

Lemma dict_app : forall A (l1 l2 : list (string * A)), dict_of (l1 ++ l2) = fold_left dput l2 (dict_of l1).
Proof. intros. unfold dict_of. apply fold_left_app. Qed.

Lemma dict_last : forall A (l1 l2 : list (string * A)) k v, ~ In k (map fst l2) -> assoc k (dict_of (l1 ++ (k, v) :: l2)) = Some v.
Proof.
  intros. rewrite dict_app. cbn [fold_left]. rewrite fold_assoc_none; auto. apply assoc_dict_set_eq.
Qed.

Lemma last_split : forall A (l : list (string * A)) k, In k (map fst l) ->
    exists l1 v l2, l = l1 ++ (k, v) :: l2 /\ ~ In k (map fst l2).
Proof.
  intros A l k H. induction l as [|[k' v] t IH]; [destruct H|]. simpl in H.
  destruct (in_dec string_dec k (map fst t)) as [Hi|Hn].
  - destruct (IH Hi) as (l1 & w & l2 & -> & Hn). exists ((k', v) :: l1), w, l2. split; auto.
  - destruct H as [->|H]; [|tauto]. exists [], v, t. auto.
Qed.

Lemma assoc_In : forall A k (l : list (string * A)) v, assoc k l = Some v -> In (k, v) l.
Proof.
  induction l as [|[k' w] t IH]; simpl; intros v H; [discriminate|].
  destruct (String.eqb k k') eqn:E; auto. apply String.eqb_eq in E. subst. injection H as ->. auto.
Qed.

Lemma In_assoc : forall A k (l : list (string * A)) v, NoDup (map fst l) -> In (k, v) l -> assoc k l = Some v.
Proof.
  induction l as [|[k' w] t IH]; simpl; intros v HN H; [destruct H|destruct H as [E|H]].
  - injection E as -> ->. rewrite String.eqb_refl. auto.
  - inversion HN; subst. destruct (String.eqb k k') eqn:E; auto. apply String.eqb_eq in E. subst.
    exfalso. apply H2. apply in_map_iff. exists (k', v). auto.
Qed.

Lemma dict_keys_in : forall A (l : list (string * A)) k, In k (map fst (dict_of l)) <-> In k (map fst l).
Proof.
  intros A l k. split.
  - intro H. destruct (in_dec string_dec k (map fst l)) as [|Hn]; auto. exfalso.
    apply in_map_iff in H. destruct H as ([k' v] & E & Hi). simpl in E. subst k'.
    apply In_assoc in Hi; [|apply dict_nodup]. unfold dict_of in Hi.
    assert (X := fold_assoc_none A l [] k Hn). unfold dput in X. rewrite X in Hi. discriminate.
  - intro H. destruct (last_split _ _ _ H) as (l1 & v & l2 & E & Hn).
    apply in_map_iff. exists (k, v). split; auto. apply assoc_In. rewrite E. apply dict_last. auto.
Qed.

Lemma dict_pair_last : forall A (l : list (string * A)) k v, In (k, v) (dict_of l) ->
    exists l1 l2, l = l1 ++ (k, v) :: l2 /\ ~ In k (map fst l2).
Proof.
  intros A l k v H. pose proof (In_assoc _ _ _ _ (dict_nodup _ l) H) as Ha.
  assert (Hk : In k (map fst l)). { apply dict_keys_in. apply in_map_iff. exists (k, v); auto. }
  destruct (last_split _ _ _ Hk) as (l1 & w & l2 & E & Hn).
  rewrite E in Ha. rewrite dict_last in Ha by auto. injection Ha as ->. eauto.
Qed.

(** Distinct keys: nothing is overwritten. *)
Lemma dict_set_new : forall A k (v : A) l, ~ In k (map fst l) -> dict_set k v l = l ++ [(k, v)].
Proof.
  induction l as [|[k' w] t IH]; simpl; intro H; auto.
  destruct (String.eqb k k') eqn:E. { apply String.eqb_eq in E. subst. tauto. }
  rewrite IH; tauto.
Qed.
Lemma fold_distinct : forall A (l : list (string * A)) d, NoDup (map fst (d ++ l)) -> fold_left dput l d = d ++ l.
Proof.
  induction l as [|[k v] t IH]; simpl; intros d H. { rewrite app_nil_r; auto. }
  unfold dput at 2. simpl. rewrite dict_set_new.
  - rewrite IH; rewrite <- app_assoc; auto.
  - rewrite map_app in H. simpl in H. apply NoDup_remove_2 in H. intro X. apply H. apply in_or_app. auto.
Qed.
Lemma dict_distinct : forall A (l : list (string * A)), NoDup (map fst l) -> dict_of l = l.
Proof. intros. apply (fold_distinct A l []). auto. Qed.

(** Dictionaries over related lists. *)
Lemma dict_set_rel : forall A B (R : A -> B -> Prop) k v w l l',
    Forall2 (fun a b => fst a = fst b /\ R (snd a) (snd b)) l l' -> R v w ->
    Forall2 (fun a b => fst a = fst b /\ R (snd a) (snd b)) (dict_set k v l) (dict_set k w l').
Proof.
  intros A B R k v w l l' H HR. induction H as [|[k1 a] [k2 b] t t' [E1 E2] H IH]; simpl.
  - constructor; auto.
  - simpl in E1. subst k2. destruct (String.eqb k k1); constructor; auto.
Qed.
Lemma dict_rel : forall A B (R : A -> B -> Prop) l l',
    Forall2 (fun a b => fst a = fst b /\ R (snd a) (snd b)) l l' ->
    Forall2 (fun a b => fst a = fst b /\ R (snd a) (snd b)) (dict_of l) (dict_of l').
Proof.
  intros A B R l l' H. unfold dict_of.
  assert (G : forall d d', Forall2 (fun a b => fst a = fst b /\ R (snd a) (snd b)) d d' ->
     Forall2 (fun a b => fst a = fst b /\ R (snd a) (snd b)) (fold_left (fun d kv => dict_set (fst kv) (snd kv) d) l d)
             (fold_left (fun d kv => dict_set (fst kv) (snd kv) d) l' d')).
  { induction H as [|[k1 a] [k2 b] t t' [E1 E2] H IH]; simpl; intros; auto.
    apply IH. simpl in E1, E2. subst. apply dict_set_rel; auto. }
  apply G. constructor.
Qed.

(** ** Variables *)

Definition lasts (us : list uvar) : list uvar := map snd (dict_of (map (fun u => (uv_name u, u)) us)).

Lemma keyed_key : forall us k u, In (k, u) (dict_of (map (fun u => (uv_name u, u)) us)) -> k = uv_name u.
Proof.
  intros us k u H. apply dict_pair_last in H. destruct H as (l1 & l2 & E & _).
  assert (Hi : In (k, u) (map (fun u => (uv_name u, u)) us)) by (rewrite E; apply in_or_app; right; left; auto).
  apply in_map_iff in Hi. destruct Hi as (x & E' & _). congruence.
Qed.

Lemma lasts_in : forall us u, In u (lasts us) <-> last_named us u.
Proof.
  intros us u. unfold lasts. split.
  - intro H. apply in_map_iff in H. destruct H as ([k u'] & E & H). simpl in E. subst u'.
    pose proof (keyed_key _ _ _ H) as ->. apply dict_pair_last in H. destruct H as (l1 & l2 & E & Hn).
    apply map_eq_app in E. destruct E as (a & b & -> & E1 & E2).
    destruct b as [|x b]; [discriminate|]. simpl in E2. injection E2 as Ex Eu E2.
    exists a, b. subst x. split; auto. intro X. apply Hn. rewrite <- E2, map_map. simpl. auto.
  - intros (a & b & -> & Hn). apply in_map_iff. exists (uv_name u, u). split; auto.
    apply assoc_In. rewrite map_app. simpl. apply dict_last. rewrite map_map. simpl. auto.
Qed.

Lemma lasts_names : forall us, map uv_name (lasts us) = map fst (dict_of (map (fun u => (uv_name u, u)) us)).
Proof.
  intros us. unfold lasts. rewrite map_map. apply map_ext_in. intros [k u] H. simpl. symmetry. eapply keyed_key; eauto.
Qed.

Lemma lasts_nodup : forall us, NoDup (map uv_name (lasts us)).
Proof. intros. rewrite lasts_names. apply dict_nodup. Qed.

Lemma lasts_incl : forall us u, In u (lasts us) -> In u us.
Proof. intros us u H. apply lasts_in in H. destruct H as (a & b & -> & _). apply in_or_app; right; left; auto. Qed.

Lemma lasts_vars_ok : forall red us, sizes_ok red us -> vars_ok red (lasts us).
Proof.
  intros red us (H1 & H2 & H3). constructor.
  - apply lasts_nodup.
  - intros; apply H2, lasts_incl; auto.
  - intros; apply H3; auto. apply lasts_incl; auto.
Qed.

Lemma Forall2_map2 : forall A B C D (f : A -> C) (g : B -> D) (P : C -> D -> Prop) l l',
    Forall2 P (map f l) (map g l') <-> Forall2 (fun a b => P (f a) (g b)) l l'.
Proof.
  intros A B C D f g P l. induction l as [|a t IH]; intros [|b t']; simpl; split; intro H; try (inversion H; fail); try constructor.
  - inversion H; auto.
  - apply IH. inversion H; auto.
  - inversion H; auto.
  - apply IH. inversion H; auto.
Qed.

Lemma prim_info_step : forall red us ps, prim_info red us = Ok ps ->
    Forall2 (fun u p => prim_info red [u] = Ok [p] /\ pi_name p = uv_name u /\ pi_shape p = uv_shape u) us ps.
Proof.
  intros red us ps H. unfold prim_info in *. apply mapM_Forall2 in H.
  eapply Forall2_impl; [|exact H]. intros u p E. cbv beta in E. cbn [mapM]. rewrite E. cbn [bind]. split; auto.
  destruct (key (lookup (uv_id u) (var_offsets 0 red))); [|discriminate]. cbn [bind] in E.
  match type of E with bind ?x _ = _ => destruct x as [idx|]; [|discriminate] end. cbn [bind] in E. injection E as <-. auto.
Qed.

Lemma prim_info_unstep : forall red us ps, Forall2 (fun u p => prim_info red [u] = Ok [p]) us ps -> prim_info red us = Ok ps.
Proof.
  intros red us ps H. unfold prim_info. apply mapM_Forall2. eapply Forall2_impl; [|exact H].
  intros u p E. unfold prim_info in E. cbn [mapM] in E.
  match type of E with bind ?x _ = _ => destruct x as [q|] eqn:Eq; [|discriminate] end.
  cbn [bind] in E. congruence.
Qed.

Lemma named_info : forall red us ps, prim_info red us = Ok ps -> prim_info red (lasts us) = Ok (named ps).
Proof.
  intros red us ps H. apply prim_info_step in H. apply prim_info_unstep.
  unfold lasts, named. apply Forall2_map2.
  assert (G : Forall2 (fun a b => fst a = fst b /\ prim_info red [snd a] = Ok [snd b])
     (dict_of (map (fun u => (uv_name u, u)) us)) (dict_of (map (fun p => (pi_name p, p)) ps))).
  { apply (dict_rel _ _ (fun u p => prim_info red [u] = Ok [p])). apply Forall2_map2. eapply Forall2_impl; [|exact H].
    simpl. intros u p (E1 & E2 & _). auto. }
  eapply Forall2_impl; [|exact G]. simpl. tauto.
Qed.

Lemma named_fields : forall red us ps, prim_info red us = Ok ps ->
    Forall2 (fun u p => pi_name p = uv_name u /\ pi_shape p = uv_shape u) (lasts us) (named ps).
Proof.
  intros red us ps H. apply named_info, prim_info_step in H. eapply Forall2_impl; [|exact H]. simpl. tauto.
Qed.

(** The id found under a name. *)
Lemma var_dict_id : forall us u, In u (lasts us) ->
    assoc (uv_name u) (dict_of (map (fun u => (uv_name u, uv_id u)) us)) = Some (uv_id u).
Proof.
  intros us u H. apply lasts_in in H. destruct H as (a & b & -> & Hn). rewrite map_app. simpl.
  apply dict_last. rewrite map_map. simpl. auto.
Qed.

Section Vars.
  Variable K : Type.
  Variable k0 : K.

  (** The copied fields, from the arrays of Retrieve.v. *)
  Lemma c_prim_ok : forall s vs (st : rstate K) rs, primal_results k0 s vs st = Ok rs ->
      exists ls, c_prim s vs st = Ok ls /\ map fst ls = map pi_name vs
        /\ Forall2 (fun v l => exists a, reshapeF k0 (pi_shape v) (snd l) = Ok a) vs ls
        /\ Forall2 (fun (r : string * (list nat -> K)) lv => exists sh, snd r = (fun idx => nth (fpos sh idx) (snd lv) k0)) rs ls
        /\ Forall2 (fun v (rl : (string * (list nat -> K)) * (string * list K)) =>
              reshapeF k0 (pi_shape v) (snd (snd rl)) = Ok (snd (fst rl))) vs (combine rs ls).
  Proof.
    intros s vs st rs H. unfold primal_results in H. unfold c_prim.
    match type of H with bind ?x _ = _ => destruct x as [st'|]; [|discriminate] end. cbn [bind] in *.
    apply mapM_Forall2 in H.
    remember (prim_fields s vs) as fs. remember (prim_arrays s vs) as ar. clear Heqfs Heqar.
    induction H as [|v r vs rs E H IH].
    - exists []. cbn. repeat split; constructor.
    - destruct IH as (ls & E1 & E2 & E3 & E4 & E5). cbn [mapM].
      destruct (read_field fs ar st' (pi_name v) (pi_size v)) as [l|]; [|discriminate]. cbn [bind] in *.
      destruct (reshapeF k0 (pi_shape v) l) as [a|] eqn:Ea; [|discriminate]. cbn [bind] in E. injection E as <-.
      rewrite E1. cbn [bind]. exists ((pi_name v, l) :: ls). split; auto. simpl. split; [congruence|].
      split; [constructor; eauto|]. split.
      + constructor; auto. exists (pi_shape v). unfold reshapeF in Ea. destruct (Nat.eqb _ _); [|discriminate]. injection Ea as <-. auto.
      + constructor; auto.
  Qed.

  Lemma np_array_snd : forall (l : list K), snd (np_array l) = l.
  Proof. intros l. unfold np_array. destruct (Nat.eqb _ _); auto. Qed.

  (** Saving: [f] gives id and data of each name. *)
  Lemma save_vars_ok : forall (up : uprob) (prim : list (string * list K)) l (o : pobj K) (idf : string -> nat) (dat : string -> list K),
      (forall n sh, In (n, sh) l -> assoc n (dict_of (u_vars up)) = Some (idf n) /\ assoc n prim = Some (dat n)
                                    /\ length (dat n) = fsize sh) ->
      NoDup (map (fun x => idf (fst x)) l) ->
      exists o', save_vars up prim l o = (o', None)
        /\ o_dual o' = o_dual o /\ o_value o' = o_value o /\ o_status o' = o_status o /\ o_sol o' = o_sol o /\ o_stats o' = o_stats o
        /\ (forall n sh, In (n, sh) l -> o_val o' (idf n) = Some (sh, dat n))
        /\ (forall i, ~ In i (map (fun x => idf (fst x)) l) -> o_val o' i = o_val o i).
  Proof.
    intros up prim l. induction l as [|[n sh] t IH]; intros o idf dat H HN.
    - exists o. simpl. repeat split; auto. intros ? ? [].
    - cbn [save_vars]. destruct (H n sh (or_introl eq_refl)) as (E1 & E2 & E3). rewrite E1, E2.
      unfold np_reshape. rewrite np_array_snd.
      rewrite E3, Nat.eqb_refl. inversion HN as [|x y Hx HN']; subst.
      destruct (IH (set_val o (idf n) (sh, dat n)) idf dat) as (o' & F0 & F1 & F2 & F3 & F4 & F5 & F6 & F7); auto.
      { intros; apply H; right; auto. }
      exists o'. split; [exact F0|]. repeat (split; [assumption|]). split.
      + intros m sh' [E|Hi].
        * injection E as <- <-. rewrite F7; auto. simpl. rewrite Nat.eqb_refl. auto.
        * apply F6. auto.
      + intros i Hi. simpl in Hi. rewrite F7 by tauto. simpl. destruct (Nat.eqb i (idf n)) eqn:E; auto.
        apply Nat.eqb_eq in E. subst. tauto.
  Qed.

  Lemma save_duals_ok : forall (up : uprob) (dual : list (string * list K)) l k (o : pobj K) (con : nat -> nat) (av : nat -> arr K),
      (forall j n sh, nth_error l j = Some (n, sh) -> nth_error (u_cons up) (k + j) = Some (con (k + j))
           /\ exists v, assoc n dual = Some v /\ shaped_dual sh (np_array v) = Ok (av (k + j))) ->
      exists o', save_duals up dual k l o = (o', None)
        /\ o_val o' = o_val o /\ o_value o' = o_value o /\ o_status o' = o_status o /\ o_sol o' = o_sol o /\ o_stats o' = o_stats o
        /\ (forall j, j < length l -> (forall j', j < j' < length l -> con (k + j') <> con (k + j)) ->
              o_dual o' (con (k + j)) = Some (av (k + j)))
        /\ (forall c, (forall j, j < length l -> con (k + j) <> c) -> o_dual o' c = o_dual o c).
  Proof.
    intros up dual l. induction l as [|[n sh] t IH]; intros k o con av H.
    - exists o. simpl. repeat split; auto. intros; lia.
    - cbn [save_duals]. destruct (H 0 n sh eq_refl) as (E1 & v & E2 & E3). rewrite Nat.add_0_r in *.
      rewrite E1, E2, E3.
      destruct (IH (S k) (set_dual o (con k) (av k)) con av) as (o' & F0 & F1 & F2 & F3 & F4 & F5 & F6 & F7).
      { intros j m sh' Hj. specialize (H (S j) m sh' Hj). rewrite Nat.add_succ_r in H. exact H. }
      exists o'. split; [exact F0|]. repeat (split; [assumption|]). split.
      + intros j Hj Hl. destruct j as [|j].
        * rewrite Nat.add_0_r in *. rewrite F7.
          -- simpl. rewrite Nat.eqb_refl. auto.
          -- intros j Hj'. specialize (Hl (S j)). rewrite Nat.add_succ_r in Hl. simpl. apply Hl. simpl. lia.
        * rewrite Nat.add_succ_r. apply (F6 j). { simpl in Hj. lia. }
          intros j' Hj'. specialize (Hl (S j')). rewrite !Nat.add_succ_r in Hl. apply Hl. simpl. lia.
      + intros c Hc. rewrite F7.
        * simpl. destruct (Nat.eqb c (con k)) eqn:E; auto. apply Nat.eqb_eq in E. subst.
          specialize (Hc 0). rewrite Nat.add_0_r in Hc. simpl in Hc. exfalso. apply Hc; auto. lia.
        * intros j Hj. specialize (Hc (S j)). rewrite Nat.add_succ_r in Hc. apply Hc. simpl. lia.
  Qed.
End Vars.
