(** Proofs about explicit mode: duals, stored variables, gradient, objective. *)

From Coq Require FinFun.
From Coq Require Import String Arith Bool ZArith Lia List Permutation Ring.
From Verif Require Import Base Pus Machine PusParse PusCheck PusLift Runtime RuntimeSpec RuntimeProofs
     RuntimeMore Retrieve RetrieveProofs Canon CanonSpec CanonProofs CanonMain CanonGen Info Explicit ExplicitProofs.
Import ListNotations.
Open Scope list_scope.

(** ** Duals *)

Lemma mapM_app : forall A B (f : A -> res B) l l', mapM f (l ++ l') = (a <- mapM f l;; b <- mapM f l';; Ok (a ++ b)).
Proof.
  induction l; simpl; intros.
  - destruct (mapM f l'); reflexivity.
  - destruct (f a); simpl; auto. rewrite IHl. destruct (mapM f l); simpl; auto. destruct (mapM f l'); reflexivity.
Qed.
Lemma mapM_ext : forall A B (f h : A -> res B) l, (forall a, In a l -> f a = h a) -> mapM f l = mapM h l.
Proof. induction l; simpl; intros; auto. rewrite H by auto. rewrite IHl by auto. reflexivity. Qed.
Lemma mapM_length : forall A B (f : A -> res B) l l', mapM f l = Ok l' -> length l' = length l.
Proof.
  induction l; simpl; intros l' H; [inversion H; auto|].
  destruct (f a); simpl in H; [|discriminate]. destruct (mapM f l); simpl in H; [|discriminate].
  inversion H; subst. simpl. rewrite IHl; auto.
Qed.
Lemma var_offsets_app : forall l l' o, var_offsets o (l ++ l') = var_offsets o l ++ var_offsets (o + list_sum (map snd l)) l'.
Proof. induction l as [|[i s] l IH]; simpl; intros; [rewrite Nat.add_0_r; auto|]. rewrite IH, Nat.add_assoc. auto. Qed.
Lemma lookup_app_l : forall A c (l l' : list (nat * A)), In c (map fst l) -> lookup c (l ++ l') = lookup c l.
Proof. intros A c l l' H. rewrite lookup_app. destruct (lookup_some _ _ _ H) as (v & E). rewrite E. reflexivity. Qed.
Lemma filter_true : forall A (p : A -> bool) l, Forall (fun a => p a = true) l -> filter p l = l.
Proof. induction 1; simpl; auto. rewrite H, IHForall. auto. Qed.
Lemma filter_false : forall A (p : A -> bool) l, Forall (fun a => p a = false) l -> filter p l = [].
Proof. induction 1; simpl; auto. rewrite H. auto. Qed.
Lemma mask_sel_trues : forall A (a b : list A) j, mask_sel (repeat true (length a) ++ repeat false j) (a ++ b) = a.
Proof.
  induction a; simpl; intros.
  - revert b. induction j; simpl; intros [|x b]; auto.
  - f_equal. auto.
Qed.

Section Duals.
  Variable K : Type.
  Variables (eqs oth bnds m1 m2 : list (nat * nat)) (rest : list (list (nat * nat))).
  Variable dl : nat -> list K.
  Notation con := (eqs ++ oth ++ bnds).
  Hypothesis HN : NoDup (map fst con).
  Hypothesis HC1 : forall u, In u (map fst m1) -> exists c, chase rest u = Ok c /\ In c (map fst (eqs ++ oth)).
  Hypothesis HC2 : forall u, In u (map fst m2) -> exists c, chase rest u = Ok c /\ In c (map fst bnds).
  Hypothesis HL : forall i z, In (i, z) con -> length (dl i) = z.

  Definition dcat (l : list (nat * nat)) : list K := concat (map (fun e => dl (fst e)) l).

  Lemma dcat_length : forall l, (forall i z, In (i, z) l -> length (dl i) = z) -> length (dcat l) = list_sum (map snd l).
  Proof.
    unfold dcat. induction l as [|[i z] l IH]; simpl; intros H; auto.
    rewrite app_length, (H i z) by auto. rewrite IH by (intros; apply H; auto). reflexivity.
  Qed.

  Definition one_info (con : list (nat * nat)) (k : nat) (i : nat) : res (string * nat * nat) :=
    o <- key (lookup i (var_offsets 0 con));;
    v <- key (lookup i (combine (map fst con) (repeat "y"%string k)));;
    z <- key (lookup i con);; Ok (v, o, z).

  Lemma one_info_prefix : forall i k k', In i (map fst (eqs ++ oth)) -> length (eqs ++ oth) <= k -> length con <= k' ->
    one_info con k' i = one_info (eqs ++ oth) k i.
  Proof.
    intros i k k' Hi Hk Hk'. unfold one_info.
    assert (E : con = (eqs ++ oth) ++ bnds) by (rewrite app_assoc; auto).
    rewrite E. rewrite var_offsets_app. rewrite lookup_app_l by (rewrite fst_offsets; auto).
    rewrite (lookup_app_l _ i (eqs ++ oth) bnds) by auto.
    rewrite !lookup_repeat; auto.
    - rewrite map_length. auto.
    - rewrite map_app. apply in_or_app. auto.
    - rewrite map_length, <- E. auto.
  Qed.

  Lemma x_duals_ok : forall cells,
    exists cs ds, mapM (chase rest) (map fst m1) = Ok cs
      /\ dual_info false "y" "z" eqs (oth ++ bnds) ((m1 ++ m2) :: rest) = Ok ds
      /\ length ds = length m1 + length m2
      /\ x_duals (fun i => Nat.leb (length m1) i)
                 (repeat true (list_sum (map snd (eqs ++ oth))) ++ repeat false (list_sum (map snd bnds)))
                 ds (dcat con) cells
         = Ok (combine (seq 0 (length m1)) (map dl cs)).
  Proof.
    intro cells.
    assert (HN1 : NoDup (map fst (eqs ++ oth))).
    { rewrite app_assoc, map_app in HN. eapply NoDup_app_l; eauto. }
    assert (HL1 : forall i z, In (i, z) (eqs ++ oth) -> length (dl i) = z).
    { intros. apply HL. rewrite app_assoc. apply in_or_app. auto. }
    set (st := mkRS cells (fun _ => dcat (eqs ++ oth))).
    destruct (dual_ok K OSQP eqs oth m1 rest dl HN1 HC1 HL1 st) as (cs & ds1 & E1 & E2 & E3).
    { intro H; discriminate. }
    { reflexivity. }
    assert (exists cs2, mapM (chase rest) (map fst m2) = Ok cs2 /\ Forall (fun c => In c (map fst bnds)) cs2) as (cs2 & C2 & F2).
    { destruct (mapM_ok _ _ (chase rest) (fun u c => In c (map fst bnds)) (map fst m2)) as (cs2 & Ec & Fc).
      - intros u Hu. destruct (HC2 u Hu) as (c & H1 & H2). eauto.
      - exists cs2. split; auto. clear - Fc. induction Fc; constructor; auto. }
    assert (F1 : Forall (fun c => In c (map fst (eqs ++ oth))) cs).
    { destruct (mapM_ok _ _ (chase rest) (fun u c => In c (map fst (eqs ++ oth))) (map fst m1)) as (cs1 & Ec & Fc).
      - intros u Hu. destruct (HC1 u Hu) as (c & H1 & H2). eauto.
      - rewrite E1 in Ec. inversion Ec; subst cs1. clear - Fc. induction Fc; constructor; auto. }
    assert (Hlen : forall l : list (nat * nat), length l <= length (offsets (map snd l))).
    { intro l. unfold offsets. rewrite psums_length, removelast_length, map_length. lia. }
    (* the prefix *)
    assert (E2' : (ps <- mapM (one_info (eqs ++ oth) (length (offsets (map snd (eqs ++ oth))))) cs;;
                   Ok (map (fun '(i, (v, o, z)) => mkDI i v o z) (combine (seq 0 (length ps)) ps))) = Ok ds1).
    { unfold dual_info in E2. cbn [dual_ids] in E2. rewrite E1 in E2. cbn [bind] in E2.
      cbn [dual_split] in E2. cbn [bind] in E2. unfold offsets at 1 in E2. rewrite combine_offsets in E2. exact E2. }
    destruct (mapM (one_info (eqs ++ oth) (length (offsets (map snd (eqs ++ oth))))) cs) as [ps1|e] eqn:P1; [|discriminate].
    cbn [bind] in E2'. inversion E2' as [Eds1]. clear E2'.
    set (kk := length (offsets (map snd con))).
    assert (P1' : mapM (one_info con kk) cs = Ok ps1).
    { rewrite <- P1. apply mapM_ext. intros c Hc. rewrite Forall_forall in F1.
      apply one_info_prefix; auto. apply Hlen. }
    assert (exists ps2, mapM (one_info con kk) cs2 = Ok ps2) as (ps2 & P2).
    { destruct (mapM_ok _ _ (one_info con kk) (fun _ _ => True) cs2) as (ps2 & Ec & _); eauto.
      intros c Hc. rewrite Forall_forall in F2. pose proof (F2 c Hc) as Hin.
      assert (Hin' : In c (map fst con)) by (rewrite !map_app; apply in_or_app; right; apply in_or_app; auto).
      unfold one_info. destruct (lookup_some _ c (var_offsets 0 con)) as (o & Eo); [rewrite fst_offsets; auto|].
      destruct (lookup_some _ c con Hin') as (z & Ez). rewrite Eo, Ez.
      rewrite lookup_repeat; auto; [|rewrite map_length; apply Hlen]. simpl. eauto. }
    exists cs. eexists. split; auto. split.
    { unfold dual_info. cbn [dual_ids]. rewrite map_app, mapM_app, E1, C2. cbn [bind].
      unfold offsets at 1. rewrite combine_offsets.
      change (mapM (fun i => o <- key (lookup i (var_offsets 0 con));;
                v <- key (lookup i (combine (map fst con) (repeat "y"%string (length (offsets (map snd con))))));;
                z <- key (lookup i con);; Ok (v, o, z)) (cs ++ cs2)) with (mapM (one_info con kk) (cs ++ cs2)).
      rewrite mapM_app, P1', P2. cbn [bind]. reflexivity. }
    assert (L1 : length ps1 = length m1).
    { rewrite (mapM_length _ _ _ _ _ P1). rewrite (mapM_length _ _ _ _ _ E1). apply map_length. }
    assert (L2 : length ps2 = length m2).
    { rewrite (mapM_length _ _ _ _ _ P2). rewrite (mapM_length _ _ _ _ _ C2). apply map_length. }
    split.
    { rewrite map_length, combine_length, seq_length, app_length. lia. }
    set (msk := repeat true (list_sum (map snd (eqs ++ oth))) ++ repeat false (list_sum (map snd bnds))).
    rewrite app_length, seq_app, combine_app' by (rewrite seq_length; auto). rewrite map_app.
    unfold x_duals. unfold drop_bounds. rewrite filter_app.
    rewrite filter_true.
    2:{ apply Forall_forall. intros d Hd. apply in_map_iff in Hd. destruct Hd as ((i & ((v & o) & z)) & <- & Hd).
        apply in_combine_l in Hd. apply in_seq in Hd. cbn [di_name]. apply negb_true_iff. apply Nat.leb_gt. lia. }
    rewrite filter_false.
    2:{ apply Forall_forall. intros d Hd. apply in_map_iff in Hd. destruct Hd as ((i & ((v & o) & z)) & <- & Hd).
        apply in_combine_l in Hd. apply in_seq in Hd. cbn [di_name]. apply negb_false_iff. apply Nat.leb_le. lia. }
    rewrite app_nil_r, Eds1.
    assert (Ey : mask_sel (repeat true (list_sum (map snd (eqs ++ oth))) ++ repeat false (list_sum (map snd bnds))) (dcat con)
                 = dcat (eqs ++ oth)).
    { replace (dcat con) with (dcat (eqs ++ oth) ++ dcat bnds).
      - rewrite <- (dcat_length (eqs ++ oth)) by auto. apply mask_sel_trues.
      - unfold dcat. rewrite app_assoc, (map_app _ (eqs ++ oth)), concat_app. reflexivity. }
    unfold msk. rewrite Ey. fold st. rewrite E3. cbn [bind]. unfold save_list. rewrite map_length.
    rewrite (mapM_length _ _ _ _ _ E1), map_length. reflexivity.
  Qed.
End Duals.

(** ** Stored variables *)

(** The entry of sol_x from which entry [i] of a variable is read. *)
Definition slot (v : xinfo) (i : nat) : option nat :=
  if Nat.eqb (xi_size v) 1 then Some (xi_off v)
  else match nth i (xi_idx v) None with Some k => Some (xi_off v + k) | None => None end.

(** Entry [i] is requested by a selection. *)
Definition requested (inds : option (list Z)) (i : nat) : Prop :=
  match inds with Some (z :: t) => In (Z.of_nat i) (z :: t) | _ => True end.
(** A selection of distinct entries in range, and not of a single entry of a larger
    variable. *)
Definition good_sel (sz : nat) (inds : option (list Z)) : Prop :=
  match inds with
  | Some (z :: t) => NoDup (z :: t) /\ (forall y, In y (z :: t) -> (0 <= y < Z.of_nat sz)%Z) /\ (t = [] -> sz = 1)
  | _ => True
  end.
Definition eff (sz : nat) (inds : option (list Z)) : list Z :=
  match inds with Some (z :: t) => z :: t | _ => map Z.of_nat (seq 0 sz) end.

Lemma eff_ok : forall sz inds, good_sel sz inds ->
  NoDup (eff sz inds) /\ (forall y, In y (eff sz inds) -> (0 <= y < Z.of_nat sz)%Z)
  /\ (length (eff sz inds) = 1 <-> sz = 1)
  /\ (forall i, i < sz -> (requested inds i <-> In (Z.of_nat i) (eff sz inds))).
Proof.
  assert (G : forall sz, NoDup (map Z.of_nat (seq 0 sz))
    /\ (forall y, In y (map Z.of_nat (seq 0 sz)) -> (0 <= y < Z.of_nat sz)%Z)
    /\ (length (map Z.of_nat (seq 0 sz)) = 1 <-> sz = 1)
    /\ (forall i, i < sz -> (True <-> In (Z.of_nat i) (map Z.of_nat (seq 0 sz))))).
  { intro sz. split; [|split; [|split]].
    - apply FinFun.Injective_map_NoDup; [intros a b; apply Nat2Z.inj|apply seq_NoDup].
    - intros y H. apply in_map_iff in H. destruct H as (k & <- & H). apply in_seq in H. lia.
    - rewrite map_length, seq_length. tauto.
    - intros i Hi. split; auto. intros _. apply in_map. apply in_seq. lia. }
  intros sz [[|z t]|] H; simpl in *; auto; try apply G.
  destruct H as (H1 & H2 & H3). split; auto. split; auto. split.
  - split.
    + intro E. apply H3. destruct t; simpl in E; auto; lia.
    + intros ->. destruct t as [|y t]; auto. exfalso.
      pose proof (H2 z (or_introl eq_refl)). pose proof (H2 y (or_intror (or_introl eq_refl))).
      inversion H1 as [|? ? N _]; subst. apply N. left. lia.
  - intros; tauto.
Qed.

Lemma scatter_ok : forall inds k a, NoDup inds -> (forall y, In y inds -> (0 <= y < Z.of_nat (length a))%Z) ->
  exists a', scatter k inds a = Ok a' /\ length a' = length a
    /\ (forall j y, nth_error inds j = Some y -> nth (Z.to_nat y) a' None = Some (k + j))
    /\ (forall i, ~ In (Z.of_nat i) inds -> nth i a' None = nth i a None).
Proof.
  induction inds as [|z t IH]; intros k a HN HR; simpl.
  - exists a. repeat split; auto. intros j y H. destruct j; discriminate.
  - inversion HN as [|? ? Hz HN']; subst. pose proof (HR z (or_introl eq_refl)) as Hr.
    assert (E1 : Z.ltb z 0 = false) by (apply Z.ltb_ge; lia). rewrite E1.
    assert (E2 : Z.leb 0 z = true) by (apply Z.leb_le; lia).
    assert (E3 : Z.ltb z (Z.of_nat (length a)) = true) by (apply Z.ltb_lt; lia). rewrite E2, E3. simpl.
    destruct (IH (S k) (upd a (Z.to_nat z) (Some k)) HN') as (a' & E & L & H1 & H2).
    { rewrite upd_length. intros y Hy. apply HR. simpl; auto. }
    rewrite upd_length in L. exists a'. split; auto. split; auto. split.
    + intros [|j] y Hy; simpl in Hy.
      * inversion Hy; subst y. rewrite H2.
        -- rewrite nth_upd_eq by lia. f_equal. lia.
        -- rewrite Z2Nat.id by lia. auto.
      * rewrite (H1 j y Hy). f_equal. lia.
    + intros i Hi. rewrite H2 by tauto. apply nth_upd_neq. intros ->. apply Hi. left. rewrite Z2Nat.id; lia.
Qed.

Lemma xi_find_in : forall n vs v, xi_find n vs = Some v -> In v vs /\ xi_name v = n.
Proof.
  induction vs as [|w t IH]; simpl; intros v H; [discriminate|].
  destruct (String.eqb n (xi_name w)) eqn:E.
  - inversion H; subst. apply String.eqb_eq in E. auto.
  - destruct (IH _ H). auto.
Qed.
Lemma xi_find_some : forall n vs, In n (map xi_name vs) -> exists v, xi_find n vs = Some v.
Proof.
  induction vs as [|w t IH]; simpl; intros H; [contradiction|].
  destruct (String.eqb n (xi_name w)) eqn:E; eauto. destruct H as [H|H]; auto.
  subst. rewrite String.eqb_refl in E. discriminate.
Qed.
Lemma name_inj : forall A (f : A -> string) vs v w, NoDup (map f vs) -> In v vs -> In w vs -> f v = f w -> v = w.
Proof.
  induction vs as [|u t IH]; simpl; intros v w HN Hv Hw E; [contradiction|].
  inversion HN; subst. destruct Hv as [<-|Hv], Hw as [<-|Hw]; auto.
  - exfalso. apply H1. rewrite E. apply in_map. auto.
  - exfalso. apply H1. rewrite <- E. apply in_map. auto.
Qed.

(** How variable [v0] is stored as [v1] under selection [inds]. *)
Definition stored (out : list Z) (inds : option (list Z)) (v0 v1 : xinfo) : Prop :=
  (forall i, i < xi_size v0 -> match slot v1 i with
     | Some pos => pos < length out /\ nth pos out 0%Z = Z.of_nat (xi_off v0 + i) /\ requested inds i
     | None => ~ requested inds i
     end)
  /\ (xi_size v0 = 1 -> xi_idx v1 = [Some (xi_off v1)])
  /\ (xi_size v0 <> 1 -> length (xi_idx v1) = xi_size v0).

Definition store_rel (out : list Z) (don : list (string * option (list Z))) (v0 v1 : xinfo) : Prop :=
  xi_name v1 = xi_name v0 /\ xi_size v1 = xi_size v0 /\ xi_sym v1 = xi_sym v0
  /\ match assoc (xi_name v0) don with None => v1 = v0 | Some inds => stored out inds v0 v1 end.

Lemma stored_app : forall out out' inds v0 v1, stored out inds v0 v1 -> stored (out ++ out') inds v0 v1.
Proof.
  intros out out' inds v0 v1 (H1 & H2). split; auto. intros i Hi. specialize (H1 i Hi).
  destruct (slot v1 i) as [pos|]; auto. destruct H1 as (A & B & C). split; [rewrite app_length; lia|].
  split; auto. rewrite app_nth1; auto.
Qed.

Lemma assoc_app : forall A k (l l' : list (string * A)), assoc k (l ++ l') = match assoc k l with Some v => Some v | None => assoc k l' end.
Proof. induction l as [|[k' v] l IH]; simpl; intros; auto. destruct (String.eqb k k'); auto. Qed.
Lemma assoc_none : forall A k (l : list (string * A)), ~ In k (map fst l) -> assoc k l = None.
Proof.
  induction l as [|[k' v] l IH]; simpl; intros H; auto. destruct (String.eqb k k') eqn:E.
  - apply String.eqb_eq in E. subst. tauto.
  - apply IH. tauto.
Qed.

(** Sum of the sizes of the variables not selected so far. *)
Definition rest_sum (vs0 : list xinfo) (added : list string) : nat :=
  list_sum (map xi_size (filter (fun v => negb (mem_str (xi_name v) added)) vs0)).

Lemma mem_str_app : forall n l m, mem_str n (l ++ [m]) = mem_str n l || String.eqb n m.
Proof.
  intros. unfold mem_str. rewrite existsb_app. simpl. rewrite orb_false_r. reflexivity.
Qed.

Lemma lsum_cons : forall a l, list_sum (a :: l) = a + list_sum l.
Proof. reflexivity. Qed.
Lemma rest_sum_step : forall vs0 added v0, NoDup (map xi_name vs0) -> In v0 vs0 -> mem_str (xi_name v0) added = false ->
  rest_sum vs0 added = xi_size v0 + rest_sum vs0 (added ++ [xi_name v0]).
Proof.
  unfold rest_sum. induction vs0 as [|w t IH]; intros added v0 HN Hin Hm; [contradiction|].
  inversion HN as [|? ? Hw HN']; subst. cbn [filter]. rewrite mem_str_app. destruct Hin as [->|Hin].
  - rewrite Hm, String.eqb_refl. cbn [orb negb map]. rewrite lsum_cons. f_equal. f_equal. f_equal.
    apply filter_ext_in. intros a Ha. rewrite mem_str_app. destruct (String.eqb (xi_name a) (xi_name v0)) eqn:E.
    + apply String.eqb_eq in E. exfalso. apply Hw. rewrite <- E. apply in_map. auto.
    + rewrite orb_false_r. auto.
  - assert (E : String.eqb (xi_name w) (xi_name v0) = false).
    { apply String.eqb_neq. intro E. apply Hw. rewrite E. apply in_map. auto. }
    rewrite E, orb_false_r. destruct (mem_str (xi_name w) added) eqn:Ew; cbn [negb map].
    + apply IH; auto.
    + rewrite !lsum_cons. rewrite (IH added v0 HN' Hin Hm). lia.
Qed.

Lemma dict_set_keys : forall A k (w : A) l, In k (map fst l) -> map fst (dict_set k w l) = map fst l.
Proof.
  induction l as [|[k' v] l IH]; simpl; intros H; [contradiction|]. destruct (String.eqb k k') eqn:E; simpl.
  - apply String.eqb_eq in E. subst. auto.
  - f_equal. apply IH. destruct H as [H|H]; auto. subst. rewrite String.eqb_refl in E. discriminate.
Qed.
Lemma dict_set_assoc : forall A k (w : A) l k', assoc k' (dict_set k w l) = if String.eqb k' k then Some w else assoc k' l.
Proof.
  induction l as [|[k1 v] l IH]; simpl; intros k'.
  - reflexivity.
  - destruct (String.eqb k k1) eqn:E; simpl.
    + apply String.eqb_eq in E. subst. destruct (String.eqb k' k1); auto.
    + rewrite IH. destruct (String.eqb k' k1) eqn:E1; auto. apply String.eqb_eq in E1. subst.
      rewrite String.eqb_sym, E. reflexivity.
Qed.
Lemma dict_set_sum : forall k w l v, assoc k l = Some v ->
  list_sum (map snd (dict_set k w l)) + v = list_sum (map snd l) + w.
Proof.
  induction l as [|[k1 v1] l IH]; simpl; intros v H; [discriminate|]. destruct (String.eqb k k1) eqn:E; simpl.
  - inversion H; subst. lia.
  - specialize (IH v H). unfold list_sum in *. simpl in *. lia.
Qed.

(** What the recorded indices and sizes satisfy besides. *)
Record store_more (vs0 : list xinfo) (s : xstore) : Prop :=
  { sm_out : Forall (fun z => exists v i, In v vs0 /\ i < xi_size v /\ z = Z.of_nat (xi_off v + i)) (st_out s);
    sm_keys : map fst (st_rsize s) = map xi_name vs0;
    sm_size : forall v, In v vs0 -> mem_str (xi_name v) (st_added s) = false -> assoc (xi_name v) (st_rsize s) = Some (xi_size v);
    sm_sum : list_sum (map snd (st_rsize s)) = length (st_out s) + rest_sum vs0 (st_added s) }.

Lemma store_steps_ok : forall (vs0 : list xinfo), NoDup (map xi_name vs0) -> forall sels don s,
  NoDup (map fst (don ++ sels)) ->
  (forall n inds, In (n, inds) sels -> exists v0, In v0 vs0 /\ xi_name v0 = n /\ good_sel (xi_size v0) inds) ->
  st_shift s = length (st_out s) -> st_added s = map fst don ->
  Forall2 (store_rel (st_out s) don) vs0 (st_vars s) -> store_more vs0 s ->
  exists s', store_steps s sels = Ok s' /\ st_added s' = map fst (don ++ sels) /\ store_more vs0 s'
    /\ st_shift s' = length (st_out s')
    /\ Forall2 (store_rel (st_out s') (don ++ sels)) vs0 (st_vars s').
Proof.
  intros vs0 HN. induction sels as [|[n inds] sels IH]; intros don s HD HG Hsh Had HR HM; simpl.
  - exists s. rewrite app_nil_r. auto.
  - destruct (HG n inds (or_introl eq_refl)) as (v0 & Hv0 & Hn0 & Hg).
    assert (Hnames : map xi_name (st_vars s) = map xi_name vs0).
    { clear - HR. induction HR as [|a b l l' H HR IH]; simpl; auto. destruct H as (-> & _). f_equal. auto. }
    assert (Hnot : ~ In n (map fst don)).
    { intro Hx. rewrite map_app in HD. simpl in HD. apply NoDup_remove_2 in HD. apply HD. apply in_or_app. auto. }
    destruct (xi_find_some n (st_vars s)) as (v & Hv).
    { rewrite Hnames, <- Hn0. apply in_map. auto. }
    destruct (xi_find_in _ _ _ Hv) as [Hvin Hvn].
    assert (Ev : v = v0).
    { assert (G : forall v1, In v1 (st_vars s) -> exists w, In w vs0 /\ store_rel (st_out s) don w v1).
      { clear - HR. induction HR as [|a b l l' H HR IH]; simpl; intros v1 Hin; [contradiction|].
        destruct Hin as [<-|Hin]; eauto. destruct (IH _ Hin) as (w & Hw & Hr). eauto. }
      destruct (G v Hvin) as (w & Hw & (R1 & _ & _ & R4)).
      assert (w = v0) by (eapply (name_inj _ xi_name); eauto; congruence). subst w.
      rewrite Hn0, (assoc_none _ _ _ Hnot) in R4. auto. }
    subst v. rewrite Hv.
    destruct (eff_ok _ _ Hg) as (N1 & N2 & N3 & N4).
    change (match inds with Some (z :: t) => z :: t | _ => map Z.of_nat (seq 0 (xi_size v0)) end) with (eff (xi_size v0) inds).
    set (is := eff (xi_size v0) inds) in *.
    assert (exists idx, (if Nat.eqb (length is) 1 then Ok [Some (st_shift s)]
                         else scatter 0 is (repeat None (xi_size v0))) = Ok idx
       /\ stored (st_out s ++ map (fun z => (Z.of_nat (xi_off v0) + z)%Z) is) inds v0
                 (mkXI n (st_shift s) idx (xi_size v0) (xi_sym v0))) as (idx & Ei & Hst).
    { destruct (Nat.eqb (length is) 1) eqn:E1.
      - apply Nat.eqb_eq in E1. pose proof (proj1 N3 E1) as Hs1. eexists. split; [reflexivity|].
        destruct is as [|z [|? ?]]; simpl in E1; try discriminate.
        assert (Hz : z = 0%Z) by (pose proof (N2 z (or_introl eq_refl)); lia). subst z.
        split; [|split; simpl; auto; congruence].
        intros i Hi. unfold slot. cbn [xi_size xi_off]. rewrite Hs1. simpl Nat.eqb. cbv iota.
        assert (i = 0) by lia. subst i.
        rewrite app_length. simpl length. split; [lia|]. split.
        + rewrite Hsh. rewrite app_nth2 by lia. rewrite Nat.sub_diag. simpl. lia.
        + apply N4; [lia|]. left. reflexivity.
      - apply Nat.eqb_neq in E1. assert (Hs1 : xi_size v0 <> 1) by tauto.
        destruct (scatter_ok is 0 (repeat None (xi_size v0)) N1) as (a' & E & L & S1 & S2).
        { rewrite repeat_length. auto. }
        rewrite repeat_length in L. exists a'. split; auto. split; [|split; simpl; auto; congruence].
        intros i Hi. unfold slot. cbn [xi_size xi_off xi_idx].
        assert (E2 : Nat.eqb (xi_size v0) 1 = false) by (apply Nat.eqb_neq; auto). rewrite E2.
        destruct (in_dec Z.eq_dec (Z.of_nat i) is) as [Hin|Hin].
        + destruct (In_nth_error _ _ Hin) as (j & Hj). pose proof (S1 j _ Hj) as Hs. rewrite Nat2Z.id in Hs. rewrite Hs.
          simpl. assert (Hjl : j < length is) by (apply nth_error_Some; congruence).
          rewrite app_length, map_length. split; [lia|]. split.
          * rewrite Hsh. rewrite app_nth2 by lia.
            replace (length (st_out s) + j - length (st_out s)) with j by lia.
            apply nth_error_nth. rewrite (map_nth_error _ _ _ Hj). f_equal. lia.
          * apply N4; auto.
        + rewrite S2 by auto.
          assert (Er : forall k, nth k (repeat (@None nat) (xi_size v0)) None = None).
          { intro k. generalize (xi_size v0). clear. induction k; destruct n; simpl; auto. }
          rewrite Er. intro Hr. apply Hin. apply N4; auto. }
    rewrite Ei. cbn [bind].
    destruct (IH (don ++ [(n, inds)]) (mkXS (xi_set n (st_shift s) idx (st_vars s))
       (st_out s ++ map (fun z => (Z.of_nat (xi_off v0) + z)%Z) is) (st_shift s + length is)
       (st_red s || Nat.ltb (length is) (xi_size v0)) (dict_set n (length is) (st_rsize s)) (st_added s ++ [n])))
      as (s' & E & A & M & B & C).
    + rewrite <- app_assoc. exact HD.
    + intros m i' Hin. apply HG. right; auto.
    + cbn [st_shift st_out]. rewrite app_length, map_length. lia.
    + cbn [st_added]. rewrite Had, map_app. reflexivity.
    + cbn [st_out st_vars]. unfold xi_set. assert (Hin0 : forall w, In w vs0 -> xi_name w = n -> w = v0).
      { intros w Hw Hwn. eapply (name_inj _ xi_name); eauto; congruence. }
      clear - HR Hnot Hst Hin0. remember (st_out s) as out0. clear Heqout0.
      induction HR as [|a b l l' H HR IH]; simpl; constructor.
      * destruct H as (R1 & R2 & R3 & R4). unfold store_rel. rewrite assoc_app. simpl.
        destruct (String.eqb (xi_name b) n) eqn:E.
        -- apply String.eqb_eq in E. assert (Ea : xi_name a = n) by congruence.
           rewrite Ea, (assoc_none _ _ _ Hnot), String.eqb_refl.
           assert (a = v0) by (apply Hin0; simpl; auto). subst a.
           rewrite Ea, (assoc_none _ _ _ Hnot) in R4. subst b. cbn [xi_name xi_size xi_sym]. rewrite Ea. repeat split; auto.
           ++ apply Hst. ++ apply Hst. ++ apply Hst.
        -- split; auto. split; auto. split; auto.
           destruct (assoc (xi_name a) don).
           ++ apply stored_app. auto.
           ++ rewrite <- R1, E. auto.
      * apply IH. intros w Hw. apply Hin0. simpl; auto.
    + assert (Hm : mem_str n (st_added s) = false).
      { destruct (mem_str n (st_added s)) eqn:Em; auto. exfalso. apply Hnot. rewrite <- Had.
        unfold mem_str in Em. apply existsb_exists in Em. destruct Em as (x & Hx & Ex). apply String.eqb_eq in Ex. subst. auto. }
      destruct HM as [M1 M2 M3 M4].
      assert (Ha : assoc n (st_rsize s) = Some (xi_size v0)) by (rewrite <- Hn0; apply M3; auto; rewrite Hn0; auto).
      assert (Hk : In n (map fst (st_rsize s))) by (rewrite M2, <- Hn0; apply in_map; auto).
      constructor; cbn [st_out st_rsize st_added].
      * apply Forall_app. split; auto. apply Forall_forall. intros z Hz. apply in_map_iff in Hz.
        destruct Hz as (y & <- & Hy). pose proof (N2 y Hy). exists v0, (Z.to_nat y). split; auto. split; lia.
      * rewrite dict_set_keys; auto.
      * intros v Hv' Hmv. rewrite mem_str_app in Hmv. apply orb_false_elim in Hmv. destruct Hmv as [H1 H2].
        rewrite dict_set_assoc, H2. apply M3; auto.
      * pose proof (dict_set_sum n (length is) _ _ Ha) as Hs.
        pose proof (rest_sum_step vs0 (st_added s) v0 HN Hv0) as Hr. rewrite Hn0 in Hr. specialize (Hr Hm).
        rewrite app_length, map_length. unfold list_sum in *. lia.
    + exists s'. rewrite <- app_assoc in A, C. auto.
Qed.

(** Positions of the variables that are not stored. *)
Fixpoint drops (added : list string) (i : nat) (vs : list xinfo) : list nat :=
  match vs with
  | [] => []
  | v :: t => if mem_str (xi_name v) added then drops added (S i) t else i :: drops added (S i) t
  end.

Lemma remove_ok : forall added vs i sym,
  ((forall k p, nth_error (drops added i vs) k = Some p -> p + k < length sym) ->
   exists sym', remove_unstored added i vs sym
     = Ok (filter (fun v => mem_str (xi_name v) added) vs, sym', negb (forallb (fun v => mem_str (xi_name v) added) vs)))
  /\ ((exists k p, nth_error (drops added i vs) k = Some p /\ length sym <= p + k) ->
      remove_unstored added i vs sym = Err IndexError).
Proof.
  induction vs as [|v t IH]; intros i sym; cbn [remove_unstored drops filter forallb].
  - split; [intros _; exists sym; reflexivity|]. intros (k & p & H & _). destruct k; discriminate.
  - destruct (mem_str (xi_name v) added) eqn:E; cbn [andb negb].
    + destruct (IH (S i) sym) as [A B]. split.
      * intro H. destruct (A H) as (s' & ->). exists s'. reflexivity.
      * intro H. rewrite (B H). reflexivity.
    + destruct (Nat.ltb i (length sym)) eqn:L.
      * apply Nat.ltb_lt in L.
        assert (Hl : length (firstn i sym ++ skipn (S i) sym) = length sym - 1).
        { rewrite app_length, firstn_length, skipn_length. lia. }
        destruct (IH (S i) (firstn i sym ++ skipn (S i) sym)) as [A B]. rewrite Hl in A, B. split.
        -- intro H. destruct A as (s' & E').
           { intros k p Hk. specialize (H (S k) p Hk). lia. }
           rewrite E'. exists s'. reflexivity.
        -- intros (k & p & Hk & Hp). destruct k as [|k]; simpl in Hk.
           ++ inversion Hk; subst. lia.
           ++ rewrite B; auto. exists k, p. split; auto. lia.
      * apply Nat.ltb_ge in L. split; auto. intro H. specialize (H 0 i eq_refl). lia.
Qed.

Definition xi0 (p : pinfo) : xinfo := mkXI (pi_name p) (pi_off p) (map Some (pi_idx p)) (pi_size p) (pi_sym p).

(** The selections of a configuration: every variable whole when none is given. *)
Definition sel_list (vs : list pinfo) (sels : option (list (string * option (list Z)))) :=
  match sels with Some l => l | None => map (fun p => (pi_name p, None)) vs end.

Lemma sel_list_ok : forall vs, NoDup (map pi_name vs) ->
  NoDup (map fst (sel_list vs None))
  /\ (forall n inds, In (n, inds) (sel_list vs None) -> exists p, In p vs /\ pi_name p = n /\ good_sel (pi_size p) inds).
Proof.
  intros vs H. simpl. rewrite map_map. simpl. split; auto. intros n inds Hin.
  apply in_map_iff in Hin. destruct Hin as (p & E & Hp). inversion E; subst. exists p. simpl. auto.
Qed.

Lemma mem_str_in : forall s l, mem_str s l = true <-> In s l.
Proof.
  intros s l. unfold mem_str. rewrite existsb_exists. split.
  - intros (x & Hx & E). apply String.eqb_eq in E. subst. auto.
  - intro H. exists s. split; auto. apply String.eqb_refl.
Qed.

Lemma assoc_some : forall A k (l : list (string * A)), In k (map fst l) -> exists v, assoc k l = Some v /\ In (k, v) l.
Proof.
  induction l as [|[k' v] l IH]; simpl; intros H; [contradiction|]. destruct (String.eqb k k') eqn:E.
  - apply String.eqb_eq in E. subst. eauto.
  - destruct H as [H|H]; [subst; rewrite String.eqb_refl in E; discriminate|]. destruct (IH H) as (w & A1 & A2). eauto.
Qed.

Lemma drops_names : forall added f vs i vs', map xi_name vs = map f vs' ->
  drops added i vs = (fix d (i : nat) (l : list pinfo) := match l with [] => [] | v :: t =>
     if mem_str (f v) added then d (S i) t else i :: d (S i) t end) i vs'.
Proof.
  intros added f vs. induction vs as [|v t IH]; intros i [|p t'] H; simpl in *; try discriminate; auto.
  inversion H as [[H1 H2]]. rewrite H1. rewrite (IH (S i) t' H2). reflexivity.
Qed.

Definition pdrops (added : list string) (i : nat) (vs : list pinfo) : list nat := drops added i (map xi0 vs).

Lemma drops_same : forall added vs i ws, map xi_name vs = map xi_name ws -> drops added i vs = drops added i ws.
Proof.
  intros added vs. induction vs as [|v t IH]; intros i [|p t'] H; simpl in *; try discriminate; auto.
  inversion H as [[H1 H2]]. rewrite H1. rewrite (IH (S i) t' H2). reflexivity.
Qed.

Lemma store_vars_ok : forall vs sels, NoDup (map pi_name vs) -> NoDup (map fst (sel_list vs sels)) ->
  (forall n inds, In (n, inds) (sel_list vs sels) -> exists p, In p vs /\ pi_name p = n /\ good_sel (pi_size p) inds) ->
  ((forall k i, nth_error (pdrops (map fst (sel_list vs sels)) 0 vs) k = Some i -> i + k < length vs) ->
   exists xv, store_vars vs sels = Ok xv
     /\ Forall (fun z => exists p i, In p vs /\ i < pi_size p /\ z = Z.of_nat (pi_off p + i)) (xv_out xv)
     /\ list_sum (map snd (xv_rsize xv))
        = length (xv_out xv) + list_sum (map pi_size (filter (fun p => negb (mem_str (pi_name p) (map fst (sel_list vs sels)))) vs))
     /\ Forall2 (fun p v => xi_name v = pi_name p /\ xi_size v = pi_size p /\ xi_sym v = pi_sym p
                   /\ exists inds, assoc (pi_name p) (sel_list vs sels) = Some inds /\ stored (xv_out xv) inds (xi0 p) v)
                (filter (fun p => mem_str (pi_name p) (map fst (sel_list vs sels))) vs) (xv_vars xv))
  /\ ((exists k i, nth_error (pdrops (map fst (sel_list vs sels)) 0 vs) k = Some i /\ length vs <= i + k) ->
      store_vars vs sels = Err IndexError).
Proof.
  intros vs sels HN HD HG.
  destruct (store_steps_ok (map xi0 vs)) with (sels := sel_list vs sels) (don := @nil (string * option (list Z)))
    (s := mkXS (map xi0 vs) [] 0 false (map (fun p => (pi_name p, pi_size p)) vs) []) as (s & E & A & M & B & C).
  - rewrite map_map. exact HN.
  - exact HD.
  - intros n inds H. destruct (HG n inds H) as (p & Hp & Hn & Hg). exists (xi0 p). repeat split; auto. apply in_map; auto.
  - reflexivity.
  - reflexivity.
  - simpl. clear. induction (map xi0 vs) as [|a l IH]; constructor; auto. unfold store_rel. simpl. auto.
  - constructor; cbn [st_out st_rsize st_added].
    + constructor.
    + rewrite !map_map. reflexivity.
    + intros v Hv _. apply in_map_iff in Hv. destruct Hv as (p & <- & Hp). cbn [xi0 xi_name xi_size].
      apply (assoc_map _ _ pi_name pi_size); auto.
    + unfold rest_sum. simpl. rewrite map_map. simpl. clear. induction vs as [|p vs IH]; simpl; auto.
  - simpl app in A, C.
    assert (Hnm : map xi_name (st_vars s) = map xi_name (map xi0 vs)).
    { clear - C. induction C as [|a b l l' H HR IH]; simpl; auto. destruct H as (-> & _). f_equal. auto. }
    assert (Es : store_vars vs sels = ('(vs', sym', r) <- remove_unstored (map fst (sel_list vs sels)) 0 (st_vars s) (map pi_sym vs);;
       Ok (mkXV vs' (st_out s) sym' (st_red s || r) (st_rsize s)))).
    { unfold store_vars. fold xi0. change (map (fun p => mkXI (pi_name p) (pi_off p) (map Some (pi_idx p)) (pi_size p) (pi_sym p)) vs) with (map xi0 vs).
      fold (sel_list vs sels). rewrite E. cbn [bind]. rewrite A. reflexivity. }
    destruct (remove_ok (map fst (sel_list vs sels)) (st_vars s) 0 (map pi_sym vs)) as [R1 R2].
    rewrite map_length in R1, R2. rewrite (drops_same _ _ 0 _ Hnm) in R1, R2. fold (pdrops (map fst (sel_list vs sels)) 0 vs) in R1, R2.
    split.
    + intro H. destruct (R1 H) as (sym' & E'). rewrite Es, E'. cbn [bind]. eexists. split; [reflexivity|]. cbn [xv_out xv_vars xv_rsize].
      destruct M as [M1 M2 M3 M4]. split.
      { eapply Forall_impl; [|exact M1]. intros z (v & i & Hv & Hi & Hz). apply in_map_iff in Hv.
        destruct Hv as (p & <- & Hp). exists p, i. auto. }
      split.
      { rewrite M4. f_equal. unfold rest_sum. rewrite A. clear. generalize (map fst (sel_list vs sels)) as L. intro L.
        induction vs as [|p vs IH]; simpl; auto. destruct (mem_str (pi_name p) L); simpl; auto. }
      clear M1 M2 M3 M4.
      assert (HG' : forall p, In p vs -> mem_str (pi_name p) (map fst (sel_list vs sels)) = true ->
         exists inds, assoc (pi_name p) (sel_list vs sels) = Some inds).
      { intros p _ Hm. apply mem_str_in in Hm. destruct (assoc_some _ _ _ Hm) as (w & ? & _). eauto. }
      clear - C HG'. remember (sel_list vs sels) as L. clear HeqL. remember (st_vars s) as ws. clear Heqws.
      revert ws C. induction vs as [|p vs IH]; intros ws C; simpl in *; inversion C; subst; simpl; [constructor|].
      destruct H1 as (N1 & N2 & N3 & N4). cbn [xi0 xi_name] in N1. rewrite N1.
      destruct (mem_str (pi_name p) (map fst L)) eqn:Em.
      * constructor; [|apply IH; auto; intros; apply HG'; simpl; auto].
        destruct (HG' p (or_introl eq_refl) Em) as (inds & Ha). repeat split; auto. exists inds. split; auto.
        cbn [xi0 xi_name] in N4. rewrite Ha in N4. auto.
      * apply IH; auto.
    + intro H. rewrite Es, (R2 H). reflexivity.
Qed.

(** ** Values seen by Python *)

Lemma skipn_skipn : forall A n m (l : list A), skipn n (skipn m l) = skipn (m + n) l.
Proof.
  intros A n m. induction m as [|m IH]; intros l; simpl; auto.
  destruct l; [destruct n; reflexivity|apply IH].
Qed.

Section XPrimal.
  Variable K : Type.
  Variable k0 : K.

  Definition slot_vals (o : list K) (v : xinfo) : list K :=
    map (fun i => match slot v i with Some pos => nth pos o k0 | None => k0 end) (seq 0 (xi_size v)).

  Definition shaped (len : nat) (v : xinfo) : Prop :=
    xi_sym v = false /\ (xi_size v = 1 -> xi_idx v = [Some (xi_off v)])
    /\ (xi_size v <> 1 -> length (xi_idx v) = xi_size v)
    /\ (forall i pos, i < xi_size v -> slot v i = Some pos -> pos < len).

  Lemma xret_shaped : forall len vs, Forall (shaped len) vs ->
    xret vs = Ok (flat_map (fun v => if Nat.eqb (xi_size v) 1 then [SScalar (xi_name v) "x" (xi_off v)] else []) vs).
  Proof.
    intros len vs H. unfold xret.
    rewrite (mapM_ext _ _ _ (fun v => Ok (if Nat.eqb (xi_size v) 1 then [SScalar (xi_name v) "x" (xi_off v)] else []))).
    - assert (G : forall l, mapM (fun v => Ok (if Nat.eqb (xi_size v) 1 then [SScalar (xi_name v) "x" (xi_off v)] else [])) l
        = Ok (map (fun v => if Nat.eqb (xi_size v) 1 then [SScalar (xi_name v) "x" (xi_off v)] else []) l)).
      { induction l as [|a l IH]; simpl; auto. rewrite IH. reflexivity. }
      rewrite G. cbn [bind]. rewrite flat_map_concat_map. reflexivity.
    - intros v Hv. rewrite Forall_forall in H. destruct (H v Hv) as (A & B & C & D).
      destruct (Nat.eqb (xi_size v) 1) eqn:E.
      + apply Nat.eqb_eq in E. rewrite (B E). reflexivity.
      + apply Nat.eqb_neq in E. rewrite (C E). apply Nat.eqb_neq in E. rewrite E, A. reflexivity.
  Qed.

  Lemma exec_scalars : forall fs ar vs len (st : rstate K) sx, Forall (shaped len) vs ->
    NoDup (map xi_name vs) ->
    (forall v, In v vs -> xi_size v = 1 -> assoc (xi_name v) fs = Some FScalar) ->
    r_vecs st "x" = sx -> len <= length sx ->
    exists st', exec fs ar st (flat_map (fun v => if Nat.eqb (xi_size v) 1 then [SScalar (xi_name v) "x" (xi_off v)] else []) vs) = Ok st'
      /\ r_vecs st' = r_vecs st
      /\ (forall n k, ~ In n (map xi_name vs) -> r_cells st' n k = r_cells st n k)
      /\ (forall v, In v vs -> xi_size v = 1 -> r_cells st' (xi_name v) 0 = nth (xi_off v) sx k0).
  Proof.
    intros fs ar. induction vs as [|v t IH]; intros len st sx HF HN HA Hx Hl; simpl.
    - exists st. repeat split; auto. contradiction.
    - inversion HF as [|? ? Hv HF']; subst. inversion HN as [|? ? Hn HN']; subst.
      destruct (Nat.eqb (xi_size v) 1) eqn:E; simpl.
      + apply Nat.eqb_eq in E. rewrite (HA v (or_introl eq_refl) E). unfold vread.
        destruct Hv as (S1 & S2 & S3 & S4).
        assert (Hp : xi_off v < length (r_vecs st "x")).
        { assert (xi_off v < len); [|lia]. apply (S4 0); [lia|]. unfold slot. rewrite E. reflexivity. }
        rewrite (nth_error_nth' _ k0 Hp). cbn [bind].
        destruct (IH len (mkRS (cset (r_cells st) (xi_name v) 0 (nth (xi_off v) (r_vecs st "x") k0)) (r_vecs st)) (r_vecs st "x"))
          as (st' & X1 & X2 & X3 & X4); auto.
        { intros w Hw. apply HA. simpl; auto. }
        exists st'. split; auto. split; auto. split.
        * intros n k Hnn. rewrite X3 by tauto. simpl. unfold cset.
          destruct (String.eqb n (xi_name v)) eqn:Es; auto. apply String.eqb_eq in Es. subst. exfalso. apply Hnn. left; auto.
        * intros w [<-|Hw] Hw1; [|apply X4; auto]. rewrite X3 by auto. simpl. unfold cset. rewrite String.eqb_refl. reflexivity.
      + destruct (IH len st (r_vecs st "x")) as (st' & X1 & X2 & X3 & X4); auto.
        { intros w Hw. apply HA. simpl; auto. }
        exists st'. split; auto. split; auto. split.
        * intros n k Hnn. apply X3. tauto.
        * intros w [<-|Hw] Hw1; [apply Nat.eqb_neq in E; lia|apply X4; auto].
  Qed.

  Lemma read_loop : forall (f : nat -> res K) (g : nat -> K) (idx : list (option nat)) s (l : list K),
    (forall i k, nth_error idx i = Some (Some k) -> f k = Ok (g k)) -> s + length idx <= length l ->
    fold_left (fun acc ik => l <- acc;; match snd ik with Some k => a <- f k;; put l (fst ik) a | None => Ok l end)
      (combine (seq s (length idx)) idx) (Ok l)
    = Ok (firstn s l ++ map2 (fun a k => match k with Some k => g k | None => a end) (firstn (length idx) (skipn s l)) idx
          ++ skipn (s + length idx) l).
  Proof.
    intros f g. induction idx as [|k idx IH]; intros s l Hf Hl; cbn [length seq combine fold_left].
    - rewrite Nat.add_0_r. simpl. rewrite firstn_skipn. reflexivity.
    - simpl length in Hl. cbn [snd fst bind].
      assert (Hs : exists a, skipn s l = a :: skipn (S s) l /\ forall b, upd l s b = firstn s l ++ b :: skipn (S s) l).
      { clear - Hl. revert s Hl. induction l as [|x l IH]; intros s Hl; [simpl in Hl; lia|].
        destruct s as [|s]; [exists x; simpl; split; auto|]. destruct (IH s) as (a & A & B); [simpl in Hl; lia|].
        exists a. simpl skipn. split; auto. intro b. simpl. rewrite B. reflexivity. }
      destruct Hs as (a & Ha & Hu). rewrite Ha. cbn [firstn].
      destruct k as [k|].
      + rewrite (Hf 0 k eq_refl). cbn [bind]. unfold put.
        assert (Hlt : Nat.ltb s (length l) = true) by (apply Nat.ltb_lt; lia). rewrite Hlt.
        rewrite IH; [|intros i k' H; apply (Hf (S i)); auto|rewrite upd_length; lia].
        rewrite Hu.
        assert (F1 : firstn (S s) (firstn s l ++ g k :: skipn (S s) l) = firstn s l ++ [g k]).
        { rewrite firstn_app, firstn_firstn, firstn_length. replace (Nat.min (S s) s) with s by lia.
          replace (S s - Nat.min s (length l)) with 1 by lia. reflexivity. }
        assert (F2 : forall n, skipn (S s + n) (firstn s l ++ g k :: skipn (S s) l) = skipn (S s + n) l).
        { intro n. rewrite skipn_app, firstn_length, skipn_all2 by (rewrite firstn_length; lia).
          replace (S s + n - Nat.min s (length l)) with (S n) by lia. rewrite app_nil_l.
          change (skipn (S n) (g k :: skipn (S s) l)) with (skipn n (skipn (S s) l)).
          rewrite skipn_skipn. reflexivity. }
        pose proof (F2 0) as F3. rewrite Nat.add_0_r in F3. rewrite F1, F2, F3. rewrite <- app_assoc. simpl.
        replace (s + S (length idx)) with (S (s + length idx)) by lia. reflexivity.
      + rewrite IH; [|intros i k' H; apply (Hf (S i)); auto|lia].
        assert (F1 : firstn (S s) l = firstn s l ++ [a]).
        { rewrite <- (firstn_skipn s l) at 1. rewrite Ha. rewrite firstn_app, firstn_firstn, firstn_length.
          replace (Nat.min (S s) s) with s by lia. replace (S s - Nat.min s (length l)) with 1 by lia. reflexivity. }
        rewrite F1, <- app_assoc. cbn [map2 app]. replace (s + S (length idx)) with (S s + length idx) by lia. reflexivity.
  Qed.

  Lemma x_primal_ok : forall nvar xv cells o, Forall (shaped (length o)) (xv_vars xv) -> NoDup (map xi_name (xv_vars xv)) ->
    x_primal k0 nvar xv cells o = Ok (map (fun v => (xi_name v, slot_vals o v)) (xv_vars xv)).
  Proof.
    intros nvar xv cells o HS HN. unfold x_primal.
    set (vs := xv_vars xv) in *. set (sx := sol_x k0 (solx_len nvar xv) o).
    assert (Hlen : length o <= length sx) by (unfold sx, sol_x; rewrite app_length; lia).
    assert (Hnth : forall p, p < length o -> nth p sx k0 = nth p o k0).
    { intros p Hp. unfold sx, sol_x. rewrite app_nth1; auto. }
    assert (HF : forall v, In v vs -> assoc (xi_name v) (xfields vs)
       = Some (if Nat.eqb (xi_size v) 1 then FScalar else if xi_sym v then FOwn else FSol "x" (xi_off v))).
    { intros v Hv. unfold xfields. apply (assoc_map _ _ xi_name
        (fun v => if Nat.eqb (xi_size v) 1 then FScalar else if xi_sym v then FOwn else FSol "x" (xi_off v))); auto. }
    set (st := mkRS cells (fun _ => sx)).
    assert (exists st', (if xret_exists xv then cs <- xret vs;; exec (xfields vs) (xarrays vs) st cs else Ok st) = Ok st'
       /\ r_vecs st' = r_vecs st
       /\ (forall v, In v vs -> xi_size v = 1 -> r_cells st' (xi_name v) 0 = nth (xi_off v) sx k0)) as (st' & E & V & C).
    { destruct (xret_exists xv) eqn:X.
      - rewrite (xret_shaped _ _ HS). cbn [bind].
        destruct (exec_scalars (xfields vs) (xarrays vs) vs (length o) st sx) as (st' & A & B & C & D); auto.
        { intros v Hv H1. rewrite (HF v Hv), H1. reflexivity. }
        exists st'. auto.
      - exists st. split; auto. split; auto. intros v Hv H1. unfold xret_exists in X. apply orb_false_elim in X. destruct X as [_ X].
        exfalso. assert (existsb (fun v => Nat.eqb (xi_size v) 1) (xv_vars xv) = true); [|congruence].
        apply existsb_exists. exists v. rewrite H1. auto. }
    rewrite E. cbn [bind].
    assert (G : forall l, incl l vs -> mapM (fun v => l <- xread k0 (xfields vs) (xarrays vs) st' v;; Ok (xi_name v, l)) l
       = Ok (map (fun v => (xi_name v, slot_vals o v)) l)).
    { induction l as [|v l IH]; intros Hi; simpl; auto.
      assert (Hv : In v vs) by (apply Hi; simpl; auto).
      rewrite Forall_forall in HS. destruct (HS v Hv) as (S1 & S2 & S3 & S4).
      assert (Er : xread k0 (xfields vs) (xarrays vs) st' v = Ok (slot_vals o v)).
      { unfold xread, slot_vals. destruct (Nat.eqb (xi_size v) 1) eqn:E1.
        - rewrite (HF v Hv), E1. apply Nat.eqb_eq in E1. rewrite (C v Hv E1), E1. simpl. unfold slot. rewrite E1. simpl.
          rewrite Hnth; auto. apply (S4 0); [lia|]. unfold slot. rewrite E1. reflexivity.
        - pose proof E1 as E2. apply Nat.eqb_neq in E2.
          rewrite (read_loop (field_at (xfields vs) (xarrays vs) st' (xi_name v)) (fun k => nth (xi_off v + k) o k0)).
          + rewrite (S3 E2). simpl firstn at 1. simpl app. rewrite skipn_all2 by (rewrite repeat_length; lia). rewrite app_nil_r.
            f_equal. simpl skipn. rewrite firstn_all2 by (rewrite repeat_length; lia).
            rewrite <- (S3 E2).
            assert (M : forall (g : nat -> K) idx, map2 (fun a k => match k with Some k => g k | None => a end) (repeat k0 (length idx)) idx
              = map (fun k => match k with Some k => g k | None => k0 end) idx).
            { intros g idx. induction idx; simpl; auto. f_equal; auto. }
            rewrite M.
            rewrite <- (firstn_all (xi_idx v)) at 1.
            change (xi_idx v) with (skipn 0 (xi_idx v)) at 2.
            rewrite <- (map_nth_seq _ None (xi_idx v) 0 (length (xi_idx v))) by lia.
            rewrite map_map. apply map_ext. intro i. unfold slot. rewrite E1. simpl. destruct (nth i (xi_idx v) None); reflexivity.
          + intros i k Hk. unfold field_at. rewrite (HF v Hv), E1, S1. unfold vread. rewrite V. simpl r_vecs.
            assert (Hp : xi_off v + k < length o).
            { apply (S4 i).
              - rewrite <- (S3 E2). apply nth_error_Some. congruence.
              - unfold slot. rewrite E1. rewrite (nth_error_nth _ _ None Hk). reflexivity. }
            rewrite (nth_error_nth' _ k0) by lia. rewrite Hnth; auto.
          + rewrite repeat_length. rewrite (S3 E2). lia. }
      rewrite Er. cbn [bind]. rewrite IH; auto. intros w Hw. apply Hi. simpl; auto. }
    apply G. intros v Hv; auto.
  Qed.
End XPrimal.
Arguments slot_vals {K}.
