(** The indices computed from a key are those of the entries it denotes. *)

From Coq Require Import String Arith Bool ZArith Lia List.
From Verif Require Import Base Retrieve RetrieveProofs Explicit ExplicitProofs ExplicitVars StoredVars StoredSpec.
Import ListNotations.
Open Scope list_scope.

Lemma in_arange_n : forall n a s z, In z (arange_n n a s) <-> exists k, (0 <= k < Z.of_nat n)%Z /\ z = (a + k * s)%Z.
Proof.
  induction n as [|n IH]; intros a s z; cbn [arange_n In].
  - split; [tauto|]. intros (k & H & _). lia.
  - rewrite IH. split.
    + intros [<-|(k & H & ->)]; [exists 0%Z; split; lia|]. exists (k + 1)%Z. split; [lia|ring].
    + intros (k & H & ->). destruct (Z.eq_dec k 0) as [->|N]; [left; ring|]. right. exists (k - 1)%Z. split; [lia|ring].
Qed.
Lemma in_arange : forall a b s z, In z (arange a b s) <-> (a <= z < b /\ exists k, z = a + k * Zpos s)%Z.
Proof.
  intros a b s z. unfold arange. rewrite in_arange_n. set (c := ((b - a + Z.pos s - 1) / Z.pos s)%Z).
  assert (Hs : (0 < Z.pos s)%Z) by lia.
  assert (HC : (Z.pos s * c <= b - a + Z.pos s - 1 < Z.pos s * c + Z.pos s)%Z).
  { pose proof (Z.mul_div_le (b - a + Z.pos s - 1) (Z.pos s) Hs). pose proof (Z.mul_succ_div_gt (b - a + Z.pos s - 1) (Z.pos s) Hs).
    fold c in H, H0. nia. }
  split.
  - intros (k & Hk & ->). split; [|eauto]. assert (k < c)%Z by lia. nia.
  - intros (Hz & k & ->). exists k. split; [|auto]. assert (0 <= k)%Z by nia. assert (k < c)%Z by nia. lia.
Qed.
Lemma nodup_arange_n : forall n a s, (0 < s)%Z -> NoDup (arange_n n a s).
Proof.
  induction n as [|n IH]; intros a s Hs; cbn [arange_n]; constructor; auto.
  rewrite in_arange_n. intros (k & Hk & E). nia.
Qed.

(** Formatting an already formatted slice changes nothing. *)
Lemma format_bounds : forall k dim a b s, format_slice k dim = Ok (a, b, s) ->
  (0 <= a <= Z.of_nat dim /\ 0 <= b <= Z.of_nat dim)%Z.
Proof.
  intros [z|x y s'|l] dim a b s; cbn [format_slice]; cbv zeta; [| |discriminate].
  - destruct (Z.leb_spec 0 (wrap_neg z dim)), (Z.ltb_spec (wrap_neg z dim) (Z.of_nat dim)); cbn [andb]; try discriminate.
    intro E. injection E as <- <- <-. lia.
  - intro E. injection E as <- <- <-. unfold clip. lia.
Qed.
Lemma format_twice : forall k dim a b s, format_slice k dim = Ok (a, b, s) ->
  format_slice (ASlice (Some a) (Some b) s) dim = Ok (a, b, s).
Proof.
  intros k dim a b s E. destruct (format_bounds _ _ _ _ _ E). cbn [format_slice]. unfold wrap_neg, clip.
  destruct (Z.ltb_spec a 0), (Z.ltb_spec b 0); try lia. repeat f_equal; lia.
Qed.

(** Positions of one axis. *)
Lemma axis_in : forall dim k r, axis_ok dim k -> ax_range (k, dim) = Ok r ->
  (forall z, In z r -> 0 <= z < Z.of_nat dim)%Z /\ (forall i, i < dim -> In (Z.of_nat i) r <-> exists t, axis_sel t dim k i).
Proof.
  intros dim [z|x y s|l] r Hok; unfold ax_range; cbn [fst snd].
  - cbn [axis_ok format_slice] in *. cbv zeta. unfold wrap_neg.
    set (w := if (z <? 0)%Z then (z + Z.of_nat dim)%Z else z).
    assert (Hw : (w = z /\ 0 <= z \/ z < 0 /\ w = z + Z.of_nat dim)%Z) by (unfold w; destruct (Z.ltb_spec z 0); lia).
    destruct (Z.leb_spec 0 w), (Z.ltb_spec w (Z.of_nat dim)); cbn [andb bind]; try discriminate.
    intro E. injection E as <-. split.
    + intros y Hy. apply in_arange in Hy. lia.
    + intros i Hi. rewrite in_arange. cbn [axis_sel]. unfold denotes. split.
      * intros (H1 & _). exists 0. lia.
      * intros (_ & H1). split; [lia|]. exists (Z.of_nat i - w)%Z. lia.
  - cbn [format_slice bind]. cbv zeta. intro E. injection E as <-. split.
    + intros z Hz. apply in_arange in Hz. unfold clip in Hz. lia.
    + intros i Hi. rewrite in_arange. cbn [axis_sel]. cbv zeta.
      set (a := clip (wrap_neg match x with Some z => z | None => 0%Z end dim) 0 (Z.of_nat dim)).
      set (b := clip (wrap_neg match y with Some z => z | None => Z.of_nat dim end dim) 0 (Z.of_nat dim)).
      set (lo := match x with Some z => Z.max 0 (from_end dim z) | None => 0%Z end).
      assert (Ha : (a = Z.min lo (Z.of_nat dim))%Z).
      { unfold a, lo, clip, wrap_neg, from_end. destruct x as [z|]; [destruct (Z.ltb_spec z 0); lia|].
        destruct (Z.ltb_spec 0 0); lia. }
      assert (Hb : (Z.of_nat i < b)%Z <-> match y with None => True | Some z => (Z.of_nat i < from_end dim z)%Z end).
      { unfold b, clip, wrap_neg, from_end. destruct y as [z|].
        - destruct (Z.ltb_spec z 0); lia.
        - destruct (Z.ltb_spec (Z.of_nat dim) 0); lia. }
      split.
      * intros ((H1 & H2) & n & H3). exists 0. assert (a = lo) by lia. split; [lia|]. split; [tauto|]. exists n. congruence.
      * intros (_ & H1 & H2 & n & H3). assert (a = lo) by lia. split; [split; [lia|tauto]|]. exists n. congruence.
  - intro E. injection E as <-. cbn [axis_ok] in Hok. rewrite Forall_forall in Hok. split; [auto|].
    assert (D : forall z i, In z l -> denotes dim z i -> z = Z.of_nat i).
    { intros z i Hz Hd. specialize (Hok z Hz). unfold denotes in Hd. lia. }
    intros i Hi. split.
    + intro Hin. destruct (In_nth_error _ _ Hin) as (t & Ht). exists t. cbn [axis_sel]. destruct l as [|z [|z' l]].
      * destruct Hin.
      * destruct Hin as [->|[]]. left. auto.
      * exists (Z.of_nat i). split; auto. left. auto.
    + intros (t & Ht). cbn [axis_sel] in Ht. destruct l as [|z [|z' l]].
      * destruct Ht as (z & E & _). destruct t; discriminate.
      * left. apply (D z i); simpl; auto.
      * destruct Ht as (w & E & Hd). apply nth_error_In in E. rewrite <- (D _ _ E Hd). auto.
Qed.
Lemma axis_nodup : forall dim k r, (match k with AList l => NoDup l | _ => True end) -> ax_range (k, dim) = Ok r -> NoDup r.
Proof.
  intros dim [z|x y s|l] r HN; unfold ax_range; cbn [fst snd].
  - destruct (format_slice (AInt z) dim) as [[[a b] s]|]; [|discriminate]. cbn [bind]. intro E. injection E as <-. apply nodup_arange_n. lia.
  - destruct (format_slice (ASlice x y s) dim) as [[[a b] s']|]; [|discriminate]. cbn [bind]. intro E. injection E as <-. apply nodup_arange_n. lia.
  - intro E. injection E as <-. auto.
Qed.
Lemma axis_total : forall dim k, axis_ok dim k -> exists r, ax_range (k, dim) = Ok r.
Proof.
  intros dim [z|x y s|l] H; unfold ax_range; cbn [fst snd]; eauto.
  - cbn [axis_ok] in H. cbn [format_slice]. cbv zeta. unfold wrap_neg.
    destruct (Z.ltb_spec z 0).
    + destruct (Z.leb_spec 0 (z + Z.of_nat dim)), (Z.ltb_spec (z + Z.of_nat dim) (Z.of_nat dim)); cbn [andb bind]; eauto; lia.
    + destruct (Z.leb_spec 0 z), (Z.ltb_spec z (Z.of_nat dim)); cbn [andb bind]; eauto; lia.
  - cbn [format_slice]. cbv zeta. cbn [bind]. eauto.
Qed.

(** The product. *)
Lemma in_product : forall rs id, In id (product rs) <-> Forall2 (fun z r => In z r) id rs.
Proof.
  induction rs as [|r rs IH]; intro id; cbn [product].
  - split.
    + intros [<-|[]]. constructor.
    + intro H. inversion H. left. auto.
  - rewrite in_flat_map. split.
    + intros (z & Hz & Hin). apply in_map_iff in Hin. destruct Hin as (u & <- & Hu). constructor; auto. apply IH. auto.
    + intro H. inversion H as [|z ? u ? H1 H2]; subst. exists z. split; auto. apply in_map. apply IH. auto.
Qed.
Lemma nodup_flat_map : forall A B (f : A -> list B) l, NoDup l -> (forall a, In a l -> NoDup (f a)) ->
  (forall a b x, In a l -> In b l -> In x (f a) -> In x (f b) -> a = b) -> NoDup (flat_map f l).
Proof.
  induction l as [|a l IH]; intros N Hf Hd; cbn [flat_map]; [constructor|]. inversion N; subst.
  assert (N2 : NoDup (flat_map f l)).
  { apply IH; auto; [intros; apply Hf; simpl; auto|]. intros x y z Hx Hy. apply Hd; simpl; auto. }
  assert (N1 : NoDup (f a)) by (apply Hf; simpl; auto).
  assert (Dj : forall x, In x (f a) -> ~ In x (flat_map f l)).
  { intros x Hx Hin. apply in_flat_map in Hin. destruct Hin as (b & Hb & Hxb).
    assert (a = b) by (apply (Hd a b x); simpl; auto). subst. auto. }
  clear - N1 N2 Dj. induction (f a) as [|x m IH]; cbn [app]; auto. inversion N1; subst. constructor.
  - rewrite in_app_iff. intros [H|H]; [auto|]. apply (Dj x); simpl; auto.
  - apply IH; auto. intros y Hy. apply Dj. simpl. auto.
Qed.
Lemma nodup_product : forall rs, Forall (@NoDup Z) rs -> NoDup (product rs).
Proof.
  induction 1 as [|r rs H F IH]; cbn [product]; [repeat constructor; auto|]. apply nodup_flat_map; auto.
  - intros z _. apply FinFun.Injective_map_NoDup; auto. intros x y E. injection E. auto.
  - intros a b x _ _ Ha Hb. apply in_map_iff in Ha. apply in_map_iff in Hb. destruct Ha as (u & <- & _), Hb as (v & E & _).
    injection E. auto.
Qed.

Lemma ravel_ok : forall sh idx, in_shape sh idx -> ravel sh (map Z.of_nat idx) = Ok (Z.of_nat (fpos sh idx)).
Proof.
  induction 1 as [|h t i is Hi H IH]; cbn [ravel map fpos]; auto.
  destruct (Z.leb_spec 0 (Z.of_nat i)), (Z.ltb_spec (Z.of_nat i) (Z.of_nat h)); try lia. cbn [andb].
  rewrite IH. cbn [bind]. f_equal. lia.
Qed.
Lemma ravel_bad : forall sh id, (length id <> length sh \/ exists z, In z id /\ (z < 0)%Z) -> ravel sh id = Err ValueError.
Proof.
  induction sh as [|h sh IH]; intros [|z id] H; cbn [ravel]; auto.
  - exfalso. destruct H as [H|(z & [] & _)]. auto.
  - destruct (Z.leb_spec 0 z); cbn [andb]; auto. destruct (Z.ltb_spec z (Z.of_nat h)); auto.
    rewrite IH; auto. destruct H as [H|(y & [->|Hy] & Hz)]; [left; simpl in H; lia|lia|right; eauto].
Qed.
Lemma fpos_inj : forall sh a b, in_shape sh a -> in_shape sh b -> fpos sh a = fpos sh b -> a = b.
Proof.
  intros sh a b Ha Hb E. apply nth_fidx in Ha. apply nth_fidx in Hb. rewrite E in Ha. congruence.
Qed.

(** One key per axis. *)
Inductive axes_mem : list nat -> list akey -> list nat -> Prop :=
| am_nil : axes_mem [] [] []
| am_cons : forall h sh k ks i idx, i < h -> (exists t, axis_sel t h k i) -> axes_mem sh ks idx ->
    axes_mem (h :: sh) (k :: ks) (i :: idx).
Lemma axes_mem_shape : forall sh ks idx, axes_mem sh ks idx -> in_shape sh idx.
Proof. induction 1; constructor; auto. Qed.

Lemma axes_total : forall sh ks, axes_ok sh ks -> length ks = length sh -> exists rs, mapM ax_range (combine ks sh) = Ok rs
  /\ Forall2 (fun kd r => ax_range kd = Ok r) (combine ks sh) rs.
Proof.
  intros sh ks H. induction H as [sh|h sh k ks Hk H IH]; intro L; cbn [combine mapM].
  - exists []. auto.
  - destruct (axis_total h k Hk) as (r & Er). rewrite Er. cbn [bind]. cbn [length] in L. destruct IH as (rs & -> & F); [lia|].
    cbn [bind]. eauto.
Qed.
Lemma ranges_in : forall sh ks, axes_ok sh ks -> length ks = length sh -> forall rs,
  Forall2 (fun kd r => ax_range kd = Ok r) (combine ks sh) rs ->
  forall id, Forall2 (fun z r => In z r) id rs <-> exists idx, axes_mem sh ks idx /\ id = map Z.of_nat idx.
Proof.
  intros sh ks H. induction H as [sh|h sh k ks Hk H IH]; intros L rs F id; cbn [combine] in F.
  - inversion F; subst. destruct sh; [|discriminate]. split.
    + intro G. inversion G. exists []. split; constructor.
    + intros (idx & G & ->). inversion G. constructor.
  - inversion F as [|? r ? rs' Er F']; subst. cbn [length] in L. destruct (axis_in h k r Hk Er) as (A & B). split.
    + intro G. inversion G as [|z ? id' ? Hz G']; subst. apply IH in G'; auto. destruct G' as (idx & M & ->).
      pose proof (A z Hz). exists (Z.to_nat z :: idx). cbn [map]. rewrite Z2Nat.id by lia. split; auto. constructor; auto; [lia|].
      apply B; [lia|]. rewrite Z2Nat.id by lia. auto.
    + intros (idx & M & ->). inversion M as [|h' sh' k' ks' i idx' Hi Ht M']; subst. cbn [map]. constructor; [apply B; auto|]. apply IH; eauto.
Qed.

(** The computed indices. *)
Lemma expand_ok : forall sh ks, axes_ok sh ks -> length ks = length sh -> exists is, expand sh ks = Ok is
  /\ (forall z, In z is <-> exists idx, axes_mem sh ks idx /\ z = Z.of_nat (fpos sh idx))
  /\ (no_repeats ks -> NoDup is).
Proof.
  intros sh ks H L. destruct (axes_total sh ks H L) as (rs & E & F). unfold expand. rewrite E. cbn [bind].
  pose proof (ranges_in sh ks H L rs F) as R.
  set (h := fun id : list Z => Z.of_nat (fpos sh (map Z.to_nat id))).
  assert (Eh : forall idx, h (map Z.of_nat idx) = Z.of_nat (fpos sh idx)).
  { intro idx. unfold h. rewrite map_map. do 2 f_equal. rewrite <- map_id. apply map_ext. intro. apply Nat2Z.id. }
  exists (map h (product rs)). split; [|split].
  - apply mapM_pure. intros id Hid. apply in_product, R in Hid. destruct Hid as (idx & M & ->). rewrite Eh.
    apply ravel_ok. eapply axes_mem_shape; eauto.
  - intro z. rewrite in_map_iff. split.
    + intros (id & <- & Hid). apply in_product, R in Hid. destruct Hid as (idx & M & ->). exists idx. split; auto.
    + intros (idx & M & ->). exists (map Z.of_nat idx). split; auto. apply in_product, R. eauto.
  - intro NR.
    assert (Hr : Forall (@NoDup Z) rs).
    { clear - F NR H. revert rs F NR. induction H as [sh|h sh k ks Hk H IH]; intros rs F NR; cbn [combine] in F; inversion F; subst; constructor.
      - eapply axis_nodup; [|eauto]. inversion NR; auto.
      - apply IH; auto. inversion NR; auto. }
    apply nodup_product in Hr. revert Hr.
    assert (Hin : forall id, In id (product rs) -> exists idx, in_shape sh idx /\ id = map Z.of_nat idx).
    { intros id Hid. apply in_product, R in Hid. destruct Hid as (idx & M & ->). exists idx. split; auto. eapply axes_mem_shape; eauto. }
    clear - Hin Eh. induction (product rs) as [|id ids IH]; intro N; cbn [map]; [constructor|]. inversion N; subst. constructor.
    + rewrite in_map_iff. intros (id' & E & Hid'). destruct (Hin id) as (a & Ha & ->); [simpl; auto|].
      destruct (Hin id') as (b & Hb & ->); [simpl; auto|]. rewrite !Eh in E. apply Nat2Z.inj in E.
      apply fpos_inj in E; auto. subst. auto.
    + apply IH; auto. intros id' Hid'. apply Hin. simpl. auto.
Qed.

(** Positions axis by axis and positions of the expression. *)
Definition long (k : akey) : bool := match k with AList [_] => false | AList _ => true | _ => false end.
Lemma not_long : forall k, long k = false -> forall t t' h i, axis_sel t h k i -> axis_sel t' h k i.
Proof. intros [z|x y s|[|z [|z' l]]] H t t' h i; cbn [axis_sel long] in *; auto; discriminate. Qed.
Lemma axes_mem_none : forall sh ks idx, axes_mem sh ks idx -> filter long ks = [] -> forall t, axes_sel t sh ks idx.
Proof.
  induction 1 as [|h sh k ks i idx Hi (t' & Ht) H IH]; intros E t.
  - constructor. constructor.
  - cbn [filter] in E. destruct (long k) eqn:El; [discriminate|]. constructor; auto. eapply not_long; eauto.
Qed.
Lemma axes_mem_one : forall sh ks idx, axes_mem sh ks idx -> one_list ks -> exists t, axes_sel t sh ks idx.
Proof.
  unfold one_list. change (fun k => match k with AList [_] => false | AList _ => true | _ => false end) with long.
  induction 1 as [|h sh k ks i idx Hi (t' & Ht) H IH]; intro E.
  - exists 0. constructor. constructor.
  - cbn [filter] in E. destruct (long k) eqn:El; cbn [length] in E.
    + exists t'. constructor; auto. apply axes_mem_none; auto. destruct (filter long ks); auto. simpl in E. lia.
    + destruct (IH E) as (t & M). exists t. constructor; auto. eapply not_long; eauto.
Qed.
Lemma axes_sel_mem : forall t sh ks idx, axes_sel t sh ks idx -> length ks = length sh -> axes_mem sh ks idx.
Proof.
  induction 1 as [sh idx H|h sh k ks i idx Hi Hs H IH]; intro L.
  - destruct sh; [|discriminate]. inversion H. constructor.
  - cbn [length] in L. constructor; eauto.
Qed.

(** Missing axes. *)
Definition padded (sh : list nat) (ks : list akey) : list akey := ks ++ repeat full_slice (length sh - length ks).
Lemma full_sel : forall t h i, axis_sel t h full_slice i.
Proof. intros t h i. cbn [axis_sel full_slice]. cbv zeta. split; [lia|]. split; auto. exists (Z.of_nat i). lia. Qed.
Lemma pad_full : forall sh idx, axes_mem sh (repeat full_slice (length sh)) idx <-> in_shape sh idx.
Proof.
  intros sh idx. split; [apply axes_mem_shape|]. induction 1; cbn [length repeat]; constructor; auto. exists 0. apply full_sel.
Qed.
Lemma axes_ok_length : forall sh ks, axes_ok sh ks -> length ks <= length sh.
Proof. induction 1; cbn [length]; lia. Qed.
Lemma pad_ok : forall sh ks, axes_ok sh ks -> axes_ok sh (padded sh ks).
Proof.
  unfold padded. induction 1 as [sh|h sh k ks Hk H IH]; cbn [length Nat.sub app].
  - rewrite Nat.sub_0_r. induction sh; cbn [length repeat]; constructor; auto. simpl. auto.
  - constructor; auto.
Qed.
Lemma pad_length : forall sh ks, length ks <= length sh -> length (padded sh ks) = length sh.
Proof. intros. unfold padded. rewrite app_length, repeat_length. lia. Qed.
Lemma pad_sel_mem : forall sh ks t idx, axes_sel t sh ks idx -> axes_mem sh (padded sh ks) idx.
Proof.
  unfold padded. induction 1 as [sh idx H|h sh k ks i idx Hi Hs H IH]; cbn [app length Nat.sub].
  - rewrite Nat.sub_0_r. apply pad_full. auto.
  - constructor; eauto.
Qed.
Lemma pad_unpad : forall t sh ks idx, length ks <= length sh -> axes_sel t sh (padded sh ks) idx -> axes_sel t sh ks idx.
Proof.
  intros t sh. induction sh as [|h sh IH]; intros [|k ks] idx L H; cbn [length] in L; try lia.
  - constructor. inversion H; auto.
  - constructor. apply axes_sel_mem in H; [|apply pad_length; simpl; lia]. eapply axes_mem_shape; eauto.
  - unfold padded in H. cbn [app length Nat.sub] in H. inversion H; subst. constructor; auto. apply IH; [lia|auto].
Qed.
Lemma pad_one : forall sh ks, one_list ks -> one_list (padded sh ks).
Proof.
  unfold one_list, padded. intros sh ks H. rewrite filter_app, app_length.
  assert (E : forall n, filter (fun k => match k with AList [_] => false | AList _ => true | _ => false end) (repeat full_slice n) = [])
    by (induction n; simpl; auto).
  rewrite E. simpl. lia.
Qed.
Lemma pad_norep : forall sh ks, no_repeats ks -> no_repeats (padded sh ks).
Proof.
  unfold no_repeats, padded. intros sh ks H. apply Forall_app. split; auto. induction (length sh - length ks); simpl; constructor; simpl; auto.
Qed.

(** A validated key gives the same ranges. *)
Lemma validate_ranges : forall sh ks, axes_ok sh ks -> length ks = length sh -> existsb is_list ks = false -> forall ks',
  mapM (fun kd => '(a, b, s) <- format_slice (fst kd) (snd kd);; Ok (ASlice (Some a) (Some b) s)) (combine ks sh) = Ok ks' ->
  mapM ax_range (combine ks' sh) = mapM ax_range (combine ks sh).
Proof.
  intros sh ks H. induction H as [sh|h sh k ks Hk H IH]; intros L N ks' E; cbn [combine mapM] in E.
  - injection E as <-. reflexivity.
  - cbn [fst snd] in E. cbn [existsb length] in N, L. apply orb_false_iff in N. destruct N as (N1 & N2).
    destruct (format_slice k h) as [[[a b] s]|] eqn:Ek; [|discriminate]. cbn [bind] in E.
    destruct (mapM _ (combine ks sh)) as [ks''|] eqn:E2; [|discriminate]. cbn [bind] in E. injection E as <-.
    cbn [combine mapM]. rewrite (IH ltac:(lia) N2 ks'' eq_refl). unfold ax_range at 1. cbn [fst snd].
    rewrite (format_twice _ _ _ _ _ Ek). cbn [bind].
    assert (Er : ax_range (k, h) = Ok (arange a b s)).
    { unfold ax_range. cbn [fst snd]. destruct k; [rewrite Ek; auto|rewrite Ek; auto|discriminate]. }
    rewrite Er. reflexivity.
Qed.
Lemma validate_total : forall sh ks, axes_ok sh ks -> existsb is_list ks = false ->
  exists ks', mapM (fun kd => '(a, b, s) <- format_slice (fst kd) (snd kd);; Ok (ASlice (Some a) (Some b) s)) (combine ks sh) = Ok ks'.
Proof.
  intros sh ks H. induction H as [sh|h sh k ks Hk H IH]; intro N; cbn [combine mapM]; eauto.
  cbn [existsb] in N. apply orb_false_iff in N. destruct N as (N1 & N2). destruct (IH N2) as (ks' & ->). cbn [fst snd].
  destruct (axis_total h k Hk) as (r & Er). unfold ax_range in Er. cbn [fst snd] in Er.
  destruct (format_slice k h) as [[[a b] s]|e] eqn:Ek; cbn [bind]; eauto. destruct k; try discriminate; rewrite Ek in Er; discriminate.
Qed.
Lemma validate_ok : forall sh ks, axes_ok sh ks -> existsb is_list ks = false ->
  exists ks', validate_key ks sh = Ok ks' /\ expand sh ks' = expand sh (padded sh ks).
Proof.
  intros sh ks H N. pose proof (axes_ok_length _ _ H) as L. unfold validate_key.
  destruct (Nat.ltb_spec (length sh) (length ks)); [lia|].
  assert (N' : existsb is_list (padded sh ks) = false).
  { unfold padded. rewrite existsb_app, N. simpl. induction (length sh - length ks); simpl; auto. }
  fold (padded sh ks).
  destruct (validate_total sh (padded sh ks) (pad_ok _ _ H) N') as (ks' & E). rewrite E.
  exists ks'. split; auto. unfold expand. f_equal.
  apply (validate_ranges sh (padded sh ks) (pad_ok _ _ H) (pad_length _ _ L) N' ks' E).
Qed.

(** Selections of an item. *)
Definition sel_right (sh : list nat) (sel : list nat -> Prop) (ex : Prop) (is : list Z) : Prop :=
  NoDup is /\ (forall z, In z is -> exists idx, in_shape sh idx /\ z = Z.of_nat (fpos sh idx))
  /\ (forall idx, sel idx -> in_shape sh idx /\ In (Z.of_nat (fpos sh idx)) is)
  /\ (ex -> forall idx, in_shape sh idx -> In (Z.of_nat (fpos sh idx)) is -> sel idx).

Lemma tuple_sel : forall sh ks, axes_ok sh ks -> no_repeats ks -> (existsb is_list ks = true -> length ks = length sh) ->
  exists k' is, cvx_key sh (KTuple ks) = Ok (KTuple k') /\ expand sh k' = Ok is
    /\ sel_right sh (selects sh (KTuple ks)) (one_list ks) is.
Proof.
  intros sh ks H NR HL. pose proof (axes_ok_length _ _ H) as L.
  destruct (expand_ok sh (padded sh ks) (pad_ok _ _ H) (pad_length _ _ L)) as (is & E & M & N).
  assert (R : sel_right sh (selects sh (KTuple ks)) (one_list ks) is).
  { split; [apply N, pad_norep; auto|]. split; [|split].
    - intros z Hz. apply M in Hz. destruct Hz as (idx & Ha & ->). exists idx. split; auto. eapply axes_mem_shape; eauto.
    - intros idx (t & Ht). apply pad_sel_mem in Ht. split; [eapply axes_mem_shape; eauto|]. apply M. eauto.
    - intros Ho idx Hi Hin. apply M in Hin. destruct Hin as (idx' & Ha & Ez). apply Nat2Z.inj in Ez.
      apply fpos_inj in Ez; auto; [|eapply axes_mem_shape; eauto]. subst.
      destruct (axes_mem_one _ _ _ Ha (pad_one _ _ Ho)) as (t & Ht). exists t. apply pad_unpad; auto. }
  cbn [cvx_key]. destruct (existsb is_list ks) eqn:El.
  - exists ks, is. split; auto. split; auto. specialize (HL eq_refl). unfold padded in E.
    replace (length sh - length ks) with 0 in E by lia. simpl in E. rewrite app_nil_r in E. auto.
  - destruct (validate_ok sh ks H El) as (k' & E1 & E2). rewrite E1. cbn [bind]. exists k', is. split; auto. split; auto. congruence.
Qed.

Lemma item_sel : forall v k, plain_key (uv_shape v) k -> exists is, sel_item (SIndex v k) = Ok (uv_name v, Some is)
  /\ sel_right (uv_shape v) (selects (uv_shape v) k) (exact_item (SIndex v k)) is.
Proof.
  intros v k H. unfold plain_key in H. destruct (uv_shape v) as [|h [|h' sh]] eqn:Esh.
  - destruct H as (ks & -> & Hne & H & NR & HL). destruct (tuple_sel [] ks H NR HL) as (k' & is & E1 & E2 & R).
    exists is. split; auto. destruct ks as [|k ks]; [congruence|]. inversion H.
  - destruct H as (l & -> & F & N). exists l. unfold sel_item. cbn [cvx_key bind]. rewrite Esh. cbn [bind]. split; auto.
    rewrite Forall_forall in F. split; auto. split; [|split].
    + intros z Hz. specialize (F z Hz). exists [Z.to_nat z]. split; [repeat constructor; lia|]. simpl. lia.
    + intros idx (Hi & h0 & i & E1 & E2 & z & Hz & Hd). split; auto. injection E1 as <-. inversion Hi as [|a b i' t Hlt Hr]; subst.
      injection E2 as ->. inversion Hr; subst. cbn [fpos]. specialize (F z Hz). unfold denotes in Hd.
      replace (Z.of_nat (i + h * 0)) with z by lia. auto.
    + intros _ idx Hi Hin. split; auto. inversion Hi as [|a b i t Hlt Hr]; subst. inversion Hr; subst.
      exists h, i. repeat split; auto. exists (Z.of_nat i). split; [|left; auto]. cbn [fpos] in Hin.
      replace (i + h * 0) with i in Hin by lia. auto.
  - destruct H as (ks & -> & Hne & H & NR & HL). destruct (tuple_sel (h :: h' :: sh) ks H NR HL) as (k' & is & E1 & E2 & R).
    exists is. unfold sel_item. rewrite Esh, E1. cbn [bind]. rewrite E2. cbn [bind]. destruct ks; [congruence|]. auto.
Qed.

(** With two entries, or the only one, the selection is a good one (C30). *)
Lemma right_good : forall sh sel ex is, sel_right sh sel ex is -> enough sh sel -> good_sel (fsize sh) (Some is) /\ is <> [].
Proof.
  intros sh sel ex is (N & R & S & _) (idx & Hs & Hen). destruct (S idx Hs) as (Hi & Hin).
  destruct is as [|z t]; [destruct Hin|]. split; [|discriminate]. cbn [good_sel]. split; auto. split.
  - intros y Hy. destruct (R y Hy) as (i' & H1 & ->). pose proof (fpos_lt _ _ H1). lia.
  - intros ->. destruct Hen as [E|(idx' & Hs' & Hne)]; auto. exfalso. apply Hne. destruct (S idx' Hs') as (Hi' & Hin').
    destruct Hin as [E1|[]]. destruct Hin' as [E2|[]]. apply (fpos_inj sh); auto. lia.
Qed.
