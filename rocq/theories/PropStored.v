(** The option stored_vars of the explicit solver: property C66. *)

From Coq Require Import String Arith Bool ZArith Lia List.
From Verif Require Import Base Retrieve RetrieveProofs Explicit ExplicitProofs ExplicitVars PropExplicit
     StoredVars StoredSpec StoredProofs.
Import ListNotations.
Open Scope string_scope.
Open Scope list_scope.

(** ** The selection made of the items *)

Definition picked (us : list uvar) (sels : list (string * option (list Z))) (s : sitem) (idx : list nat) : Prop :=
  requested (sel_of us (Some sels) (uv_name (si_var s))) (fpos (uv_shape (si_var s)) idx).

Lemma item_any : forall s, plain_item s -> exists sel, sel_item s = Ok (uv_name (si_var s), sel)
  /\ good_sel (fsize (uv_shape (si_var s))) sel
  /\ (forall idx, item_selects s idx -> in_shape (uv_shape (si_var s)) idx /\ requested sel (fpos (uv_shape (si_var s)) idx))
  /\ (exact_item s -> forall idx, in_shape (uv_shape (si_var s)) idx -> requested sel (fpos (uv_shape (si_var s)) idx) -> item_selects s idx).
Proof.
  intros [v|v k] H; cbn [plain_item si_var] in *.
  - exists None. cbn. auto.
  - destruct H as (Hk & He). destruct (item_sel v k Hk) as (is & E & R). exists (Some is).
    destruct (right_good _ _ _ _ R He) as (G & Hne). split; auto. split; auto.
    destruct R as (_ & _ & R1 & R2). destruct is as [|z t]; [congruence|]. cbn [requested item_selects]. split; auto.
Qed.

(** Whatever the selection asks for is stored and, unless several lists are combined, nothing else; the selections
    meet the conditions of C30 and C65. *)
Theorem C66_selection : forall us items,
  NoDup (map (fun s => uv_name (si_var s)) items) ->
  (forall s, In s items -> In (si_var s) us /\ plain_item s) ->
  exists sels, mapM sel_item items = Ok sels /\ good_sels us (Some sels)
    /\ map fst sels = map (fun s => uv_name (si_var s)) items
    /\ forall s idx, In s items -> in_shape (uv_shape (si_var s)) idx ->
         (item_selects s idx -> picked us sels s idx)
         /\ (exact_item s -> picked us sels s idx -> item_selects s idx).
Proof.
  intros us items. induction items as [|s items IH]; intros N H.
  - exists []. split; [reflexivity|]. split; [split; [constructor|intros n i []]|]. split; [reflexivity|]. intros s idx [].
  - cbn [map] in N. inversion N as [|? ? N1 N2]; subst. destruct IH as (sels & E & G & Ef & P); auto.
    { intros x Hx. apply H. simpl. auto. }
    destruct (H s (or_introl eq_refl)) as (Hu & Hp). destruct (item_any s Hp) as (sel & Es & Gs & R1 & R2).
    exists ((uv_name (si_var s), sel) :: sels). split.
    { cbn [mapM]. rewrite Es. cbn [bind]. rewrite E. reflexivity. }
    split; [|split].
    + destruct G as (G1 & G2). split.
      * cbn [map fst]. constructor; auto. congruence.
      * intros n inds [Hin|Hin]; [|eauto]. inversion Hin; subst. exists (si_var s). auto.
    + cbn [map fst]. congruence.
    + intros x idx [<-|Hx] Hi.
      * unfold picked, sel_of. cbn [assoc]. rewrite String.eqb_refl. split; [intro; apply R1; auto|]. intros. apply R2; auto.
      * destruct (P x idx Hx Hi) as (P1 & P2). unfold picked, sel_of in *. cbn [assoc].
        destruct (String.eqb (uv_name (si_var x)) (uv_name (si_var s))) eqn:Eq; auto.
        apply String.eqb_eq in Eq. exfalso. apply N1. rewrite <- Eq. apply in_map_iff. eauto.
Qed.
Print Assumptions C66_selection.

(** ** What the user's variables hold *)

(** [blk]: the blocks of the solution vector, by variable. *)
Theorem C66_values : forall (K : Type) (k0 : K) red us (blk : nat -> list K) vs items,
  vars_ok red us -> (forall i z, In (i, z) red -> length (blk i) = z) ->
  (forall u, In u us -> uv_sym u = false) -> prim_info red us = Ok vs ->
  NoDup (map (fun s => uv_name (si_var s)) items) ->
  (forall s, In s items -> In (si_var s) us /\ plain_item s) ->
  (forall k i, nth_error (dropped (map (fun s => uv_name (si_var s)) items) 0 us) k = Some i -> i + k < length us) ->
  forall nvar cells, exists xv o rs,
    store_items vs (Some items) = Ok xv
    /\ table_out (concat (map (fun e => blk (fst e)) red)) (xv_out xv) = Ok o
    /\ x_primal k0 nvar xv cells o = Ok rs
    /\ forall s, In s items -> exists r, In (uv_name (si_var s), r) rs /\ length r = fsize (uv_shape (si_var s))
         /\ forall idx, in_shape (uv_shape (si_var s)) idx ->
              let at_idx l := nth (fpos (uv_shape (si_var s)) idx) l k0 in
              (item_selects s idx -> at_idx r = at_idx (blk (uv_id (si_var s))))
              /\ (exact_item s -> ~ item_selects s idx -> at_idx r = k0)
              /\ (at_idx r = at_idx (blk (uv_id (si_var s))) \/ at_idx r = k0).
Proof.
  intros K k0 red us blk vs items HV HB HS Hp N H HD nvar cells.
  destruct (C66_selection us items N H) as (sels & E & G & Ef & P).
  destruct (C30_stored_entries K k0 red us blk vs (Some sels) HV HB HS G Hp) with (nvar := nvar) (cells := cells) as (xv & o & rs & E1 & E2 & E3 & F).
  { cbn [sel_names]. rewrite Ef. auto. }
  exists xv, o, rs. split; [unfold store_items; rewrite E; cbn [bind]; auto|]. split; auto. split; auto.
  intros s Hs. destruct (H s Hs) as (Hu & Hpl).
  assert (Hin : In (si_var s) (filter (fun u => if in_dec string_dec (uv_name u) (sel_names us (Some sels)) then true else false) us)).
  { apply filter_In. split; auto. destruct (in_dec string_dec (uv_name (si_var s)) (sel_names us (Some sels))) as [|n]; auto.
    exfalso. apply n. cbn [sel_names]. rewrite Ef. apply in_map_iff. eauto. }
  assert (Hr : exists r, In r rs /\ fst r = uv_name (si_var s) /\ partly k0 (sel_of us (Some sels) (uv_name (si_var s))) (blk (uv_id (si_var s))) (snd r)).
  { clear - F Hin. induction F as [|u r l l' Hur F IH]; [destruct Hin|]. destruct Hin as [->|Hin].
    - exists r. simpl. tauto.
    - destruct (IH Hin) as (r' & A & B). exists r'. simpl. tauto. }
  destruct Hr as ([n r] & Hr & En & Lr & Pr). cbn [fst snd] in *. subst n.
  assert (Lb : length (blk (uv_id (si_var s))) = fsize (uv_shape (si_var s))).
  { pose proof (vo_size _ _ HV _ Hu) as Hl. unfold packed_size in Hl. rewrite (HS _ Hu) in Hl. apply HB. apply lookup_in. auto. }
  exists r. split; auto. split; [congruence|]. intros idx Hi. cbv zeta.
  destruct (P s idx Hs Hi) as (P1 & P2). unfold picked in *.
  destruct (Pr (fpos (uv_shape (si_var s)) idx)) as (Q1 & Q2); [rewrite Lb; apply fpos_lt; auto|].
  split; [auto|]. split; [intros Hex Hn; apply Q2; intro; apply Hn; auto|].
  assert (Dc : requested (sel_of us (Some sels) (uv_name (si_var s))) (fpos (uv_shape (si_var s)) idx)
               \/ ~ requested (sel_of us (Some sels) (uv_name (si_var s))) (fpos (uv_shape (si_var s)) idx)).
  { unfold requested. destruct (sel_of _ _ _) as [[|z t]|]; auto.
    destruct (in_dec Z.eq_dec (Z.of_nat (fpos (uv_shape (si_var s)) idx)) (z :: t)); auto. }
  destruct Dc; auto.
Qed.
Print Assumptions C66_values.

(** ** What is refused *)

(** Integers and slices on vectors. *)
Theorem C66_vector_slices_refused : forall v h ks, uv_shape v = [h] -> ks <> [] -> existsb is_list ks = false ->
  length ks <= 1 -> axes_ok [h] ks -> sel_item (SIndex v (KTuple ks)) = Err TypeError.
Proof.
  intros v h ks Hv Hne N L H. destruct ks as [|k [|k2 ks]]; [congruence| |simpl in L; lia].
  unfold sel_item. rewrite Hv. destruct (validate_ok [h] [k] H N) as (ks' & E & _). cbn [cvx_key]. rewrite N, E. cbn [bind].
  assert (Hs : exists a b s, ks' = [ASlice a b s]).
  { unfold validate_key in E. cbn [length Nat.ltb Nat.leb Nat.sub repeat app combine mapM fst snd] in E.
    destruct (format_slice k h) as [[[a b] s]|]; [|discriminate]. cbn [bind] in E. injection E as <-. eauto. }
  destruct Hs as (a & b & s & ->). reflexivity.
Qed.
Print Assumptions C66_vector_slices_refused.

(** A negative number in a list, and a list together with fewer keys than axes (unless nothing is selected). *)
Lemma product_some : forall rs, Forall (fun r : list Z => r <> []) rs -> forall k r z, nth_error rs k = Some r -> In z r ->
  exists id, In id (product rs) /\ nth_error id k = Some z.
Proof.
  intros rs F. induction F as [|r rs Hr F IH]; intros k r0 z E Hz; [destruct k; discriminate|]. destruct k as [|k]; cbn [nth_error] in E.
  - injection E as ->. assert (Hex : exists id, In id (product rs)).
    { clear - F. induction F as [|r rs Hr F (id & IH)]; [exists []; simpl; auto|]. destruct r as [|y r]; [congruence|].
      exists (y :: id). cbn [product]. apply in_flat_map. exists y. split; [simpl; auto|]. apply in_map. auto. }
    destruct Hex as (id & Hid). exists (z :: id). split; auto. cbn [product]. apply in_flat_map. exists z. split; auto. apply in_map. auto.
  - destruct (IH k r0 z E Hz) as (id & A & B). destruct r as [|y r]; [congruence|]. exists (y :: id). split; auto.
    cbn [product]. apply in_flat_map. exists y. split; [simpl; auto|]. apply in_map. auto.
Qed.
Lemma mapM_first_err : forall A B (f : A -> res B) e l a, In a l -> f a = Err e -> (forall b e', In b l -> f b = Err e' -> e' = e) -> mapM f l = Err e.
Proof.
  induction l as [|x l IH]; intros a Ha Ea Hall; [destruct Ha|]. cbn [mapM]. destruct (f x) as [y|e'] eqn:Ex; cbn [bind].
  - destruct Ha as [->|Ha]; [congruence|]. rewrite (IH a Ha Ea); auto. intros b e' Hb. apply Hall. simpl. auto.
  - rewrite (Hall x e' (or_introl eq_refl) Ex). auto.
Qed.
Lemma ravel_err : forall sh id e, ravel sh id = Err e -> e = ValueError.
Proof.
  induction sh as [|h sh IH]; intros [|z id] e; cbn [ravel]; try congruence.
  destruct (Z.leb 0 z && Z.ltb z (Z.of_nat h)); [|congruence]. destruct (ravel sh id) eqn:E; cbn [bind]; intro H; [discriminate|].
  injection H as <-. eauto.
Qed.
Theorem C66_tuple_refused : forall v h h' sh ks rs,
  uv_shape v = h :: h' :: sh -> existsb is_list ks = true ->
  mapM ax_range (combine ks (uv_shape v)) = Ok rs -> Forall (fun r => r <> []) rs ->
  (length ks < length (uv_shape v) \/ exists l z, In (AList l) (firstn (length (uv_shape v)) ks) /\ In z l /\ (z < 0)%Z) ->
  sel_item (SIndex v (KTuple ks)) = Err ValueError.
Proof.
  intros v h h' sh ks rs Hv HL Hrs Hne H.
  assert (E : expand (uv_shape v) ks = Err ValueError).
  { unfold expand. rewrite Hrs. cbn [bind].
    assert (Hbad : exists id, In id (product rs) /\ ravel (uv_shape v) id = Err ValueError).
    { assert (F : Forall2 (fun kd r => ax_range kd = Ok r) (combine ks (uv_shape v)) rs) by (apply mapM_Forall2; auto).
      destruct H as [H|(l & z & Hl & Hz & Hneg)].
      - assert (Hex : exists id, In id (product rs)).
        { clear - Hne. induction Hne as [|r rs Hr F (id & IH)]; [exists []; simpl; auto|]. destruct r as [|y r]; [congruence|].
          exists (y :: id). cbn [product]. apply in_flat_map. exists y. split; [simpl; auto|]. apply in_map. auto. }
        destruct Hex as (id & Hid). exists id. split; auto. apply ravel_bad. left.
        apply in_product in Hid. rewrite (Forall2_length Hid), <- (Forall2_length F), combine_length. lia.
      - destruct (In_nth_error _ _ Hl) as (k & Hk).
        assert (Hrk : nth_error rs k = Some l).
        { clear - F Hk. revert rs k F Hk. generalize (uv_shape v). intro s. revert ks. induction s as [|d s IH]; intros [|x ks] rs k F Hk; cbn [combine length firstn] in *;
            try (destruct k; discriminate). inversion F as [|? r ? rs' Er F']; subst. destruct k as [|k]; cbn [nth_error] in *.
          - injection Hk as ->. unfold ax_range in Er. cbn [fst] in Er. congruence.
          - eapply IH; eauto. }
        destruct (product_some rs Hne k l z Hrk Hz) as (id & Hid & Hn). exists id. split; auto. apply ravel_bad. right.
        exists z. split; auto. eapply nth_error_In; eauto. }
    destruct Hbad as (id & Hid & Hb). eapply mapM_first_err; eauto. intros b e' _ Hb'. eapply ravel_err; eauto. }
  unfold sel_item. destruct ks as [|k ks]; [discriminate|]. cbn [cvx_key]. rewrite HL. cbn [bind]. rewrite Hv in *. rewrite E. reflexivity.
Qed.
Print Assumptions C66_tuple_refused.

(** ** Examples *)

(** X has 2 rows and 3 columns, c is a vector, S a scalar: X[[1, 0], 1:] and c[[2, 0]]. *)
Definition c66_red := [(7, 6); (8, 3); (9, 1)].
Definition c66_X := mkUV "X" 7 [2; 3] false.
Definition c66_c := mkUV "c" 8 [3] false.
Definition c66_S := mkUV "S" 9 [] false.
Definition c66_us := [c66_X; c66_c; c66_S].
Definition c66_items := [SIndex c66_c (KList [2; 0]%Z); SIndex c66_X (KTuple [AList [1; 0]%Z; ASlice (Some 1%Z) None 1])].
Definition c66_blk (i : nat) : list Z := match i with 7 => [10; 11; 12; 13; 14; 15]%Z | 8 => [20; 21; 22]%Z | _ => [30%Z] end.
Definition c66_run (us : list uvar) (items : list sitem) : res (list (string * list Z)) :=
  vs <- prim_info c66_red us;; xv <- store_items vs (Some items);;
  o <- table_out (concat (map (fun e => c66_blk (fst e)) c66_red)) (xv_out xv);; x_primal 0%Z 10 xv (fun _ _ => 0%Z) o.

Example C66_example :
  vars_ok c66_red c66_us /\ (forall i z, In (i, z) c66_red -> length (c66_blk i) = z)
  /\ NoDup (map (fun s => uv_name (si_var s)) c66_items)
  /\ (forall s, In s c66_items -> In (si_var s) c66_us /\ plain_item s /\ exact_item s)
  /\ (forall k i, nth_error (dropped (map (fun s => uv_name (si_var s)) c66_items) 0 c66_us) k = Some i -> i + k < length c66_us)
  /\ c66_run c66_us c66_items = Ok [("X", [0; 0; 12; 13; 14; 15]%Z); ("c", [20; 0; 22]%Z)].
Proof.
  split; [|split; [|split; [|split; [|split]]]].
  - split.
    + repeat constructor; simpl; intuition discriminate.
    + intros u [<-|[<-|[<-|[]]]]; reflexivity.
    + intros u [<-|[<-|[<-|[]]]]; discriminate.
  - intros i z H. simpl in H. repeat destruct H as [H|H]; try contradiction; inversion H; reflexivity.
  - repeat constructor; simpl; intuition discriminate.
  - intros s [<-|[<-|[]]].
    + split; [simpl; auto|]. split; [|exact I]. split.
      * exists [2; 0]%Z. split; auto. split; [repeat apply Forall_cons; auto; simpl; lia|]. repeat constructor; simpl; intuition discriminate.
      * exists [2]. split.
        { split; [repeat constructor|]. exists 3, 2. repeat split; auto. exists 2%Z. split; [simpl; auto|left; auto]. }
        right. exists [0]. split; [|discriminate]. split; [repeat constructor|]. exists 3, 0. repeat split; auto. exists 0%Z. split; [simpl; auto|left; auto].
    + split; [simpl; auto|]. split; [|unfold exact_item, one_list; simpl; lia]. split.
      * exists [AList [1; 0]%Z; ASlice (Some 1%Z) None 1]. split; auto. split; [discriminate|]. split.
        { repeat constructor; simpl; lia. }
        split; [|simpl; auto]. constructor; [|constructor; [exact I|constructor]]. repeat constructor; simpl; intuition discriminate.
      * exists [1; 1]. split.
        { exists 0. constructor; [lia| |constructor; [lia| |constructor; constructor]].
          - exists 1%Z. split; [reflexivity|left; reflexivity].
          - cbn. split; [lia|]. split; auto. exists 0%Z. reflexivity. }
        right. exists [0; 1]. split; [|discriminate]. exists 1. constructor; [lia| |constructor; [lia| |constructor; constructor]].
        { exists 0%Z. split; [reflexivity|left; reflexivity]. }
        cbn. split; [lia|]. split; auto. exists 0%Z. reflexivity.
  - intros k i H. vm_compute in H. destruct k as [|[|]]; inversion H; simpl; lia.
  - vm_compute. reflexivity.
Qed.

(** Refused: c[0:2], X[[-1], :] and, with three axes, Y[[0], 1]. *)
Example C66_refused_example :
  axes_ok [3] [ASlice (Some 0%Z) (Some 2%Z) 1] /\ sel_item (SIndex c66_c (KTuple [ASlice (Some 0%Z) (Some 2%Z) 1])) = Err TypeError
  /\ (exists rs, mapM ax_range (combine [AList [-1]%Z; full_slice] [2; 3]) = Ok rs /\ Forall (fun r => r <> []) rs)
  /\ sel_item (SIndex c66_X (KTuple [AList [-1]%Z; full_slice])) = Err ValueError
  /\ (exists rs, mapM ax_range (combine [AList [0]%Z; AInt 1] [2; 3; 2]) = Ok rs /\ Forall (fun r => r <> []) rs)
  /\ sel_item (SIndex (mkUV "Y" 5 [2; 3; 2] false) (KTuple [AList [0]%Z; AInt 1])) = Err ValueError.
Proof.
  split; [constructor; [exact I|constructor]|]. split; [vm_compute; reflexivity|].
  split; [eexists; split; [vm_compute; reflexivity|repeat constructor; discriminate]|]. split; [vm_compute; reflexivity|].
  split; [eexists; split; [vm_compute; reflexivity|repeat constructor; discriminate]|]. vm_compute. reflexivity.
Qed.

(** ** Exceptions *)

(** X[[0, 1]] are rows 0 and 1; stored is the single entry (0, 1), which is then read as entry (0, 0). *)
Theorem C66_rows_refuted :
  sel_item (SIndex c66_X (KList [0; 1]%Z)) = Ok ("X", Some [2%Z])
  /\ selects [2; 3] (KList [0; 1]%Z) [1; 0]
  /\ c66_run [c66_X; c66_c] [SIndex c66_X (KList [0; 1]%Z); SWhole c66_c]
     = Ok [("X", [12; 0; 0; 0; 0; 0]%Z); ("c", [20; 21; 22]%Z)].
Proof.
  split; [vm_compute; reflexivity|]. split; [|vm_compute; reflexivity].
  split; [repeat constructor; lia|]. exists 2, 1. repeat split; auto. exists 1%Z. split; [simpl; auto|left; auto].
Qed.
Print Assumptions C66_rows_refuted.

(** c[[False, False, True]] is entry 2; stored are entries 0, 0 and 1. *)
Theorem C66_mask_refuted :
  sel_item (SIndex c66_c (KMask [false; false; true])) = Ok ("c", Some [0; 0; 1]%Z)
  /\ selects [3] (KMask [false; false; true]) [2] /\ ~ selects [3] (KMask [false; false; true]) [0]
  /\ c66_run [c66_X; c66_c] [SWhole c66_X; SIndex c66_c (KMask [false; false; true])]
     = Ok [("X", [10; 11; 12; 13; 14; 15]%Z); ("c", [20; 21; 0]%Z)].
Proof.
  split; [vm_compute; reflexivity|]. split; [|split; [|vm_compute; reflexivity]].
  - split; [repeat constructor|]. exists 2. auto.
  - intros (_ & i & E & H). injection E as <-. discriminate.
Qed.
Print Assumptions C66_mask_refuted.

(** A variable that occurs twice, X[0, :] and X[1, :]: the second time its offset is already the new one, so row 1
    holds entries of X and c that were not asked for, and row 0 is forgotten. *)
Theorem C66_twice_refuted :
  (forall s, In s [SIndex c66_X (KTuple [AInt 0; full_slice]); SIndex c66_X (KTuple [AInt 1; full_slice])] -> plain_item s)
  /\ c66_run [c66_X; c66_c] [SWhole c66_c; SIndex c66_X (KTuple [AInt 0; full_slice]); SIndex c66_X (KTuple [AInt 1; full_slice])]
     = Ok [("X", [0; 14; 0; 20; 0; 22]%Z); ("c", [20; 21; 22]%Z)].
Proof.
  split; [|vm_compute; reflexivity].
  assert (P : forall r, r < 2 -> plain_item (SIndex c66_X (KTuple [AInt (Z.of_nat r); full_slice]))).
  { intros r Hr. split.
    - exists [AInt (Z.of_nat r); full_slice]. split; auto. split; [discriminate|]. split.
      + constructor; [simpl; lia|]. constructor; [exact I|constructor].
      + split; [constructor; [exact I|constructor; [exact I|constructor]]|discriminate].
    - assert (S : forall j, j < 3 -> selects [2; 3] (KTuple [AInt (Z.of_nat r); full_slice]) [r; j]).
      { intros j Hj. exists 0. constructor; [auto|left; auto|]. constructor; [auto|apply full_sel|]. constructor. constructor. }
      exists [r; 0]. split; [apply S; lia|]. right. exists [r; 1]. split; [apply S; lia|congruence]. }
  intros s [<-|[<-|[]]]; [apply (P 0)|apply (P 1)]; lia.
Qed.
Print Assumptions C66_twice_refuted.

(** Two lists, X[[0, 1], [0, 2]], denote (0, 0) and (1, 2); (1, 0) and (0, 2) are stored, too. *)
Theorem C66_two_lists_refuted :
  ~ selects [2; 3] (KTuple [AList [0; 1]%Z; AList [0; 2]%Z]) [1; 0]
  /\ c66_run [c66_X; c66_c] [SWhole c66_c; SIndex c66_X (KTuple [AList [0; 1]%Z; AList [0; 2]%Z])]
     = Ok [("X", [10; 11; 0; 0; 14; 15]%Z); ("c", [20; 21; 22]%Z)].
Proof.
  split; [|vm_compute; reflexivity]. intros (t & H).
  inversion H as [|? ? ? ? ? ? _ H1 H2]; subst. inversion H2 as [|? ? ? ? ? ? _ H3 _]; subst.
  destruct H1 as (z & E1 & D1), H3 as (z' & E2 & D2). destruct t as [|[|t]]; cbn [nth_error] in *.
  - injection E1 as <-. unfold denotes in D1. lia.
  - injection E2 as <-. unfold denotes in D2. lia.
  - destruct t; discriminate.
Qed.
Print Assumptions C66_two_lists_refuted.

(** Nothing, X[:0, :], is stored as the whole variable; so is x[np.array([0])].  Any array of two indices is refused. *)
Theorem C66_nothing_refuted :
  (forall idx, ~ selects [2; 3] (KTuple [ASlice None (Some 0%Z) 1]) idx)
  /\ c66_run [c66_X; c66_c] [SWhole c66_c; SIndex c66_X (KTuple [ASlice None (Some 0%Z) 1])]
     = Ok [("X", [10; 11; 12; 13; 14; 15]%Z); ("c", [20; 21; 22]%Z)]
  /\ c66_run [c66_X; c66_c] [SWhole c66_X; SIndex c66_c (KArray [0%Z])]
     = Ok [("X", [10; 11; 12; 13; 14; 15]%Z); ("c", [20; 21; 22]%Z)]
  /\ forall a b, sel_item (SIndex c66_c (KArray [a; b])) = Err ValueError.
Proof.
  split; [|split; [vm_compute; reflexivity|split; [vm_compute; reflexivity|reflexivity]]].
  intros idx (t & H). inversion H as [|? ? ? ? ? ? _ H1 _]; subst. cbn in H1. lia.
Qed.
Print Assumptions C66_nothing_refuted.
