(** Variable derivatives: what gradient_cpp writes into dx (utils.py 1295-1312, non-explicit,
    with cpg_update_d<var> of writer.py 219-228), and what it means for the user's variables. *)

From Coq Require Import String Arith Bool ZArith Lia List Field.
From Verif Require Import Base Machine Runtime Retrieve RetrieveProofs Explicit Sparse SparseProofs GradMain GradSession GradSessionProofs PropExplicit.
Import ListNotations.

Section Writes.
  Variable F : Fld.
  (** cpg_update_d<var>(idx, val): dx[offset + idx] = val, without idx for size 1; the module
      calls it for idx = 0 .. size-1.  [vd]: prob.var_dict[name].gradient.flatten(order="F"). *)
  Definition vd_pos (p : pinfo) (i : nat) : nat := if Nat.eqb (pi_size p) 1 then pi_off p else pi_off p + i.
  Definition vd_write (vd : string -> list F) (p : pinfo) : list (nat * F) :=
    map (fun i => (vd_pos p i, nth i (vd (pi_name p)) n0)) (seq 0 (pi_size p)).
  Definition vd_writes (ps : list pinfo) (vd : string -> list F) : list (nat * F) := flat_map (vd_write vd) ps.
End Writes.
Arguments vd_write {F}. Arguments vd_writes {F}.

Section Proofs.
  Variable F : Fld.
  Add Field Fgv : (fth F).
  Local Open Scope num_scope.

  Lemma ip_zero : forall k (y : list F), ip k (repeat n0 k) y = n0.
  Proof. intros k y. apply rsum_zero. intros c Hc. rewrite nth_repeat. ring. Qed.

  (** Writes to distinct positions. *)
  Lemma fold_ip : forall n (ds : list (nat * F)) l y, length l = n -> NoDup (map fst ds) -> (forall k v, In (k, v) ds -> (k < n)%nat /\ nth k l n0 = n0) ->
    ip n (fold_left (fun l '(k, v) => upd l k v) ds l) y = ip n l y + rsum (map (fun '(k, v) => v * nth k y n0) ds).
  Proof.
    intros n ds. induction ds as [|[k v] ds IH]; intros l y Hl HN Hk; cbn [fold_left map].
    - unfold rsum. cbn [fold_right]. ring.
    - cbn [map fst] in HN. apply NoDup_cons_iff in HN. destruct HN as [HN1 HN2]. destruct (Hk k v (or_introl eq_refl)) as [Hlt Hz].
      rewrite IH; auto; [|rewrite upd_length; auto|].
      + rewrite ip_upd by lia. rewrite Hz. change (rsum (?a :: ?l)) with (a + rsum l). ring.
      + intros k' v' H'. destruct (Hk k' v' (or_intror H')) as [Hlt' Hz']. split; auto. rewrite nth_upd_neq; auto.
        intros ->. apply HN1. apply (in_map fst) in H'. auto.
  Qed.
  Lemma writes_ip : forall n (ds : list (nat * F)) y, NoDup (map fst ds) -> (forall k v, In (k, v) ds -> (k < n)%nat) ->
    ip n (writes n ds) y = rsum (map (fun '(k, v) => v * nth k y n0) ds).
  Proof.
    intros n ds y HN Hk. unfold writes. rewrite (fold_ip n); auto; [rewrite ip_zero; ring|apply repeat_length|].
    intros k v H. split; [apply (Hk k v H)|apply nth_repeat].
  Qed.

  (** Positions written for a non-symmetric variable are those it is retrieved from. *)
  Lemma vd_pos_idx : forall (red : list (nat * nat)) us ps u p i, prim_info red us = Ok ps -> In (u, p) (combine us ps) -> uv_sym u = false ->
    (i < fsize (uv_shape u))%nat -> pi_size p = fsize (uv_shape u) /\ nth_error (pi_idx p) i = Some (vd_pos p i).
  Proof.
    intros red us ps u p i Hp. unfold prim_info in Hp. apply mapM_Forall2 in Hp. induction Hp as [|u' p' us ps Hu Hp IH]; cbn [combine In]; [intros []|].
    intros [E|H]; [|apply IH; auto]. injection E as -> ->. intros Hs Hi. destruct (key _) as [o|] eqn:Ek; [|discriminate]. cbn [bind] in Hu. rewrite Hs in Hu. cbn [bind] in Hu.
    injection Hu as <-. unfold vd_pos. cbn [pi_size pi_idx pi_off]. split; auto. rewrite (nth_error_nth' _ 0%nat) by (rewrite seq_length; auto). rewrite seq_nth by auto.
    destruct (Nat.eqb_spec (fsize (uv_shape u)) 1); f_equal; lia.
  Qed.

  Lemma write_fst : forall (vd : string -> list F) p, (pi_idx p = seq (pi_off p) (pi_size p)) -> map fst (vd_write vd p) = pi_idx p.
  Proof.
    intros vd p H. unfold vd_write. rewrite map_map. cbn [fst]. rewrite H. unfold vd_pos.
    clear H.
    assert (G : forall k s, map (fun i => (pi_off p + i)%nat) (seq s k) = seq (pi_off p + s) k).
    { induction k as [|k IH]; intro s; cbn [seq map]; auto. rewrite IH. do 2 f_equal. lia. }
    destruct (Nat.eqb_spec (pi_size p) 1) as [E|E]; [rewrite E; reflexivity|]. rewrite G, Nat.add_0_r. auto.
  Qed.

  Lemma app_NoDup : forall A (a b : list A), NoDup a -> NoDup b -> (forall x, In x a -> ~ In x b) -> NoDup (a ++ b).
  Proof.
    induction a as [|x a IH]; intros b Ha Hb H; cbn [app]; auto. apply NoDup_cons_iff in Ha. constructor.
    - rewrite in_app_iff. intros [Hx|Hx]; [apply (proj1 Ha Hx)|apply (H x); cbn; auto].
    - apply IH; auto. tauto. intros y Hy. apply H. right. auto.
  Qed.

  Lemma flat_write : forall (vd : string -> list F) ps, (forall p, In p ps -> pi_idx p = seq (pi_off p) (pi_size p)) ->
    (forall i j p q k, i <> j -> nth_error ps i = Some p -> nth_error ps j = Some q -> In k (pi_idx p) -> ~ In k (pi_idx q)) ->
    NoDup (map fst (vd_writes ps vd)).
  Proof.
    intros vd ps. induction ps as [|p ps IH]; intros Hi Hd; cbn [vd_writes flat_map map]; [constructor|].
    rewrite map_app, write_fst by (apply Hi; left; auto). apply app_NoDup.
    - rewrite Hi by (left; auto). apply seq_NoDup.
    - apply IH; [intros; apply Hi; right; auto|]. intros i j p1 q1 k Hij H1 H2. apply (Hd (S i) (S j) p1 q1 k); auto.
    - intros k Hk H. apply in_map_iff in H. destruct H as ([k' v] & Ek & H). cbn [fst] in Ek. subst k'. unfold vd_writes in H. apply in_flat_map in H.
      destruct H as (q & Hq & H). apply (in_map fst) in H. cbn [fst] in H. rewrite write_fst in H by (apply Hi; right; auto).
      apply In_nth_error in Hq. destruct Hq as (j & Hq). apply (Hd 0%nat (S j) p q k); auto.
  Qed.

  (** [<dx, x>] is the sum over the variables of [<gradient, value>]. *)
  Theorem dx_adjoint : forall (red : list (nat * nat)) (us : list uvar) ps (blk : nat -> list F) (vd : string -> list F) x,
    vars_ok red us -> NoDup (map fst red) -> NoDup (map uv_id us) -> (forall u, In u us -> uv_sym u = false) ->
    (forall i z, In (i, z) red -> length (blk i) = z) -> x = concat (map (fun e => blk (fst e)) red) ->
    prim_info red us = Ok ps ->
    (forall k v, In (k, v) (vd_writes ps vd) -> (k < length x)%nat)
    /\ ip (length x) (writes (length x) (vd_writes ps vd)) x
       = rsum (map (fun u => rsum (map (fun i => nth i (vd (uv_name u)) n0 * nth i (blk (uv_id u)) n0) (seq 0 (fsize (uv_shape u))))) us).
  Proof.
    intros red us ps blk vd x HV HR HU HS HB Hx Hp. pose proof (prim_plain F red us blk ps HV HB HS Hp) as HP. rewrite <- Hx in HP.
    assert (Hidx : forall p, In p ps -> pi_idx p = seq (pi_off p) (pi_size p)).
    { intros p Hin. clear -HP Hin. induction HP as [|u p' us ps Hu HP IH]; [destruct Hin|]; destruct Hin as [->|Hin]; auto. destruct Hu as (_ & E1 & _ & E2 & _). rewrite E1. auto. }
    assert (HL : forall k v, In (k, v) (vd_writes ps vd) -> (k < length x)%nat).
    { intros k v H. unfold vd_writes in H. apply in_flat_map in H. destruct H as (p & Hin & H). apply (in_map fst) in H. cbn [fst] in H. rewrite write_fst in H by auto.
      clear -HP Hin H. induction HP as [|u p' us ps Hu HP IH]; [destruct Hin|]; destruct Hin as [->|Hin]; auto. destruct Hu as (_ & _ & _ & E & L & Hn). rewrite E in H. apply in_seq in H.
      apply nth_error_Some. replace k with (pi_off p + (k - pi_off p))%nat by lia. rewrite Hn by lia. apply nth_error_Some. lia. }
    split; auto. rewrite writes_ip; auto; [|apply flat_write; auto; apply (prim_disjoint red us ps HV HR HU Hp)].
    clear -HP. unfold vd_writes. induction HP as [|u p us ps Hu HP IH]; cbn [flat_map map]; auto.
    rewrite map_app, rsum_app, IH. change (rsum (?a :: ?l)) with (a + rsum l). f_equal. unfold vd_write. rewrite map_map.
    destruct Hu as (E1 & E2 & _ & _ & L & Hn). rewrite E1, E2. apply rsum_ext. intros i Hi. apply in_seq in Hi. f_equal.
    assert (Hpos : vd_pos p i = (pi_off p + i)%nat) by (unfold vd_pos; rewrite E2; destruct (Nat.eqb_spec (fsize (uv_shape u)) 1); lia).
    rewrite Hpos. pose proof (Hn i ltac:(lia)) as H. rewrite (nth_error_nth' (blk (uv_id u)) n0) in H by lia. apply nth_error_nth with (1 := H).
  Qed.
End Proofs.
