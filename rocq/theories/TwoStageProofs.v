(** Proofs about the results of two-stage programs. *)

From Coq Require Import String Arith Bool Lia List FinFun.
From Verif Require Import Base Pus Retrieve RetrieveProofs TwoStage.
Import ListNotations.
Open Scope list_scope.

(** ** The copying loops *)

Section Loops.
  Variable K : Ring.

  Lemma for_i_ok : forall (g : nat -> K) body n s l,
      (forall i l', s <= i < s + n -> body i l' = put l' i (g i)) -> s + n <= length l ->
      exists l', for_i (seq s n) body l = Ok l' /\ length l' = length l
        /\ forall i d, nth i l' d = if andb (Nat.leb s i) (Nat.ltb i (s + n)) then g i else nth i l d.
  Proof.
    intros g body. induction n as [|n IH]; intros s l Hb Hl.
    - exists l. split; auto. split; auto. intros i d.
      replace (andb (Nat.leb s i) (Nat.ltb i (s + 0))) with false; auto.
      symmetry. apply andb_false_iff. destruct (Nat.leb s i) eqn:E; auto. right. apply Nat.leb_le in E. apply Nat.ltb_ge. lia.
    - cbn [seq for_i]. rewrite Hb by lia. unfold put at 1.
      replace (Nat.ltb s (length l)) with true by (symmetry; apply Nat.ltb_lt; lia). cbn [bind].
      destruct (IH (S s) (upd l s (g s))) as (l' & E1 & E2 & E3).
      { intros. apply Hb. lia. } { rewrite upd_length. lia. }
      exists l'. split; auto. split; [rewrite E2; apply upd_length|]. intros i d. rewrite E3.
      replace (S s + n) with (s + S n) by lia. destruct (Nat.eq_dec i s) as [->|Hne].
      + rewrite nth_upd_eq by lia. rewrite Nat.leb_refl.
        replace (Nat.leb (S s) s) with false by (symmetry; apply Nat.leb_gt; lia).
        replace (Nat.ltb s (s + S n)) with true by (symmetry; apply Nat.ltb_lt; lia). auto.
      + rewrite nth_upd_neq by auto. destruct (Nat.leb s i) eqn:E.
        * apply Nat.leb_le in E. replace (Nat.leb (S s) i) with true by (symmetry; apply Nat.leb_le; lia). auto.
        * apply Nat.leb_gt in E. replace (Nat.leb (S s) i) with false by (symmetry; apply Nat.leb_gt; lia). auto.
  Qed.

  Lemma inter_primal_ok : forall (st : rstate K) off (b : list K) gx,
      (forall j, j < length b -> nth_error (r_vecs st "x") (off + j) = nth_error b j) -> length gx = length b ->
      inter_primal st off (length b) gx = Ok b.
  Proof.
    intros st off b gx Hr Hl. unfold inter_primal.
    destruct (for_i_ok (fun i => nth i b n0) (fun i l => v <- vread st "x" (off + i);; put l i v) (length b) 0 gx) as (l' & E1 & E2 & E3).
    - intros i l' Hi. unfold vread. rewrite Hr by lia. rewrite (nth_error_nth' b n0) by lia. reflexivity.
    - lia.
    - rewrite E1. f_equal. apply nth_ext_len with (d := (n0 : K)); [congruence|]. intros k Hk. rewrite E3.
      replace (Nat.ltb k (0 + length b)) with true by (symmetry; apply Nat.ltb_lt; lia). reflexivity.
  Qed.

  (** What the intermediate dual is: differences on the rows with both bounds. *)
  Definition combined (lam mu : list K) : list K :=
    map (fun i => if Nat.ltb i (length lam) then rsub (nth i mu n0) (nth i lam n0) else nth i mu n0) (seq 0 (length mu)).

  Lemma inter_dual_ok : forall (st : rstate K) dl du lam mu gy,
      di_size dl = length lam -> di_size du = length mu -> length lam <= length mu -> length gy = length mu ->
      (forall j, j < length lam -> nth_error (r_vecs st (di_vec dl)) (di_off dl + j) = nth_error lam j) ->
      (forall j, j < length mu -> nth_error (r_vecs st (di_vec du)) (di_off du + j) = nth_error mu j) ->
      inter_dual st dl du gy = Ok (combined lam mu).
  Proof.
    intros st dl du lam mu gy S1 S2 Hle Hg R1 R2. unfold inter_dual. rewrite S1, S2.
    destruct (for_i_ok (fun i => rsub (nth i mu n0) (nth i lam n0)) (fun i l =>
            a <- vread st (di_vec du) (di_off du + i);;
            b <- vread st (di_vec dl) (di_off dl + i);; put l i (rsub a b)) (length lam) 0 gy) as (l1 & E1 & E2 & E3).
    - intros i l' Hi. unfold vread. rewrite R1, R2 by lia. rewrite (nth_error_nth' mu n0), (nth_error_nth' lam n0) by lia. reflexivity.
    - lia.
    - rewrite E1. cbn [bind].
      destruct (for_i_ok (fun i => nth i mu n0) (fun i l => a <- vread st (di_vec du) (di_off du + i);; put l i a)
                  (length mu - length lam) (length lam) l1) as (l2 & F1 & F2 & F3).
      + intros i l' Hi. unfold vread. rewrite R2 by lia. rewrite (nth_error_nth' mu n0) by lia. reflexivity.
      + lia.
      + rewrite F1. f_equal. unfold combined. apply nth_ext_len with (d := (n0 : K)); [rewrite map_length, seq_length; congruence|].
        intros k Hk. rewrite F3, E3.
        erewrite (nth_indep (map _ _)) by (rewrite map_length, seq_length; lia).
        rewrite (map_nth (fun i => if Nat.ltb i (length lam) then rsub (nth i mu n0) (nth i lam n0) else nth i mu n0) _ 0).
        rewrite seq_nth by lia. cbn [plus]. rewrite Nat.leb_antisym.
        destruct (Nat.ltb k (length lam)) eqn:E; cbn [andb negb].
        * reflexivity.
        * apply Nat.ltb_ge in E. replace (Nat.ltb k (length lam + (length mu - length lam))) with true by (symmetry; apply Nat.ltb_lt; lia). reflexivity.
  Qed.
End Loops.
Arguments combined {K}.

(** ** Reading results through items *)

Section Items.
  Variable K : Type.
  Variables (fs : list (string * fld)) (ar : list (string * nat)).

  Lemma items_results : forall xs (st : rstate K), NoDup (map it_name xs) -> Forall (item_ok K fs ar st) xs ->
      exists st', exec fs ar st (flat_map item_stmts xs) = Ok st'
        /\ forall x, In x xs -> exists l, read_field fs ar st' (it_name x) (length (it_idx x)) = Ok l /\ item_reads K st x l.
  Proof.
    intros xs st Hn Hok. destruct (exec_items K fs ar xs st Hn Hok) as (st' & E & V & _ & F).
    exists st'. split; auto. intros x Hx. rewrite Forall_forall in Hok, F. apply (read_ok K fs ar x st st'); auto.
  Qed.

  (** A run that succeeds has only read existing entries. *)
  Definition src (c : cstmt) : string * nat := match c with SScalar _ v k => (v, k) | SElem _ _ v k => (v, k) end.
  Lemma exec_reads : forall cs (st st' : rstate K), exec fs ar st cs = Ok st' ->
      forall c, In c cs -> snd (src c) < length (r_vecs st (fst (src c))).
  Proof.
    induction cs as [|c0 cs IH]; intros st st' H c Hc; [destruct Hc|]. cbn [exec] in H.
    destruct (exec_stmt fs ar st c0) as [st1|] eqn:E; [|discriminate]. cbn [bind] in H.
    assert (A : (forall w, length (r_vecs st1 w) = length (r_vecs st w)) /\ snd (src c0) < length (r_vecs st (fst (src c0)))).
    { assert (R : forall v k a, vread st v k = Ok a -> k < length (r_vecs st v)).
      { intros v k a. unfold vread. destruct (nth_error (r_vecs st v) k) eqn:En; [|discriminate].
        intros _. apply nth_error_Some. congruence. }
      unfold exec_stmt in E. destruct c0 as [n v k|n i v k]; simpl.
      - destruct (assoc n fs) as [[| |]|]; try discriminate. destruct (vread st v k) eqn:Er; [|discriminate].
        cbn [bind] in E. injection E as <-. split; auto. eauto.
      - destruct (assoc n fs) as [[| |w o]|]; try discriminate.
        + destruct (assoc n ar) as [z|]; [|discriminate]. destruct (Nat.ltb i z); [|discriminate].
          destruct (vread st v k) eqn:Er; [|discriminate]. cbn [bind] in E. injection E as <-. split; eauto.
        + destruct (Nat.ltb (o + i) (length (r_vecs st w))); [|discriminate].
          destruct (vread st v k) eqn:Er; [|discriminate]. cbn [bind] in E. injection E as <-. split; eauto.
          intro w'. simpl. unfold vset. destruct (String.eqb w' w); auto. apply upd_length. }
    destruct A as [A1 A2]. destruct Hc as [<-|Hc]; auto. rewrite <- A1. eapply IH; eauto.
  Qed.
End Items.

(** ** Placing the first stage's variables inside the second stage's solution *)

Lemma split_block : forall K (blk : nat -> list K) red o k sz,
    (forall i z, In (i, z) red -> length (blk i) = z) -> lookup k red = Some sz ->
    exists a b, lookup k (var_offsets o red) = Some (o + length a)
      /\ concat (map (fun e => blk (fst e)) red) = a ++ blk k ++ b.
Proof.
  induction red as [|[i z] red IH]; simpl; intros o k sz Hl H. discriminate.
  pose proof (Hl i z (or_introl eq_refl)) as L.
  destruct (Nat.eqb k i) eqn:E.
  - apply Nat.eqb_eq in E. subst i. exists [], (concat (map (fun e => blk (fst e)) red)). rewrite Nat.add_0_r. auto.
  - destruct (IH (o + z) k sz) as (a & b & H1 & H2); auto. exists (blk i ++ a), b. rewrite H1, H2, app_length, L, app_assoc.
    split; [f_equal; lia|]. rewrite <- !app_assoc. auto.
Qed.

Lemma var_offsets_shift : forall red o p k, lookup k (var_offsets (o + p) red) = option_map (fun q => o + q) (lookup k (var_offsets p red)).
Proof.
  induction red as [|[i z] red IH]; intros o p k; simpl; auto. destruct (Nat.eqb k i); auto.
  rewrite <- Nat.add_assoc. apply IH.
Qed.
Lemma var_offsets_app : forall a b o k v, lookup k (var_offsets o a) = Some v -> lookup k (var_offsets o (a ++ b)) = Some v.
Proof.
  induction a as [|[i z] a IH]; intros b o k v; simpl; [discriminate|]. destruct (Nat.eqb k i); auto.
Qed.

Lemma mapM_map : forall A B (f g : A -> res B) (h : B -> B) l, (forall a, In a l -> forall b, f a = Ok b -> g a = Ok (h b)) ->
    forall bs, mapM f l = Ok bs -> mapM g l = Ok (map h bs).
Proof.
  induction l as [|a l IH]; simpl; intros H bs E.
  - injection E as <-. auto.
  - destruct (f a) eqn:Ea; [|discriminate]. cbn [bind] in E. destruct (mapM f l) eqn:El; [|discriminate].
    cbn [bind] in E. injection E as <-. rewrite (H a (or_introl eq_refl) _ Ea). cbn [bind].
    rewrite (IH (fun a Ha => H a (or_intror Ha)) _ eq_refl). auto.
Qed.

Section Primal.
  Variable K : Ring.
  Variable k0 : K.
  Variable s : solver.
  Variables (red : list (nat * nat)) (us : list uvar) (blk raw : nat -> list K).
  Hypothesis HV : vars_ok red us.
  Hypothesis HB : forall i z, In (i, z) red -> length (blk i) = z.
  Hypothesis HR : forall i z, In (i, z) red -> length (raw i) = z.
  Notation cat f := (concat (map (fun e : nat * nat => f (fst e)) red)).

  (** Shifted information addresses the block in a longer vector. *)
  Lemma shifted_ok : forall (a b : list K) (st : rstate K) ps, r_vecs st "x" = a ++ cat blk ++ b -> prim_info red us = Ok ps ->
    exists rs, primal_results k0 s (map (shift_info (length a)) ps) st = Ok rs
      /\ Forall2 (fun u r => fst r = uv_name u /\ var_value k0 u (blk (uv_id u)) (snd r)) us rs.
  Proof.
    intros a b st ps Hx Hp.
    set (f := S (list_max (map fst red ++ map uv_id us))).
    set (red' := (f, length a) :: red ++ [(S f, length b)]).
    set (blk' := fun i => if Nat.eqb i f then a else if Nat.eqb i (S f) then b else blk i).
    assert (Hf : forall i, In i (map fst red ++ map uv_id us) -> i < f).
    { intros i Hi. pose proof (proj1 (list_max_le (map fst red ++ map uv_id us) _) (le_n _)) as Hm.
      rewrite Forall_forall in Hm. specialize (Hm i Hi). unfold f. lia. }
    assert (Hs : forall i, i < f -> blk' i = blk i).
    { intros i Hi. unfold blk'. replace (Nat.eqb i f) with false by (symmetry; apply Nat.eqb_neq; lia).
      replace (Nat.eqb i (S f)) with false by (symmetry; apply Nat.eqb_neq; lia). auto. }
    assert (Hff : blk' f = a) by (unfold blk'; rewrite Nat.eqb_refl; auto).
    assert (HSf : blk' (S f) = b).
    { unfold blk'. replace (Nat.eqb (S f) f) with false by (symmetry; apply Nat.eqb_neq; lia). rewrite Nat.eqb_refl. auto. }
    assert (HV' : vars_ok red' us).
    { constructor; [apply (vo_names _ _ HV)| |apply (vo_square _ _ HV)].
      intros u Hu. unfold red'. cbn [lookup].
      assert (uv_id u < f) by (apply Hf, in_or_app; right; apply in_map; auto).
      replace (Nat.eqb (uv_id u) f) with false by (symmetry; apply Nat.eqb_neq; lia).
      rewrite lookup_app, (vo_size _ _ HV u Hu). auto. }
    assert (HB' : forall i z, In (i, z) red' -> length (blk' i) = z).
    { intros i z [E|Hi]; [apply (f_equal (fun e => (fst e, snd e))) in E; cbn in E; injection E as E0 E1; rewrite <- E0, <- E1, Hff; auto|]. apply in_app_or in Hi. destruct Hi as [Hi|[E|[]]].
      - rewrite Hs; auto. apply Hf, in_or_app. left. apply (in_map fst _ _ Hi).
      - apply (f_equal (fun e => (fst e, snd e))) in E. cbn in E. injection E as E0 E1. rewrite <- E0, <- E1, HSf. auto. }
    assert (Hc : concat (map (fun e => blk' (fst e)) red') = a ++ cat blk ++ b).
    { unfold red'. cbn [map concat fst]. rewrite Hff, map_app, concat_app. cbn [map concat fst]. rewrite HSf, app_nil_r.
      do 2 f_equal. f_equal. apply map_ext_in. intros e He. apply Hs, Hf, in_or_app. left. apply in_map; auto. }
    destruct (primal_ok K k0 s red' us blk' HV' HB' st) as (ps' & rs & E1 & E2 & E3). { rewrite Hc. auto. }
    assert (E4 : prim_info red' us = Ok (map (shift_info (length a)) ps)).
    { unfold prim_info. eapply (mapM_map _ _ _ _ (shift_info (length a))); [|exact Hp]. intros u Hu p Ep. cbv beta in Ep |- *.
      assert (uv_id u < f) by (apply Hf, in_or_app; right; apply in_map; auto).
      unfold red'. cbn [var_offsets lookup]. replace (Nat.eqb (uv_id u) f) with false by (symmetry; apply Nat.eqb_neq; lia).
      destruct (lookup (uv_id u) (var_offsets 0 red)) as [o|] eqn:Eo; [|discriminate]. cbn [key bind] in Ep.
      rewrite Nat.add_0_l.
      rewrite (var_offsets_app red [(S f, length b)] (length a) (uv_id u) (length a + o)).
      2:{ replace (length a) with (length a + 0) at 1 by lia. rewrite var_offsets_shift, Eo. auto. }
      cbn [key bind]. destruct (uv_sym u).
      - destruct (uv_shape u) as [|n t]; [discriminate|]. cbn [bind] in Ep |- *. injection Ep as <-. unfold shift_info. simpl.
        rewrite map_map. do 2 f_equal. apply map_ext. intro. lia.
      - cbn [bind] in Ep |- *. injection Ep as <-. unfold shift_info. simpl. do 2 f_equal.
        clear. generalize (fsize (uv_shape u)) as n. intro n. revert o. induction n; intro o; simpl; auto.
        f_equal. replace (S (length a + o)) with (length a + S o) by lia. apply IHn. }
    rewrite E4 in E1. injection E1 as <-. exists rs. split; auto.
    assert (Hsub : forall u, In u us -> uv_id u < f).
    { intros u Hu. apply Hf, in_or_app. right. apply in_map; auto. }
    clearbody blk'. clearbody red'. clearbody f. clear - E3 Hs Hsub. revert Hsub.
    induction E3 as [|u r us0 rs0 [H1 H2] H IH]; intro Hsub; constructor.
    - split; auto. rewrite <- (Hs (uv_id u)) by (apply Hsub; left; auto). exact H2.
    - apply IH. intros; apply Hsub; right; auto.
  Qed.

  (** Variables whose field is a pointer to the intermediate solution. *)
  Definition pointed (u : uvar) : bool := sol_static s && negb (uv_sym u) && negb (Nat.eqb (fsize (uv_shape u)) 1).

  Definition tfld (p : pinfo) : fld :=
    if Nat.eqb (pi_size p) 1 then FScalar else if pi_sym p || negb (sol_static s) then FOwn else FSol "gx" (pi_off p).
  Definition titem (p : pinfo) : item :=
    mkIt (pi_name p) (match tfld p with FSol _ _ => "gx" | _ => "x" end) (pi_idx p) (tfld p).

  Lemma two_vectors_ok : forall (st : rstate K) ps b, prim_info red us = Ok ps ->
    r_vecs st "x" = cat raw ++ b -> r_vecs st "gx" = cat blk ->
    let fs := ts_prim_fields s true ps in let ar := prim_arrays s ps in
    exists st' rs, exec fs ar st (retrieve_prim s ps) = Ok st'
      /\ mapM (fun v => l <- read_field fs ar st' (pi_name v) (pi_size v);;
                        a <- reshapeF k0 (pi_shape v) l;; Ok (pi_name v, a)) ps = Ok rs
      /\ Forall2 (fun u r => fst r = uv_name u /\ var_value k0 u ((if pointed u then blk else raw) (uv_id u)) (snd r)) us rs.
  Proof.
    intros st ps b Hp Hx Hg fs ar.
    destruct (prim_info_ok K k0 red us blk HV HB) as (ps1 & P1 & F1).
    destruct (prim_info_ok K k0 red us raw HV HR) as (ps2 & P2 & F2).
    rewrite Hp in P1, P2. injection P1 as <-. injection P2 as <-.
    assert (Hnd : NoDup (map pi_name ps)). { rewrite (names_infos K k0 red blk us ps F1). apply (vo_names _ _ HV). }
    assert (Hin : forall p, In p ps -> exists u, info_ok K k0 red blk u p /\ info_ok K k0 red raw u p).
    { clear - F1 F2. intros p Hp. revert F2. induction F1 as [|u0 p0 l l' H0 HF IH]; intro F2; [destruct Hp|].
      inversion F2; subst. destruct Hp as [<-|Hp]; eauto. }
    assert (Efs : fs = map (fun p => (pi_name p, tfld p)) ps).
    { unfold fs, ts_prim_fields, prim_fields. rewrite map_map. apply map_ext. intro p. unfold redirect, tfld. cbn [snd fst].
      destruct (Nat.eqb (pi_size p) 1); auto. destruct (pi_sym p || negb (sol_static s)); auto. }
    assert (Hok : Forall (item_ok K fs ar st) (map titem ps)).
    { apply Forall_forall. intros it Hit. apply in_map_iff in Hit. destruct Hit as (p & <- & Hpi).
      destruct (Hin p Hpi) as (u & (H1 & H2 & H3 & H4 & H5 & H6 & H7 & _) & (_ & _ & _ & _ & _ & R6 & _ & _)).
      unfold item_ok, titem. cbn [it_name it_vec it_idx it_fld].
      split. { rewrite Efs. apply (assoc_map _ _ pi_name tfld); auto. }
      unfold tfld. destruct (Nat.eqb (pi_size p) 1) eqn:E1.
      - split; [|apply Nat.eqb_eq in E1; congruence]. intros k Hk. rewrite Hx, app_length. specialize (R6 k Hk). lia.
      - pose proof E1 as E1'. apply Nat.eqb_neq in E1. destruct (pi_sym p || negb (sol_static s)) eqn:E2.
        + split. { intros k Hk. rewrite Hx, app_length. specialize (R6 k Hk). lia. }
          split; [congruence|]. unfold ar, prim_arrays. eapply (assoc_flat _ _ pi_name); eauto.
          * intros c n v Hc. destruct (Nat.eqb (pi_size c) 1); [destruct Hc|].
            destruct (pi_sym c || negb (sol_static s)); [|destruct Hc]. destruct Hc as [E|[]]. congruence.
          * cbn beta. rewrite E1', E2. congruence.
        + split. { intros k Hk. rewrite Hg. auto. }
          split; [congruence|]. split; auto. apply orb_false_iff in E2. destruct E2 as [E2 _]. rewrite H4 in E2.
          destruct (H7 E2) as [H8 H9]. rewrite H5, Hg. auto. }
    assert (Hst : retrieve_prim s ps = flat_map item_stmts (map titem ps)).
    { unfold retrieve_prim. rewrite flat_map_map. clear - Hin.
      induction ps as [|p ps IH]; simpl; auto. f_equal.
      - destruct (Hin p (or_introl eq_refl)) as (u & (_ & H2 & _ & _ & H5 & _) & _).
        unfold item_stmts, titem, tfld. cbn [it_name it_vec it_idx it_fld]. rewrite H2, <- H5.
        destruct (Nat.eqb (length (pi_idx p)) 1); auto. destruct (pi_sym p || negb (sol_static s)); auto.
      - apply IH. intros; apply Hin; right; auto. }
    destruct (items_results K fs ar (map titem ps) st) as (st' & R1 & R2); auto. { rewrite map_map. auto. }
    exists st'. rewrite Hst, R1.
    assert (Hm : forall us0 ps0, Forall2 (info_ok K k0 red blk) us0 ps0 -> Forall2 (info_ok K k0 red raw) us0 ps0 ->
       (forall p, In p ps0 -> In p ps) ->
       exists rs, mapM (fun v => l <- read_field fs ar st' (pi_name v) (pi_size v);;
                   a <- reshapeF k0 (pi_shape v) l;; Ok (pi_name v, a)) ps0 = Ok rs
       /\ Forall2 (fun u r => fst r = uv_name u /\ var_value k0 u ((if pointed u then blk else raw) (uv_id u)) (snd r)) us0 rs).
    { induction 1 as [|u p us0 ps0 Hi H IH]; intros G2 Hsub.
      - exists []. auto.
      - inversion G2 as [|? ? ? ? Gi G']; subst. destruct IH as (rs & M1 & M2); auto. { intros; apply Hsub; right; auto. }
        assert (Hpi : In p ps) by (apply Hsub; left; auto).
        destruct (R2 (titem p) (in_map titem _ _ Hpi)) as (l & L1 & L2). unfold item_reads in L2.
        unfold titem in L1, L2. cbn [it_name it_vec it_idx] in L1, L2.
        destruct Hi as (H1 & H2 & H3 & H4 & H5 & H6 & H7 & H8), Gi as (_ & _ & _ & _ & _ & J6 & _ & J8).
        assert (A : exists a, reshapeF k0 (uv_shape u) l = Ok a /\ var_value k0 u ((if pointed u then blk else raw) (uv_id u)) a).
        { unfold pointed, tfld in *. rewrite <- H2, <- H4. destruct (Nat.eqb (pi_size p) 1) eqn:E1.
          - rewrite andb_false_r. apply J8. clear - L2 Hx J6. rewrite Hx in L2.
            induction L2 as [|k v ks l Hk HF IH]; constructor.
            + rewrite nth_error_app1 in Hk by (apply J6; left; auto). auto.
            + apply IH. intros; apply J6; right; auto.
          - destruct (pi_sym p || negb (sol_static s)) eqn:E2.
            + replace (sol_static s && negb (pi_sym p)) with false by (destruct (pi_sym p), (sol_static s); simpl in *; congruence).
              apply J8. clear - L2 Hx J6. rewrite Hx in L2.
              induction L2 as [|k v ks l Hk HF IH]; constructor.
              * rewrite nth_error_app1 in Hk by (apply J6; left; auto). auto.
              * apply IH. intros; apply J6; right; auto.
            + replace (sol_static s && negb (pi_sym p)) with true by (destruct (pi_sym p), (sol_static s); simpl in *; congruence).
              apply H8. rewrite Hg in L2. auto. }
        destruct A as (a & A1 & A2).
        exists ((pi_name p, a) :: rs). cbn [mapM]. rewrite H2, <- H5, L1. cbn [bind]. rewrite H3, A1. cbn [bind].
        rewrite M1. cbn [bind]. split; auto. }
    destruct (Hm us ps F1 F2) as (rs & M1 & M2); auto. exists rs. auto.
  Qed.
End Primal.

(** ** Duals of the first stage *)

Section Dual.
  Variable K : Ring.
  Variable s : solver.
  Variables (eqs neqs m : list (nat * nat)) (rest : list (list (nat * nat))) (dl raw : nat -> list K).
  Notation con := (eqs ++ neqs).
  Hypothesis HN : NoDup (map fst con).
  Hypothesis HC : forall u, In u (map fst m) -> exists c, chase rest u = Ok c /\ In c (map fst con).
  Hypothesis HL : forall i z, In (i, z) con -> length (dl i) = z.
  Hypothesis HR : forall i z, In (i, z) con -> length (raw i) = z.

  Definition dpointed (z : nat) : bool := sol_static s && negb (Nat.eqb z 1).
  Definition tdfld (d : dinfo) : fld :=
    if Nat.eqb (di_size d) 1 then FScalar else if negb (sol_static s) then FOwn else FSol "gy" (di_off d).
  Definition tditem (d : dinfo) : item :=
    mkIt (dname (di_name d)) (match tdfld d with FSol _ _ => "gy" | _ => di_vec d end) (di_idx d) (tdfld d).

  Lemma ts_dual_fields_eq : forall ds, ts_dual_fields s ds = map (fun d => (dname (di_name d), tdfld d)) ds.
  Proof.
    intro ds. unfold ts_dual_fields, dual_fields. rewrite map_map. apply map_ext. intro d. unfold tdfld. cbn [snd fst].
    destruct (Nat.eqb (di_size d) 1); auto. destruct (negb (sol_static s)); auto.
  Qed.

  Lemma retrieve_dual_items : forall ds, retrieve_dual s ds = flat_map item_stmts (map tditem ds).
  Proof.
    intro ds. unfold retrieve_dual. rewrite flat_map_map. apply flat_map_ext. intro d.
    unfold item_stmts, tditem, tdfld. cbn [it_name it_vec it_idx it_fld]. unfold di_idx. rewrite seq_length.
    destruct (Nat.eqb (di_size d) 1); auto. destruct (negb (sol_static s)); auto.
  Qed.

  Lemma two_duals_ok : forall (st : rstate K) b cs ds,
    mapM (chase rest) (map fst m) = Ok cs -> dual_info false "y" "z" eqs neqs (m :: rest) = Ok ds ->
    r_vecs st "y" = concat (map (fun e => raw (fst e)) con) ++ b ->
    r_vecs st "gy" = concat (map (fun e => dl (fst e)) con) ->
    let fs := ts_dual_fields s ds in let ar := dual_arrays s ds in
    exists st', exec fs ar st (retrieve_dual s ds) = Ok st'
      /\ mapM (fun d => read_field fs ar st' (dname (di_name d)) (di_size d)) ds
         = Ok (map (fun c => if dpointed (length (dl c)) then dl c else raw c) cs).
  Proof.
    intros st b cs ds E1 E2 Hy Hg fs ar.
    destruct (dual_info_ok K OSQP eqs neqs m rest dl HN HC HL) as (cs1 & ds1 & A1 & A2 & HF & Hn & _). { intro; discriminate. }
    destruct (dual_info_ok K OSQP eqs neqs m rest raw HN HC HR) as (cs2 & ds2 & B1 & B2 & HG & _ & _). { intro; discriminate. }
    cbn [dual_split dual_vec0] in A2, B2. unfold dual_vec1 in A2, B2.
    rewrite E1 in A1, B1. injection A1 as <-. injection B1 as <-. rewrite E2 in A2, B2. injection A2 as <-. injection B2 as <-.
    assert (Hnd : NoDup (map (fun d => dname (di_name d)) ds)).
    { rewrite <- (map_map di_name dname), Hn. apply Injective_map_NoDup. intros p q; apply dname_inj. apply seq_NoDup. }
    set (vl := fun w : string => if String.eqb w "y" then concat (map (fun e => dl (fst e)) con) else []).
    set (vr := fun w : string => if String.eqb w "y" then concat (map (fun e => raw (fst e)) con) else []).
    assert (Hin : forall d, In d ds -> exists c, placed K OSQP eqs neqs dl c (di_vec d) (di_off d) (di_size d)
                                           /\ placed K OSQP eqs neqs raw c (di_vec d) (di_off d) (di_size d)).
    { clear - HF HG. intros d Hd. revert HG. induction HF as [|c d' cs0 ds0 H HF IH]; intro HG; [destruct Hd|].
      inversion HG; subst. destruct Hd as [<-|Hd]; eauto. }
    assert (Hpl : forall c d, placed K OSQP eqs neqs dl c (di_vec d) (di_off d) (di_size d) -> di_vec d = "y"
       /\ di_off d + di_size d <= length (r_vecs st "gy")
       /\ forall j, j < di_size d -> nth_error (r_vecs st "gy") (di_off d + j) = nth_error (dl c) j).
    { intros c d Hp. destruct (placed_reads K OSQP eqs neqs dl HL vl c _ _ _ eq_refl Hp) as [P1 P2].
      assert (Ev : di_vec d = "y") by (destruct Hp as [_ (E & _)]; exact E). rewrite Ev in P1, P2.
      split; auto. rewrite Hg. split; auto. }
    assert (Hpr : forall c d, placed K OSQP eqs neqs raw c (di_vec d) (di_off d) (di_size d) ->
       di_off d + di_size d <= length (r_vecs st "y")
       /\ forall j, j < di_size d -> nth_error (r_vecs st "y") (di_off d + j) = nth_error (raw c) j).
    { intros c d Hp. destruct (placed_reads K OSQP eqs neqs raw HR vr c _ _ _ eq_refl Hp) as [P1 P2].
      assert (Ev : di_vec d = "y") by (destruct Hp as [_ (E & _)]; exact E). rewrite Ev in P1, P2. unfold vr in P1, P2. cbn in P1, P2.
      rewrite Hy, app_length. split; [lia|]. intros j Hj. rewrite nth_error_app1 by lia. apply P2; auto. }
    assert (Hok : Forall (item_ok K fs ar st) (map tditem ds)).
    { apply Forall_forall. intros it Hit. apply in_map_iff in Hit. destruct Hit as (d & <- & Hd).
      destruct (Hin d Hd) as (c & Hc1 & Hc2). destruct (Hpl c d Hc1) as (Ev & P1 & _). destruct (Hpr c d Hc2) as (Q1 & _).
      unfold item_ok, tditem. cbn [it_name it_vec it_idx it_fld].
      split. { unfold fs. rewrite ts_dual_fields_eq. apply (assoc_map _ _ (fun d => dname (di_name d)) tdfld); auto. }
      unfold tdfld. unfold di_idx at 1 2 3 4 5 6 7 8. rewrite seq_length.
      destruct (Nat.eqb (di_size d) 1) eqn:Ez.
      - split; [|apply Nat.eqb_eq; auto]. intros k Hk. apply in_seq in Hk. rewrite Ev. lia.
      - pose proof Ez as Ez'. apply Nat.eqb_neq in Ez. destruct (negb (sol_static s)) eqn:En.
        + split. { intros k Hk. apply in_seq in Hk. rewrite Ev. lia. }
          split; auto. unfold ar, dual_arrays. eapply (assoc_flat _ _ (fun d => dname (di_name d))); eauto.
          * intros d' n v Hc'. destruct (Nat.eqb (di_size d') 1); [destruct Hc'|]. rewrite En in Hc'.
            destruct Hc' as [E|[]]. congruence.
          * cbn beta. rewrite Ez', En. reflexivity.
        + split. { intros k Hk. apply in_seq in Hk. lia. } auto. }
    destruct (items_results K fs ar (map tditem ds) st) as (st' & R1 & R2); auto. { rewrite map_map. auto. }
    exists st'. rewrite retrieve_dual_items. split; auto.
    assert (Hm : forall cs0 ds0, Forall2 (fun c d => placed K OSQP eqs neqs dl c (di_vec d) (di_off d) (di_size d)) cs0 ds0 ->
       Forall2 (fun c d => placed K OSQP eqs neqs raw c (di_vec d) (di_off d) (di_size d)) cs0 ds0 ->
       (forall d, In d ds0 -> In d ds) ->
       mapM (fun d => read_field fs ar st' (dname (di_name d)) (di_size d)) ds0
       = Ok (map (fun c => if dpointed (length (dl c)) then dl c else raw c) cs0)).
    { induction 1 as [|c d cs0 ds0 Hi H IH]; intros G Hsub; auto. inversion G as [|? ? ? ? Gi G']; subst.
      assert (Hd : In d ds) by (apply Hsub; left; auto).
      destruct (R2 (tditem d) (in_map tditem _ _ Hd)) as (l & L1 & L2). unfold item_reads in L2.
      unfold tditem in L1, L2. cbn [it_name it_vec it_idx] in L1, L2. unfold di_idx in L1, L2. rewrite seq_length in L1.
      destruct (Hpl c d Hi) as (Ev & P1 & P2). destruct (Hpr c d Gi) as (Q1 & Q2).
      assert (G0 : forall (v w : list K), length w = di_size d -> (forall j, j < di_size d -> nth_error v (di_off d + j) = nth_error w j) ->
                Forall2 (fun k x => nth_error v k = Some x) (seq (di_off d) (di_size d)) l -> l = w).
      { clear. intros v w Hw Hv L2. pose proof (Forall2_length L2) as Hlen. rewrite seq_length in Hlen.
        apply nth_error_ext. intro j. destruct (Nat.lt_ge_cases j (di_size d)) as [Hj|Hj].
        - destruct (Forall2_nth _ _ _ _ _ j (di_off d + j) L2) as (b & B1 & B2).
          { rewrite (nth_error_nth' _ 0) by (rewrite seq_length; auto). rewrite seq_nth by auto. auto. }
          rewrite B1, <- Hv, B2 by auto. auto.
        - rewrite (proj2 (nth_error_None l j)) by lia. rewrite (proj2 (nth_error_None w j)) by lia. auto. }
      assert (El : l = if dpointed (length (dl c)) then dl c else raw c).
      { destruct Hi as [Hz _], Gi as [Hz' _]. unfold dpointed, tdfld in *. rewrite Hz. destruct (Nat.eqb (di_size d) 1) eqn:Ez.
        - rewrite andb_false_r. rewrite Ev in L2. eapply G0; eauto.
        - rewrite andb_true_r. destruct (sol_static s) eqn:En; cbn [negb] in L2; [|rewrite Ev in L2]; eapply G0; eauto. }
      cbn [mapM map]. rewrite L1. cbn [bind]. rewrite (IH G') by (intros; apply Hsub; right; auto). cbn [bind].
      rewrite El. auto. }
    apply Hm; auto.
  Qed.
End Dual.
