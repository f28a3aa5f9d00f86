(** Loops, and the compressed factor as a list of sorted columns. *)

From Coq Require Import Arith Bool ZArith Lia List Sorted.
From Verif Require Import Base Machine Runtime RuntimeProofs Sparse.
Import ListNotations.

(** [r] ends in a state satisfying [Q], or with one of the errors [E]. *)
Definition run (E : exn -> Prop) {A} (r : res A) (Q : A -> Prop) : Prop :=
  match r with Ok a => Q a | Err e => E e end.
Definition none (e : exn) : Prop := False.

Lemma run_bind : forall E A B (r : res A) (f : A -> res B) (P : A -> Prop) Q,
  run E r P -> (forall a, P a -> run E (f a) Q) -> run E (bind r f) Q.
Proof. intros E A B [a|e] f P Q H1 H2; simpl in *; auto. Qed.
Lemma run_imp : forall E A (r : res A) (P Q : A -> Prop), run E r P -> (forall a, P a -> Q a) -> run E r Q.
Proof. intros E A [a|e] P Q H1 H2; simpl in *; auto. Qed.
Lemma run_none : forall A (r : res A) Q, run none r Q -> exists a, r = Ok a /\ Q a.
Proof. intros A [a|e] Q H; simpl in H; [eauto|contradiction]. Qed.
Lemma run_weak : forall (E E' : exn -> Prop) A (r : res A) Q, (forall e, E e -> E' e) -> run E r Q -> run E' r Q.
Proof. intros E E' A [a|e] Q H H1; simpl in *; auto. Qed.
Lemma run_ok : forall E A (r : res A) a (Q : A -> Prop), r = Ok a -> Q a -> run E r Q.
Proof. intros E A r a Q -> H. exact H. Qed.

Lemma run_for : forall E S (I : nat -> S -> Prop) f n i s, I i s ->
  (forall k s, i <= k < i + n -> I k s -> run E (f k s) (I (Datatypes.S k))) -> run E (for_ n i f s) (I (i + n)).
Proof.
  intros E S I f. induction n as [|n IH]; simpl; intros i s H HS.
  - rewrite Nat.add_0_r. auto.
  - apply run_bind with (P := I (Datatypes.S i)).
    + apply HS; auto; lia.
    + intros s' H'. replace (i + Datatypes.S n) with (Datatypes.S i + n) by lia. apply IH; auto.
      intros k t Hk. apply HS. lia.
Qed.
Lemma run_for_down : forall E S (I : nat -> S -> Prop) f n i s, I (i + n) s ->
  (forall k s, i <= k < i + n -> I (Datatypes.S k) s -> run E (f k s) (I k)) -> run E (for_down n i f s) (I i).
Proof.
  intros E S I f. induction n as [|n IH]; simpl; intros i s H HS.
  - rewrite Nat.add_0_r in H. auto.
  - apply run_bind with (P := I (i + n)).
    + apply HS; [lia|]. replace (Datatypes.S (i + n)) with (i + Datatypes.S n) by lia. auto.
    + intros s' H'. apply IH; auto. intros k t Hk. apply HS. lia.
Qed.
Lemma run_for_break : forall E S (I : nat -> S -> Prop) (Q : S -> Prop) f n i s, I i s ->
  (forall k s, i <= k < i + n -> I k s -> run E (f k s) (fun r => if fst r : bool then I (Datatypes.S k) (snd r) else Q (snd r))) ->
  (forall s, I (i + n) s -> Q s) ->
  run E (for_break n i f s) Q.
Proof.
  intros E S I Q f. induction n as [|n IH]; simpl; intros i s H HS HQ.
  - apply HQ. rewrite Nat.add_0_r. auto.
  - eapply run_bind; [apply HS; auto; lia|]. intros [[] s'] H'; simpl in *.
    + apply IH; auto. intros k t Hk. apply HS. lia. intros t Ht. apply HQ. replace (i + Datatypes.S n) with (Datatypes.S i + n) by lia. auto.
    + auto.
Qed.

Lemma get_err : forall A (l : list A) k, nth_error l k = None -> get l k = Err OutOfBounds.
Proof. intros A l k H. unfold get. rewrite H. auto. Qed.
Lemma get_nth : forall A (l : list A) k a, nth_error l k = Some a -> get l k = Ok a.
Proof. intros A l k a H. unfold get. rewrite H. auto. Qed.
Lemma nth_error_upd : forall A (l : list A) k j v, k < length l ->
  nth_error (upd l k v) j = if Nat.eqb j k then Some v else nth_error l j.
Proof.
  induction l as [|a l IH]; simpl; intros k j v H; [lia|]. destruct k, j; simpl; auto. apply IH. lia.
Qed.
Lemma nth_err_lt : forall A (l : list A) k, k < length l -> exists a, nth_error l k = Some a.
Proof. intros A l k H. destruct (nth_error l k) eqn:E; eauto. apply nth_error_None in E. lia. Qed.
Lemma nth_err_some : forall A (l : list A) k a, nth_error l k = Some a -> k < length l.
Proof. intros. apply nth_error_Some. congruence. Qed.

(** ** Columns *)
Section Cols.
  Variable K : Type.
  Notation col := (list (nat * K)).
  Variable N : nat.

  Definition cstart (L : csc K) (j : nat) : nat := nth j (c_p L) 0.

  (** The arrays of [L] hold the columns [cs]. *)
  Record rep (L : csc K) (cs : list col) : Prop := mkRep
    { r_len : length cs = N;
      r_pl : length (c_p L) = N + 1;
      r_p0 : cstart L 0 = 0;
      r_ps : forall j, j < N -> cstart L (j + 1) = cstart L j + length (nth j cs []);
      r_n : c_n L = cstart L N;
      r_xi : length (c_x L) = length (c_i L);
      r_cap : c_n L <= length (c_i L);
      r_ent : forall j k r v, j < N -> nth_error (nth j cs []) k = Some (r, v) ->
                nth_error (c_i L) (cstart L j + k) = Some r /\ nth_error (c_x L) (cstart L j + k) = Some v }.

  Lemma rep_get_p : forall L cs j, rep L cs -> j <= N -> get (c_p L) j = Ok (cstart L j).
  Proof. intros L cs j R H. apply get_ok. rewrite (r_pl _ _ R). lia. Qed.

  Lemma start_mono : forall L cs i j, rep L cs -> i <= j -> j <= N -> cstart L i <= cstart L j.
  Proof.
    intros L cs i j R H. induction H as [|j H IH]; intro Hj; auto.
    specialize (IH ltac:(lia)). pose proof (r_ps _ _ R j ltac:(lia)). replace (j + 1) with (Datatypes.S j) in * by lia. lia.
  Qed.
  Lemma start_total : forall L cs j, rep L cs -> j <= N -> cstart L j = list_sum (map (@length _) (firstn j cs)).
  Proof.
    intros L cs j R. induction j as [|j IH]; intro H.
    - simpl. apply (r_p0 _ _ R).
    - pose proof (r_ps _ _ R j ltac:(lia)) as E. replace (j + 1) with (Datatypes.S j) in E by lia. rewrite E, IH by lia.
      assert (Hj : j < length cs) by (rewrite (r_len _ _ R); lia).
      clear - Hj. revert j Hj. induction cs as [|c cs IHc]; intros j Hj; [simpl in Hj; lia|].
      destruct j as [|j]; [simpl; lia|]. simpl in Hj. specialize (IHc j ltac:(lia)).
      rewrite !firstn_cons. cbn [map nth]. 
      change (list_sum (length c :: map (@length _) (firstn j cs))) with (length c + list_sum (map (@length _) (firstn j cs))).
      change (list_sum (length c :: map (@length _) (firstn (Datatypes.S j) cs))) with (length c + list_sum (map (@length _) (firstn (Datatypes.S j) cs))).
      lia.
  Qed.
  Lemma col_end : forall L cs j, rep L cs -> j < N -> cstart L j + length (nth j cs []) <= c_n L.
  Proof.
    intros L cs j R H. rewrite (r_n _ _ R), <- (r_ps _ _ R j H). apply (start_mono L cs); auto; lia.
  Qed.

  (** Rows of a column increase. *)
  Definition sorted (c : col) : Prop := StronglySorted lt (map fst c).

  Fixpoint find (r : nat) (c : col) : option K :=
    match c with [] => None | (i, v) :: t => if Nat.eqb r i then Some v else find r t end.
  (** Insertion into a sorted column; [keep]: leave a present entry alone. *)
  Fixpoint ins (keep : bool) (r : nat) (v : K) (c : col) : col :=
    match c with
    | [] => [(r, v)]
    | (i, x) :: t => if Nat.ltb r i then (r, v) :: c
                     else if Nat.eqb r i then (i, if keep then x else v) :: t else (i, x) :: ins keep r v t
    end.

  Lemma sorted_inv : forall i x t, sorted ((i, x) :: t) -> sorted t /\ forall r v, In (r, v) t -> i < r.
  Proof.
    intros i x t H. inversion H; subst. split; auto. intros r v Hin. rewrite Forall_forall in H3. apply H3. apply in_map_iff.
    exists (r, v). auto.
  Qed.
  Lemma sorted_cons : forall i x t, sorted t -> (forall r v, In (r, v) t -> i < r) -> sorted ((i, x) :: t).
  Proof.
    intros i x t H1 H2. constructor; auto. apply Forall_forall. intros r Hr. apply in_map_iff in Hr.
    destruct Hr as ([r' v] & <- & Hin). simpl. eauto.
  Qed.
  Lemma find_none : forall r c, (forall i v, In (i, v) c -> i <> r) -> find r c = None.
  Proof.
    induction c as [|[i v] c IH]; simpl; intro H; auto.
    destruct (Nat.eqb r i) eqn:E.
    - apply Nat.eqb_eq in E. exfalso. eapply H; eauto.
    - apply IH. intros. eapply H. right; eauto.
  Qed.
  Lemma find_some_in : forall r c v, find r c = Some v -> In (r, v) c.
  Proof.
    induction c as [|[i x] c IH]; simpl; intros v H; [discriminate|].
    destruct (Nat.eqb r i) eqn:E; [apply Nat.eqb_eq in E; inversion H; subst; auto|auto].
  Qed.
  Lemma find_in : forall r c v, sorted c -> In (r, v) c -> find r c = Some v.
  Proof.
    induction c as [|[i x] c IH]; simpl; intros v HS H; [contradiction|].
    destruct (sorted_inv _ _ _ HS) as [HS' Hlt]. destruct H as [H|H].
    - inversion H; subst. rewrite Nat.eqb_refl. auto.
    - destruct (Nat.eqb r i) eqn:E; auto. apply Nat.eqb_eq in E. subst. apply Hlt in H. lia.
  Qed.

  Lemma ins_in : forall keep r v c i x, In (i, x) (ins keep r v c) -> (i = r) \/ In (i, x) c.
  Proof.
    induction c as [|[i' x'] c IH]; simpl; intros i x H.
    - destruct H as [H|[]]. inversion H; auto.
    - destruct (Nat.ltb r i') eqn:E1; simpl in H.
      + destruct H as [H|[H|H]]; auto. inversion H; auto.
      + destruct (Nat.eqb r i') eqn:E2; simpl in H.
        * apply Nat.eqb_eq in E2. destruct H as [H|H]; auto. inversion H; subst; auto.
        * destruct H as [H|H]; auto. apply IH in H. tauto.
  Qed.
  Lemma ins_sorted : forall keep r v c, sorted c -> sorted (ins keep r v c).
  Proof.
    induction c as [|[i x] c IH]; simpl; intro H.
    - repeat constructor.
    - destruct (sorted_inv _ _ _ H) as [HS Hlt]. destruct (Nat.ltb r i) eqn:E1.
      + apply Nat.ltb_lt in E1. apply sorted_cons; auto. intros r' v' [E|Hin]. inversion E; subst; auto. apply Hlt in Hin. lia.
      + apply Nat.ltb_ge in E1. destruct (Nat.eqb r i) eqn:E2.
        * apply sorted_cons; auto.
        * apply Nat.eqb_neq in E2. apply sorted_cons; auto. intros r' v' Hin. apply ins_in in Hin. destruct Hin as [->|Hin]; [lia|eauto].
  Qed.
  Lemma ins_find : forall keep r v c i, sorted c ->
    find i (ins keep r v c) = if Nat.eqb i r then match find r c with Some x => Some (if keep then x else v) | None => Some v end
                              else find i c.
  Proof.
    induction c as [|[i' x'] c IH]; simpl; intros i HS.
    - destruct (Nat.eqb i r); auto.
    - destruct (sorted_inv _ _ _ HS) as [HS' Hlt]. destruct (Nat.ltb r i') eqn:E1.
      + apply Nat.ltb_lt in E1. simpl. destruct (Nat.eqb i r) eqn:E.
        * apply Nat.eqb_eq in E. subst. destruct (Nat.eqb r i') eqn:E2; [apply Nat.eqb_eq in E2; lia|].
          rewrite find_none; auto. intros i v' Hin. apply Hlt in Hin. lia.
        * reflexivity.
      + destruct (Nat.eqb r i') eqn:E2; simpl.
        * apply Nat.eqb_eq in E2. subst. destruct (Nat.eqb i i'); auto.
        * rewrite IH by auto. destruct (Nat.eqb i r) eqn:E.
          -- apply Nat.eqb_eq in E. subst. rewrite E2. auto.
          -- auto.
  Qed.
  Lemma ins_length : forall keep r v c, sorted c ->
    length (ins keep r v c) = match find r c with Some _ => length c | None => Datatypes.S (length c) end.
  Proof.
    induction c as [|[i x] c IH]; simpl; intro HS; auto.
    destruct (sorted_inv _ _ _ HS) as [HS' Hlt].
    destruct (Nat.ltb r i) eqn:E1; simpl.
    - apply Nat.ltb_lt in E1. destruct (Nat.eqb r i) eqn:E2; [apply Nat.eqb_eq in E2; lia|].
      rewrite find_none; auto. intros i' v' Hin. apply Hlt in Hin. lia.
    - destruct (Nat.eqb r i) eqn:E2; simpl; auto. rewrite IH by auto. destruct (find r c); auto.
  Qed.

  (** *** Binary search *)
  Lemma sorted_nth : forall c i j a b x y, sorted c -> nth_error c i = Some (a, x) -> nth_error c j = Some (b, y) -> i < j -> a < b.
  Proof.
    induction c as [|[r v] c IH]; intros i j a b x y HS Hi Hj Hij; destruct i, j; simpl in *; try discriminate; try lia.
    - inversion Hi; subst. apply nth_error_In in Hj. destruct (sorted_inv _ _ _ HS) as [_ H]. eauto.
    - destruct (sorted_inv _ _ _ HS) as [HS' _]. eapply IH; eauto. lia.
  Qed.

  (** What the search returns: the place of [r], or the first place holding a larger row. *)
  Definition searched (c : col) (r : nat) (s : nat) (a : nat + nat) : Prop :=
    match a with
    | inl k => exists t v, k = s + t /\ nth_error c t = Some (r, v)
    | inr k => exists t, k = s + t /\ t <= length c /\ (forall i a v, nth_error c i = Some (a, v) -> (i < t -> a < r) /\ (t <= i -> r < a))
    end.
  Lemma bsearch_ok : forall is c r s, sorted c -> (forall k a v, nth_error c k = Some (a, v) -> nth_error is (s + k) = Some a) ->
    forall fuel lo hi, lo <= hi -> hi <= length c -> hi - lo <= fuel ->
    (forall i a v, nth_error c i = Some (a, v) -> (i < lo -> a < r) /\ (hi <= i -> r < a)) ->
    exists a, bsearch fuel is r (s + lo) (s + hi) (s + hi) = Ok a /\ searched c r s a.
  Proof.
    intros is c r s HS Hent. induction fuel as [|fuel IH]; intros lo hi H1 H2 Hf Hin; cbn [bsearch].
    - assert (lo = hi) by lia. subst. rewrite Nat.ltb_irrefl. eexists. split; [reflexivity|]. exists hi. repeat split; auto; intros; eapply Hin; eauto.
    - destruct (Nat.ltb (s + lo) (s + hi)) eqn:E.
      + apply Nat.ltb_lt in E. assert (Hmid : exists m, s + lo + (s + hi - (s + lo)) / 2 = s + m /\ lo <= m < hi).
        { exists (lo + (hi - lo) / 2). replace (s + hi - (s + lo)) with (hi - lo) by lia.
          assert ((hi - lo) / 2 < hi - lo) by (apply Nat.div_lt; lia). split; lia. }
        destruct Hmid as (m & -> & Hm). destruct (nth_err_lt _ c m ltac:(lia)) as ([a v] & Ha).
        rewrite (get_nth _ _ _ _ (Hent _ _ _ Ha)). cbn [bind]. destruct (Nat.eqb a r) eqn:Ea.
        * apply Nat.eqb_eq in Ea. subst. eexists. split; [reflexivity|]. exists m, v. auto.
        * apply Nat.eqb_neq in Ea. destruct (Nat.ltb a r) eqn:Eb.
          -- apply Nat.ltb_lt in Eb. replace (s + m + 1) with (s + (m + 1)) by lia. apply IH; try lia.
             intros i a' v' Hi. split; intro Hlt.
             ++ destruct (Nat.eq_dec i m) as [->|]; [congruence|]. pose proof (sorted_nth _ i m _ _ _ _ HS Hi Ha ltac:(lia)). lia.
             ++ apply (proj2 (Hin _ _ _ Hi) Hlt).
          -- apply Nat.ltb_ge in Eb. apply IH; try lia.
             intros i a' v' Hi. split; intro Hlt.
             ++ apply (proj1 (Hin _ _ _ Hi) Hlt).
             ++ destruct (Nat.eq_dec i m) as [->|]; [assert (a' = a) by congruence; lia|]. pose proof (sorted_nth _ m i _ _ _ _ HS Ha Hi ltac:(lia)). lia.
      + apply Nat.ltb_ge in E. assert (lo = hi) by lia. subst. eexists. split; [reflexivity|]. exists hi. repeat split; auto; intros; eapply Hin; eauto.
  Qed.

  Lemma ins_at : forall keep r v c t, sorted c -> t <= length c ->
    (forall i a x, nth_error c i = Some (a, x) -> (i < t -> a < r) /\ (t <= i -> r < a)) ->
    ins keep r v c = firstn t c ++ (r, v) :: skipn t c.
  Proof.
    induction c as [|[i x] c IH]; intros t HS Ht H.
    - simpl in Ht. assert (t = 0) by lia. subst. reflexivity.
    - destruct t; simpl.
      + pose proof (proj2 (H 0 i x eq_refl) ltac:(lia)) as Hlt. apply Nat.ltb_lt in Hlt. rewrite Hlt. auto.
      + pose proof (proj1 (H 0 i x eq_refl) ltac:(lia)) as Hlt.
        assert (E1 : Nat.ltb r i = false) by (apply Nat.ltb_ge; lia). assert (E2 : Nat.eqb r i = false) by (apply Nat.eqb_neq; lia).
        rewrite E1, E2. f_equal. simpl in Ht. destruct (sorted_inv _ _ _ HS) as [HS' _]. apply IH; auto; [lia|].
        intros i' a x' Hi. destruct (H (Datatypes.S i') a x' Hi) as [A B]. split; intro; [apply A|apply B]; lia.
  Qed.
  Lemma ins_found : forall keep r v c t x, sorted c -> nth_error c t = Some (r, x) ->
    ins keep r v c = upd c t (r, if keep then x else v).
  Proof.
    induction c as [|[i x'] c IH]; intros t x HS H; destruct t; simpl in *; try discriminate.
    - inversion H; subst. rewrite Nat.ltb_irrefl, Nat.eqb_refl. auto.
    - destruct (sorted_inv _ _ _ HS) as [HS' Hlt]. pose proof (Hlt _ _ (nth_error_In _ _ H)).
      assert (E1 : Nat.ltb r i = false) by (apply Nat.ltb_ge; lia). assert (E2 : Nat.eqb r i = false) by (apply Nat.eqb_neq; lia).
      rewrite E1, E2. f_equal. eapply IH; eauto.
  Qed.

  (** *** Values in place *)
  Lemma rep_set : forall L cs j k r v v', rep L cs -> j < N -> nth_error (nth j cs []) k = Some (r, v) ->
    rep (set_x L (upd (c_x L) (cstart L j + k) v')) (upd cs j (upd (nth j cs []) k (r, v'))).
  Proof.
    intros L cs j k r v v' R Hj Hk. pose proof (r_ent _ _ R j k r v Hj Hk) as [Hi Hx].
    assert (Hlj : j < length cs) by (rewrite (r_len _ _ R); auto).
    assert (Hnl : forall j', length (nth j' (upd cs j (upd (nth j cs []) k (r, v'))) []) = length (nth j' cs [])).
    { intro j'. destruct (Nat.eq_dec j' j) as [->|Hne].
      - rewrite nth_upd_eq by auto. apply upd_length.
      - rewrite nth_upd_neq by auto. auto. }
    constructor; unfold cstart, set_x in *; cbn [c_p c_i c_x c_n].
    - rewrite upd_length. apply (r_len _ _ R).
    - apply (r_pl _ _ R).
    - apply (r_p0 _ _ R).
    - intros j' Hj'. rewrite Hnl. apply (r_ps _ _ R). auto.
    - apply (r_n _ _ R).
    - rewrite upd_length. apply (r_xi _ _ R).
    - apply (r_cap _ _ R).
    - intros j' k' r' w Hj' Hk'. rewrite nth_error_upd by (eapply nth_err_some; eauto).
      destruct (Nat.eq_dec j' j) as [->|Hne].
      + rewrite nth_upd_eq in Hk' by auto. rewrite nth_error_upd in Hk' by (eapply nth_err_some; eauto).
        destruct (Nat.eqb k' k) eqn:E.
        * apply Nat.eqb_eq in E. subst. inversion Hk'; subst. rewrite Nat.eqb_refl. auto.
        * apply Nat.eqb_neq in E. destruct (Nat.eqb (nth j (c_p L) 0 + k') (nth j (c_p L) 0 + k)) eqn:E'; [apply Nat.eqb_eq in E'; lia|].
          apply (r_ent _ _ R); auto.
      + rewrite nth_upd_neq in Hk' by auto. pose proof (r_ent _ _ R _ _ _ _ Hj' Hk') as [A B].
        destruct (Nat.eqb (nth j' (c_p L) 0 + k') (nth j (c_p L) 0 + k)) eqn:E'; auto. exfalso. apply Nat.eqb_eq in E'.
        pose proof (nth_err_some _ _ _ _ Hk) as L1. pose proof (nth_err_some _ _ _ _ Hk') as L2.
        pose proof (r_ps _ _ R j Hj) as P1. pose proof (r_ps _ _ R j' Hj') as P2. unfold cstart in *.
        destruct (Nat.lt_ge_cases j' j) as [Hlt|Hge].
        * pose proof (start_mono L cs (j' + 1) j R ltac:(lia) ltac:(lia)) as M. unfold cstart in M. lia.
        * pose proof (start_mono L cs (j + 1) j' R ltac:(lia) ltac:(lia)) as M. unfold cstart in M. lia.
  Qed.

  (** *** Insertion *)
  Lemma shift_ok : forall (is : list nat) (xs : list K) pos n, length xs = length is -> pos <= n -> n < length is ->
    exists is' xs', for_down (n - pos) (pos + 1)
      (fun p '(is, xs) => i <- get is (p - 1);; is' <- put is p i;;
                          x <- get xs (p - 1);; xs' <- put xs p x;; Ok (is', xs')) (is, xs) = Ok (is', xs')
      /\ length is' = length is /\ length xs' = length xs
      /\ forall k, k <> pos -> nth_error is' k = nth_error is (if Nat.ltb pos k && Nat.leb k n then k - 1 else k)
                     /\ nth_error xs' k = nth_error xs (if Nat.ltb pos k && Nat.leb k n then k - 1 else k).
  Proof.
    intros is xs pos n HL Hp Hn.
    set (I := fun (m : nat) (s : list nat * list K) => length (fst s) = length is /\ length (snd s) = length xs
       /\ forall k, (nth_error (fst s) k = nth_error is (if Nat.leb m k && Nat.leb k n then k - 1 else k))
                 /\ nth_error (snd s) k = nth_error xs (if Nat.leb m k && Nat.leb k n then k - 1 else k)).
    destruct (run_none _ (for_down (n - pos) (pos + 1)
      (fun p '(is, xs) => i <- get is (p - 1);; is' <- put is p i;;
                          x <- get xs (p - 1);; xs' <- put xs p x;; Ok (is', xs')) (is, xs)) (I (pos + 1))) as ([is' xs'] & E & I1 & I2 & I3).
    - apply (run_for_down none (list nat * list K) I).
      + unfold I. simpl. split; auto. split; auto. intro k.
        replace (Nat.leb (pos + 1 + (n - pos)) k && Nat.leb k n) with false; auto.
        symmetry. apply andb_false_iff. destruct (Nat.leb_spec (pos + 1 + (n - pos)) k); auto. right. apply Nat.leb_gt. lia.
      + intros p [is1 xs1] Hpr (H1 & H2 & H3). cbn [fst snd] in *.
        assert (Hp1 : p - 1 < length is) by lia.
        destruct (nth_err_lt _ is (p - 1) Hp1) as (i & Hi). destruct (nth_err_lt _ xs (p - 1) ltac:(lia)) as (x & Hx).
        assert (E0 : (Nat.leb (Datatypes.S p) (p - 1) && Nat.leb (p - 1) n) = false).
        { apply andb_false_iff. left. apply Nat.leb_gt. lia. }
        pose proof (H3 (p - 1)) as [A B]. rewrite E0 in A, B.
        rewrite (get_nth _ _ _ i) by congruence. cbn [bind]. rewrite put_ok by lia. cbn [bind].
        rewrite (get_nth _ _ _ x) by congruence. cbn [bind]. rewrite put_ok by lia. cbn [bind run].
        unfold I. cbn [fst snd]. rewrite !upd_length. split; auto. split; auto. intro k.
        rewrite !nth_error_upd by lia. destruct (Nat.eqb k p) eqn:Ek.
        * apply Nat.eqb_eq in Ek. subst k. assert (Et : Nat.leb p p && Nat.leb p n = true) by (apply andb_true_iff; split; apply Nat.leb_le; lia).
          rewrite Et. auto.
        * apply Nat.eqb_neq in Ek. assert (Et : Nat.leb (Datatypes.S p) k = Nat.leb p k).
          { destruct (Nat.leb_spec p k), (Nat.leb_spec (Datatypes.S p) k); auto; lia. }
          rewrite <- Et. apply H3.
    - exists is', xs'. cbn [fst snd] in *. split; auto. split; auto. split; auto. intros k Hk.
      specialize (I3 k). assert (Et : Nat.leb (pos + 1) k = Nat.ltb pos k).
      { destruct (Nat.ltb_spec pos k), (Nat.leb_spec (pos + 1) k); auto; lia. }
      rewrite Et in I3. auto.
  Qed.

  Lemma incr_ok : forall (ps : list nat) col, length ps = N + 1 -> col <= N ->
    exists ps', for_ (N - col) (col + 1) (fun j ps => x <- get ps j;; put ps j (x + 1)) ps = Ok ps' /\ length ps' = length ps
      /\ forall j, nth j ps' 0 = if Nat.ltb col j && Nat.leb j N then nth j ps 0 + 1 else nth j ps 0.
  Proof.
    intros ps col HL Hc.
    set (I := fun (m : nat) (s : list nat) => length s = length ps
       /\ forall j, nth j s 0 = if Nat.ltb col j && Nat.ltb j m then nth j ps 0 + 1 else nth j ps 0).
    destruct (run_none _ (for_ (N - col) (col + 1) (fun j ps => x <- get ps j;; put ps j (x + 1)) ps) (I (col + 1 + (N - col)))) as (ps' & E & I1 & I2).
    - apply (run_for none (list nat) I).
      + split; auto. intro j. replace (Nat.ltb col j && Nat.ltb j (col + 1)) with false; auto.
        symmetry. apply andb_false_iff. destruct (Nat.ltb_spec col j); auto. right. apply Nat.ltb_ge. lia.
      + intros j s Hj (H1 & H2). rewrite (get_ok _ _ _ 0) by lia. cbn [bind]. rewrite put_ok by lia. cbn [run].
        split; [rewrite upd_length; auto|]. intro k. destruct (Nat.eq_dec k j) as [->|Hne].
        * rewrite nth_upd_eq by lia. rewrite H2.
          replace (Nat.ltb j j) with false by (symmetry; apply Nat.ltb_ge; lia). rewrite andb_false_r.
          replace (Nat.ltb col j && Nat.ltb j (Datatypes.S j)) with true; auto.
          symmetry. apply andb_true_iff. split; apply Nat.ltb_lt; lia.
        * rewrite nth_upd_neq by auto. rewrite H2. assert (Et : Nat.ltb k (Datatypes.S j) = Nat.ltb k j).
          { destruct (Nat.ltb_spec k j), (Nat.ltb_spec k (Datatypes.S j)); auto; lia. }
          rewrite Et. auto.
    - exists ps'. split; auto. split; auto. intro j. rewrite I2. assert (Et : Nat.ltb j (col + 1 + (N - col)) = Nat.leb j N).
      { destruct (Nat.ltb_spec j (col + 1 + (N - col))), (Nat.leb_spec j N); auto; lia. }
      rewrite Et. auto.
  Qed.

  Lemma insert_at_ok : forall L cs row col t v, rep L cs -> col < N -> t <= length (nth col cs []) -> c_n L < length (c_i L) ->
    exists L', insert_at N L row col (cstart L col + t) v = Ok L'
      /\ rep L' (upd cs col (firstn t (nth col cs []) ++ (row, v) :: skipn t (nth col cs [])))
      /\ length (c_i L') = length (c_i L) /\ c_n L' = c_n L + 1.
  Proof.
    intros L cs row col t v R Hc Ht Hcap. set (c := nth col cs []) in *. set (pos := cstart L col + t).
    assert (Hlc : col < length cs) by (rewrite (r_len _ _ R); auto).
    assert (Hpos : pos <= c_n L) by (unfold pos; pose proof (col_end L cs col R Hc); fold c in H; lia).
    unfold insert_at. replace (c_n L + 1 - 1 - pos) with (c_n L - pos) by lia.
    destruct (shift_ok (c_i L) (c_x L) pos (c_n L) (r_xi _ _ R) Hpos Hcap) as (is' & xs' & E & S1 & S2 & S3).
    rewrite E. cbn [bind]. rewrite put_ok by lia. cbn [bind]. rewrite put_ok by (rewrite S2, (r_xi _ _ R); lia). cbn [bind].
    destruct (incr_ok (c_p L) col (r_pl _ _ R) ltac:(lia)) as (ps' & E2 & P1 & P2). rewrite E2. cbn [bind].
    eexists. split; [reflexivity|]. split; [|cbn [c_i c_n]; rewrite upd_length; auto].
    assert (Hlen : length (firstn t c ++ (row, v) :: skipn t c) = length c + 1).
    { rewrite app_length. cbn [length]. rewrite firstn_length, skipn_length. lia. }
    constructor; unfold cstart; cbn [c_p c_i c_x c_n].
    - rewrite upd_length. apply (r_len _ _ R).
    - rewrite P1. apply (r_pl _ _ R).
    - rewrite P2. replace (Nat.ltb col 0) with false by (symmetry; apply Nat.ltb_ge; lia). simpl. apply (r_p0 _ _ R).
    - intros j Hj. rewrite !P2. pose proof (r_ps _ _ R j Hj) as Ps. unfold cstart in Ps.
      assert (B1 : Nat.leb (j + 1) N = true) by (apply Nat.leb_le; lia). assert (B2 : Nat.leb j N = true) by (apply Nat.leb_le; lia).
      rewrite B1, B2, !andb_true_r. destruct (Nat.eq_dec j col) as [->|Hne].
      + rewrite nth_upd_eq by auto. rewrite Hlen. rewrite Nat.ltb_irrefl.
        replace (Nat.ltb col (col + 1)) with true by (symmetry; apply Nat.ltb_lt; lia). rewrite Ps. fold c. lia.
      + rewrite nth_upd_neq by auto. destruct (Nat.ltb_spec col j), (Nat.ltb_spec col (j + 1)); lia.
    - rewrite P2. replace (Nat.ltb col N && Nat.leb N N) with true.
      + pose proof (r_n _ _ R) as H. unfold cstart in H. lia.
      + symmetry. apply andb_true_iff. split; [apply Nat.ltb_lt; auto|apply Nat.leb_le; lia].
    - rewrite !upd_length. rewrite S1, S2. apply (r_xi _ _ R).
    - rewrite upd_length, S1. lia.
    - intros j k r w Hj Hk.
      assert (Hnew : forall k, k <> pos -> nth_error (upd is' pos row) k = nth_error (c_i L) (if Nat.ltb pos k && Nat.leb k (c_n L) then k - 1 else k)
                       /\ nth_error (upd xs' pos v) k = nth_error (c_x L) (if Nat.ltb pos k && Nat.leb k (c_n L) then k - 1 else k)).
      { intros k0 Hk0. pose proof (r_xi _ _ R). rewrite !nth_error_upd by lia. destruct (Nat.eqb_spec k0 pos); [contradiction|]. apply S3. auto. }
      rewrite P2. assert (B2 : Nat.leb j N = true) by (apply Nat.leb_le; lia). rewrite B2, andb_true_r.
      destruct (Nat.eq_dec j col) as [->|Hne].
      + rewrite Nat.ltb_irrefl. rewrite nth_upd_eq in Hk by auto. change (nth col (c_p L) 0) with (cstart L col).
        destruct (Nat.lt_trichotomy k t) as [Hlt|[->|Hgt]].
        * rewrite nth_error_app1 in Hk by (rewrite firstn_length; lia).
          assert (Hk' : nth_error c k = Some (r, w)).
          { rewrite <- Hk. clear - Hlt. revert k Hlt. generalize c. induction t; intros l k H; [lia|]. destruct l, k; simpl; auto. apply IHt. lia. }
          destruct (Hnew (cstart L col + k)) as [A B]; [unfold pos; lia|].
          replace (Nat.ltb pos (cstart L col + k)) with false in A, B by (symmetry; apply Nat.ltb_ge; unfold pos; lia). simpl in A, B.
          rewrite A, B. apply (r_ent _ _ R); auto.
        * rewrite nth_error_app2 in Hk by (rewrite firstn_length; lia). rewrite firstn_length, Nat.min_l in Hk by lia.
          rewrite Nat.sub_diag in Hk. simpl in Hk. inversion Hk; subst. fold pos. pose proof (r_xi _ _ R).
          rewrite !nth_error_upd by lia. rewrite Nat.eqb_refl. auto.
        * rewrite nth_error_app2 in Hk by (rewrite firstn_length; lia). rewrite firstn_length, Nat.min_l in Hk by lia.
          replace (k - t) with (Datatypes.S (k - t - 1)) in Hk by lia. simpl in Hk.
          assert (Hk' : nth_error c (k - 1) = Some (r, w)).
          { rewrite <- Hk. replace (k - 1) with (t + (k - t - 1)) by lia. clear. generalize (k - t - 1) as m. generalize c as l.
            induction t as [|t IHt]; intros l m; simpl; auto. destruct l; simpl; [destruct m; auto|]. auto. }
          assert (Hkl : k - 1 < length c) by (eapply nth_err_some; eauto).
          destruct (Hnew (cstart L col + k)) as [A B]; [unfold pos; lia|].
          pose proof (col_end L cs col R Hc) as Hce. fold c in Hce.
          replace (Nat.ltb pos (cstart L col + k) && Nat.leb (cstart L col + k) (c_n L)) with true in A, B.
          2:{ symmetry. apply andb_true_iff. split; [apply Nat.ltb_lt; unfold pos; lia|apply Nat.leb_le; lia]. }
          replace (cstart L col + k - 1) with (cstart L col + (k - 1)) in A, B by lia. rewrite A, B. apply (r_ent _ _ R); auto.
      + rewrite nth_upd_neq in Hk by auto. pose proof (nth_err_some _ _ _ _ Hk) as Hkl.
        change (nth j (c_p L) 0) with (cstart L j). pose proof (col_end L cs j R Hj) as Hce.
        destruct (Nat.ltb_spec col j) as [Hlt|Hge].
        * pose proof (start_mono L cs (col + 1) j R ltac:(lia) ltac:(lia)) as M. pose proof (r_ps _ _ R col Hc) as Ps. fold c in Ps.
          destruct (Hnew (cstart L j + 1 + k)) as [A B]; [unfold pos; lia|].
          replace (Nat.ltb pos (cstart L j + 1 + k) && Nat.leb (cstart L j + 1 + k) (c_n L)) with true in A, B.
          2:{ symmetry. apply andb_true_iff. split; [apply Nat.ltb_lt; unfold pos; lia|apply Nat.leb_le; lia]. }
          replace (cstart L j + 1 + k - 1) with (cstart L j + k) in A, B by lia. rewrite A, B. apply (r_ent _ _ R); auto.
        * pose proof (start_mono L cs (j + 1) col R ltac:(lia) ltac:(lia)) as M. pose proof (r_ps _ _ R j Hj) as Ps.
          destruct (Hnew (cstart L j + k)) as [A B]; [unfold pos; lia|].
          replace (Nat.ltb pos (cstart L j + k)) with false in A, B by (symmetry; apply Nat.ltb_ge; unfold pos; lia). simpl in A, B.
          rewrite A, B. apply (r_ent _ _ R); auto.
  Qed.

  Theorem insert_ok : forall L cs row col keep v, rep L cs -> col < N -> col <= row -> sorted (nth col cs []) ->
    (find row (nth col cs []) = None -> c_n L < length (c_i L)) ->
    exists L', insert N L row col keep v = Ok L' /\ rep L' (upd cs col (ins keep row v (nth col cs [])))
      /\ length (c_i L') = length (c_i L)
      /\ c_n L' = c_n L + match find row (nth col cs []) with Some _ => 0 | None => 1 end.
  Proof.
    intros L cs row col keep v R Hc Hr HS Hcap. unfold insert.
    replace (Nat.ltb row col) with false by (symmetry; apply Nat.ltb_ge; auto).
    rewrite (rep_get_p L cs col R) by lia. cbn [bind]. rewrite (rep_get_p L cs (col + 1) R) by lia. cbn [bind].
    rewrite (r_ps _ _ R col Hc). set (c := nth col cs []) in *.
    destruct (bsearch_ok (c_i L) c row (cstart L col) HS) with (fuel := cstart L col + length c - cstart L col) (lo := 0) (hi := length c) as (a & E & HA); try lia.
    - intros k a0 v0 Hk. apply (r_ent _ _ R _ _ _ _ Hc Hk).
    - intros i a0 v0 Hi. pose proof (nth_err_some _ _ _ _ Hi). split; lia.
    - rewrite Nat.add_0_r in E. rewrite E. cbn [bind]. destruct a as [k|k]; simpl in HA.
      + destruct HA as (t & x & -> & Ht). assert (Hlc : col < length cs) by (rewrite (r_len _ _ R); auto).
        rewrite (ins_found keep row v c t x HS Ht), (find_in row c x HS (nth_error_In _ _ Ht)). destruct keep.
        * exists L. split; auto. split; [|split; [auto|lia]].
          assert (Eu : upd cs col (upd c t (row, x)) = cs).
          { assert (G : forall A (l : list A) n a, nth_error l n = Some a -> upd l n a = l).
            { induction l; destruct n; simpl; intros a' H; try discriminate; auto. inversion H; auto. f_equal; auto. }
            rewrite (G _ c t _ Ht). apply G. apply nth_error_nth'. auto. }
          rewrite Eu. auto.
        * pose proof (r_ent _ _ R _ _ _ _ Hc Ht) as [_ Hx]. rewrite put_ok by (eapply nth_err_some; eauto). cbn [bind].
          eexists. split; [reflexivity|]. split; [eapply rep_set; eauto|]. unfold set_x. cbn [c_i c_n]. auto.
      + destruct HA as (t & -> & Ht & Hcmp). rewrite (ins_at keep row v c t HS Ht Hcmp).
        assert (Hnone : find row c = None).
        { apply find_none. intros i x Hin. apply In_nth_error in Hin. destruct Hin as (m & Hm). destruct (Hcmp _ _ _ Hm).
          destruct (Nat.lt_ge_cases m t) as [Hlt|Hge]; [apply H in Hlt|apply H0 in Hge]; lia. }
        rewrite Hnone in *. apply insert_at_ok; auto.
  Qed.

  (** *** Removal *)
  Fixpoint rem (small : K -> bool) (r : nat) (c : col) : col :=
    match c with
    | [] => []
    | (i, x) :: t => if Nat.eqb i r then (if small x then t else c) else (i, x) :: rem small r t
    end.

  Lemma unshift_ok : forall (is : list nat) (xs : list K) pos n, length xs = length is -> pos < n -> n <= length is ->
    exists is' xs', for_ (n - 1 - pos) pos
      (fun p '(is, xs) => i <- get is (p + 1);; is' <- put is p i;;
                          x <- get xs (p + 1);; xs' <- put xs p x;; Ok (is', xs')) (is, xs) = Ok (is', xs')
      /\ length is' = length is /\ length xs' = length xs
      /\ forall k, k < n - 1 -> nth_error is' k = nth_error is (if Nat.leb pos k then k + 1 else k)
                     /\ nth_error xs' k = nth_error xs (if Nat.leb pos k then k + 1 else k).
  Proof.
    intros is xs pos n HL Hp Hn.
    set (I := fun (m : nat) (s : list nat * list K) => length (fst s) = length is /\ length (snd s) = length xs
       /\ forall k, (nth_error (fst s) k = nth_error is (if Nat.leb pos k && Nat.ltb k m then k + 1 else k))
                 /\ nth_error (snd s) k = nth_error xs (if Nat.leb pos k && Nat.ltb k m then k + 1 else k)).
    destruct (run_none _ (for_ (n - 1 - pos) pos
      (fun p '(is, xs) => i <- get is (p + 1);; is' <- put is p i;;
                          x <- get xs (p + 1);; xs' <- put xs p x;; Ok (is', xs')) (is, xs)) (I (pos + (n - 1 - pos)))) as ([is' xs'] & E & I1 & I2 & I3).
    - apply (run_for none (list nat * list K) I).
      + unfold I. simpl. split; auto. split; auto. intro k.
        replace (Nat.leb pos k && Nat.ltb k pos) with false; auto.
        symmetry. apply andb_false_iff. destruct (Nat.leb_spec pos k); auto. right. apply Nat.ltb_ge. lia.
      + intros p [is1 xs1] Hpr (H1 & H2 & H3). cbn [fst snd] in *.
        destruct (nth_err_lt _ is (p + 1) ltac:(lia)) as (i & Hi). destruct (nth_err_lt _ xs (p + 1) ltac:(lia)) as (x & Hx).
        assert (E0 : (Nat.leb pos (p + 1) && Nat.ltb (p + 1) p) = false).
        { apply andb_false_iff. right. apply Nat.ltb_ge. lia. }
        pose proof (H3 (p + 1)) as [A B]. rewrite E0 in A, B.
        rewrite (get_nth _ _ _ i) by congruence. cbn [bind]. rewrite put_ok by lia. cbn [bind].
        rewrite (get_nth _ _ _ x) by congruence. cbn [bind]. rewrite put_ok by lia. cbn [bind run].
        unfold I. cbn [fst snd]. rewrite !upd_length. split; auto. split; auto. intro k.
        rewrite !nth_error_upd by lia. destruct (Nat.eqb k p) eqn:Ek.
        * apply Nat.eqb_eq in Ek. subst k. assert (Et : Nat.leb pos p && Nat.ltb p (Datatypes.S p) = true) by (apply andb_true_iff; split; [apply Nat.leb_le|apply Nat.ltb_lt]; lia).
          rewrite Et. auto.
        * apply Nat.eqb_neq in Ek. assert (Et : Nat.ltb k (Datatypes.S p) = Nat.ltb k p).
          { destruct (Nat.ltb_spec k (Datatypes.S p)), (Nat.ltb_spec k p); auto; lia. }
          rewrite Et. apply H3.
    - exists is', xs'. cbn [fst snd] in *. split; auto. split; auto. split; auto. intros k Hk.
      specialize (I3 k). assert (Et : Nat.ltb k (pos + (n - 1 - pos)) = true) by (apply Nat.ltb_lt; lia).
      rewrite Et, andb_true_r in I3. auto.
  Qed.
  Lemma decr_ok : forall (ps : list nat) col, length ps = N + 1 -> col <= N ->
    exists ps', for_ (N - col) (col + 1) (fun j ps => x <- get ps j;; put ps j (x - 1)) ps = Ok ps' /\ length ps' = length ps
      /\ forall j, nth j ps' 0 = if Nat.ltb col j && Nat.leb j N then nth j ps 0 - 1 else nth j ps 0.
  Proof.
    intros ps col HL Hc.
    set (I := fun (m : nat) (s : list nat) => length s = length ps
       /\ forall j, nth j s 0 = if Nat.ltb col j && Nat.ltb j m then nth j ps 0 - 1 else nth j ps 0).
    destruct (run_none _ (for_ (N - col) (col + 1) (fun j ps => x <- get ps j;; put ps j (x - 1)) ps) (I (col + 1 + (N - col)))) as (ps' & E & I1 & I2).
    - apply (run_for none (list nat) I).
      + split; auto. intro j. replace (Nat.ltb col j && Nat.ltb j (col + 1)) with false; auto.
        symmetry. apply andb_false_iff. destruct (Nat.ltb_spec col j); auto. right. apply Nat.ltb_ge. lia.
      + intros j s Hj (H1 & H2). rewrite (get_ok _ _ _ 0) by lia. cbn [bind]. rewrite put_ok by lia. cbn [run].
        split; [rewrite upd_length; auto|]. intro k. destruct (Nat.eq_dec k j) as [->|Hne].
        * rewrite nth_upd_eq by lia. rewrite H2.
          replace (Nat.ltb j j) with false by (symmetry; apply Nat.ltb_ge; lia). rewrite andb_false_r.
          replace (Nat.ltb col j && Nat.ltb j (Datatypes.S j)) with true; auto.
          symmetry. apply andb_true_iff. split; apply Nat.ltb_lt; lia.
        * rewrite nth_upd_neq by auto. rewrite H2. assert (Et : Nat.ltb k (Datatypes.S j) = Nat.ltb k j).
          { destruct (Nat.ltb_spec k j), (Nat.ltb_spec k (Datatypes.S j)); auto; lia. }
          rewrite Et. auto.
    - exists ps'. split; auto. split; auto. intro j. rewrite I2. assert (Et : Nat.ltb j (col + 1 + (N - col)) = Nat.leb j N).
      { destruct (Nat.ltb_spec j (col + 1 + (N - col))), (Nat.leb_spec j N); auto; lia. }
      rewrite Et. auto.
  Qed.

  Lemma remove_at_ok : forall L cs col t, rep L cs -> col < N -> t < length (nth col cs []) ->
    exists is xs ps, for_ (c_n L - 1 - (cstart L col + t)) (cstart L col + t)
          (fun p '(is, xs) => i <- get is (p + 1);; is' <- put is p i;;
                              x <- get xs (p + 1);; xs' <- put xs p x;; Ok (is', xs'))
          (c_i L, c_x L) = Ok (is, xs)
      /\ for_ (N - col) (col + 1) (fun j ps => x <- get ps j;; put ps j (x - 1)) (c_p L) = Ok ps
      /\ length is = length (c_i L)
      /\ rep (mkCsc ps is xs (c_n L - 1)) (upd cs col (firstn t (nth col cs []) ++ skipn (Datatypes.S t) (nth col cs []))).
  Proof.
    intros L cs col t R Hc Ht. set (c := nth col cs []) in *. set (pos := cstart L col + t).
    assert (Hlc : col < length cs) by (rewrite (r_len _ _ R); auto).
    pose proof (col_end L cs col R Hc) as Hce. fold c in Hce. pose proof (r_cap _ _ R) as Hcap. pose proof (r_xi _ _ R) as Hxi.
    assert (Hpos : pos < c_n L) by (unfold pos; lia).
    destruct (unshift_ok (c_i L) (c_x L) pos (c_n L) Hxi Hpos Hcap) as (is' & xs' & E & S1 & S2 & S3).
    destruct (decr_ok (c_p L) col (r_pl _ _ R) ltac:(lia)) as (ps' & E2 & P1 & P2).
    exists is', xs', ps'. split; auto. split; auto. split; auto.
    assert (Hlen : length (firstn t c ++ skipn (Datatypes.S t) c) = length c - 1).
    { rewrite app_length, firstn_length, skipn_length. lia. }
    assert (Hst : forall j, col < j -> j <= N -> 1 <= nth j (c_p L) 0).
    { intros j H1 H2. pose proof (start_mono L cs (col + 1) j R ltac:(lia) ltac:(lia)) as M. pose proof (r_ps _ _ R col Hc) as Ps.
      fold c in Ps. unfold cstart in *. lia. }
    constructor; unfold cstart; cbn [c_p c_i c_x c_n].
    - rewrite upd_length. apply (r_len _ _ R).
    - rewrite P1. apply (r_pl _ _ R).
    - rewrite P2. replace (Nat.ltb col 0) with false by (symmetry; apply Nat.ltb_ge; lia). simpl. apply (r_p0 _ _ R).
    - intros j Hj. rewrite !P2. pose proof (r_ps _ _ R j Hj) as Ps. unfold cstart in Ps.
      assert (B1 : Nat.leb (j + 1) N = true) by (apply Nat.leb_le; lia). assert (B2 : Nat.leb j N = true) by (apply Nat.leb_le; lia).
      rewrite B1, B2, !andb_true_r. destruct (Nat.eq_dec j col) as [->|Hne].
      + rewrite nth_upd_eq by auto. rewrite Hlen. rewrite Nat.ltb_irrefl.
        replace (Nat.ltb col (col + 1)) with true by (symmetry; apply Nat.ltb_lt; lia). rewrite Ps. fold c. lia.
      + rewrite nth_upd_neq by auto. destruct (Nat.ltb_spec col j), (Nat.ltb_spec col (j + 1)); try lia.
        pose proof (Hst j ltac:(lia) ltac:(lia)). lia.
    - rewrite P2. replace (Nat.ltb col N && Nat.leb N N) with true.
      + pose proof (r_n _ _ R) as H. unfold cstart in H. lia.
      + symmetry. apply andb_true_iff. split; [apply Nat.ltb_lt; auto|apply Nat.leb_le; lia].
    - lia.
    - lia.
    - intros j k r w Hj Hk.
      rewrite P2. assert (B2 : Nat.leb j N = true) by (apply Nat.leb_le; lia). rewrite B2, andb_true_r.
      destruct (Nat.eq_dec j col) as [->|Hne].
      + rewrite Nat.ltb_irrefl. rewrite nth_upd_eq in Hk by auto. change (nth col (c_p L) 0) with (cstart L col).
        pose proof (nth_err_some _ _ _ _ Hk) as Hkl. rewrite Hlen in Hkl.
        destruct (S3 (cstart L col + k)) as [A B]; [lia|].
        destruct (Nat.lt_ge_cases k t) as [Hlt|Hge].
        * rewrite nth_error_app1 in Hk by (rewrite firstn_length; lia).
          assert (Hk' : nth_error c k = Some (r, w)).
          { rewrite <- Hk. clear - Hlt. revert k Hlt. generalize c. induction t; intros l k H; [lia|]. destruct l, k; simpl; auto. apply IHt. lia. }
          replace (Nat.leb pos (cstart L col + k)) with false in A, B by (symmetry; apply Nat.leb_gt; unfold pos; lia).
          rewrite A, B. apply (r_ent _ _ R); auto.
        * rewrite nth_error_app2 in Hk by (rewrite firstn_length; lia). rewrite firstn_length, Nat.min_l in Hk by lia.
          assert (Hk' : nth_error c (k + 1) = Some (r, w)).
          { rewrite <- Hk. replace (k + 1) with (Datatypes.S t + (k - t)) by lia. clear. generalize (k - t) as m. generalize (Datatypes.S t) as u. generalize c as l.
            intros l u. revert l. induction u as [|u IHu]; intros l m; simpl; auto. destruct l; simpl; [destruct m; auto|]. auto. }
          replace (Nat.leb pos (cstart L col + k)) with true in A, B by (symmetry; apply Nat.leb_le; unfold pos; lia).
          replace (cstart L col + k + 1) with (cstart L col + (k + 1)) in A, B by lia. rewrite A, B. apply (r_ent _ _ R); auto.
      + rewrite nth_upd_neq in Hk by auto. pose proof (nth_err_some _ _ _ _ Hk) as Hkl.
        change (nth j (c_p L) 0) with (cstart L j). pose proof (col_end L cs j R Hj) as Hcej.
        destruct (Nat.ltb_spec col j) as [Hlt|Hge].
        * pose proof (start_mono L cs (col + 1) j R ltac:(lia) ltac:(lia)) as M. pose proof (r_ps _ _ R col Hc) as Ps. fold c in Ps.
          destruct (S3 (cstart L j - 1 + k)) as [A B]; [lia|].
          replace (Nat.leb pos (cstart L j - 1 + k)) with true in A, B by (symmetry; apply Nat.leb_le; unfold pos; lia).
          replace (cstart L j - 1 + k + 1) with (cstart L j + k) in A, B by lia. rewrite A, B. apply (r_ent _ _ R); auto.
        * pose proof (start_mono L cs (j + 1) col R ltac:(lia) ltac:(lia)) as M. pose proof (r_ps _ _ R j Hj) as Ps.
          destruct (S3 (cstart L j + k)) as [A B]; [unfold pos in *; lia|].
          replace (Nat.leb pos (cstart L j + k)) with false in A, B by (symmetry; apply Nat.leb_gt; unfold pos; lia).
          rewrite A, B. apply (r_ent _ _ R); auto.
  Qed.

  Lemma scan_ok : forall (small : K -> bool) (is : list nat) (xs : list K) row c s,
    (forall k r v, nth_error c k = Some (r, v) -> nth_error is (s + k) = Some r /\ nth_error xs (s + k) = Some v) ->
    for_break (length c) s (fun p (_ : option nat) => i <- get is p;;
        if Nat.eqb i row then x <- get xs p;; Ok (false, if small x then Some p else None) else Ok (true, None)) None
    = Ok (match find row c with
          | Some v => if small v then Some (s + (fix pos (c : col) := match c with [] => 0 | (i, _) :: t => if Nat.eqb i row then 0 else Datatypes.S (pos t) end) c) else None
          | None => None end).
  Proof.
    intros small is xs row. induction c as [|[i x] c IH]; intros s H; simpl; auto.
    pose proof (H 0 i x eq_refl) as [A B]. rewrite Nat.add_0_r in A, B. rewrite (get_nth _ _ _ _ A). cbn [bind].
    rewrite (Nat.eqb_sym row i). destruct (Nat.eqb i row) eqn:E.
    - rewrite (get_nth _ _ _ _ B). cbn [bind]. rewrite Nat.add_0_r. destruct (small x); reflexivity.
    - cbn [bind]. rewrite IH.
      + destruct (find row c) as [v|]; auto. destruct (small v); auto. do 2 f_equal. lia.
      + intros k r v Hk. replace (Datatypes.S s + k) with (s + Datatypes.S k) by lia. apply H. auto.
  Qed.

  Theorem remove_ok : forall small L cs row col, rep L cs -> col < N -> col <= row ->
    exists L', remove_nz small N L row col = Ok L' /\ rep L' (upd cs col (rem small row (nth col cs [])))
      /\ length (c_i L') = length (c_i L).
  Proof.
    intros small L cs row col R Hc Hr. unfold remove_nz.
    replace (Nat.ltb row col) with false by (symmetry; apply Nat.ltb_ge; auto).
    rewrite (rep_get_p L cs col R) by lia. cbn [bind]. rewrite (rep_get_p L cs (col + 1) R) by lia. cbn [bind].
    rewrite (r_ps _ _ R col Hc). set (c := nth col cs []) in *.
    replace (cstart L col + length c - cstart L col) with (length c) by lia.
    rewrite (scan_ok small (c_i L) (c_x L) row c (cstart L col)) by (intros k r v Hk; apply (r_ent _ _ R); auto). cbn [bind].
    set (pos := fix pos (c : list (nat * K)) := match c with [] => 0 | (i, _) :: t => if Nat.eqb i row then 0 else Datatypes.S (pos t) end).
    assert (Hself : upd cs col c = cs).
    { assert (G : forall A (l : list A) n a, nth_error l n = Some a -> upd l n a = l).
      { induction l; destruct n; simpl; intros a' H; try discriminate; auto. inversion H; auto. f_equal; auto. }
      apply G. apply nth_error_nth'. rewrite (r_len _ _ R). auto. }
    assert (Hspec : rem small row c = match find row c with Some v => if small v then firstn (pos c) c ++ skipn (Datatypes.S (pos c)) c else c | None => c end
                    /\ (find row c <> None -> pos c < length c)).
    { clear. induction c as [|[i x] c [IH1 IH2]]; simpl; [split; auto; congruence|]. rewrite (Nat.eqb_sym row i).
      destruct (Nat.eqb i row); simpl.
      - split; [destruct (small x); auto|intros; lia].
      - rewrite IH1. split.
        + destruct (find row c) as [v|]; auto. destruct (small v); auto.
        + intro H. apply IH2 in H. lia. }
    destruct Hspec as [-> Hlt]. destruct (find row c) as [v|] eqn:Ef.
    - destruct (small v).
      + destruct (remove_at_ok L cs col (pos c) R Hc) as (is & xs & ps & E1 & E2 & E3 & E4); [fold c; apply Hlt; discriminate|].
        rewrite E1. cbn [bind]. rewrite E2. cbn [bind]. eexists. split; [reflexivity|]. fold c in E4. auto.
      + exists L. rewrite Hself. auto.
    - exists L. rewrite Hself. auto.
  Qed.

  Lemma rem_in : forall small r c i x, In (i, x) (rem small r c) -> In (i, x) c.
  Proof.
    induction c as [|[i' x'] c IH]; simpl; intros i x H; auto. destruct (Nat.eqb i' r); [destruct (small x'); auto|].
    destruct H as [H|H]; auto.
  Qed.
  Lemma rem_sorted : forall small r c, sorted c -> sorted (rem small r c).
  Proof.
    induction c as [|[i x] c IH]; simpl; intro H; auto. destruct (sorted_inv _ _ _ H) as [HS Hlt].
    destruct (Nat.eqb i r); [destruct (small x); auto|]. apply sorted_cons; auto. intros r' v Hin. apply rem_in in Hin. eauto.
  Qed.
  Lemma rem_find : forall small r c i, sorted c ->
    find i (rem small r c) = if Nat.eqb i r then match find r c with Some x => if small x then None else Some x | None => None end
                             else find i c.
  Proof.
    induction c as [|[i' x'] c IH]; simpl; intros i HS.
    - destruct (Nat.eqb i r); auto.
    - destruct (sorted_inv _ _ _ HS) as [HS' Hlt]. rewrite (Nat.eqb_sym r i'). destruct (Nat.eqb i' r) eqn:E.
      + apply Nat.eqb_eq in E. subst. destruct (small x'); simpl.
        * destruct (Nat.eqb i r) eqn:E2; auto. apply Nat.eqb_eq in E2. subst. apply find_none. intros j v Hin. apply Hlt in Hin. lia.
        * destruct (Nat.eqb i r); auto.
      + simpl. rewrite IH by auto. destruct (Nat.eqb i r) eqn:E2; auto. apply Nat.eqb_eq in E2. subst. rewrite Nat.eqb_sym, E. auto.
  Qed.

  (** *** Capacity *)
  Definition lower (cs : list col) : Prop := forall j r v, In (r, v) (nth j cs []) -> j < r < N.

  Lemma sorted_length : forall (c : col) a b, sorted c -> (forall r v, In (r, v) c -> a <= r < b) -> length c <= b - a.
  Proof.
    induction c as [|[i x] c IH]; simpl; intros a b HS H; [lia|].
    destruct (sorted_inv _ _ _ HS) as [HS' Hlt]. pose proof (H i x (or_introl eq_refl)).
    assert (length c <= b - Datatypes.S a); [|lia]. apply IH; auto. intros r v Hin.
    pose proof (Hlt _ _ Hin). pose proof (H r v (or_intror Hin)). lia.
  Qed.
  Lemma lower_total : forall L cs, rep L cs -> lower cs -> (forall j, sorted (nth j cs [])) ->
    forall j, j <= N -> 2 * cstart L j + j * (j + 1) <= 2 * N * j.
  Proof.
    intros L cs R HL HS. induction j as [|j IH]; intro Hj.
    - rewrite (r_p0 _ _ R). lia.
    - pose proof (r_ps _ _ R j ltac:(lia)) as Ps. replace (j + 1) with (Datatypes.S j) in Ps by lia. rewrite Ps.
      pose proof (sorted_length (nth j cs []) (j + 1) N (HS j)) as Hl.
      assert (Hl' : length (nth j cs []) <= N - (j + 1)).
      { apply Hl. intros r v Hin. apply HL in Hin. lia. }
      specialize (IH ltac:(lia)). nia.
  Qed.
  Lemma lower_bound : forall L cs, rep L cs -> lower cs -> (forall j, sorted (nth j cs [])) -> 2 * c_n L <= N * (N - 1).
  Proof.
    intros L cs R HL HS. rewrite (r_n _ _ R). pose proof (lower_total L cs R HL HS N (le_n _)). destruct N; nia.
  Qed.
  (** An absent entry leaves room for one more. *)
  Lemma lower_room : forall L cs row col, rep L cs -> lower cs -> (forall j, sorted (nth j cs [])) -> col < row < N ->
    find row (nth col cs []) = None -> 2 * (c_n L + 1) <= N * (N - 1).
  Proof.
    intros L cs row col R HL HS Hrc Hf.
    assert (Hlen : length (nth col cs []) + 1 <= N - (col + 1)).
    { assert (G : forall (c : list (nat * K)) a, sorted c -> (forall r v, In (r, v) c -> a <= r < N) -> a <= row -> find row c = None -> length c + 1 <= N - a).
      { induction c as [|[i x] c IH]; simpl; intros a HSc Hin Ha Hfc; [lia|].
        destruct (sorted_inv _ _ _ HSc) as [HS' Hlt]. pose proof (Hin i x (or_introl eq_refl)) as Hi.
        destruct (Nat.eqb row i) eqn:E; [discriminate|]. apply Nat.eqb_neq in E.
        destruct (Nat.lt_ge_cases row i) as [Hri|Hri].
        - assert (length c <= N - Datatypes.S i); [|lia]. apply sorted_length; auto. intros r v Hr.
          pose proof (Hlt _ _ Hr). pose proof (Hin _ _ (or_intror Hr)). lia.
        - assert (length c + 1 <= N - Datatypes.S a); [|lia]. apply IH; auto; [|lia]. intros r v Hr.
          pose proof (Hlt _ _ Hr). pose proof (Hin _ _ (or_intror Hr)). lia. }
      apply G; auto; [|lia]. intros r v Hin. apply HL in Hin. lia. }
    assert (T : forall j, j <= N -> col < j -> 2 * (cstart L j + 1) + j * (j + 1) <= 2 * N * j).
    { induction j as [|j IH]; intros Hj Hcj; [lia|]. pose proof (r_ps _ _ R j ltac:(lia)) as Ps. replace (j + 1) with (Datatypes.S j) in Ps by lia. rewrite Ps.
      destruct (Nat.eq_dec j col) as [->|Hne].
      - pose proof (lower_total L cs R HL HS col ltac:(lia)). nia.
      - specialize (IH ltac:(lia) ltac:(lia)).
        assert (Hl' : length (nth j cs []) <= N - (j + 1)).
        { apply sorted_length; auto. intros r v Hin. apply HL in Hin. lia. }
        nia. }
    rewrite (r_n _ _ R). pose proof (T N (le_n _) ltac:(lia)). destruct N; nia.
  Qed.

  Definition fits (L : csc K) : Prop := N * (N - 1) <= 2 * length (c_i L).
  Lemma lower_upd : forall cs col c, lower cs -> (forall r v, In (r, v) c -> col < r < N) -> lower (upd cs col c).
  Proof.
    intros cs col c HL Hc j r v Hin. destruct (Nat.eq_dec j col) as [->|Hne].
    - destruct (Nat.lt_ge_cases col (length cs)) as [Hlt|Hge].
      + rewrite nth_upd_eq in Hin by auto. apply (Hc _ _ Hin).
      + rewrite nth_overflow in Hin by (rewrite upd_length; auto). contradiction.
    - rewrite nth_upd_neq in Hin by auto. apply (HL _ _ _ Hin).
  Qed.
  Lemma sorted_upd : forall (cs : list (list (nat * K))) col c, (forall j, sorted (nth j cs [])) -> sorted c -> forall j, sorted (nth j (upd cs col c) []).
  Proof.
    intros cs col c HS Hc j. destruct (Nat.eq_dec j col) as [->|Hne].
    - destruct (Nat.lt_ge_cases col (length cs)) as [Hlt|Hge].
      + rewrite nth_upd_eq by auto. auto.
      + rewrite nth_overflow by (rewrite upd_length; auto). constructor.
    - rewrite nth_upd_neq by auto. auto.
  Qed.

  (** One insertion into a large enough lower-triangular matrix. *)
  Theorem insert_lower : forall L cs row col keep v, rep L cs -> lower cs -> (forall j, sorted (nth j cs [])) -> fits L ->
    col < row < N ->
    exists L', insert N L row col keep v = Ok L' /\ fits L'
      /\ rep L' (upd cs col (ins keep row v (nth col cs [])))
      /\ lower (upd cs col (ins keep row v (nth col cs [])))
      /\ (forall j, sorted (nth j (upd cs col (ins keep row v (nth col cs []))) [])).
  Proof.
    intros L cs row col keep v R HL HS HF Hrc.
    destruct (insert_ok L cs row col keep v R ltac:(lia) ltac:(lia) (HS col)) as (L' & E & R' & Hlen & _).
    - intro Hf. pose proof (lower_room L cs row col R HL HS Hrc Hf). unfold fits in HF. lia.
    - exists L'. split; auto. split; [unfold fits in *; lia|]. split; auto. split.
      + apply lower_upd; auto. intros r w Hin. apply ins_in in Hin. destruct Hin as [->|Hin]; [auto|apply (HL _ _ _ Hin)].
      + apply sorted_upd; auto. apply ins_sorted. auto.
  Qed.
End Cols.
Arguments rep {K}. Arguments find {K}. Arguments ins {K}. Arguments sorted {K}. Arguments cstart {K}. Arguments rem {K}.
Arguments lower {K}. Arguments fits {K}.

(** ** The mask index *)
Section Mask.
  Local Open Scope Z_scope.

  (** The division is exact. *)
  Lemma mask_exact : forall N col row, 0 <= col -> col < row < N -> 2 * (mask_index N col row - row + 1) = (2 * N - 3 - col) * col.
  Proof.
    intros N col row H0 H. unfold mask_index. rewrite Z.quot_div_nonneg by nia.
    assert (E : ((2 * N - 3 - col) * col) mod 2 = 0).
    { destruct (Z.Even_or_Odd col) as [[m ->]|[m ->]].
      - replace ((2 * N - 3 - 2 * m) * (2 * m)) with (((2 * N - 3 - 2 * m) * m) * 2) by ring. apply Z.mod_mul. lia.
      - replace ((2 * N - 3 - (2 * m + 1)) * (2 * m + 1)) with (((N - 2 - m) * (2 * m + 1)) * 2) by ring. apply Z.mod_mul. lia. }
    pose proof (Z.div_mod ((2 * N - 3 - col) * col) 2 ltac:(lia)). lia.
  Qed.
  Lemma mask_range : forall N col row, 0 <= col -> col < row < N -> 0 <= mask_index N col row < N * (N - 1) / 2.
  Proof.
    intros N col row H0 H. pose proof (mask_exact N col row H0 H) as E. split; [nia|].
    assert (E2 : N * (N - 1) = 2 * (N * (N - 1) / 2)).
    { assert (Em : (N * (N - 1)) mod 2 = 0).
      { destruct (Z.Even_or_Odd N) as [[m ->]|[m ->]].
        - replace (2 * m * (2 * m - 1)) with ((m * (2 * m - 1)) * 2) by ring. apply Z.mod_mul. lia.
        - replace ((2 * m + 1) * (2 * m + 1 - 1)) with (((2 * m + 1) * m) * 2) by ring. apply Z.mod_mul. lia. }
      pose proof (Z.div_mod (N * (N - 1)) 2 ltac:(lia)). lia. }
    assert (2 * mask_index N col row < N * (N - 1)); [|lia]. nia.
  Qed.
  Lemma mask_inj : forall N c1 r1 c2 r2, 0 <= c1 -> c1 < r1 < N -> 0 <= c2 -> c2 < r2 < N ->
    mask_index N c1 r1 = mask_index N c2 r2 -> c1 = c2 /\ r1 = r2.
  Proof.
    intros N c1 r1 c2 r2 H1 H2 H3 H4 E.
    pose proof (mask_exact N c1 r1 H1 H2). pose proof (mask_exact N c2 r2 H3 H4).
    assert (c1 = c2).
    { destruct (Z.lt_trichotomy c1 c2) as [Hlt|[->|Hgt]]; auto; exfalso.
      - assert (2 * (r1 - r2) = (c2 - c1) * (2 * N - 3 - c1 - c2)) by nia.
        assert (r1 - r2 <= N - 1 - (c2 + 1)) by lia. nia.
      - assert (2 * (r2 - r1) = (c1 - c2) * (2 * N - 3 - c1 - c2)) by nia.
        assert (r2 - r1 <= N - 1 - (c1 + 1)) by lia. nia. }
    subst. split; auto. nia.
  Qed.
  Lemma mask_onto : forall N k, 0 <= N -> 0 <= k -> 2 * k < N * (N - 1) -> exists col row, 0 <= col /\ col < row < N /\ mask_index N col row = k.
  Proof.
    intros N k Hpos H0 Hk. assert (HN : 1 < N) by nia.
    assert (G : forall m, 0 <= m -> m < N -> 2 * k < m * (2 * N - 1 - m) -> exists col row, 0 <= col /\ col < row < N /\ mask_index N col row = k).
    { apply (natlike_ind (fun m => m < N -> 2 * k < m * (2 * N - 1 - m) -> exists col row, 0 <= col /\ col < row < N /\ mask_index N col row = k)).
      - intros _ H. lia.
      - intros m Hm IH Hlt H. destruct (Z.lt_ge_cases (2 * k) (m * (2 * N - 1 - m))) as [Hc|Hc].
        + apply IH; auto; lia.
        + assert (Ex : exists row, m < row < N /\ 2 * (k - row + 1) = (2 * N - 3 - m) * m).
          { assert (Em : ((2 * N - 3 - m) * m) mod 2 = 0).
            { destruct (Z.Even_or_Odd m) as [[t ->]|[t ->]].
              - replace ((2 * N - 3 - 2 * t) * (2 * t)) with (((2 * N - 3 - 2 * t) * t) * 2) by ring. apply Z.mod_mul. lia.
              - replace ((2 * N - 3 - (2 * t + 1)) * (2 * t + 1)) with (((N - 2 - t) * (2 * t + 1)) * 2) by ring. apply Z.mod_mul. lia. }
            pose proof (Z.div_mod ((2 * N - 3 - m) * m) 2 ltac:(lia)) as Ed.
            rewrite Em in Ed. set (q := (2 * N - 3 - m) * m / 2) in *. clearbody q. clear Em IH.
            exists (k + 1 - q). unfold Z.succ in *. split; [|lia].
            assert (E1 : m * (2 * N - 1 - m) = (2 * N - 3 - m) * m + 2 * m) by ring.
            assert (E3 : (m + 1) * (2 * N - 1 - (m + 1)) = (2 * N - 3 - m) * m + 2 * N - 2) by ring.
            lia. }
          destruct Ex as (row & Hr & Er). exists m, row. split; auto. split; auto.
          pose proof (mask_exact N m row Hm Hr). lia. }
    apply (G (N - 1)); nia.
  Qed.
End Mask.

(** ** The initial arrays *)
Lemma pointers : forall (cols : list (list nat)) s, 
  fold_left (fun acc c => acc ++ [last acc 0 + length c]) cols s
  = s ++ map (fun j => last s 0 + list_sum (map (@length _) (firstn (j + 1) cols))) (seq 0 (length cols)).
Proof.
  induction cols as [|c cols IH]; intros s; simpl; [rewrite app_nil_r; auto|].
  rewrite IH. rewrite <- app_assoc. simpl. rewrite last_last. f_equal. f_equal; [lia|].
  rewrite <- seq_shift, map_map. apply map_ext. intro j. simpl. rewrite Nat.add_assoc. auto.
Qed.
Lemma full_len : forall N s n, list_sum (map (@length _) (map (fun j => seq (j + 1) (N - j - 1)) (seq s n)))
  = list_sum (map (fun j => N - j - 1) (seq s n)).
Proof. intros. rewrite map_map. f_equal. apply map_ext. intro. apply seq_length. Qed.
Lemma concat_length : forall A (l : list (list A)), length (concat l) = list_sum (map (@length _) l).
Proof. induction l; simpl; auto. rewrite app_length, IHl. auto. Qed.
Lemma full_fits : forall (K : Num) N, fits N (full_L (K := K) N).
Proof.
  intros K N. unfold fits, full_L. cbn [c_i]. rewrite concat_length, full_len.
  assert (G : forall n s, s + n = N -> 2 * list_sum (map (fun j => N - j - 1) (seq s n)) = n * (n - 1)).
  { induction n as [|n IH]; intros s H; [simpl; lia|]. cbn [seq map]. change (list_sum (?a :: ?l)) with (a + list_sum l).
    rewrite Nat.mul_add_distr_l, IH by lia. replace (N - s - 1) with n by lia. destruct n; nia. }
  rewrite (G N 0) by lia. lia.
Qed.
