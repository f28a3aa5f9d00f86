(** Statements on the arrays: insertion, removal, capacity, the rank-one update, sequences of
    activations. *)

From Coq Require Import Arith Bool ZArith Lia List Sorted Field.
From Verif Require Import Base Machine Runtime RuntimeProofs Sparse SparseProofs Ldl LdlRank1 LdlProofs GradSpec LdlMain.
Import ListNotations.

Section Arrays.
  Variable K : Type.
  Variable N : nat.

  Definition acols (M : csc K) : list (list (nat * K)) := map (fun j => combine (rows M j) (vals M j)) (seq 0 N).
  Lemma nth_acols : forall M j, j < N -> nth j (acols M) [] = combine (rows M j) (vals M j).
  Proof.
    intros M j H. unfold acols. rewrite nth_indep with (d' := combine (rows M 0) (vals M 0)) by (rewrite map_length, seq_length; auto).
    change (combine (rows M 0) (vals M 0)) with ((fun j => combine (rows M j) (vals M j)) 0). rewrite map_nth, seq_nth; auto.
  Qed.
  Lemma nth_acols_out : forall M j, N <= j -> nth j (acols M) [] = [].
  Proof. intros M j H. apply nth_overflow. unfold acols. rewrite map_length, seq_length. auto. Qed.

  Lemma cptr_mono : forall (M : csc K) i j, csc_ok N M -> i <= j -> j <= N -> cptr M i <= cptr M j.
  Proof.
    intros M i j H Hij. induction Hij as [|j Hij IH]; intro Hj; auto. pose proof (o_mono N M H j ltac:(lia)). specialize (IH ltac:(lia)). lia.
  Qed.
  Lemma alen : forall (M : csc K) j, csc_ok N M -> j < N -> length (rows M j) = cptr M (S j) - cptr M j /\ length (vals M j) = length (rows M j).
  Proof.
    intros M j H Hj. unfold rows, vals. rewrite !firstn_length, !skipn_length, (o_x N M H).
    pose proof (cptr_mono M (S j) N H ltac:(lia) ltac:(lia)). pose proof (o_n N M H). pose proof (o_cap N M H). lia.
  Qed.
  Lemma a_fst : forall (M : csc K) j, csc_ok N M -> j < N -> map fst (combine (rows M j) (vals M j)) = rows M j.
  Proof. intros M j H Hj. apply map_fst_combine. symmetry. apply (alen M j H Hj). Qed.

  Lemma to_rep : forall M, csc_ok N M -> rep N M (acols M).
  Proof.
    intros M H. constructor.
    - unfold acols. rewrite map_length, seq_length. auto.
    - rewrite (o_p N M H). lia.
    - apply (o_0 N M H).
    - intros j Hj. rewrite nth_acols by auto. rewrite combine_length. destruct (alen M j H Hj) as [A B]. rewrite B, A, Nat.min_id.
      pose proof (o_mono N M H j Hj). unfold cptr, cstart in *. rewrite Nat.add_1_r. lia.
    - apply (o_n N M H).
    - apply (o_x N M H).
    - apply (o_cap N M H).
    - intros j k r v Hj Hk. rewrite nth_acols in Hk by auto. apply nth_error_combine_inv in Hk. destruct Hk as [A B].
      destruct (alen M j H Hj) as [L1 L2]. pose proof (nth_err_some _ _ _ _ A). 
      unfold rows in A. unfold vals in B. rewrite nth_error_firstn', nth_error_skipn' in A by lia. rewrite nth_error_firstn', nth_error_skipn' in B by lia. auto.
  Qed.
  Lemma acols_sorted : forall M, csc_ok N M -> forall j, sorted (nth j (acols M) []).
  Proof.
    intros M H j. destruct (Nat.lt_ge_cases j N) as [Hj|Hj].
    - rewrite nth_acols by auto. unfold sorted. rewrite a_fst by auto. apply (o_sorted N M H j Hj).
    - rewrite nth_acols_out by auto. constructor.
  Qed.
  Lemma of_rep : forall M (cs : list (list (nat * K))), rep N M cs -> (forall j, sorted (nth j cs [])) ->
    csc_ok N M /\ (forall j, j < N -> rows M j = map fst (nth j cs []) /\ vals M j = map snd (nth j cs [])).
  Proof.
    intros M cs R HS.
    assert (He : forall j, j < N -> cptr M (S j) = cptr M j + length (nth j cs [])).
    { intros j Hj. pose proof (r_ps _ _ _ _ R j Hj) as E. rewrite Nat.add_1_r in E. auto. }
    assert (Hc : forall j, j < N -> cptr M j + length (nth j cs []) <= length (c_i M)).
    { intros j Hj. pose proof (col_end _ _ _ _ j R Hj). pose proof (r_cap _ _ _ _ R). unfold cptr, cstart in *. lia. }
    assert (Hr : forall j, j < N -> rows M j = map fst (nth j cs []) /\ vals M j = map snd (nth j cs [])).
    { intros j Hj. pose proof (Hc j Hj) as Hcj. pose proof (r_xi _ _ _ _ R) as Hxi.
      split; apply list_eq_nth; intro t; unfold rows, vals; rewrite He by auto;
        replace (cptr M j + length (nth j cs []) - cptr M j) with (length (nth j cs [])) by lia;
        (destruct (Nat.lt_ge_cases t (length (nth j cs []))) as [Ht|Ht];
         [ rewrite nth_error_firstn', nth_error_skipn' by auto; rewrite nth_error_map; destruct (nth_err_lt _ _ _ Ht) as ([r v] & Ev);
           rewrite Ev; simpl; apply (r_ent _ _ _ _ R j t r v Hj Ev)
         | rewrite nth_error_map, (proj2 (nth_error_None (nth j cs []) t)) by auto; simpl; apply nth_error_None; rewrite firstn_length; lia ]). }
    split; auto. constructor.
    - rewrite (r_pl _ _ _ _ R). lia.
    - apply (r_p0 _ _ _ _ R).
    - intros j Hj. rewrite He by auto. lia.
    - apply (r_n _ _ _ _ R).
    - apply (r_xi _ _ _ _ R).
    - apply (r_cap _ _ _ _ R).
    - intros j Hj. rewrite (proj1 (Hr j Hj)). apply HS.
  Qed.

  Lemma ins_rows : forall keep r (v : K) c i, In i (map fst (ins keep r v c)) <-> In i (map fst c) \/ i = r.
  Proof.
    induction c as [|[a x] c IH]; simpl; intro i; [intuition|].
    destruct (Nat.ltb r a); simpl; [intuition|]. destruct (Nat.eqb r a) eqn:E; simpl.
    - apply Nat.eqb_eq in E. intuition.
    - rewrite IH. intuition.
  Qed.
  Lemma find_rows : forall r (c : list (nat * K)), find r c = None <-> ~ In r (map fst c).
  Proof.
    induction c as [|[a x] c IH]; simpl; [tauto|]. destruct (Nat.eqb r a) eqn:E.
    - apply Nat.eqb_eq in E. split; [discriminate|]. intro H. exfalso. apply H. auto.
    - apply Nat.eqb_neq in E. rewrite IH. intuition.
  Qed.
End Arrays.

Section ArrayRing.
  Variable F : Ring.
  Variable N : nat.
  Add Ring Rar : (rth F).
  Local Open Scope num_scope.

  Lemma entry_find : forall (c : list (nat * F)) i, sorted c ->
    rsum (map snd (filter (fun e => Nat.eqb (fst e) i) c)) = match find i c with Some v => v | None => n0 end.
  Proof.
    induction c as [|[a x] c IH]; intros i HS; simpl; auto. destruct (sorted_inv _ _ _ _ HS) as [HS' Hlt].
    rewrite (Nat.eqb_sym i a). destruct (Nat.eqb a i) eqn:E; simpl; rewrite IH by auto; auto.
    apply Nat.eqb_eq in E. subst. rewrite find_none; [ring|]. intros j v Hin. apply Hlt in Hin. lia.
  Qed.
  Lemma entry_acols : forall M i j, csc_ok N M -> j < N -> entry M i j = match find i (nth j (acols F N M) []) with Some v => v | None => n0 end.
  Proof. intros M i j H Hj. rewrite <- entry_find by (apply acols_sorted; auto). rewrite nth_acols by auto. auto. Qed.
  Lemma entry_cs : forall M (cs : list (list (nat * F))) i j, rep N M cs -> (forall j, sorted (nth j cs [])) -> j < N -> entry M i j = match find i (nth j cs []) with Some v => v | None => n0 end.
  Proof.
    intros M cs i j R HS Hj. destruct (of_rep F N M cs R HS) as [HO Hr]. destruct (Hr j Hj) as [A B]. unfold entry. rewrite A, B.
    rewrite <- entry_find by auto. f_equal. f_equal. f_equal. clear A B.
    induction (nth j cs []) as [|[a b] c IH]; simpl; auto. f_equal. auto.
  Qed.

  Definition there (M : csc F) (i j : nat) : Prop := In i (rows M j).

  Theorem insert_array : forall (L : csc F) row col keep v, csc_ok N L -> col < N -> (col <= row)%nat ->
    (~ In row (rows L col) -> c_n L < length (c_i L))%nat ->
    exists L', insert N L row col keep v = Ok L' /\ csc_ok N L' /\ length (c_i L') = length (c_i L)
      /\ (forall i j, j < N -> In i (rows L' j) <-> In i (rows L j) \/ (i = row /\ j = col))
      /\ (forall i j, j < N -> (i, j) <> (row, col) -> entry L' i j = entry L i j)
      /\ ((keep = false \/ ~ In row (rows L col)) -> entry L' row col = v)
      /\ (keep = true -> In row (rows L col) -> entry L' row col = entry L row col).
  Proof.
    intros L row col keep v HO Hc Hr Hcap. pose proof (to_rep F N L HO) as R. pose proof (acols_sorted F N L HO) as HS.
    assert (Hfst : map fst (nth col (acols F N L) []) = rows L col) by (rewrite nth_acols by auto; eapply a_fst; eauto).
    destruct (insert_ok F N L (acols F N L) row col keep v R Hc Hr (HS col)) as (L' & E & R' & Hl & _).
    { intro Hf. apply find_rows in Hf. rewrite Hfst in Hf. auto. }
    set (cs' := upd (acols F N L) col (ins keep row v (nth col (acols F N L) []))) in *.
    assert (HS' : forall j, sorted (nth j cs' [])) by (apply sorted_upd; auto; apply ins_sorted; auto).
    assert (Hlen : (col < length (acols F N L))%nat) by (unfold acols; rewrite map_length, seq_length; auto).
    assert (Hnth : forall j, nth j cs' [] = if Nat.eqb j col then ins keep row v (nth col (acols F N L) []) else nth j (acols F N L) []).
    { intro j. unfold cs'. destruct (Nat.eqb j col) eqn:Ej; [apply Nat.eqb_eq in Ej; subst; apply nth_upd_eq; auto|apply Nat.eqb_neq in Ej; apply nth_upd_neq; auto]. }
    destruct (of_rep F N L' cs' R' HS') as [HO' Hr']. exists L'. split; auto. split; auto. split; auto. split; [|split; [|split]].
    - intros i j Hj. rewrite (proj1 (Hr' j Hj)), Hnth. destruct (Nat.eqb j col) eqn:Ej.
      + apply Nat.eqb_eq in Ej. subst. rewrite ins_rows, Hfst. intuition.
      + apply Nat.eqb_neq in Ej. rewrite nth_acols by auto. rewrite (a_fst F N) by auto. intuition.
    - intros i j Hj Hne. rewrite (entry_cs L' cs' i j R' HS' Hj), (entry_acols L i j HO Hj), Hnth. destruct (Nat.eqb j col) eqn:Ej; auto.
      apply Nat.eqb_eq in Ej. subst. rewrite ins_find by auto. replace (Nat.eqb i row) with false; auto. symmetry. apply Nat.eqb_neq. congruence.
    - intro H. rewrite (entry_cs L' cs' row col R' HS' Hc), Hnth, Nat.eqb_refl, ins_find, Nat.eqb_refl by auto.
      destruct (find row (nth col (acols F N L) [])) as [x|] eqn:Ef.
      + destruct H as [->|H]; auto. exfalso. apply H. rewrite <- Hfst. apply find_some_in in Ef. apply (in_map fst) in Ef. auto.
      + auto.
    - intros Hk Hin. rewrite (entry_cs L' cs' row col R' HS' Hc), Hnth, Nat.eqb_refl, ins_find, Nat.eqb_refl by auto. rewrite (entry_acols L row col HO Hc). subst keep.
      destruct (find row (nth col (acols F N L) [])) as [x|] eqn:Ef; auto. apply find_rows in Ef. rewrite Hfst in Ef. contradiction.
  Qed.

  Lemma rem_rows : forall small r c i, sorted c -> In i (map fst (rem (K := F) small r c)) <->
    In i (map fst c) /\ ~ (i = r /\ match find r c with Some x => small x = true | None => True end).
  Proof.
    intros small r c i HS. pose proof (rem_find F small r c i HS) as E. pose proof (find_rows F i (rem small r c)) as H1. pose proof (find_rows F i c) as H2.
    pose proof (find_rows F r c) as H3.
    assert (D1 : In i (map fst (rem small r c)) \/ ~ In i (map fst (rem small r c))) by (destruct (in_dec Nat.eq_dec i (map fst (rem small r c))); auto).
    assert (D2 : In i (map fst c) \/ ~ In i (map fst c)) by (destruct (in_dec Nat.eq_dec i (map fst c)); auto).
    destruct (Nat.eqb i r) eqn:Ei.
    - apply Nat.eqb_eq in Ei. subst. destruct (find r c) as [x|].
      + destruct (small x) eqn:Es; rewrite E in H1.
        * split; [intro H; exfalso; apply (proj1 H1 eq_refl); auto|]. intros [_ H]. exfalso. apply H. auto.
        * split; [intros _|intros _]; [split; [destruct D2; auto; exfalso; apply H2 in H; discriminate|intros [_ H]; discriminate]|].
          destruct D1; auto. apply H1 in H. discriminate.
      + rewrite E in H1. split; [intro H; exfalso; apply (proj1 H1 eq_refl); auto|]. intros [H _]. exfalso. apply (proj1 H2 eq_refl). auto.
    - apply Nat.eqb_neq in Ei. rewrite E in H1. split.
      + intro H. split; [|intuition]. destruct D2; auto. apply H2 in H0. apply H1 in H0. contradiction.
      + intros [H _]. destruct D1; auto. apply H1 in H0. apply H2 in H0. contradiction.
  Qed.

  Theorem remove_array : forall small (L : csc F) row col, csc_ok N L -> col < N -> (col <= row)%nat ->
    exists L', remove_nz small N L row col = Ok L' /\ csc_ok N L' /\ length (c_i L') = length (c_i L)
      /\ (forall i j, j < N -> (i, j) <> (row, col) -> (In i (rows L' j) <-> In i (rows L j)) /\ entry L' i j = entry L i j)
      /\ (In row (rows L' col) <-> In row (rows L col) /\ small (entry L row col) = false)
      /\ (small (entry L row col) = true -> entry L' row col = n0)
      /\ (small (entry L row col) = false -> entry L' row col = entry L row col).
  Proof.
    intros small L row col HO Hc Hr. pose proof (to_rep F N L HO) as R. pose proof (acols_sorted F N L HO) as HS.
    destruct (remove_ok F N small L (acols F N L) row col R Hc Hr) as (L' & E & R' & Hl).
    set (cs' := upd (acols F N L) col (rem small row (nth col (acols F N L) []))) in *.
    assert (HS' : forall j, sorted (nth j cs' [])) by (apply sorted_upd; auto; apply rem_sorted; auto).
    assert (Hlen : (col < length (acols F N L))%nat) by (unfold acols; rewrite map_length, seq_length; auto).
    assert (Hnth : forall j, nth j cs' [] = if Nat.eqb j col then rem small row (nth col (acols F N L) []) else nth j (acols F N L) []).
    { intro j. unfold cs'. destruct (Nat.eqb j col) eqn:Ej; [apply Nat.eqb_eq in Ej; subst; apply nth_upd_eq; auto|apply Nat.eqb_neq in Ej; apply nth_upd_neq; auto]. }
    assert (Hfst : forall j, j < N -> map fst (nth j (acols F N L) []) = rows L j) by (intros j Hj; rewrite nth_acols by auto; eapply a_fst; eauto).
    destruct (of_rep F N L' cs' R' HS') as [HO' Hr']. exists L'. split; auto. split; auto. split; auto.
    pose proof (entry_acols L row col HO Hc) as Ee. pose proof (entry_cs L' cs' row col R' HS' Hc) as Ee'. rewrite Hnth, Nat.eqb_refl, rem_find, Nat.eqb_refl in Ee' by auto.
    assert (Hfind : find row (nth col (acols F N L) []) = None <-> ~ In row (rows L col)) by (rewrite find_rows, Hfst by auto; tauto).
    split; [|split; [|split]].
    - intros i j Hj Hne. rewrite (proj1 (Hr' j Hj)), (entry_cs L' cs' i j R' HS' Hj), (entry_acols L i j HO Hj), Hnth.
      destruct (Nat.eqb j col) eqn:Ej; [|rewrite Hfst by auto; tauto].
      apply Nat.eqb_eq in Ej. subst. assert (Hir : i <> row) by congruence. split.
      + rewrite rem_rows, Hfst by auto. intuition.
      + rewrite rem_find by auto. replace (Nat.eqb i row) with false by (symmetry; apply Nat.eqb_neq; auto). auto.
    - rewrite (proj1 (Hr' col Hc)), Hnth, Nat.eqb_refl, rem_rows, Hfst, Ee by auto.
      destruct (find row (nth col (acols F N L) [])) as [x|] eqn:Ef.
      + destruct (small x); intuition discriminate.
      + assert (~ In row (rows L col)) by (apply Hfind; auto). tauto.
    - intro Hs. rewrite Ee', <- ?Ee. rewrite Ee in Hs. destruct (find row (nth col (acols F N L) [])) as [x|]; auto. rewrite Hs. auto.
    - intro Hs. rewrite Ee'. rewrite Ee in Hs |- *. destruct (find row (nth col (acols F N L) [])) as [x|]; auto. rewrite Hs. auto.
  Qed.

  (** *** Sequences of insertions *)
  Definition lower_pat (L : csc F) : Prop := forall j i, j < N -> In i (rows L j) -> j < i < N.
  Definition room (L : csc F) : Prop := (N * (N - 1) <= 2 * length (c_i L))%nat.
  Fixpoint inserts (ops : list (nat * nat * bool * F)) (L : csc F) : res (csc F) :=
    match ops with [] => Ok L | (row, col, keep, v) :: t => L' <- insert N L row col keep v;; inserts t L' end.

  Lemma lower_acols : forall L, csc_ok N L -> lower_pat L -> lower N (acols F N L).
  Proof.
    intros L HO HL j r v Hin. destruct (Nat.lt_ge_cases j N) as [Hj|Hj].
    - rewrite nth_acols in Hin by auto. apply in_combine_l in Hin. apply (HL j r Hj Hin).
    - rewrite nth_acols_out in Hin by auto. contradiction.
  Qed.
  Theorem inserts_ok : forall ops L, csc_ok N L -> lower_pat L -> room L ->
    (forall row col keep v, In (row, col, keep, v) ops -> (col < row)%nat /\ (row < N)%nat) ->
    exists L', inserts ops L = Ok L' /\ csc_ok N L' /\ lower_pat L' /\ length (c_i L') = length (c_i L) /\ (c_n L' <= length (c_i L'))%nat.
  Proof.
    induction ops as [|[[[row col] keep] v] ops IH]; intros L HO HL HR Hops; simpl.
    - exists L. repeat (split; auto). apply (o_cap N L HO).
    - destruct (Hops row col keep v (or_introl eq_refl)) as [H1 H2].
      destruct (insert_array L row col keep v HO ltac:(lia) ltac:(lia)) as (L' & E & HO' & Hl & Hin & _).
      + intro Hn. assert (Hf : find row (nth col (acols F N L) []) = None).
        { apply find_rows. rewrite nth_acols by lia. rewrite (a_fst F N) by (auto; lia). auto. }
        pose proof (lower_room F N L (acols F N L) row col (to_rep F N L HO) (lower_acols L HO HL) (acols_sorted F N L HO) (conj H1 H2) Hf).
        unfold room in HR. lia.
      + rewrite E. cbn [bind]. destruct (IH L') as (L2 & E2 & A & B & C & D).
        * auto.
        * intros j i Hj Hi. apply Hin in Hi; auto. destruct Hi as [Hi|[-> ->]]; [apply (HL j i Hj Hi)|auto].
        * unfold room in *. rewrite Hl. auto.
        * intros. apply (Hops row0 col0 keep0 v0). right. auto.
        * exists L2. rewrite <- Hl. auto.
  Qed.

  (** utils.py write_L_def. *)
  Definition fcols : list (list (nat * F)) := map (fun j => map (fun i => (i, n1)) (seq (j + 1) (N - j - 1))) (seq 0 N).
  Lemma skipn_concat : forall A (cs : list (list A)) j, j < length cs ->
    exists tl, skipn (list_sum (map (@length _) (firstn j cs))) (concat cs) = nth j cs [] ++ tl.
  Proof.
    induction cs as [|c cs IH]; intros j Hj; simpl in Hj; [lia|]. destruct j as [|j].
    - simpl. exists (concat cs). auto.
    - destruct (IH j ltac:(lia)) as (tl & E). exists tl. simpl. rewrite skipn_app.
      rewrite skipn_all2 by lia. cbn [app]. rewrite <- E. f_equal. lia.
  Qed.
  Lemma full_rep : rep N (full_L (K := F) N) fcols.
  Proof.
    set (cols := map (fun j => seq (j + 1) (N - j - 1)) (seq 0 N)).
    assert (Hlen : length cols = N) by (unfold cols; rewrite map_length, seq_length; auto).
    assert (Hnth : forall j, j < N -> nth j cols [] = seq (j + 1) (N - j - 1)).
    { intros j Hj. unfold cols. rewrite nth_indep with (d' := seq (0 + 1) (N - 0 - 1)) by (rewrite map_length, seq_length; auto).
      change (seq (0 + 1) (N - 0 - 1)) with ((fun j => seq (j + 1) (N - j - 1)) 0%nat). rewrite map_nth, seq_nth; auto. }
    assert (Hf : forall j, j < N -> nth j fcols [] = map (fun i => (i, n1)) (nth j cols [])).
    { intros j Hj. rewrite Hnth by auto. unfold fcols. rewrite nth_indep with (d' := map (fun i => (i, n1 : F)) (seq (0 + 1) (N - 0 - 1))) by (rewrite map_length, seq_length; auto).
      change (map (fun i => (i, n1 : F)) (seq (0 + 1) (N - 0 - 1))) with ((fun j => map (fun i => (i, n1 : F)) (seq (j + 1) (N - j - 1))) 0%nat). rewrite map_nth, seq_nth; auto. }
    assert (Hp : c_p (full_L (K := F) N) = map (fun j => list_sum (map (@length _) (firstn j cols))) (seq 0 (N + 1))).
    { unfold full_L. cbn [c_p]. fold cols. rewrite pointers. rewrite Hlen. cbn [app last]. rewrite (Nat.add_comm N 1). cbn [seq map Nat.add].
      f_equal. rewrite <- seq_shift, map_map. apply map_ext. intro j. rewrite Nat.add_1_r. simpl. auto. }
    assert (Hcs : forall j, (j <= N)%nat -> cstart (full_L (K := F) N) j = list_sum (map (@length _) (firstn j cols))).
    { intros j Hj. unfold cstart. rewrite Hp. rewrite nth_indep with (d' := list_sum (map (@length _) (firstn 0 cols))) by (rewrite map_length, seq_length; lia).
      rewrite map_nth with (f := fun j => list_sum (map (@length _) (firstn j cols))). rewrite seq_nth by lia. auto. }
    constructor.
    - unfold fcols. rewrite map_length, seq_length. auto.
    - rewrite Hp, map_length, seq_length. auto.
    - rewrite Hcs by lia. auto.
    - intros j Hj. rewrite !Hcs by lia. rewrite Hf by auto. rewrite map_length. rewrite Nat.add_1_r.
      rewrite (firstn_S_nth _ cols j (nth j cols [])) by (apply nth_error_nth'; lia). rewrite map_app, list_sum_app. simpl. lia.
    - rewrite Hcs by lia. unfold full_L. cbn [c_n]. fold cols. rewrite concat_length. rewrite firstn_all2 by lia. auto.
    - unfold full_L. cbn [c_x c_i]. apply repeat_length.
    - unfold full_L. cbn [c_n c_i]. auto.
    - intros j k r v Hj Hk. rewrite Hf in Hk by auto. rewrite nth_error_map in Hk. destruct (nth_error (nth j cols []) k) eqn:E; [|discriminate].
      simpl in Hk. inversion Hk; subst. rewrite Hcs by lia. destruct (skipn_concat _ cols j ltac:(lia)) as (tl & Et).
      assert (Hi : nth_error (concat cols) (list_sum (map (@length _) (firstn j cols)) + k) = Some r).
      { rewrite <- nth_error_skipn', Et. rewrite nth_error_app1; auto. eapply nth_err_some; eauto. }
      unfold full_L. cbn [c_i c_x]. fold cols. split; auto. apply nth_err_some in Hi. rewrite nth_error_nth' with (d := n1 : F) by (rewrite repeat_length; auto).
      f_equal. apply nth_repeat.
  Qed.
  Theorem full_ok : csc_ok N (full_L (K := F) N) /\ lower_pat (full_L N) /\ room (full_L N)
    /\ (2 * length (c_i (full_L (K := F) N)) = N * (N - 1))%nat
    /\ (forall i j, j < N -> In i (rows (full_L (K := F) N) j) <-> (j < i < N)%nat).
  Proof.
    assert (Hn : forall j, nth j fcols [] = if Nat.ltb j N then map (fun i => (i, n1)) (seq (j + 1) (N - j - 1)) else []).
    { intro j. destruct (Nat.ltb_spec j N).
      - unfold fcols. rewrite nth_indep with (d' := map (fun i => (i, n1 : F)) (seq (0 + 1) (N - 0 - 1))) by (rewrite map_length, seq_length; auto).
        change (map (fun i => (i, n1 : F)) (seq (0 + 1) (N - 0 - 1))) with ((fun j => map (fun i => (i, n1 : F)) (seq (j + 1) (N - j - 1))) 0%nat). rewrite map_nth, seq_nth; auto.
      - apply nth_overflow. unfold fcols. rewrite map_length, seq_length. auto. }
    assert (HS : forall j, sorted (nth j fcols [])).
    { intro j. rewrite Hn. unfold sorted. destruct (Nat.ltb j N); [|constructor]. rewrite map_map. simpl. rewrite map_id.
      generalize (j + 1)%nat (N - j - 1)%nat. intros a b. revert a. induction b as [|b IH]; intro a; simpl; constructor; auto.
      apply Forall_forall. intros x Hx. apply in_seq in Hx. lia. }
    destruct (of_rep F N _ _ full_rep HS) as [HO Hr].
    assert (Hrow : forall i j, j < N -> In i (rows (full_L (K := F) N) j) <-> (j < i < N)%nat).
    { intros i j Hj. rewrite (proj1 (Hr j Hj)), Hn. replace (Nat.ltb j N) with true by (symmetry; apply Nat.ltb_lt; auto).
      rewrite map_map. simpl. rewrite map_id, in_seq. lia. }
    split; auto. split; [intros j i Hj H; apply Hrow; auto|]. 
    assert (HL : (2 * length (c_i (full_L (K := F) N)) = N * (N - 1))%nat).
    { unfold full_L. cbn [c_i]. rewrite concat_length, full_len.
      assert (G : forall n s, (s + n = N)%nat -> (2 * list_sum (map (fun j => N - j - 1) (seq s n)) = n * (n - 1))%nat).
      { induction n as [|n IH]; intros s H; [simpl; lia|]. cbn [seq map]. change (list_sum (?a :: ?l)) with (a + list_sum l)%nat.
        rewrite Nat.mul_add_distr_l, IH by lia. replace (N - s - 1)%nat with n by lia. destruct n; nia. }
      apply (G N 0%nat). lia. }
    split; [unfold room; lia|]. auto.
  Qed.
End ArrayRing.

Section Rank1Array.
  Variable F : Fld.
  Variable N : nat.
  Add Field Fr1 : (fth F).
  Local Open Scope num_scope.

  (** Closed under elimination: enough room for every update along a column. *)
  Definition closed_pat (L : csc F) : Prop :=
    forall j i k, j < N -> In i (rows L j) -> In k (rows L j) -> (i < k)%nat -> In k (rows L i).

  Lemma rsum_split : forall (f : nat -> F) a n, (a <= n)%nat ->
    rsum (map f (seq 0 n)) = rsum (map f (seq 0 a)) + rsum (map f (seq a (n - a))).
  Proof. intros f a n H. rewrite <- rsum_app, <- map_app, <- seq_app. do 3 f_equal. lia. Qed.

  Theorem rank1_array : forall sigma off L D Dinv w,
    (off <= N)%nat -> csc_ok N L -> lower_pat F N L -> closed_pat L ->
    length D = N -> length Dinv = N -> length w = N ->
    (forall k, k < N -> nth k Dinv n0 * nth k D n0 = n1) ->
    (forall p q, (off <= p)%nat -> (p < q)%nat -> q < N -> nth p w n0 <> n0 -> nth q w n0 <> n0 -> In q (rows L p)) ->
    run arith (rank1 F N sigma off L D Dinv w) (fun '(L', D', Dinv', w') =>
      csc_ok N L' /\ (forall j, j < N -> rows L' j = rows L j) /\ length D' = N /\ length Dinv' = N
      /\ (forall k, k < N -> nth k Dinv' n0 * nth k D' n0 = n1)
      /\ (forall k, (k < off)%nat -> nth k D' n0 = nth k D n0 /\ forall i, entry L' i k = entry L i k)
      /\ (forall p q, p < N -> q < N -> ldlt N L' D' p q
            = ldlt N L D p q + (if Nat.leb off p && Nat.leb off q then sigma * nth p w n0 * nth q w n0 else n0))).
  Proof.
    intros sigma off L D Dinv w Hoff HO HL HC HD HDi Hw Hinv Hcl.
    set (pat := patN F N L).
    assert (pat_sorted : forall j, StronglySorted lt (pat j)).
    { intro j. unfold pat, patN. destruct (Nat.ltb_spec j N); [apply (o_sorted N _ HO); auto|constructor]. }
    assert (pat_lower : forall j i, In i (pat j) -> j < i < N) by (intros j i Hi; apply patN_in in Hi; destruct Hi; apply HL; auto).
    assert (pat_closed : forall j i k, In i (pat j) -> In k (pat j) -> (i < k)%nat -> In k (pat i)).
    { intros j i k Hi Hk Hlt. pose proof (pat_lower _ _ Hi). apply patN_in in Hi. apply patN_in in Hk. destruct Hi, Hk.
      unfold pat. rewrite patN_lt by lia. eapply HC; eauto. }
    set (Lv := fun i j => if Nat.ltb j N then entry L i j else n0 : F).
    assert (HLN : forall i j, j < N -> Lv i j = entry L i j) by (intros i j Hj; unfold Lv; apply Nat.ltb_lt in Hj; rewrite Hj; auto).
    assert (Hnorm : norm F pat Lv).
    { intros i j Hni. destruct (Nat.lt_ge_cases j N) as [Hj|Hj].
      - rewrite HLN by auto. apply entry_out. unfold pat in Hni. rewrite patN_lt in Hni by auto. auto.
      - unfold Lv. apply Nat.ltb_ge in Hj. rewrite Hj. auto. }
    assert (HV : vrep F N pat L Lv) by (eapply vrep_ext; [apply (to_vrep F N _ HO)|]; intros j i Hj _; rewrite HLN; auto).
    pose proof (arr_of F N D n0 HD) as AD. pose proof (arr_of F N Dinv n0 HDi) as ADi. pose proof (arr_of F N w n0 Hw) as Aw.
    eapply run_imp; [eapply (rank1_ok F N pat pat_sorted pat_lower arith pat_closed (fun _ => False) sigma off L D Dinv w Lv); eauto|].
    - intros p q H1 H2 H3 Hni. destruct (f_dec F (nth p w n0)); auto. destruct (f_dec F (nth q w n0)); auto. exfalso. apply Hni.
      unfold pat. rewrite patN_lt by lia. auto.
    - intros m k H. contradiction.
    - intros; reflexivity.
    - intros [[[L' D'] Dinv'] w'] (Lv' & Df' & Di' & HV' & Hn' & AD' & ADi' & Hw' & Hinv' & Hg & Hold & _).
      destruct (of_vrep F N pat L' Lv' pat_sorted HV') as (HO' & Hrows & Hent).
      assert (Hent' : forall i j, j < N -> entry L' i j = Lv' i j).
      { intros i j Hj. rewrite Hent by auto. destruct (mem i (pat j)) eqn:E; auto. apply mem_nin in E. rewrite Hn'; auto. }
      assert (HD' : forall k, k < N -> nth k D' n0 = Df' k) by (intros k Hk; apply nth_error_nth; apply (proj2 AD'); auto).
      split; auto. split; [intros j Hj; rewrite Hrows by auto; apply patN_lt; auto|]. split; [apply AD'|]. split; [apply ADi'|].
      split; [intros k Hk; rewrite HD' by auto; rewrite (nth_error_nth _ _ n0 (proj2 ADi' k Hk)); auto|]. split.
      + intros k Hk. destruct (Hold k Hk) as [A B]. rewrite HD' by lia. split; auto. intro i. rewrite Hent' by lia. rewrite B, HLN by lia. auto.
      + assert (Hldlt : forall A B (Av : nat -> nat -> F) Bf p q, (forall i j, j < N -> entry A i j = Av i j) -> (forall k, k < N -> nth k B n0 = Bf k) ->
          ldlt N A B p q = gram F 0 off Av Bf p q + gram F off (N - off) Av Bf p q).
        { intros A B Av Bf p q HA HB. unfold ldlt, gram. rewrite (rsum_split _ off N) by auto. f_equal; apply rsum_ext; intros k Hk; apply in_seq in Hk;
            rewrite HB by lia; unfold unit_entry, un; rewrite !HA by lia; auto. }
        intros p q Hp Hq. rewrite (Hldlt L' D' Lv' Df') by auto. rewrite (Hldlt L D Lv (fun k => nth k D n0)) by (auto; intros; rewrite HLN; auto).
        assert (E1 : gram F 0 off Lv' Df' p q = gram F 0 off Lv (fun k => nth k D n0) p q).
        { apply rsum_ext. intros k Hk. apply in_seq in Hk. destruct (Hold k ltac:(lia)) as [A B]. unfold un. rewrite A, !B. auto. }
        rewrite E1. destruct (Nat.leb_spec off p) as [Hop|Hop]; destruct (Nat.leb_spec off q) as [Hoq|Hoq]; cbn [andb].
        * rewrite Hg by lia. ring.
        * assert (Z : forall Av Bf, norm F pat Av -> gram F off (N - off) Av Bf p q = n0).
          { intros Av Bf Hna. unfold gram. apply rsum_zero. intros k Hk. apply in_seq in Hk.
            unfold un at 2. replace (Nat.eqb q k) with false by (symmetry; apply Nat.eqb_neq; lia). rewrite (norm_upper F N pat pat_lower Av q k Hna) by lia. ring. }
          rewrite !Z by auto. ring.
        * assert (Z : forall Av Bf, norm F pat Av -> gram F off (N - off) Av Bf p q = n0).
          { intros Av Bf Hna. unfold gram. apply rsum_zero. intros k Hk. apply in_seq in Hk.
            unfold un at 1. replace (Nat.eqb p k) with false by (symmetry; apply Nat.eqb_neq; lia). rewrite (norm_upper F N pat pat_lower Av p k Hna) by lia. ring. }
          rewrite !Z by auto. ring.
        * assert (Z : forall Av Bf, norm F pat Av -> gram F off (N - off) Av Bf p q = n0).
          { intros Av Bf Hna. unfold gram. apply rsum_zero. intros k Hk. apply in_seq in Hk.
            unfold un at 1. replace (Nat.eqb p k) with false by (symmetry; apply Nat.eqb_neq; lia). rewrite (norm_upper F N pat pat_lower Av p k Hna) by lia. ring. }
          rewrite !Z by auto. ring.
  Qed.
End Rank1Array.

Section Sequences.
  Variable F : Fld.
  Variables n N : nat.
  Variable sqr : F -> res F.
  Hypothesis n_le : (n <= N)%nat.
  Hypothesis sqr_ok : forall x s, sqr x = Ok s -> (s * s = x)%num.
  Hypothesis sqr_err : forall x e, sqr x = Err e -> e = Arith.

  (** Constraint [i]: activated (true) or deactivated (false). *)
  Fixpoint flips (ops : list (nat * bool)) (g : gws F) : res (gws F) :=
    match ops with
    | [] => Ok g
    | (i, b) :: t => g' <- (if b then ldl_add F N sqr (n + i) g else ldl_delete F N sqr (n + i) g);; flips t g'
    end.
  (** The active set afterwards; every operation changes the state of its constraint. *)
  Definition after (act : nat -> bool) (ops : list (nat * bool)) : nat -> bool :=
    fold_left (fun a '(i, b) => fset a i b) ops act.
  Fixpoint proper (act : nat -> bool) (ops : list (nat * bool)) : Prop :=
    match ops with [] => True | (i, b) :: t => (i < N - n)%nat /\ act i = negb b /\ proper (fset act i b) t end.
  (** Variables always take part, constraint [i] if it is active. *)
  Definition part (act : nat -> bool) (k : nat) : bool := Nat.ltb k n || act (k - n)%nat.

  Lemma part_fset : forall act i b k, part (fset act i b) k = fset (part act) (n + i)%nat b k.
  Proof.
    intros act i b k. unfold part, fset. destruct (Nat.ltb_spec k n); cbn [orb].
    - replace (Nat.eqb k (n + i)) with false by (symmetry; apply Nat.eqb_neq; lia). auto.
    - destruct (Nat.eqb_spec (k - n) i), (Nat.eqb_spec k (n + i)); auto; lia.
  Qed.
  Lemma good_ext : forall act act' g, (forall k, act k = act' k) -> good_ws F n N act g -> good_ws F n N act' g.
  Proof.
    intros act act' g E [H1 H2]. split; auto. eapply holds_ext; [|exact H2]. intros p q _ _. unfold masked. rewrite !E. auto.
  Qed.
  Lemma same_refl : forall K, same_mat F N K K.
  Proof. split; auto. Qed.
  Lemma same_trans : forall K K1 K2, same_mat F N K K1 -> same_mat F N K1 K2 -> same_mat F N K K2.
  Proof. intros K K1 K2 [A B] [C D]. split; intros; [rewrite C|rewrite D]; auto. Qed.

  Variable Er : exn -> Prop.
  Theorem flips_good : forall ops act g, good_ws F n N (part act) g -> admits n N sqr Er (sym_entry (gK g)) -> proper act ops ->
    run Er (flips ops g) (fun g' => good_ws F n N (part (after act ops)) g' /\ same_mat F N (gK g) (gK g')
      /\ forall j, j < N -> rows (gL g') j = rows (gL g) j).
  Proof.
    induction ops as [|[i b] ops IH]; intros act g HG HE HP; cbn [flips].
    - split; auto. split; auto using same_refl.
    - destruct HP as (Hi & Ha & HP). cbn [proper] in HP.
      apply run_bind with (P := fun g' => good_ws F n N (part (fset act i b)) g' /\ same_mat F N (gK g) (gK g') /\ forall j, j < N -> rows (gL g') j = rows (gL g) j).
      + assert (Hpa : part act (n + i) = negb b).
        { unfold part. replace (Nat.ltb (n + i) n) with false by (symmetry; apply Nat.ltb_ge; lia). cbn [orb]. replace (n + i - n) with i by lia. auto. }
        destruct b; cbn [negb] in *.
        * eapply run_imp; [apply (add_good F n N sqr n_le sqr_ok sqr_err Er (part act) g (n + i) HG); auto; try lia|].
          { intros k Hk. unfold part. apply Nat.ltb_lt in Hk. rewrite Hk. auto. }
          intros g' (A & B & C). split; auto. eapply good_ext; [|exact A]. intro k. symmetry. apply part_fset.
        * eapply run_imp; [apply (delete_good F n N sqr n_le sqr_ok sqr_err Er (part act) g (n + i) HG); auto; try lia|].
          { intros k Hk. unfold part. apply Nat.ltb_lt in Hk. rewrite Hk. auto. }
          intros g' (A & B & C). split; auto. eapply good_ext; [|exact A]. intro k. symmetry. apply part_fset.
      + intros g' (A & B & C). eapply run_imp; [apply (IH _ g' A); auto; eapply (admits_ext F n N sqr n_le); [|exact HE]; intros p q Hp Hq; unfold sym_entry; rewrite !(proj2 B) by auto; auto|]. intros g2 (A2 & B2 & C2). split; auto. split; [eapply same_trans; eauto|].
        intros j Hj. rewrite C2, C; auto.
  Qed.
End Sequences.
