(** Proofs about result retrieval. *)

From Coq Require Import String Arith Bool Lia List FinFun DecimalString DecimalNat.
From Verif Require Import Base Pus Retrieve.
Import ListNotations.
Open Scope list_scope.

(** ** Column-major layout *)

(** Multi-indices within a shape. *)
Inductive in_shape : list nat -> list nat -> Prop :=
| in_nil : in_shape [] []
| in_cons : forall h t i is, i < h -> in_shape t is -> in_shape (h :: t) (i :: is).

Lemma flat_map_seq : forall h n (f : nat -> list nat) s,
    (forall k, s <= k < s + n -> f k = seq (h * k) h) -> flat_map f (seq s n) = seq (h * s) (h * n).
Proof.
  induction n; intros f s H; simpl.
  - rewrite Nat.mul_0_r. reflexivity.
  - rewrite H by lia. rewrite IHn by (intros; apply H; lia).
    replace (h * S n) with (h + h * n) by lia. rewrite seq_app.
    replace (h * S s) with (h * s + h) by lia. reflexivity.
Qed.

Lemma flat_map_map : forall A B C (f : A -> B) (g : B -> list C) l,
    flat_map g (map f l) = flat_map (fun x => g (f x)) l.
Proof. induction l; simpl; auto. rewrite IHl. auto. Qed.

Lemma map_flat_map : forall A B C (f : B -> C) (g : A -> list B) l,
    map f (flat_map g l) = flat_map (fun x => map f (g x)) l.
Proof. induction l; simpl; auto. rewrite map_app, IHl. auto. Qed.

Lemma seq_shift' : forall n s a, map (fun i => i + a) (seq s n) = seq (s + a) n.
Proof. induction n; intros; simpl; auto. rewrite IHn. auto. Qed.

Lemma map_fpos : forall shape, map (fpos shape) (fidx shape) = seq 0 (fsize shape).
Proof.
  induction shape as [|h t IH]; auto.
  cbn [fidx]. rewrite map_flat_map.
  replace (flat_map (fun x => map (fpos (h :: t)) (map (fun i => i :: x) (seq 0 h))) (fidx t))
    with (flat_map (fun k => seq (h * k) h) (map (fpos t) (fidx t))).
  - rewrite IH. rewrite flat_map_seq with (h := h) by auto.
    rewrite Nat.mul_0_r. reflexivity.
  - rewrite flat_map_map. apply flat_map_ext. intro is. rewrite map_map. cbn [fpos].
    rewrite seq_shift'. reflexivity.
Qed.

Lemma fidx_in : forall shape idx, In idx (fidx shape) <-> in_shape shape idx.
Proof.
  induction shape as [|h t IH]; intro idx; cbn [fidx].
  - split; intro H. destruct H as [<-|[]]. constructor. inversion H. left; auto.
  - rewrite in_flat_map. split.
    + intros (is & H1 & H2). apply in_map_iff in H2. destruct H2 as (i & <- & H3).
      apply in_seq in H3. constructor. lia. apply IH; auto.
    + intro H. inversion H as [|? ? i is Hi His]; subst. exists is. split. apply IH; auto.
      apply in_map_iff. exists i. split; auto. apply in_seq. lia.
Qed.

Lemma fidx_length : forall shape, length (fidx shape) = fsize shape.
Proof.
  intro shape. rewrite <- (map_length (fpos shape)), map_fpos. apply seq_length.
Qed.

Lemma fpos_lt : forall shape idx, in_shape shape idx -> fpos shape idx < fsize shape.
Proof.
  intros shape idx H. apply fidx_in in H. apply (in_map (fpos shape)) in H.
  rewrite map_fpos in H. apply in_seq in H. lia.
Qed.

Lemma nth_fidx : forall shape idx, in_shape shape idx -> nth_error (fidx shape) (fpos shape idx) = Some idx.
Proof.
  intros shape idx H. apply fidx_in in H. destruct (In_nth_error _ _ H) as (k & Hk).
  assert (E : nth_error (map (fpos shape) (fidx shape)) k = Some (fpos shape idx)).
  { apply map_nth_error. auto. }
  rewrite map_fpos in E.
  assert (Hlt : k < fsize shape).
  { rewrite <- fidx_length. apply nth_error_Some. congruence. }
  rewrite (nth_error_nth' _ 0) in E by (rewrite seq_length; auto).
  injection E as E. rewrite seq_nth in E by auto. simpl in E. rewrite <- E. auto.
Qed.

Lemma reshape_flatten : forall A (d : A) shape a, exists b,
    reshapeF d shape (flattenF shape a) = Ok b /\ forall idx, in_shape shape idx -> b idx = a idx.
Proof.
  intros A d shape a. unfold reshapeF, flattenF. rewrite map_length, fidx_length, Nat.eqb_refl.
  eexists. split; [reflexivity|]. intros idx H. simpl.
  rewrite (nth_indep _ d (a [])).
  - rewrite (map_nth a). f_equal. erewrite nth_error_nth; eauto. apply nth_fidx. auto.
  - rewrite map_length, fidx_length. apply fpos_lt; auto.
Qed.

Lemma map_nth_seq : forall A (d : A) (l : list A) o n, o + n <= length l ->
    map (fun k => nth k l d) (seq o n) = firstn n (skipn o l).
Proof.
  intros A d l o n. revert o. induction n; intros o H; simpl; auto.
  rewrite IHn by lia.
  assert (E : skipn o l = nth o l d :: skipn (S o) l).
  { clear - H. revert l H. induction o; intros l H; destruct l; simpl in *; try lia; auto.
    rewrite (IHo l) by lia. reflexivity. }
  rewrite E. reflexivity.
Qed.

Lemma flatten_reshape : forall A (d : A) shape l b, reshapeF d shape l = Ok b -> flattenF shape b = l.
Proof.
  intros A d shape l b H. unfold reshapeF in H.
  destruct (Nat.eqb (length l) (fsize shape)) eqn:E; [|discriminate]. injection H as <-.
  apply Nat.eqb_eq in E. unfold flattenF.
  rewrite <- (map_map (fpos shape) (fun k => nth k l d)), map_fpos, map_nth_seq by lia.
  simpl. rewrite firstn_all2 by lia. auto.
Qed.

(** ** Upper triangles *)

Lemma in_upper : forall n i j, In (i, j) (upper n) <-> i <= j < n.
Proof.
  intros n i j. unfold upper. rewrite in_flat_map. split.
  - intros (k & Hk & H). apply in_map_iff in H. destruct H as (j' & E & H). injection E as -> ->.
    apply in_seq in Hk. apply in_seq in H. lia.
  - intro H. exists i. split. apply in_seq; lia. apply in_map_iff. exists j. split; auto. apply in_seq. lia.
Qed.

Lemma NoDup_app' : forall A (l m : list A), NoDup l -> NoDup m ->
    (forall x, In x l -> ~ In x m) -> NoDup (l ++ m).
Proof.
  induction l; intros m H1 H2 H3; simpl; auto. inversion H1; subst. constructor.
  - rewrite in_app_iff. intros [?|?]; auto. eapply H3; eauto. left; auto.
  - apply IHl; auto. intros x Hx. apply H3. right; auto.
Qed.

Lemma NoDup_flat_map : forall A B (f : A -> list B) l, NoDup l -> (forall x, In x l -> NoDup (f x)) ->
    (forall x y z, In x l -> In y l -> x <> y -> In z (f x) -> ~ In z (f y)) -> NoDup (flat_map f l).
Proof.
  induction l; intros H1 H2 H3; simpl. constructor. inversion H1; subst.
  apply NoDup_app'.
  - apply H2; left; auto.
  - apply IHl; auto. intros; apply H2; right; auto. intros; eapply H3; eauto; right; auto.
  - intros z Hz Hc. apply in_flat_map in Hc. destruct Hc as (y & Hy & Hc).
    eapply (H3 a y z); eauto. left; auto. right; auto. intros ->. auto.
Qed.

Lemma upper_nodup : forall n, NoDup (upper n).
Proof.
  intro n. unfold upper. apply NoDup_flat_map.
  - apply seq_NoDup.
  - intros x _. apply FinFun.Injective_map_NoDup. intros a b E; congruence. apply seq_NoDup.
  - intros x y z _ _ Hne H1 H2. apply in_map_iff in H1. apply in_map_iff in H2.
    destruct H1 as (? & <- & _). destruct H2 as (? & E & _). congruence.
Qed.

Lemma upper_length : forall n, 2 * length (upper n) = n * (n + 1).
Proof.
  intro n. unfold upper.
  assert (H : forall m s, s + m = n ->
    2 * length (flat_map (fun i => map (fun j => (i, j)) (seq i (n - i))) (seq s m)) = m * (m + 1)).
  { induction m; intros s Hs; simpl; auto.
    rewrite app_length, map_length, seq_length. specialize (IHm (S s) ltac:(lia)).
    replace (n - s) with (S m) by lia. lia. }
  apply H. lia.
Qed.

Lemma filter_flat_map : forall A B (p : B -> bool) (f : A -> list B) l,
    filter p (flat_map f l) = flat_map (fun x => filter p (f x)) l.
Proof. induction l; simpl; auto. rewrite filter_app, IHl. auto. Qed.

Lemma flat_map_one : forall A B (f : A -> list B) l x0 k b,
    NoDup l -> nth_error l k = Some x0 -> f x0 = b -> (forall x, In x l -> x <> x0 -> f x = []) ->
    flat_map f l = b.
Proof.
  induction l as [|a l IH]; intros x0 k b Hnd Hk Hb Hz. destruct k; discriminate.
  inversion Hnd; subst. destruct k; simpl in Hk.
  - injection Hk as ->. simpl.
    assert (E : flat_map f l = []).
    { clear - Hz H1. revert Hz H1. induction l; simpl; auto. intros Hz Hn. rewrite Hz, IHl; auto.
      - intros; apply Hz; auto. simpl in *. tauto. }
    rewrite E, app_nil_r. auto.
  - simpl. rewrite Hz; auto.
    + simpl. eapply IH; eauto. intros; apply Hz; auto. right; auto.
    + left; auto.
    + intros ->. apply H1. eapply nth_error_In; eauto.
Qed.

Lemma combine_seq_nth : forall A (l : list A) k x s, nth_error l k = Some x ->
    nth_error (combine (seq s (length l)) l) k = Some (s + k, x).
Proof.
  induction l; intros k x s H; destruct k; simpl in *; try discriminate.
  - injection H as ->. rewrite Nat.add_0_r. auto.
  - rewrite (IHl k x (S s)); auto. do 2 f_equal. lia.
Qed.

Lemma combine_NoDup_r : forall A B (l : list A) (m : list B), NoDup m -> NoDup (combine l m).
Proof.
  induction l; intros m H; simpl; [constructor|]. destruct m; [constructor|].
  inversion H; subst. constructor; auto. intro Hc. apply in_combine_r in Hc. auto.
Qed.

(** Column of the entry in row [i + j*n]: the packed index of the pair. *)
Lemma tri_col : forall n i j p, i < n -> j < n ->
    nth_error (upper n) p = Some (Nat.min i j, Nat.max i j) ->
    map snd (filter (fun e => Nat.eqb (fst e) (i + n * j)) (tri_entries n)) = [p].
Proof.
  intros n i j p Hi Hj Hp. unfold tri_entries. rewrite filter_flat_map, map_flat_map.
  apply flat_map_one with (x0 := (p, (Nat.min i j, Nat.max i j))) (k := p).
  - apply combine_NoDup_r. apply upper_nodup.
  - apply combine_seq_nth with (s := 0). auto.
  - destruct (Nat.eqb (Nat.min i j) (Nat.max i j)) eqn:E.
    + apply Nat.eqb_eq in E. simpl.
      replace (Nat.eqb (Nat.max i j * n + Nat.min i j) (i + n * j)) with true. auto.
      symmetry. apply Nat.eqb_eq. assert (i = j) by lia. subst. rewrite Nat.min_id, Nat.max_id. lia.
    + apply Nat.eqb_neq in E. cbn [filter fst].
      destruct (Nat.le_gt_cases i j) as [L|L].
      * rewrite (Nat.min_l i j), (Nat.max_r i j) by lia.
        replace (Nat.eqb (j * n + i) (i + n * j)) with true by (symmetry; apply Nat.eqb_eq; lia).
        replace (Nat.eqb (i * n + j) (i + n * j)) with false. auto.
        symmetry. apply Nat.eqb_neq. assert (i < j) by lia. nia.
      * rewrite (Nat.min_r i j), (Nat.max_l i j) by lia.
        replace (Nat.eqb (j * n + i) (i + n * j)) with true by (symmetry; apply Nat.eqb_eq; lia).
        replace (Nat.eqb (i * n + j) (i + n * j)) with false. auto.
        symmetry. apply Nat.eqb_neq. nia.
  - intros [c [a b]] Hin Hne.
    assert (Hab : a <= b < n). { apply in_combine_r in Hin. apply in_upper in Hin. auto. }
    assert (Hc : nth_error (upper n) c = Some (a, b)).
    { apply In_nth_error in Hin. destruct Hin as (k & Hk).
      assert (Hlt : k < length (upper n)).
      { assert (k < length (combine (seq 0 (length (upper n))) (upper n))).
        { apply nth_error_Some. congruence. }
        rewrite combine_length, seq_length in H. lia. }
      destruct (nth_error (upper n) k) eqn:E; [|apply nth_error_None in E; lia].
      rewrite (combine_seq_nth _ _ k p0 0 E) in Hk. injection Hk as <- ->. auto. }
    assert (Hd : (a, b) <> (Nat.min i j, Nat.max i j)).
    { intro E. apply Hne. rewrite E. f_equal.
      apply (proj1 (NoDup_nth_error (upper n)) (upper_nodup n)).
      - apply nth_error_Some. congruence.
      - rewrite Hc, Hp, E. auto. }
    assert (H1 : Nat.eqb (b * n + a) (i + n * j) = false).
    { apply Nat.eqb_neq. intro E. apply Hd.
      assert (b = j) by nia. subst. assert (a = i) by lia. subst.
      rewrite Nat.min_l, Nat.max_r by lia. auto. }
    destruct (Nat.eqb a b) eqn:Eab; cbn [filter fst].
    + rewrite H1. auto.
    + rewrite H1. replace (Nat.eqb (a * n + b) (i + n * j)) with false. auto.
      symmetry. apply Nat.eqb_neq. intro E. apply Hd.
      assert (a = j) by nia. subst. assert (b = i) by lia. subst.
      rewrite Nat.min_r, Nat.max_l by lia. auto.
Qed.

Lemma upper_pos : forall n i j, i < n -> j < n ->
    exists p, nth_error (upper n) p = Some (Nat.min i j, Nat.max i j) /\ p < length (upper n).
Proof.
  intros n i j Hi Hj.
  assert (H : In (Nat.min i j, Nat.max i j) (upper n)) by (apply in_upper; lia).
  apply In_nth_error in H. destruct H as (p & Hp). exists p. split; auto.
  apply nth_error_Some. congruence.
Qed.

(** The column list: entry [i + n*j] is the packed index of (i,j). *)
Lemma flat_map_single_nth : forall (f : nat -> list nat) m k v,
    (forall r, r < m -> length (f r) = 1) -> k < m -> f k = [v] ->
    nth_error (flat_map f (seq 0 m)) k = Some v.
Proof.
  intros f m k v H1 Hk Hv.
  assert (H : forall m s, s <= k < s + m -> (forall r, s <= r < s + m -> length (f r) = 1) ->
              nth_error (flat_map f (seq s m)) (k - s) = Some v).
  { clear - Hv. induction m; intros s Hs Hl. lia. simpl.
    assert (E : length (f s) = 1) by (apply Hl; lia).
    destruct (f s) as [|a [|]] eqn:Ef; try discriminate. simpl.
    destruct (Nat.eq_dec k s).
    - subst k. rewrite Nat.sub_diag. simpl. congruence.
    - replace (k - s) with (S (k - S s)) by lia. simpl. apply IHm. lia. intros; apply Hl; lia. }
  specialize (H m 0). rewrite Nat.sub_0_r in H. apply H. lia. intros; apply H1; lia.
Qed.

Lemma tri_single : forall n r, r < n * n -> exists i j p, i < n /\ j < n /\ r = i + n * j
    /\ nth_error (upper n) p = Some (Nat.min i j, Nat.max i j) /\ p < length (upper n)
    /\ map snd (filter (fun e => Nat.eqb (fst e) r) (tri_entries n)) = [p].
Proof.
  intros n r Hr. assert (Hn : n <> 0) by (intro; subst; simpl in Hr; lia).
  assert (Hi : r mod n < n) by (apply Nat.mod_upper_bound; auto).
  assert (Hj : r / n < n) by (apply Nat.div_lt_upper_bound; auto).
  destruct (upper_pos n _ _ Hi Hj) as (p & Hp & Hl).
  exists (r mod n), (r / n), p. repeat split; auto.
  - rewrite Nat.add_comm. apply Nat.div_mod. auto.
  - pose proof (tri_col n _ _ p Hi Hj Hp) as H.
    replace (r mod n + n * (r / n)) with r in H; auto.
    rewrite Nat.add_comm. apply Nat.div_mod. auto.
Qed.

Lemma tri_cols_nth : forall n i j p, i < n -> j < n ->
    nth_error (upper n) p = Some (Nat.min i j, Nat.max i j) ->
    nth_error (nonzero_cols (n * n) (tri_entries n)) (i + n * j) = Some p.
Proof.
  intros n i j p Hi Hj Hp. unfold nonzero_cols. apply flat_map_single_nth.
  - intros r Hr. destruct (tri_single n r Hr) as (? & ? & q & _ & _ & _ & _ & _ & E). rewrite E. auto.
  - nia.
  - apply tri_col; auto.
Qed.

Lemma tri_cols_length : forall n, length (nonzero_cols (n * n) (tri_entries n)) = n * n.
Proof.
  intro n. unfold nonzero_cols.
  assert (H : forall m s, (forall r, s <= r < s + m -> length (map snd (filter (fun e => Nat.eqb (fst e) r) (tri_entries n))) = 1)
            -> length (flat_map (fun r => map snd (filter (fun e => Nat.eqb (fst e) r) (tri_entries n))) (seq s m)) = m).
  { induction m; intros s Hl; simpl; auto. rewrite app_length, Hl by lia. rewrite IHm; auto.
    intros; apply Hl; lia. }
  apply H. intros r Hr. destruct (tri_single n r) as (? & ? & q & _ & _ & _ & _ & _ & E). lia.
  rewrite E. auto.
Qed.

Lemma tri_cols_lt : forall n c, In c (nonzero_cols (n * n) (tri_entries n)) -> c < length (upper n).
Proof.
  intros n c H. unfold nonzero_cols in H. apply in_flat_map in H. destruct H as (r & Hr & H).
  apply in_seq in Hr. destruct (tri_single n r) as (? & ? & q & _ & _ & _ & _ & Hq & E). lia.
  rewrite E in H. destruct H as [<-|[]]. auto.
Qed.

(** ** Executing retrieval code *)

Section ExecProofs.
  Variable K : Type.
  Variables (fs : list (string * fld)) (ar : list (string * nat)).

  Definition rd (st : rstate K) (vec : string) (k : nat) := nth_error (r_vecs st vec) k.

  (** One variable: element-wise copies. *)
  Lemma exec_elems : forall vec n z ks s (st : rstate K),
      assoc n fs = Some FOwn -> assoc n ar = Some z -> s + length ks <= z ->
      (forall k, In k ks -> k < length (r_vecs st vec)) ->
      exists st', exec fs ar st (map (fun '(i, k) => SElem n i vec k) (combine (seq s (length ks)) ks)) = Ok st'
        /\ r_vecs st' = r_vecs st
        /\ (forall i k, nth_error ks i = Some k -> nth_error (r_vecs st vec) k = Some (r_cells st' n (s + i)))
        /\ (forall i, ~ (s <= i < s + length ks) -> r_cells st' n i = r_cells st n i)
        /\ (forall m i, m <> n -> r_cells st' m i = r_cells st m i).
  Proof.
    intros vec n z ks. induction ks as [|k ks IH]; intros s st Hf Ha Hz Hk.
    - exists st. repeat split; auto. intros i k H. destruct i; discriminate.
    - cbn [length seq combine map exec]. unfold exec_stmt. rewrite Hf, Ha.
      cbn [length] in Hz.
      replace (Nat.ltb s z) with true by (symmetry; apply Nat.ltb_lt; lia).
      unfold vread. assert (Hlt : k < length (r_vecs st vec)) by (apply Hk; left; auto).
      destruct (nth_error (r_vecs st vec) k) as [v|] eqn:Ev; [|apply nth_error_None in Ev; lia].
      cbn [bind]. set (st1 := mkRS (cset (r_cells st) n s v) (r_vecs st)).
      destruct (IH (S s) st1 Hf Ha) as (st' & E1 & E2 & E3 & E4 & E5); [lia| |].
      { intros. simpl. apply Hk. right; auto. }
      exists st'. split; [exact E1|]. split; [rewrite E2; auto|]. split; [|split].
      + intros i k' Hi. destruct i; simpl in Hi.
        * injection Hi as <-. rewrite Nat.add_0_r. rewrite E4 by lia. simpl. unfold cset.
          rewrite String.eqb_refl, Nat.eqb_refl. auto.
        * rewrite <- Nat.add_succ_comm. apply E3. auto.
      + intros i Hi. simpl in Hi. rewrite E4 by lia. simpl. unfold cset.
        replace (Nat.eqb i s) with false by (symmetry; apply Nat.eqb_neq; lia).
        rewrite andb_false_r. auto.
      + intros m i Hm. rewrite E5 by auto. simpl. unfold cset.
        apply String.eqb_neq in Hm. rewrite Hm. auto.
  Qed.

  (** Emitted items in general: name, source vector, indices, and how they are stored. *)
  Record item := mkIt { it_name : string; it_vec : string; it_idx : list nat; it_fld : fld }.

  Definition item_stmts (x : item) : list cstmt :=
    if Nat.eqb (length (it_idx x)) 1 then [SScalar (it_name x) (it_vec x) (nth 0 (it_idx x) 0)]
    else match it_fld x with
         | FOwn => map (fun '(i, k) => SElem (it_name x) i (it_vec x) k)
                       (combine (seq 0 (length (it_idx x))) (it_idx x))
         | _ => [] end.

  Definition item_ok (st : rstate K) (x : item) : Prop :=
    assoc (it_name x) fs = Some (it_fld x)
    /\ (forall k, In k (it_idx x) -> k < length (r_vecs st (it_vec x)))
    /\ match it_fld x with
       | FScalar => length (it_idx x) = 1
       | FOwn => length (it_idx x) <> 1 /\ assoc (it_name x) ar = Some (length (it_idx x))
       | FSol w o => length (it_idx x) <> 1 /\ w = it_vec x /\ it_idx x = seq o (length (it_idx x))
                     /\ o + length (it_idx x) <= length (r_vecs st w)
       end.

  (** What reading the field afterwards should give. *)
  Definition item_reads (st : rstate K) (x : item) (l : list K) : Prop :=
    Forall2 (fun k v => nth_error (r_vecs st (it_vec x)) k = Some v) (it_idx x) l.

  Lemma exec_app : forall l1 l2 st, exec (K := K) fs ar st (l1 ++ l2) = (st' <- exec fs ar st l1;; exec fs ar st' l2).
  Proof.
    induction l1; intros; simpl; auto. destruct (exec_stmt fs ar st a); simpl; auto.
  Qed.

  Lemma exec_item : forall x st, item_ok st x -> exists st',
      exec fs ar st (item_stmts x) = Ok st' /\ r_vecs st' = r_vecs st
      /\ (forall m i, m <> it_name x -> r_cells st' m i = r_cells st m i)
      /\ match it_fld x with
         | FSol _ _ => True
         | _ => forall i k, nth_error (it_idx x) i = Some k ->
                            nth_error (r_vecs st (it_vec x)) k = Some (r_cells st' (it_name x) i)
         end.
  Proof.
    intros x st (Hf & Hk & Hs). unfold item_stmts. destruct (it_fld x) as [| |w o] eqn:Ef.
    - rewrite Hs. cbn [Nat.eqb exec]. unfold exec_stmt. rewrite Hf.
      destruct (it_idx x) as [|k [|]] eqn:Ei; try discriminate. simpl nth. unfold vread.
      assert (Hlt : k < length (r_vecs st (it_vec x))) by (apply Hk; left; auto).
      destruct (nth_error (r_vecs st (it_vec x)) k) as [v|] eqn:Ev; [|apply nth_error_None in Ev; lia].
      cbn [bind]. eexists. split; [reflexivity|]. split; auto. split.
      + intros m i Hm. simpl. unfold cset. apply String.eqb_neq in Hm. rewrite Hm. auto.
      + intros i k' Hi. destruct i; simpl in Hi; [injection Hi as <-|destruct i; discriminate].
        simpl. unfold cset. rewrite String.eqb_refl. simpl. auto.
    - destruct Hs as [Hn Ha]. apply Nat.eqb_neq in Hn. rewrite Hn.
      destruct (exec_elems (it_vec x) (it_name x) (length (it_idx x)) (it_idx x) 0 st Hf Ha) as (st' & E1 & E2 & E3 & E4 & E5);
        auto.
      exists st'. auto.
    - destruct Hs as [Hn _]. apply Nat.eqb_neq in Hn. rewrite Hn. simpl. exists st. auto.
  Qed.

  Lemma item_ok_vecs : forall st st' x, r_vecs st' = r_vecs st -> item_ok st x -> item_ok st' x.
  Proof. intros st st' x E (H1 & H2 & H3). unfold item_ok. rewrite E. auto. Qed.

  Definition filled (st0 st : rstate K) (x : item) : Prop :=
    match it_fld x with
    | FSol _ _ => True
    | _ => forall i k, nth_error (it_idx x) i = Some k ->
                       nth_error (r_vecs st0 (it_vec x)) k = Some (r_cells st (it_name x) i)
    end.

  Lemma exec_items : forall xs st, NoDup (map it_name xs) -> Forall (item_ok st) xs -> exists st',
      exec fs ar st (flat_map item_stmts xs) = Ok st' /\ r_vecs st' = r_vecs st
      /\ (forall m i, ~ In m (map it_name xs) -> r_cells st' m i = r_cells st m i)
      /\ Forall (filled st st') xs.
  Proof.
    induction xs as [|x xs IH]; intros st Hnd Hok.
    - exists st. simpl. auto.
    - inversion Hnd; subst. inversion Hok as [|? ? Hx Hxs]; subst. cbn [flat_map]. rewrite exec_app.
      destruct (exec_item x st Hx) as (st1 & E1 & V1 & C1 & F1). rewrite E1. cbn [bind].
      destruct (IH st1 H2) as (st2 & E2 & V2 & C2 & F2).
      { eapply Forall_impl; [|exact Hxs]. intros a Ha. eapply item_ok_vecs; eauto. }
      exists st2. split; auto. split; [congruence|]. split.
      + intros m i Hm. simpl in Hm. rewrite C2, C1; auto.
      + constructor.
        * unfold filled. destruct (it_fld x); auto; intros i k Hi; rewrite C2 by auto; apply F1; auto.
        * eapply Forall_impl; [|exact F2]. intros a Ha. unfold filled in *. rewrite V1 in Ha. auto.
  Qed.

  (** Reading a field. *)
  Lemma read_ok : forall x st0 st, item_ok st0 x -> r_vecs st = r_vecs st0 -> filled st0 st x ->
      exists l, read_field fs ar st (it_name x) (length (it_idx x)) = Ok l /\ item_reads st0 x l.
  Proof.
    intros x st0 st (Hf & Hk & Hs) V F. unfold read_field, filled in *. destruct (it_fld x) as [| |w o] eqn:Ef.
    - rewrite Hs. simpl. rewrite Hf. eexists. split; [reflexivity|]. unfold item_reads.
      destruct (it_idx x) as [|k [|]] eqn:Ei; try discriminate. repeat constructor. apply F. auto.
    - destruct Hs as [Hn Ha]. apply Nat.eqb_neq in Hn. rewrite Hn, Hf, Ha, Nat.leb_refl.
      eexists. split; [reflexivity|]. unfold item_reads.
      clear - F. revert F. generalize (it_idx x) as ks. intro ks.
      assert (H : forall s, (forall i k, nth_error ks i = Some k ->
                 nth_error (r_vecs st0 (it_vec x)) k = Some (r_cells st (it_name x) (s + i))) ->
               Forall2 (fun k v => nth_error (r_vecs st0 (it_vec x)) k = Some v) ks
                       (map (r_cells st (it_name x)) (seq s (length ks)))).
      { induction ks as [|k ks IH]; intros s H; simpl; constructor.
        - specialize (H 0 k eq_refl). rewrite Nat.add_0_r in H. auto.
        - apply IH. intros i k' Hi. specialize (H (S i) k' Hi). rewrite <- Nat.add_succ_comm in H. auto. }
      intro F. apply (H 0). auto.
    - destruct Hs as (Hn & -> & Hi & Hb). apply Nat.eqb_neq in Hn. rewrite Hn, Hf, V.
      replace (Nat.leb (o + length (it_idx x)) (length (r_vecs st0 (it_vec x)))) with true
        by (symmetry; apply Nat.leb_le; auto).
      eexists. split; [reflexivity|]. unfold item_reads. rewrite Hi at 1.
      clear - Hb. revert Hb. generalize (length (it_idx x)) as n. generalize (r_vecs st0 (it_vec x)) as v.
      intros v n. revert o. induction n; intros o Hb; simpl; [constructor|].
      assert (Hlt : o < length v) by lia.
      destruct (nth_error v o) as [a|] eqn:E; [|apply nth_error_None in E; lia].
      assert (Es : skipn o v = a :: skipn (S o) v).
      { clear - E. revert v E. induction o; intros v E; destruct v; try discriminate; simpl in *.
        - injection E as ->. auto.
        - rewrite (IHo v E). auto. }
      rewrite Es. simpl. constructor; auto. apply IHn. lia.
  Qed.
End ExecProofs.

(** ** Primal variables *)

Lemma lookup_in : forall A k (l : list (nat * A)) v, lookup k l = Some v -> In (k, v) l.
Proof.
  induction l as [|[k' v'] l IH]; simpl; intros v H. discriminate.
  destruct (Nat.eqb k k') eqn:E. apply Nat.eqb_eq in E. injection H as ->. subst. auto. auto.
Qed.

Lemma lookup_some : forall A k (l : list (nat * A)), In k (map fst l) -> exists v, lookup k l = Some v.
Proof.
  induction l as [|[k' v'] l IH]; simpl; intros H. tauto.
  destruct (Nat.eqb k k') eqn:E. eauto. apply IH. destruct H; auto.
  apply Nat.eqb_neq in E. congruence.
Qed.

(** Laying out blocks one after the other. *)
Lemma offset_blk : forall K (blk : nat -> list K) red o k sz,
    (forall i z, In (i, z) red -> length (blk i) = z) ->
    lookup k red = Some sz ->
    exists off, lookup k (var_offsets o red) = Some (o + off)
      /\ off + sz <= length (concat (map (fun e => blk (fst e)) red))
      /\ forall j, j < sz -> nth_error (concat (map (fun e => blk (fst e)) red)) (off + j) = nth_error (blk k) j.
Proof.
  induction red as [|[i z] red IH]; simpl; intros o k sz Hl H. discriminate.
  destruct (Nat.eqb k i) eqn:E.
  - apply Nat.eqb_eq in E. subst i. injection H as ->. exists 0. rewrite Nat.add_0_r. split; auto.
    pose proof (Hl k sz (or_introl eq_refl)) as L. split.
    + rewrite app_length. lia.
    + intros j Hj. simpl. apply nth_error_app1. lia.
  - destruct (IH (o + z) k sz) as (off & H1 & H2 & H3); auto.
    pose proof (Hl i z (or_introl eq_refl)) as L.
    exists (z + off). rewrite H1. split; [f_equal; lia|]. split.
    + rewrite app_length. lia.
    + intros j Hj. rewrite nth_error_app2 by lia. rewrite L.
      replace (z + off + j - z) with (off + j) by lia. auto.
Qed.

Lemma mapM_ok : forall A B (f : A -> res B) (P : A -> B -> Prop) l,
    (forall a, In a l -> exists b, f a = Ok b /\ P a b) -> exists bs, mapM f l = Ok bs /\ Forall2 P l bs.
Proof.
  induction l as [|a l IH]; intros H. exists []. auto.
  destruct (H a (or_introl eq_refl)) as (b & E & HP).
  destruct IH as (bs & E2 & F). { intros; apply H; right; auto. }
  exists (b :: bs). simpl. rewrite E. simpl. rewrite E2. simpl. auto.
Qed.

Lemma Forall2_length : forall A B (P : A -> B -> Prop) l l', Forall2 P l l' -> length l = length l'.
Proof. induction 1; simpl; auto. Qed.
Arguments Forall2_length {A B P l l'}.

(** Size of a variable in the reduced problem: symmetric matrices are packed. *)
Definition packed_size (u : uvar) : nat :=
  if uv_sym u then match uv_shape u with n :: _ => length (upper n) | [] => 0 end else fsize (uv_shape u).

(** Assumptions on what CVXPY reports. *)
Record vars_ok (red : list (nat * nat)) (us : list uvar) : Prop := mkVO
  { vo_names : NoDup (map uv_name us);
    vo_size : forall u, In u us -> lookup (uv_id u) red = Some (packed_size u);
    vo_square : forall u, In u us -> uv_sym u = true -> exists n, uv_shape u = [n; n] }.

(** What a stored array [a] must be, given the variable's entries [b] in the solution. *)
Definition var_value {K} (k0 : K) (u : uvar) (b : list K) (a : list nat -> K) : Prop :=
  if uv_sym u then
    forall n, uv_shape u = [n; n] -> forall i j p, i < n -> j < n ->
      nth_error (upper n) p = Some (Nat.min i j, Nat.max i j) -> a [i; j] = nth p b k0
  else forall idx, in_shape (uv_shape u) idx -> a idx = nth (fpos (uv_shape u) idx) b k0.

Section Primal.
  Variable K : Type.
  Variable k0 : K.
  Variable s : solver.
  Variables (red : list (nat * nat)) (us : list uvar) (blk : nat -> list K).
  Hypothesis HV : vars_ok red us.
  Hypothesis HB : forall i z, In (i, z) red -> length (blk i) = z.
  Notation x := (concat (map (fun e => blk (fst e)) red)).

  Definition info_ok (u : uvar) (p : pinfo) : Prop :=
    pi_name p = uv_name u /\ pi_size p = fsize (uv_shape u) /\ pi_shape p = uv_shape u /\ pi_sym p = uv_sym u
    /\ length (pi_idx p) = fsize (uv_shape u)
    /\ (forall k, In k (pi_idx p) -> k < length x)
    /\ (uv_sym u = false -> pi_idx p = seq (pi_off p) (fsize (uv_shape u))
                            /\ pi_off p + fsize (uv_shape u) <= length x)
    /\ forall l, Forall2 (fun k v => nth_error x k = Some v) (pi_idx p) l ->
         exists a, reshapeF k0 (uv_shape u) l = Ok a /\ var_value k0 u (blk (uv_id u)) a.

  Lemma Forall2_nth : forall A B (P : A -> B -> Prop) l l' i a, Forall2 P l l' -> nth_error l i = Some a ->
      exists b, nth_error l' i = Some b /\ P a b.
  Proof.
    intros A B P l l' i a H. revert i. induction H; intros i Hi; destruct i; try discriminate; simpl in *.
    - injection Hi as ->. eauto.
    - auto.
  Qed.

  Lemma prim_info_ok : exists ps, prim_info red us = Ok ps /\ Forall2 info_ok us ps.
  Proof.
    apply mapM_ok. intros u Hu.
    destruct (offset_blk K blk red 0 (uv_id u) (packed_size u) HB (vo_size _ _ HV u Hu)) as (o & E1 & E2 & E3).
    rewrite E1. simpl. pose proof (HB _ _ (lookup_in _ _ _ _ (vo_size _ _ HV u Hu))) as HL.
    destruct (uv_sym u) eqn:Es.
    - destruct (vo_square _ _ HV u Hu Es) as (n & En). rewrite En. simpl.
      unfold packed_size in *. rewrite Es, En in *.
      eexists. split; [reflexivity|]. unfold info_ok. simpl. rewrite Es, En. simpl.
      rewrite map_length, tri_cols_length. rewrite Nat.mul_1_r.
      split; [auto|]. split; [auto|]. split; [auto|]. split; [auto|]. split; [auto|].
      split; [|split; [discriminate|]].
      + intros k Hk. apply in_map_iff in Hk. destruct Hk as (c & <- & Hc). apply tri_cols_lt in Hc. lia.
      + intros l Hl. pose proof (Forall2_length Hl) as L. rewrite map_length, tri_cols_length in L.
        unfold reshapeF. simpl. rewrite <- L, Nat.mul_1_r, Nat.eqb_refl. eexists. split; [reflexivity|].
        unfold var_value. rewrite Es. intros n' En' i j p Hi Hj Hp.
        rewrite En in En'. injection En' as <-.
        pose proof (tri_cols_nth n i j p Hi Hj Hp) as Hc.
        destruct (Forall2_nth _ _ _ _ _ (i + n * j) (o + p) Hl) as (b & Hb & Hx).
        { rewrite nth_error_map, Hc. auto. }
        simpl. rewrite Nat.mul_0_r, Nat.add_0_r. rewrite (nth_error_nth _ _ _ Hb).
        assert (Hpl : p < length (upper n)) by (apply nth_error_Some; congruence).
        rewrite E3 in Hx by auto. symmetry. apply nth_error_nth with (1 := Hx).
    - simpl. unfold packed_size in *. rewrite Es in *.
      eexists. split; [reflexivity|]. unfold info_ok. simpl. rewrite Es. rewrite seq_length.
      split; [auto|]. split; [auto|]. split; [auto|]. split; [auto|]. split; [auto|]. split; [|split].
      + intros k Hk. apply in_seq in Hk. lia.
      + intros _. split; auto.
      + intros l Hl. pose proof (Forall2_length Hl) as L. rewrite seq_length in L.
        unfold reshapeF. rewrite <- L, Nat.eqb_refl. eexists. split; [reflexivity|].
        unfold var_value. rewrite Es. intros idx Hi. pose proof (fpos_lt _ _ Hi) as Hlt.
        destruct (Forall2_nth _ _ _ _ _ (fpos (uv_shape u) idx) (o + fpos (uv_shape u) idx) Hl) as (b & Hb & Hx).
        { rewrite (nth_error_nth' _ 0) by (rewrite seq_length; auto). rewrite seq_nth by auto. auto. }
        rewrite (nth_error_nth _ _ _ Hb). rewrite E3 in Hx by auto. symmetry. apply nth_error_nth with (1 := Hx).
  Qed.

  Definition fld_of (p : pinfo) : fld :=
    if Nat.eqb (pi_size p) 1 then FScalar
    else if pi_sym p || negb (sol_static s) then FOwn else FSol "x" (pi_off p).
  Definition item_of (p : pinfo) : item := mkIt (pi_name p) "x" (pi_idx p) (fld_of p).

  Lemma assoc_map : forall A B (f : A -> string) (g : A -> B) (l : list A) a, NoDup (map f l) -> In a l ->
      assoc (f a) (map (fun b => (f b, g b)) l) = Some (g a).
  Proof.
    induction l as [|b l IH]; simpl; intros a Hnd Hin. tauto. inversion Hnd; subst.
    destruct Hin as [->|Hin]. rewrite String.eqb_refl. auto.
    destruct (String.eqb (f a) (f b)) eqn:E; auto.
    apply String.eqb_eq in E. exfalso. apply H1. rewrite <- E. apply in_map. auto.
  Qed.

  Lemma assoc_flat : forall A B (f : A -> string) (g : A -> list (string * B)) (l : list A) a b,
      NoDup (map f l) -> In a l -> (forall c n v, In (n, v) (g c) -> n = f c) -> g a = [(f a, b)] ->
      assoc (f a) (flat_map g l) = Some b.
  Proof.
    induction l as [|c l IH]; simpl; intros a b Hnd Hin Hg Ha. tauto. inversion Hnd; subst.
    assert (Happ : forall l1 l2, (forall n v, In (n, v) l1 -> n <> f a) ->
                   assoc (f a) (l1 ++ l2) = @assoc B (f a) l2).
    { induction l1 as [|[n v] l1 IHl]; simpl; intros l2 Hn; auto.
      destruct (String.eqb (f a) n) eqn:E. apply String.eqb_eq in E. exfalso. eapply Hn; eauto.
      apply IHl. intros; eapply Hn; eauto. }
    destruct Hin as [->|Hin].
    - rewrite Ha. simpl. rewrite String.eqb_refl. auto.
    - rewrite Happ. apply IH; auto. intros n v Hn. apply Hg in Hn. subst. intro E. apply H1.
      rewrite E. apply in_map. auto.
  Qed.

  Lemma names_infos : forall us0 ps, Forall2 info_ok us0 ps -> map pi_name ps = map uv_name us0.
  Proof. intros us0 ps H. induction H as [|u p l l' Hi H IH]; simpl; auto. destruct Hi as [-> _]. congruence. Qed.

  Lemma primal_ok : forall (st : rstate K), r_vecs st "x" = x ->
      exists ps rs, prim_info red us = Ok ps /\ primal_results k0 s ps st = Ok rs
        /\ Forall2 (fun u r => fst r = uv_name u /\ var_value k0 u (blk (uv_id u)) (snd r)) us rs.
  Proof.
    intros st Hx. destruct prim_info_ok as (ps & Ep & HF). exists ps.
    assert (Hnd : NoDup (map pi_name ps)). { rewrite (names_infos us ps HF). apply (vo_names _ _ HV). }
    set (fs := prim_fields s ps). set (ar := prim_arrays s ps).
    assert (Hin : forall p, In p ps -> exists u, info_ok u p).
    { intros p Hp. revert Hp. generalize HF. clear. generalize us as us0. intros us0 HF.
      induction HF as [|u0 p0 l l' H0 HF IH]; intro Hp; [destruct Hp|]. destruct Hp as [<-|Hp]; eauto. }
    assert (Hok : Forall (item_ok K fs ar st) (map item_of ps)).
    { apply Forall_forall. intros it Hit. apply in_map_iff in Hit. destruct Hit as (p & <- & Hp).
      destruct (Hin p Hp) as (u & H1 & H2 & H3 & H4 & H5 & H6 & H7 & _).
      unfold item_ok, item_of. simpl. rewrite Hx.
      assert (HA : assoc (pi_name p) fs = Some (fld_of p)).
      { unfold fs, prim_fields. apply (assoc_map _ _ pi_name fld_of); auto. }
      split; [exact HA|]. split; [exact H6|].
      unfold fld_of in *. destruct (Nat.eqb (pi_size p) 1) eqn:E1.
      - apply Nat.eqb_eq in E1. congruence.
      - apply Nat.eqb_neq in E1. destruct (pi_sym p || negb (sol_static s)) eqn:E2.
        + split; [congruence|].
          unfold ar, prim_arrays. eapply (assoc_flat _ _ pi_name); eauto.
          * intros c n v Hc. destruct (Nat.eqb (pi_size c) 1); [destruct Hc|].
            destruct (pi_sym c || negb (sol_static s)); [|destruct Hc]. destruct Hc as [E|[]]. congruence.
          * simpl. apply Nat.eqb_neq in E1. rewrite E1, E2. congruence.
        + split; [congruence|]. split; auto. rewrite Hx.
          apply orb_false_iff in E2. destruct E2 as [E2 _]. rewrite H4 in E2.
          destruct (H7 E2) as [H8 H9]. rewrite H5. split; auto. }
    assert (Hst : retrieve_prim s ps = flat_map item_stmts (map item_of ps)).
    { unfold retrieve_prim. rewrite flat_map_map. clear - Hin.
      induction ps as [|p ps IH]; simpl; auto. f_equal.
      - destruct (Hin p (or_introl eq_refl)) as (u & _ & H2 & _ & _ & H5 & _).
        unfold item_stmts, item_of, fld_of. simpl. rewrite H2, <- H5.
        destruct (Nat.eqb (length (pi_idx p)) 1); auto. destruct (pi_sym p || negb (sol_static s)); auto.
      - apply IH. intros; apply Hin; right; auto. }
    assert (Hrun : exists st', (if ret_prim s ps then exec fs ar st (retrieve_prim s ps) else Ok st) = Ok st'
                     /\ r_vecs st' = r_vecs st /\ Forall (filled K st st') (map item_of ps)).
    { destruct (ret_prim s ps) eqn:Er.
      - destruct (exec_items K fs ar (map item_of ps) st) as (st' & H1 & H2 & _ & H3).
        + rewrite map_map. simpl. auto.
        + auto.
        + exists st'. rewrite Hst. auto.
      - exists st. split; auto. split; auto. apply Forall_forall. intros it Hit.
        apply in_map_iff in Hit. destruct Hit as (p & <- & Hp). unfold filled, item_of, fld_of. simpl.
        unfold ret_prim in Er. apply orb_false_iff in Er. destruct Er as [Er E3].
        apply orb_false_iff in Er. destruct Er as [E1 E2].
        assert (A1 : Nat.eqb (pi_size p) 1 = false).
        { destruct (Nat.eqb (pi_size p) 1) eqn:E; auto.
          assert (existsb (fun v => Nat.eqb (pi_size v) 1) ps = true) by (apply existsb_exists; eauto). congruence. }
        assert (A2 : pi_sym p = false).
        { destruct (pi_sym p) eqn:E; auto.
          assert (existsb pi_sym ps = true) by (apply existsb_exists; eauto). congruence. }
        rewrite A1, A2. replace (negb (sol_static s)) with false; simpl; auto.
        destruct s; simpl in E1; try discriminate; auto. }
    destruct Hrun as (st' & R1 & R2 & R3).
    unfold primal_results. fold fs ar. rewrite R1. cbn [bind].
    assert (Hm : forall us0 ps0, Forall2 info_ok us0 ps0 -> (forall p, In p ps0 -> In p ps) ->
       exists rs, mapM (fun v => l <- read_field fs ar st' (pi_name v) (pi_size v);;
                   a <- reshapeF k0 (pi_shape v) l;; Ok (pi_name v, a)) ps0 = Ok rs
       /\ Forall2 (fun u r => fst r = uv_name u /\ var_value k0 u (blk (uv_id u)) (snd r)) us0 rs).
    { induction 1 as [|u p us0 ps0 Hi H IH]; intro Hsub.
      - exists []. auto.
      - destruct IH as (rs & E1 & E2). { intros; apply Hsub; right; auto. }
        assert (Hp : In p ps) by (apply Hsub; left; auto).
        rewrite Forall_forall in Hok, R3.
        assert (Hit : In (item_of p) (map item_of ps)) by (apply in_map; auto).
        destruct (read_ok K fs ar (item_of p) st st' (Hok _ Hit) R2 (R3 _ Hit)) as (l & L1 & L2).
        destruct Hi as (H1 & H2 & H3 & H4 & H5 & H6 & H7 & H8). unfold item_reads in L2. simpl in L1, L2. rewrite Hx in L2.
        destruct (H8 l L2) as (a & A1 & A2).
        exists ((pi_name p, a) :: rs). cbn [mapM]. rewrite H2, <- H5, L1. cbn [bind]. rewrite H3, A1. cbn [bind].
        rewrite E1. cbn [bind]. split; auto. }
    destruct (Hm us ps HF) as (rs & M1 & M2); auto. exists rs. auto.
  Qed.

  (** Different variables use disjoint entries (NoDup ids). *)
  Hypothesis HN : NoDup (map fst red).
  Hypothesis HU : NoDup (map uv_id us).

  Lemma offsets_disjoint : forall l o i j oi oj zi zj, NoDup (map fst l) -> i <> j ->
      lookup i l = Some zi -> lookup j l = Some zj ->
      lookup i (var_offsets o l) = Some oi -> lookup j (var_offsets o l) = Some oj ->
      oi + zi <= oj \/ oj + zj <= oi.
  Proof.
    assert (Hge : forall l o i oi, lookup i (var_offsets o l) = Some oi -> o <= oi).
    { induction l as [|[a z] l IH]; simpl; intros o i oi H. discriminate.
      destruct (Nat.eqb i a). injection H as ->. auto. apply IH in H. lia. }
    induction l as [|[a z] l IH]; simpl; intros o i j oi oj zi zj Hnd Hij. discriminate.
    inversion Hnd; subst.
    destruct (Nat.eqb i a) eqn:Ei; destruct (Nat.eqb j a) eqn:Ej.
    - apply Nat.eqb_eq in Ei. apply Nat.eqb_eq in Ej. congruence.
    - intros Hz1 Hz2 Ho1 Ho2. injection Hz1 as <-. injection Ho1 as <-. apply Hge in Ho2. left. lia.
    - intros Hz1 Hz2 Ho1 Ho2. injection Hz2 as <-. injection Ho2 as <-. apply Hge in Ho1. right. lia.
    - intros. eapply IH; eauto.
  Qed.
End Primal.

(** ** Dual variables *)

Lemma uint_inj : forall a b, NilEmpty.string_of_uint a = NilEmpty.string_of_uint b -> a = b.
Proof.
  intros a b H. assert (E : NilEmpty.uint_of_string (NilEmpty.string_of_uint a)
                          = NilEmpty.uint_of_string (NilEmpty.string_of_uint b)) by congruence.
  rewrite !NilEmpty.usu in E. congruence.
Qed.

Lemma dname_inj : forall i j, dname i = dname j -> i = j.
Proof.
  intros i j H. unfold dname in H. simpl in H. injection H as H. apply uint_inj in H.
  apply (f_equal Nat.of_uint) in H. rewrite !Unsigned.of_to in H. auto.
Qed.

Lemma combine_offsets : forall l o, combine (map fst l) (psums o (removelast (map snd l))) = var_offsets o l.
Proof.
  induction l as [|[i z] l IH]; intro o; auto. destruct l as [|[j y] l].
  - reflexivity.
  - specialize (IH (o + z)). transitivity ((i, o) :: combine (map fst ((j, y) :: l)) (psums (o + z) (removelast (map snd ((j, y) :: l))))).
    + reflexivity.
    + rewrite IH. reflexivity.
Qed.

Fixpoint pre (o : nat) (l : list nat) : list nat :=
  match l with [] => [] | s :: t => o :: pre (o + s) t end.
Lemma pre_length : forall l o, length (pre o l) = length l.
Proof. induction l; simpl; auto. Qed.
Lemma psums_app : forall es ns o, psums o (es ++ ns) = pre o es ++ psums (o + list_sum es) ns.
Proof.
  induction es; intros ns o; simpl. rewrite Nat.add_0_r. auto. rewrite IHes. do 2 f_equal. f_equal. lia.
Qed.
Lemma combine_pre : forall l o, combine (map fst l) (pre o (map snd l)) = var_offsets o l.
Proof. induction l as [|[i z] l IH]; intro o; simpl; auto. rewrite IH. auto. Qed.
Lemma psums_shift : forall l o a, map (fun x => x - a) (psums (o + a) l) = psums o l.
Proof.
  induction l; intros o a'; simpl. f_equal. lia. f_equal. lia.
  replace (o + a' + a) with (o + a + a') by lia. apply IHl.
Qed.
Lemma combine_app' : forall A B (a b : list A) (c d : list B), length a = length c ->
    combine (a ++ b) (c ++ d) = combine a c ++ combine b d.
Proof. induction a; destruct c; simpl; intros; try discriminate; auto. rewrite IHa; auto. Qed.

Lemma lookup_app : forall A k (a b : list (nat * A)),
    lookup k (a ++ b) = match lookup k a with Some v => Some v | None => lookup k b end.
Proof. induction a as [|[i v] a IH]; simpl; intros; auto. destruct (Nat.eqb k i); auto. Qed.

Lemma lookup_none : forall A k (l : list (nat * A)), ~ In k (map fst l) -> lookup k l = None.
Proof.
  induction l as [|[i v] l IH]; simpl; intros H; auto.
  destruct (Nat.eqb k i) eqn:E. apply Nat.eqb_eq in E. subst. tauto. apply IH. tauto.
Qed.

Lemma lookup_repeat : forall A k (v : A) ids n, In k ids -> length ids <= n ->
    lookup k (combine ids (repeat v n)) = Some v.
Proof.
  induction ids; simpl; intros n Hi Hl. tauto. destruct n; [lia|]. simpl.
  destruct (Nat.eqb k a) eqn:E; auto. apply IHids; [|lia]. destruct Hi; auto.
  apply Nat.eqb_neq in E. congruence.
Qed.

Lemma fst_offsets : forall l o, map fst (var_offsets o l) = map fst l.
Proof. induction l as [|[i z] l IH]; intro o; simpl; auto. rewrite IH. auto. Qed.

Lemma psums_length : forall l o, length (psums o l) = S (length l).
Proof. induction l; simpl; auto. Qed.

(** ids of user constraints after following the maps *)
Lemma mapM_Forall2 : forall A B (f : A -> res B) l bs, mapM f l = Ok bs <-> Forall2 (fun a b => f a = Ok b) l bs.
Proof.
  induction l as [|a l IH]; intro bs; simpl.
  - split; intro H. injection H as <-. constructor. inversion H. auto.
  - split; intro H.
    + destruct (f a) eqn:E; [|discriminate]. cbn [bind] in H. destruct (mapM f l) eqn:E2; [|discriminate].
      cbn [bind] in H. injection H as <-. constructor; auto. apply IH. auto.
    + inversion H as [|? b ? bs' H1 H2]; subst. rewrite H1. cbn [bind].
      apply IH in H2. rewrite H2. auto.
Qed.

Lemma removelast_length : forall A (l : list A), length (removelast l) = length l - 1.
Proof.
  induction l as [|a l IH]; auto. destruct l; auto. change (removelast (a :: a0 :: l)) with (a :: removelast (a0 :: l)).
  cbn [length] in *. lia.
Qed.

Lemma nth_error_ext : forall A (l l' : list A), (forall j, nth_error l j = nth_error l' j) -> l = l'.
Proof.
  induction l as [|a l IH]; destruct l' as [|b l']; intro H; auto.
  - specialize (H 0). discriminate.
  - specialize (H 0). discriminate.
  - f_equal. specialize (H 0). simpl in H. congruence. apply IH. intro j. apply (H (S j)).
Qed.

Lemma NoDup_app_l : forall A (l m : list A), NoDup (l ++ m) -> NoDup l.
Proof.
  induction l; simpl; intros m H; constructor; inversion H; subst; eauto.
  rewrite in_app_iff in *. tauto.
Qed.
Lemma NoDup_app_r : forall A (l m : list A), NoDup (l ++ m) -> NoDup m.
Proof. induction l; simpl; intros m H; auto. inversion H; eauto. Qed.

Section Dual.
  Variable K : Type.
  Variable s : solver.
  Variables (eqs neqs : list (nat * nat)) (m : list (nat * nat)) (rest : list (list (nat * nat))).
  Variable dl : nat -> list K.                 (* the dual of each canonical constraint *)
  Notation con := (eqs ++ neqs).
  Hypothesis HN : NoDup (map fst con).
  Hypothesis HC : forall u, In u (map fst m) -> exists c, chase rest u = Ok c /\ In c (map fst con).
  Hypothesis HL : forall i z, In (i, z) con -> length (dl i) = z.

  Definition cat (l : list (nat * nat)) : list K := concat (map (fun e => dl (fst e)) l).

  (** Position of canonical constraint [c]: vector name, offset. *)
  Definition vec_of (c : nat) : string :=
    if dual_split s then (if existsb (Nat.eqb c) (map fst eqs) then dual_vec0 s else dual_vec1 s) else dual_vec0 s.

  (** The solver's dual vectors hold the duals one after the other. *)
  Definition duals_in (vecs : string -> list K) : Prop :=
    if dual_split s then vecs (dual_vec0 s) = cat eqs /\ vecs (dual_vec1 s) = cat neqs
    else vecs (dual_vec0 s) = cat con.

  Definition placed (c : nat) (v : string) (o z : nat) : Prop :=
    length (dl c) = z
    /\ (if dual_split s
        then (In c (map fst eqs) /\ v = dual_vec0 s /\ lookup c (var_offsets 0 eqs) = Some o /\ lookup c eqs = Some z)
             \/ (In c (map fst neqs) /\ v = dual_vec1 s /\ lookup c (var_offsets 0 neqs) = Some o /\ lookup c neqs = Some z)
        else v = dual_vec0 s /\ lookup c (var_offsets 0 con) = Some o /\ lookup c con = Some z).

  Lemma placed_reads : forall vecs c v o z, duals_in vecs -> placed c v o z ->
      o + z <= length (vecs v) /\ forall j, j < z -> nth_error (vecs v) (o + j) = nth_error (dl c) j.
  Proof.
    intros vecs c v o z HD (Hz & HP). unfold duals_in in HD. unfold cat in *.
    assert (G : forall l o', (forall i z, In (i, z) l -> length (dl i) = z) -> lookup c (var_offsets 0 l) = Some o' ->
                lookup c l = Some z -> o' + z <= length (cat l)
                /\ forall j, j < z -> nth_error (cat l) (o' + j) = nth_error (dl c) j).
    { intros l o' Hl H1 H2. destruct (offset_blk K dl l 0 c z Hl H2) as (off & E1 & E2 & E3).
      rewrite H1 in E1. injection E1 as ->. auto. }
    destruct (dual_split s).
    - destruct HD as [D1 D2]. destruct HP as [(_ & -> & H1 & H2)|(_ & -> & H1 & H2)].
      + rewrite D1. apply (G eqs); auto. intros; apply HL; apply in_or_app; auto.
      + rewrite D2. apply (G neqs); auto. intros; apply HL; apply in_or_app; auto.
    - destruct HP as (-> & H1 & H2). rewrite HD. apply (G con); auto.
  Qed.

  Lemma lookup_offsets_in : forall l o c, In c (map fst l) -> exists p, lookup c (var_offsets o l) = Some p.
  Proof. intros l o c H. apply lookup_some. rewrite fst_offsets. auto. Qed.

  Definition good_split : Prop := dual_split s = true -> neqs <> [] \/ con = [].

  (** After computing offsets and vector names, every canonical constraint is placed. *)
  Lemma dual_info_ok : good_split ->
    exists cs ds, mapM (chase rest) (map fst m) = Ok cs
      /\ dual_info (dual_split s) (dual_vec0 s) (dual_vec1 s) eqs neqs (m :: rest) = Ok ds
      /\ Forall2 (fun c d => placed c (di_vec d) (di_off d) (di_size d)) cs ds
      /\ map di_name ds = seq 0 (length ds) /\ Forall (fun c => In c (map fst con)) cs.
  Proof.
    intro HS.
    destruct (mapM_ok _ _ (chase rest) (fun u c => chase rest u = Ok c /\ In c (map fst con)) (map fst m)) as (cs & Ec & Fc).
    { intros u Hu. destruct (HC u Hu) as (c & H1 & H2). eauto. }
    assert (Hcs : Forall (fun c => In c (map fst con)) cs).
    { clear - Fc. induction Fc; constructor; tauto. }
    exists cs. unfold dual_info. cbn [dual_ids]. rewrite Ec. cbn [bind].
    assert (Hfin : forall odict vdict,
      (forall c, In c (map fst con) -> exists v o z, lookup c odict = Some o /\ lookup c vdict = Some v
                 /\ lookup c con = Some z /\ placed c v o z) ->
      exists ds, (ps <- mapM (fun i => o <- key (lookup i odict);; v <- key (lookup i vdict);;
                       z <- key (lookup i con);; Ok (v, o, z)) cs;;
                  Ok (map (fun '(i, (v, o, z)) => mkDI i v o z) (combine (seq 0 (length ps)) ps))) = Ok ds
       /\ Forall2 (fun c d => placed c (di_vec d) (di_off d) (di_size d)) cs ds
       /\ map di_name ds = seq 0 (length ds)).
    { intros odict vdict Hd.
      destruct (mapM_ok _ _ (fun i => o <- key (lookup i odict);; v <- key (lookup i vdict);;
                       z <- key (lookup i con);; Ok (v, o, z))
                       (fun c t => placed c (fst (fst t)) (snd (fst t)) (snd t)) cs) as (ps & E & F).
      { intros c Hc. rewrite Forall_forall in Hcs. destruct (Hd c (Hcs c Hc)) as (v & o & z & H1 & H2 & H3 & H4).
        rewrite H1, H2, H3. simpl. eexists. split; [reflexivity|]. auto. }
      rewrite E. cbn [bind]. eexists. split; [reflexivity|].
      assert (G : forall a, Forall2 (fun c d => placed c (di_vec d) (di_off d) (di_size d)) cs
                     (map (fun '(i, (v, o, z)) => mkDI i v o z) (combine (seq a (length ps)) ps))
                  /\ map di_name (map (fun '(i, (v, o, z)) => mkDI i v o z) (combine (seq a (length ps)) ps))
                     = seq a (length (map (fun '(i, (v, o, z)) => mkDI i v o z) (combine (seq a (length ps)) ps)))).
      { clear - F. induction F as [|c [[v o] z] cs ps H F IH]; intro a; simpl. split; constructor.
        destruct (IH (S a)) as [H1 H2]. split. constructor; auto. rewrite H2. auto. }
      apply (G 0). }
    assert (HLz : forall l c, (forall i z, In (i, z) l -> length (dl i) = z) -> In c (map fst l) ->
                  exists z, lookup c l = Some z /\ length (dl c) = z).
    { intros l c Hl Hc. destruct (lookup_some _ c l Hc) as (z & Hz). exists z. split; auto.
      apply Hl. apply lookup_in. auto. }
    destruct (dual_split s) eqn:Ed.
    - (* split *)
      destruct (HS Ed) as [Hne|Hnil].
      + unfold offsets. rewrite map_app, (removelast_app (map snd eqs)).
        2:{ destruct neqs; simpl; congruence. }
        rewrite psums_app. cbn [plus].
        assert (Hlen : length (pre 0 (map snd eqs)) = length eqs) by (rewrite pre_length, map_length; auto).
        rewrite nth_error_app2 by lia. rewrite Hlen, Nat.sub_diag.
        assert (E0 : forall o l, nth_error (psums o l) 0 = Some o) by (destruct l; auto).
        rewrite E0. cbn [bind].
        rewrite firstn_app, Hlen, Nat.sub_diag, firstn_O, app_nil_r, firstn_all2 by lia.
        rewrite skipn_app, Hlen, Nat.sub_diag, skipn_all2, skipn_O by lia. cbn [app].
        change (list_sum (map snd eqs)) with (0 + list_sum (map snd eqs)). rewrite psums_shift.
        rewrite map_app, combine_app' by (rewrite map_length, pre_length, map_length; auto).
        rewrite combine_pre, combine_offsets.
        rewrite combine_app' by (rewrite map_length, repeat_length; auto).
        destruct (Hfin (var_offsets 0 eqs ++ var_offsets 0 neqs)
                       (combine (map fst eqs) (repeat (dual_vec0 s) (length eqs)) ++
                        combine (map fst neqs) (repeat (dual_vec1 s)
                           (length (pre 0 (map snd eqs) ++ psums (0 + list_sum (map snd eqs)) (removelast (map snd neqs))) - length eqs))))
          as (ds & D1 & D2 & D3).
        { intros c Hc. rewrite map_app in Hc. apply in_app_or in Hc.
          destruct (in_dec Nat.eq_dec c (map fst eqs)) as [He|He].
          - destruct (lookup_offsets_in eqs 0 c He) as (o & Ho).
            destruct (HLz eqs c) as (z & Hz & Hd); auto. { intros; apply HL; apply in_or_app; auto. }
            exists (dual_vec0 s), o, z. rewrite !lookup_app, Ho, Hz, lookup_repeat by (rewrite ?map_length; auto).
            repeat split; auto. rewrite Ed. left. auto.
          - destruct Hc as [Hc|Hc]; [tauto|].
            destruct (lookup_offsets_in neqs 0 c Hc) as (o & Ho).
            destruct (HLz neqs c) as (z & Hz & Hd); auto. { intros; apply HL; apply in_or_app; auto. }
            exists (dual_vec1 s), o, z. rewrite !lookup_app.
            rewrite (lookup_none _ c (var_offsets 0 eqs)) by (rewrite fst_offsets; auto).
            rewrite (lookup_none _ c eqs) by auto.
            rewrite (lookup_none _ c (combine (map fst eqs) _)).
            2:{ intro Hx. apply in_map_iff in Hx. destruct Hx as ((a & b) & E & Hx). simpl in E. subst a.
                apply in_combine_l in Hx. auto. }
            rewrite Ho, Hz, lookup_repeat; auto.
            + repeat split; auto. rewrite Ed. right. auto.
            + rewrite app_length, Hlen, map_length, psums_length.
              destruct neqs as [|n1 nr]; [congruence|].
              rewrite removelast_length, map_length. simpl length. lia. }
        exists ds. rewrite map_app in Hcs. auto.
      + assert (eqs = [] /\ neqs = []) as [-> ->] by (apply app_eq_nil; auto).
        cbn. assert (cs = []) as ->. { destruct cs; auto. inversion Hcs as [|? ? Hx Hy]. destruct Hx. }
        exists []. cbn. auto.
    - cbn [bind]. unfold offsets at 1. rewrite combine_offsets.
      destruct (Hfin (var_offsets 0 con) (combine (map fst con) (repeat (dual_vec0 s) (length (offsets (map snd con)))))) as (ds & D1 & D2 & D3).
      { intros c Hc. destruct (lookup_offsets_in con 0 c Hc) as (o & Ho). destruct (HLz con c) as (z & Hz & Hd); auto.
        exists (dual_vec0 s), o, z. rewrite Ho, Hz. rewrite lookup_repeat; auto.
        - repeat split; auto. rewrite Ed. auto.
        - unfold offsets. rewrite psums_length, map_length.
          rewrite removelast_length, map_length. lia. }
      exists ds. auto.
  Qed.

  Definition dfld_of (d : dinfo) : fld :=
    if Nat.eqb (di_size d) 1 then FScalar else if negb (sol_static s) then FOwn else FSol (di_vec d) (di_off d).
  Definition ditem_of (d : dinfo) : item := mkIt (dname (di_name d)) (di_vec d) (di_idx d) (dfld_of d).

  Lemma dual_ok : forall (st : rstate K), good_split -> duals_in (r_vecs st) ->
    exists cs ds, mapM (chase rest) (map fst m) = Ok cs
      /\ dual_info (dual_split s) (dual_vec0 s) (dual_vec1 s) eqs neqs (m :: rest) = Ok ds
      /\ dual_results s ds st = Ok (map dl cs).
  Proof.
    intros st HS HD. destruct (dual_info_ok HS) as (cs & ds & E1 & E2 & HF & Hn & _).
    exists cs, ds. split; auto. split; auto.
    assert (Hnd : NoDup (map (fun d => dname (di_name d)) ds)).
    { rewrite <- (map_map di_name dname), Hn. apply Injective_map_NoDup. intros a b; apply dname_inj. apply seq_NoDup. }
    set (fs := dual_fields s ds). set (ar := dual_arrays s ds).
    assert (Hin : forall d, In d ds -> exists c, placed c (di_vec d) (di_off d) (di_size d)).
    { intros d Hd. clear - HF Hd. induction HF as [|c d' cs ds H HF IH]; [destruct Hd|].
      destruct Hd as [<-|Hd]; eauto. }
    assert (Hok : Forall (item_ok K fs ar st) (map ditem_of ds)).
    { apply Forall_forall. intros it Hit. apply in_map_iff in Hit. destruct Hit as (d & <- & Hd).
      destruct (Hin d Hd) as (c & Hc). destruct (placed_reads _ _ _ _ _ HD Hc) as [Hr _].
      unfold item_ok, ditem_of. simpl.
      split. { unfold fs, dual_fields. apply (assoc_map _ _ (fun d => dname (di_name d)) dfld_of); auto. }
      split. { intros k Hk. unfold di_idx in Hk. apply in_seq in Hk. lia. }
      unfold dfld_of. unfold di_idx at 1 2 3 4 5 6 7. rewrite seq_length.
      destruct (Nat.eqb (di_size d) 1) eqn:Ez; [apply Nat.eqb_eq; auto|]. pose proof Ez as Ez'. apply Nat.eqb_neq in Ez.
      destruct (negb (sol_static s)) eqn:En.
      - split; auto. unfold ar, dual_arrays. eapply (assoc_flat _ _ (fun d => dname (di_name d))); eauto.
        + intros d' n v Hc'. destruct (Nat.eqb (di_size d') 1); [destruct Hc'|]. rewrite En in Hc'.
          destruct Hc' as [E|[]]. congruence.
        + cbn beta. rewrite Ez', En. reflexivity.
      - split; auto. }
    assert (Hst : retrieve_dual s ds = flat_map item_stmts (map ditem_of ds)).
    { unfold retrieve_dual. rewrite flat_map_map. apply flat_map_ext. intro d.
      unfold item_stmts, ditem_of, dfld_of. simpl. unfold di_idx. rewrite seq_length.
      destruct (Nat.eqb (di_size d) 1); auto. destruct (negb (sol_static s)); auto. }
    assert (Hrun : exists st', (if ret_dual s ds then exec fs ar st (retrieve_dual s ds) else Ok st) = Ok st'
                     /\ r_vecs st' = r_vecs st /\ Forall (filled K st st') (map ditem_of ds)).
    { destruct (ret_dual s ds) eqn:Er.
      - destruct (exec_items K fs ar (map ditem_of ds) st) as (st' & H1 & H2 & _ & H3).
        + rewrite map_map. simpl. auto.
        + auto.
        + exists st'. rewrite Hst. auto.
      - exists st. split; auto. split; auto. apply Forall_forall. intros it Hit.
        apply in_map_iff in Hit. destruct Hit as (d & <- & Hd). unfold filled, ditem_of, dfld_of. simpl.
        unfold ret_dual in Er. apply orb_false_iff in Er. destruct Er as [E1' E3].
        assert (A1 : Nat.eqb (di_size d) 1 = false).
        { destruct (Nat.eqb (di_size d) 1) eqn:E; auto.
          assert (existsb (fun v => Nat.eqb (di_size v) 1) ds = true) by (apply existsb_exists; eauto). congruence. }
        rewrite A1. replace (negb (sol_static s)) with false; simpl; auto.
        clear - E1'. destruct s; simpl in E1'; try discriminate; auto. }
    destruct Hrun as (st' & R1 & R2 & R3).
    unfold dual_results. fold fs ar. rewrite R1. cbn [bind].
    assert (Hm : forall cs0 ds0, Forall2 (fun c d => placed c (di_vec d) (di_off d) (di_size d)) cs0 ds0 ->
       (forall d, In d ds0 -> In d ds) ->
       mapM (fun d => read_field fs ar st' (dname (di_name d)) (di_size d)) ds0 = Ok (map dl cs0)).
    { induction 1 as [|c d cs0 ds0 Hi H IH]; intro Hsub; auto.
      assert (Hd : In d ds) by (apply Hsub; left; auto).
      rewrite Forall_forall in Hok, R3.
      assert (Hit : In (ditem_of d) (map ditem_of ds)) by (apply in_map; auto).
      destruct (read_ok K fs ar (ditem_of d) st st' (Hok _ Hit) R2 (R3 _ Hit)) as (l & L1 & L2).
      unfold item_reads in L2. simpl in L1, L2. unfold di_idx in L1, L2. rewrite seq_length in L1.
      destruct (placed_reads _ _ _ _ _ HD Hi) as [Hb Hp]. destruct Hi as [Hz _].
      assert (El : l = dl c).
      { pose proof (Forall2_length L2) as Hlen. rewrite seq_length in Hlen.
        apply nth_error_ext. intro j. destruct (Nat.lt_ge_cases j (di_size d)) as [Hj|Hj].
        - destruct (Forall2_nth _ _ _ _ _ j (di_off d + j) L2) as (b & B1 & B2).
          { rewrite (nth_error_nth' _ 0) by (rewrite seq_length; auto). rewrite seq_nth by auto. auto. }
          rewrite B1, <- Hp, B2 by auto. auto.
        - rewrite (proj2 (nth_error_None l j)) by lia. rewrite (proj2 (nth_error_None (dl c) j)) by lia. auto. }
      cbn [mapM map]. rewrite L1. cbn [bind]. rewrite IH by (intros; apply Hsub; right; auto). cbn [bind].
      rewrite El. auto. }
    apply Hm; auto.
  Qed.

  (** Equality constraints only, split duals. *)
  Lemma dual_crash : dual_split s = true -> neqs = [] -> eqs <> [] ->
      dual_info (dual_split s) (dual_vec0 s) (dual_vec1 s) eqs neqs (m :: rest) = Err IndexError.
  Proof.
    intros Hs Hn He.
    destruct (mapM_ok _ _ (chase rest) (fun u c => True) (map fst m)) as (cs & Ec & _).
    { intros u Hu. destruct (HC u Hu) as (c & H1 & H2). eauto. }
    unfold dual_info. cbn [dual_ids]. rewrite Ec, Hs, Hn. cbn [bind].
    replace (nth_error (offsets (map snd (eqs ++ []))) (length eqs)) with (@None nat); auto.
    symmetry. apply nth_error_None. rewrite app_nil_r. unfold offsets. rewrite psums_length.
    rewrite removelast_length, map_length. destruct eqs as [|e l]; [congruence|]. simpl. lia.
  Qed.

  (** Slices of different constraints in the same vector do not overlap. *)
  Lemma placed_disjoint : forall c c' v o o' z z', placed c v o z -> placed c' v o' z' -> c <> c' ->
      (dual_split s = true -> dual_vec0 s <> dual_vec1 s) -> o + z <= o' \/ o' + z' <= o.
  Proof.
    intros c c' v o o' z z' (_ & H1) (_ & H2) Hne Hv. rewrite map_app in HN.
    assert (N1 : NoDup (map fst eqs)) by (eapply NoDup_app_l; eauto).
    assert (N2 : NoDup (map fst neqs)) by (eapply NoDup_app_r; eauto).
    destruct (dual_split s).
    - destruct H1 as [(_ & -> & A1 & A2)|(_ & -> & A1 & A2)]; destruct H2 as [(_ & B0 & B1 & B2)|(_ & B0 & B1 & B2)].
      + eapply (offsets_disjoint eqs); eauto.
      + exfalso. apply Hv; auto.
      + exfalso. apply Hv; auto.
      + eapply (offsets_disjoint neqs); eauto.
    - destruct H1 as (-> & A1 & A2). destruct H2 as (_ & B1 & B2).
      eapply (offsets_disjoint con); eauto. rewrite map_app. auto.
  Qed.

  (** Every entry of a block layout belongs to a block. *)
  Lemma offsets_cover : forall l o k, NoDup (map fst l) -> o <= k < o + list_sum (map snd l) ->
      exists c p z, lookup c (var_offsets o l) = Some p /\ lookup c l = Some z /\ p <= k < p + z.
  Proof.
    induction l as [|[i z] l IH]; simpl; intros o k Hnd Hk. lia. inversion Hnd; subst.
    destruct (Nat.lt_ge_cases k (o + z)) as [Hlt|Hge].
    - exists i, o, z. rewrite Nat.eqb_refl. repeat split; auto; lia.
    - destruct (IH (o + z) k H2) as (c & p & z' & A1 & A2 & A3). lia.
      exists c, p, z'. assert (Hne : Nat.eqb c i = false).
      { apply Nat.eqb_neq. intros ->. apply H1. apply lookup_in in A2. apply (in_map fst) in A2. auto. }
      rewrite Hne. auto.
  Qed.

  Lemma cat_length : forall l, (forall i z, In (i, z) l -> length (dl i) = z) -> length (cat l) = list_sum (map snd l).
  Proof.
    unfold cat. induction l as [|[i z] l IH]; simpl; intro H; auto.
    rewrite app_length, (H i z), IH; auto.
  Qed.

  Lemma placed_cover : forall vecs v k, duals_in vecs -> (v = dual_vec0 s \/ (dual_split s = true /\ v = dual_vec1 s)) ->
      k < length (vecs v) -> exists c o z, In c (map fst con) /\ placed c v o z /\ o <= k < o + z.
  Proof.
    intros vecs v k HD Hv Hk. unfold duals_in, placed in *.
    assert (N1 : NoDup (map fst eqs)) by (rewrite map_app in HN; eapply NoDup_app_l; eauto).
    assert (N2 : NoDup (map fst neqs)) by (rewrite map_app in HN; eapply NoDup_app_r; eauto).
    assert (G : forall l, NoDup (map fst l) -> (forall i z, In (i, z) l -> length (dl i) = z) -> k < length (cat l) ->
       exists c o z, In c (map fst l) /\ length (dl c) = z /\ lookup c (var_offsets 0 l) = Some o /\ lookup c l = Some z /\ o <= k < o + z).
    { intros l Hn Hl Hc. rewrite cat_length in Hc by auto.
      destruct (offsets_cover l 0 k Hn) as (c & p & z & A1 & A2 & A3). lia.
      exists c, p, z. pose proof (lookup_in _ _ _ _ A2) as A4. repeat split; auto; try lia.
      apply (in_map fst) in A4. auto. }
    destruct (dual_split s) eqn:Es.
    - destruct HD as [D1 D2]. destruct Hv as [->|[_ ->]].
      + rewrite D1 in Hk. destruct (G eqs) as (c & o & z & A0 & A1 & A2 & A3 & A4); auto.
        { intros; apply HL; apply in_or_app; auto. }
        exists c, o, z. rewrite map_app. split; [apply in_or_app; auto|]. split; auto. split; auto.
      + rewrite D2 in Hk. destruct (G neqs) as (c & o & z & A0 & A1 & A2 & A3 & A4); auto.
        { intros; apply HL; apply in_or_app; auto. }
        exists c, o, z. rewrite map_app. split; [apply in_or_app; auto|]. split; auto. split; auto.
    - destruct Hv as [->|[Hx _]]; [|discriminate]. rewrite HD in Hk.
      destruct (G con) as (c & o & z & A0 & A1 & A2 & A3 & A4); auto.
      exists c, o, z. split; [exact A0|]. split; [|exact A4]. split; [exact A1|]. auto.
  Qed.
End Dual.

(** Index ranges of the variables. *)
Lemma prim_info_range : forall red us ps, vars_ok red us -> prim_info red us = Ok ps ->
    Forall2 (fun u p => exists o, lookup (uv_id u) (var_offsets 0 red) = Some o
                 /\ forall k, In k (pi_idx p) -> o <= k < o + packed_size u) us ps.
Proof.
  intros red us ps HV Hp. unfold prim_info in Hp. apply mapM_Forall2 in Hp.
  assert (Hs : forall u, In u us -> uv_sym u = true -> exists n, uv_shape u = [n; n]) by apply (vo_square _ _ HV).
  clear HV. induction Hp as [|a b l l' H1 H2 IH]; constructor.
  - destruct (lookup (uv_id a) (var_offsets 0 red)) as [o|]; [|discriminate]. cbn [key bind] in H1.
    exists o. split; auto. unfold packed_size. destruct (uv_sym a) eqn:Es.
    + destruct (Hs a (or_introl eq_refl) Es) as (n & En). rewrite En in *.
      cbn [bind] in H1. injection H1 as <-. simpl. intros k Hk. apply in_map_iff in Hk.
      destruct Hk as (c & <- & Hc). apply tri_cols_lt in Hc. lia.
    + cbn [bind] in H1. injection H1 as <-. simpl. intros k Hk. apply in_seq in Hk. lia.
  - apply IH. intros; apply Hs; auto. right; auto.
Qed.

Lemma Forall2_nth_r : forall A B (P : A -> B -> Prop) l l' i b, Forall2 P l l' -> nth_error l' i = Some b ->
    exists a, nth_error l i = Some a /\ P a b.
Proof.
  intros A B P l l' i b H. revert i. induction H; intros i Hi; destruct i; try discriminate; simpl in *.
  - injection Hi as ->. eauto.
  - auto.
Qed.

Lemma prim_disjoint : forall red us ps,
    vars_ok red us -> NoDup (map fst red) -> NoDup (map uv_id us) -> prim_info red us = Ok ps ->
    forall i j p q k, i <> j -> nth_error ps i = Some p -> nth_error ps j = Some q ->
    In k (pi_idx p) -> ~ In k (pi_idx q).
Proof.
  intros red us ps HV HN HU Hp i j p q k Hij Hi Hj Hk Hk'.
  pose proof (prim_info_range red us ps HV Hp) as HF.
  destruct (Forall2_nth_r _ _ _ _ _ i p HF Hi) as (u & Hu & o & Ho & Hr).
  destruct (Forall2_nth_r _ _ _ _ _ j q HF Hj) as (w & Hw & o' & Ho' & Hr').
  specialize (Hr k Hk). specialize (Hr' k Hk').
  assert (Hne : uv_id u <> uv_id w).
  { intro E. apply Hij. apply (proj1 (NoDup_nth_error (map uv_id us)) HU).
    - rewrite map_length. apply nth_error_Some. congruence.
    - rewrite !nth_error_map, Hu, Hw. simpl. congruence. }
  pose proof (vo_size _ _ HV u (nth_error_In _ _ Hu)) as S1.
  pose proof (vo_size _ _ HV w (nth_error_In _ _ Hw)) as S2.
  destruct (offsets_disjoint red 0 _ _ _ _ _ _ HN Hne S1 S2 Ho Ho'); lia.
Qed.
