(** Proofs about parameter passing. *)

From Coq Require Import String Arith Bool Lia List.
From Verif Require Import Base Pus Machine PusParse PusCheck PusLift Runtime RuntimeSpec RuntimeProofs Retrieve RetrieveProofs Wrapper WrapperProofs Params.
Import ListNotations.

(** Parameters as CVXPY builds them. *)
Definition up_wf (u : uparam) : Prop :=
  match up_attr u with
  | PPlain => True
  | PDiag => exists n, up_shape u = [n; n]
  | PSparse idx => NoDup idx /\ Forall (in_shape (up_shape u)) idx
  end.

(** The entries of CVXPY's parameter vector for the array [a]: all entries in column-major order,
    the diagonal, or the entries of the pattern. *)
Definition cvx_entries {V} (u : uparam) (a : list nat -> V) (l : list V) : Prop :=
  match up_attr u with
  | PPlain => length l = fsize (up_shape u)
              /\ forall idx, in_shape (up_shape u) idx -> nth_error l (fpos (up_shape u) idx) = Some (a idx)
  | PDiag => forall n, up_shape u = [n; n] -> length l = n /\ forall i, i < n -> nth_error l i = Some (a [i; i])
  | PSparse idx => length l = length idx /\ forall k p, nth_error idx k = Some p -> nth_error l k = Some (a p)
  end.

(** Stored as one entry of a larger array. *)
Definition lone (u : uparam) : Prop := up_red u = 1 /\ fsize (up_shape u) <> 1.

Lemma prod_one : forall h t, h * t = 1 -> h = 1 /\ t = 1.
Proof. intros h t H. destruct h as [|[|h]], t as [|[|t]]; simpl in *; lia. Qed.
Lemma shape_one : forall sh idx, fsize sh = 1 -> in_shape sh idx -> idx = map (fun _ => 0) sh.
Proof.
  intros sh idx E H. induction H as [|h t i is Hi H IH]; simpl; auto.
  unfold fsize in *. simpl in E. apply prod_one in E. destruct E as [-> E]. rewrite IH by auto. f_equal. lia.
Qed.
Lemma shape_one_in : forall sh, fsize sh = 1 -> in_shape sh (map (fun _ => 0) sh).
Proof.
  unfold fsize. induction sh as [|h t IH]; simpl; intro E; constructor.
  - apply prod_one in E. lia.
  - apply IH. apply prod_one in E. tauto.
Qed.

Lemma is_array_true : forall n, n <> 0 -> n <> 1 -> is_array n = true.
Proof. intros n H0 H1. apply Nat.ltb_lt. lia. Qed.

Lemma field_ok : forall V (u : uparam) (a : list nat -> V), up_wf u -> up_red u <> 0 -> ~ lone u ->
  exists l, field u (Some a) = Ok l /\ cvx_entries u a l.
Proof.
  intros V u a W H0 HL. unfold field, get_param_value.
  destruct (Nat.eqb_spec (fsize (up_shape u)) 1) as [E1|E1].
  - cbn [bind]. unfold up_wf, up_red, cvx_entries, assign in *. destruct (up_attr u) as [| |idx].
    + rewrite E1. exists [a (map (fun _ => 0) (up_shape u))]. split; [reflexivity|]. split; [reflexivity|].
      intros idx Hi. rewrite (shape_one _ _ E1 Hi) at 2. pose proof (fpos_lt _ _ Hi) as Hf. rewrite E1 in Hf.
      replace (fpos (up_shape u) idx) with 0 by lia. reflexivity.
    + destruct W as (n & Es). rewrite Es in *. unfold fsize in E1. simpl in E1. rewrite Nat.mul_1_r in E1.
      apply prod_one in E1. destruct E1 as [-> _]. simpl. eexists. split; [reflexivity|]. intros m Em. injection Em as <-.
      split; [reflexivity|]. intros [|i] Hi; [reflexivity|lia].
    + destruct W as (ND & W). destruct idx as [|p [|p2 idx]]; [simpl in H0; lia| |].
      * simpl. eexists. split; [reflexivity|]. split; [reflexivity|]. intros [|k] q Hq; [|destruct k; discriminate].
        cbn in Hq. injection Hq as <-. inversion W as [|? ? A1 _]; subst. rewrite (shape_one _ _ E1 A1). reflexivity.
      * exfalso. inversion W as [|? ? A1 W2]; subst. inversion W2 as [|? ? A2 _]; subst.
        inversion ND as [|? ? Hn _]; subst. apply Hn. left.
        rewrite (shape_one _ _ E1 A1), (shape_one _ _ E1 A2). reflexivity.
  - assert (Hr : is_array (up_red u) = true).
    { apply is_array_true; auto. intro E. apply HL. split; auto. }
    unfold up_wf, cvx_entries, assign in *. destruct (up_attr u) as [| |idx] eqn:Ea; cbn [bind]; rewrite Hr; cbn [andb];
      unfold up_red; rewrite Ea.
    + unfold flattenF. rewrite map_length, fidx_length, Nat.eqb_refl. eexists. split; [reflexivity|].
      split; [rewrite map_length; apply fidx_length|]. intros idx Hi. apply map_nth_error. apply nth_fidx. exact Hi.
    + rewrite map_length, seq_length, Nat.eqb_refl. eexists. split; [reflexivity|]. intros n En. rewrite En. cbn [hd].
      split; [rewrite map_length, seq_length; reflexivity|]. intros i Hi.
      change (Some (a [i; i])) with (Some ((fun i => a [i; i]) i)). apply map_nth_error.
      rewrite (nth_error_nth' _ 0) by (rewrite seq_length; exact Hi). rewrite seq_nth by exact Hi. reflexivity.
    + rewrite map_length, Nat.eqb_refl. eexists. split; [reflexivity|]. split; [apply map_length|].
      intros k p Hp. apply map_nth_error. exact Hp.
Qed.

Lemma field_lone : forall V (u : uparam) (a : list nat -> V), up_wf u -> lone u -> field u (Some a) = Err TypeError.
Proof.
  intros V u a W (H1 & H2). unfold field, get_param_value. apply Nat.eqb_neq in H2. rewrite H2.
  destruct (up_attr u); cbn [bind]; unfold assign; rewrite H1; reflexivity.
Qed.

Lemma cvx_entries_length : forall V u (a : list nat -> V) l, up_wf u -> cvx_entries u a l -> length l = up_red u.
Proof.
  intros V u a l W H. unfold up_wf, cvx_entries, up_red in *. destruct (up_attr u).
  - apply H.
  - destruct W as (n & E). rewrite E. apply (H n E).
  - apply H.
Qed.

(** The entries are determined by the array, and depend on its values inside the shape only. *)
Lemma cvx_entries_ext : forall V u (a b : list nat -> V) l l', up_wf u ->
  (forall idx, in_shape (up_shape u) idx -> a idx = b idx) -> cvx_entries u a l -> cvx_entries u b l' -> l = l'.
Proof.
  intros V u a b l l' W Hab H H'. pose proof (cvx_entries_length _ _ _ _ W H) as L. pose proof (cvx_entries_length _ _ _ _ W H') as L'.
  assert (Hk : forall k, k < up_red u -> nth_error l k = nth_error l' k).
  { intros k Hk. unfold up_wf, cvx_entries, up_red in *. destruct (up_attr u) as [| |idx].
    - destruct H as (_ & H), H' as (_ & H').
      destruct (nth_error (fidx (up_shape u)) k) as [idx|] eqn:E.
      2: { apply nth_error_None in E. rewrite fidx_length in E. lia. }
      pose proof (proj1 (fidx_in _ _) (nth_error_In _ _ E)) as Hin.
      assert (fpos (up_shape u) idx = k) as <-.
      { pose proof (map_nth_error (fpos (up_shape u)) _ _ E) as E2. rewrite map_fpos in E2.
        rewrite (nth_error_nth' _ 0) in E2 by (rewrite seq_length; exact Hk). rewrite seq_nth in E2 by exact Hk.
        injection E2 as E2. lia. }
      rewrite H, H' by exact Hin. f_equal. apply Hab. exact Hin.
    - destruct W as (n & E). rewrite E in *. destruct (H n eq_refl) as (_ & Hn), (H' n eq_refl) as (_ & Hn'). cbn [hd] in Hk.
      rewrite Hn, Hn' by exact Hk. f_equal. apply Hab. repeat constructor; exact Hk.
    - destruct H as (_ & H), H' as (_ & H').
      destruct (nth_error idx k) as [p|] eqn:E; [|apply nth_error_None in E; lia].
      rewrite (H k p E), (H' k p E). f_equal. apply Hab. destruct W as (_ & W).
      rewrite Forall_forall in W. apply W. eapply nth_error_In; eauto. }
  clear - L L' Hk. revert l' L' Hk. generalize dependent (up_red u). intros n L. revert n L.
  induction l as [|x l IH]; intros n L [|y l'] L' Hk; simpl in L, L'; subst n; try discriminate; auto.
  f_equal.
  - specialize (Hk 0). simpl in Hk. assert (Some x = Some y) as E by (apply Hk; lia). congruence.
  - eapply IH; [reflexivity|congruence|]. intros k Hk'. apply (Hk (S k)). simpl. lia.
Qed.

(** ** Sessions of user calls *)
Section Sessions.
  Variable N : Num.
  Variable sv : Type.
  Variable ups : list uparam.
  Hypothesis HN : NoDup (map up_name ups).
  Hypothesis HW : Forall up_wf ups.
  Hypothesis H0 : Forall (fun u => up_red u <> 0) ups.
  Hypothesis HL : Forall (fun u => ~ lone u) ups.
  Notation call := (to_call ups).

  Definition arrays := string -> list nat -> car N.

  (** [th] are the entries of CVXPY's parameter vector for the arrays [a]. *)
  Definition entries_of (a : arrays) (th : pvals N) : Prop :=
    forall u, In u ups -> cvx_entries u (a (up_name u)) (map (th (up_name u)) (seq 0 (up_red u))).
  (** All parameters have values, namely [a]. *)
  Definition values_are (c : ucall N sv) (a : arrays) : Prop :=
    forall u, In u ups -> uc_val c (up_name u) = Some (a (up_name u)).
  (** updated_params lists every parameter whose array differs from [prev]. *)
  Definition names_changes (prev a : arrays) (c : ucall N sv) : Prop :=
    forall l, uc_upd c = Some l -> forall u, In u ups -> ~ In (up_name u) l ->
    forall idx, in_shape (up_shape u) idx -> a (up_name u) idx = prev (up_name u) idx.
  Fixpoint all_named (prev : arrays) (cs : list (ucall N sv * arrays)) : Prop :=
    match cs with [] => True | (c, a) :: t => names_changes prev a c /\ all_named a t end.

  Lemma find_up_in : forall u, In u ups -> find_up ups (up_name u) = Some u.
  Proof.
    intros u Hu. unfold find_up. clear H0 HL HW. induction ups as [|v l IH]; [destruct Hu|].
    simpl. inversion HN; subst. destruct (String.eqb_spec (up_name v) (up_name u)) as [E|E].
    - destruct Hu as [->|Hu]; auto. exfalso. apply H1. rewrite E. apply in_map. exact Hu.
    - destruct Hu as [->|Hu]; [congruence|]. auto.
  Qed.

  Lemma up_params_in : forall n s, In (n, s) (up_params ups) <-> exists u, In u ups /\ n = up_name u /\ s = up_red u.
  Proof.
    intros n s. unfold up_params. rewrite in_map_iff. split.
    - intros (u & E & Hu). injection E as <- <-. eauto.
    - intros (u & Hu & -> & ->). eauto.
  Qed.
  Lemma up_params_names : map fst (up_params ups) = map up_name ups.
  Proof. unfold up_params. rewrite map_map. reflexivity. Qed.

  Variable g : genc N.
  Hypothesis Hp : g_params g = up_params ups.

  Lemma call_vals : forall c a, values_are c a -> vals_ok N g sv (call c) /\ entries_of a (vals_of N sv (call c)).
  Proof.
    intros c a Hv. assert (HF : forall u, In u ups -> exists l, c_vals (call c) (up_name u) = Ok l /\ cvx_entries u (a (up_name u)) l /\ length l = up_red u).
    { intros u Hu. rewrite Forall_forall in HW, H0, HL.
      destruct (field_ok _ u (a (up_name u)) (HW u Hu) (H0 u Hu) (HL u Hu)) as (l & E & HE).
      exists l. cbn [c_vals to_call]. rewrite (find_up_in u Hu), (Hv u Hu), E. split; auto. split; auto.
      apply (cvx_entries_length _ u (a (up_name u))); auto. }
    split.
    - intros n s Hin. rewrite Hp in Hin. apply up_params_in in Hin. destruct Hin as (u & Hu & -> & ->).
      destruct (HF u Hu) as (l & E1 & _ & E3). eauto.
    - intros u Hu. destruct (HF u Hu) as (l & E1 & E2 & E3). replace (map _ _) with l; auto.
      apply nth_ext_len with n0; [rewrite map_length, seq_length; auto|]. intros k Hk.
      symmetry. rewrite nth_indep with (d' := vals_of N sv (call c) (up_name u) 0) by (rewrite map_length, seq_length; lia).
      rewrite map_nth with (d := 0). rewrite seq_nth by lia. unfold vals_of. rewrite E1. reflexivity.
  Qed.

  Lemma entries_same : forall u (a b : arrays) th th', In u ups -> entries_of a th -> entries_of b th' ->
    (forall idx, in_shape (up_shape u) idx -> a (up_name u) idx = b (up_name u) idx) ->
    forall i, i < up_red u -> th (up_name u) i = th' (up_name u) i.
  Proof.
    intros u a b th th' Hu Ha Hb Hab i Hi. rewrite Forall_forall in HW.
    pose proof (cvx_entries_ext _ u _ _ _ _ (HW u Hu) Hab (Ha u Hu) (Hb u Hu)) as E.
    assert (Hn : forall t : pvals N, nth_error (map (t (up_name u)) (seq 0 (up_red u))) i = Some (t (up_name u) i)).
    { intro t. apply map_nth_error. rewrite (nth_error_nth' _ 0) by (rewrite seq_length; exact Hi). rewrite seq_nth by exact Hi. reflexivity. }
    pose proof (Hn th) as E1. rewrite E, Hn in E1. congruence.
  Qed.

  Lemma named_cover : forall cs prev th, entries_of prev th -> Forall (fun ca => values_are (fst ca) (snd ca)) cs ->
    all_named prev cs -> all_cover N g sv th (map (fun ca => call (fst ca)) cs).
  Proof.
    induction cs as [|[c a] cs IH]; intros prev th He Hv Hn; cbn [map all_cover fst]; auto.
    inversion Hv as [|? ? V1 V2]; subst. destruct Hn as (N1 & N2). cbn [fst snd] in V1.
    destruct (call_vals c a V1) as (_ & Hea). split.
    - intros n s Hin Hnot i Hi. rewrite Hp in Hin. apply up_params_in in Hin. destruct Hin as (u & Hu & -> & ->).
      eapply entries_same; eauto. intros idx Hidx.
      unfold updated_of in Hnot. cbn [c_upd to_call] in Hnot. destruct (uc_upd c) as [l|] eqn:El.
      + eapply N1; eauto.
      + exfalso. apply Hnot. rewrite Hp, up_params_names. apply in_map. exact Hu.
    - eapply IH; eauto.
  Qed.
End Sessions.
