(** Properties of solver choice, generation phases, prefixes and shared settings:
    C44, C45, C47 and the settings part of C46. *)

From Coq Require Import String Ascii Arith Bool Lia List.
From Verif Require Import Base Config.
Import ListNotations.
Open Scope string_scope.
Open Scope list_scope.

(** ** Specification vocabulary *)

(** The same letter, ignoring case. *)
Definition ci_char (a b : ascii) : Prop :=
  a = b \/ (is_lower a = true /\ code a = code b + 32) \/ (is_lower b = true /\ code b = code a + 32).
Fixpoint ci_eq (a b : string) : Prop :=
  match a, b with
  | EmptyString, EmptyString => True
  | String x s, String y t => ci_char x y /\ ci_eq s t
  | _, _ => False
  end.

(** ** C44 *)

Lemma code_inj : forall a b, code a = code b -> a = b.
Proof. intros a b H. unfold code in H. rewrite <- (ascii_nat_embedding a), <- (ascii_nat_embedding b), H. reflexivity. Qed.
Lemma code_lt : forall a, code a < 256.
Proof. intro a. apply nat_ascii_bounded. Qed.
Lemma code_of : forall n, n < 256 -> code (ascii_of_nat n) = n.
Proof. intros. unfold code. apply nat_ascii_embedding. auto. Qed.

Lemma in_range_true : forall lo hi c, in_range lo hi c = true <-> lo <= code c <= hi.
Proof. intros. unfold in_range. rewrite andb_true_iff, !Nat.leb_le. reflexivity. Qed.

Lemma upper_code : forall a, code (upper_c a) = if is_lower a then code a - 32 else code a.
Proof.
  intro a. unfold upper_c. destruct (is_lower a) eqn:E; auto.
  apply code_of. pose proof (code_lt a). lia.
Qed.
Lemma lower_code : forall a, code (lower_c a) = if is_upper a then code a + 32 else code a.
Proof.
  intro a. unfold lower_c. destruct (is_upper a) eqn:E; auto.
  apply in_range_true in E. apply code_of. lia.
Qed.
Lemma is_lower_spec : forall a, is_lower a = true <-> 97 <= code a <= 122.
Proof. intro; apply in_range_true. Qed.
Lemma is_upper_spec : forall a, is_upper a = true <-> 65 <= code a <= 90.
Proof. intro; apply in_range_true. Qed.
Lemma is_lower_false : forall a, is_lower a = false <-> ~ 97 <= code a <= 122.
Proof. intro. rewrite <- is_lower_spec. destruct (is_lower a); split; intros; congruence. Qed.
Lemma is_upper_false : forall a, is_upper a = false <-> ~ 65 <= code a <= 90.
Proof. intro. rewrite <- is_upper_spec. destruct (is_upper a); split; intros; congruence. Qed.

Lemma upper_ci : forall a b, upper_c a = upper_c b <-> ci_char a b.
Proof.
  intros a b. unfold ci_char. split.
  - intro H. assert (code (upper_c a) = code (upper_c b)) as Hc by congruence.
    rewrite !upper_code in Hc.
    destruct (is_lower a) eqn:Ea, (is_lower b) eqn:Eb.
    + apply is_lower_spec in Ea, Eb. left. apply code_inj. lia.
    + apply is_lower_spec in Ea. right; left. split; auto. lia.
    + apply is_lower_spec in Eb. right; right. split; auto. lia.
    + left. apply code_inj. auto.
  - intros [H|[[H1 H2]|[H1 H2]]].
    + subst; auto.
    + apply code_inj. rewrite !upper_code, H1. apply is_lower_spec in H1.
      destruct (is_lower b) eqn:Eb; [apply is_lower_spec in Eb|]; lia.
    + apply code_inj. rewrite !upper_code, H1. apply is_lower_spec in H1.
      destruct (is_lower a) eqn:Ea; [apply is_lower_spec in Ea|]; lia.
Qed.
Lemma lower_ci : forall a b, lower_c a = lower_c b <-> ci_char a b.
Proof.
  intros a b. unfold ci_char. split.
  - intro H. assert (code (lower_c a) = code (lower_c b)) as Hc by congruence.
    rewrite !lower_code in Hc.
    destruct (is_upper a) eqn:Ea, (is_upper b) eqn:Eb.
    + left. apply code_inj. lia.
    + apply is_upper_spec in Ea. right; right. split; [apply is_lower_spec|]; lia.
    + apply is_upper_spec in Eb. right; left. split; [apply is_lower_spec|]; lia.
    + left. apply code_inj. auto.
  - intros [H|[[H1 H2]|[H1 H2]]].
    + subst; auto.
    + apply code_inj. rewrite !lower_code. apply is_lower_spec in H1.
      destruct (is_upper a) eqn:Ea; [apply is_upper_spec in Ea; lia|].
      destruct (is_upper b) eqn:Eb; [lia|apply is_upper_false in Eb; lia].
    + apply code_inj. rewrite !lower_code. apply is_lower_spec in H1.
      destruct (is_upper b) eqn:Eb; [apply is_upper_spec in Eb; lia|].
      destruct (is_upper a) eqn:Ea; [lia|apply is_upper_false in Ea; lia].
Qed.
Lemma upper_ci_s : forall a b, upper a = upper b <-> ci_eq a b.
Proof.
  unfold upper. induction a as [|x a IH]; intros [|y b]; simpl; split; intro H; try discriminate; auto; try contradiction.
  - injection H as H1 H2. split; [apply upper_ci; auto|apply IH; auto].
  - destruct H as [H1 H2]. apply upper_ci in H1. apply IH in H2. congruence.
Qed.
Lemma lower_ci_s : forall a b, lower a = lower b <-> ci_eq a b.
Proof.
  unfold lower. induction a as [|x a IH]; intros [|y b]; simpl; split; intro H; try discriminate; auto; try contradiction.
  - injection H as H1 H2. split; [apply lower_ci; auto|apply IH; auto].
  - destruct H as [H1 H2]. apply lower_ci in H1. apply IH in H2. congruence.
Qed.

(** The documented solver names. *)
Definition supported : list (string * iface) :=
  [("OSQP", IOSQP); ("SCS", ISCS); ("ECOS", IECOS); ("CLARABEL", ICLARABEL);
   ("QOCO", IQOCO); ("QOCOGEN", IQOCOGEN); ("PDAQP", IPDAQP)].

Lemma assoc_upper : forall (l : list (string * iface)) n i,
    (forall m j, In (m, j) l -> upper m = m) -> NoDup (map fst l) ->
    (assoc (upper n) l = Some i <-> exists m, In (m, i) l /\ ci_eq n m).
Proof.
  intros l n i Hu ND. split.
  - induction l as [|[m j] l IH]; simpl; [discriminate|].
    destruct (String.eqb (upper n) m) eqn:E; intro H.
    + injection H as ->. apply String.eqb_eq in E. exists m. split; [left; auto|].
      apply upper_ci_s. rewrite E. symmetry. apply (Hu m i). left; auto.
    + inversion ND as [|? ? N1 N2]; subst. destruct IH as (m' & H1 & H2); auto.
      * intros m0 j0 Hm. apply (Hu m0 j0). right; auto.
      * exists m'. split; auto. 
  - intros (m & H1 & H2). apply upper_ci_s in H2. rewrite (Hu m i H1) in H2. rewrite H2.
    clear n H2. induction l as [|[m' j] l IH]; simpl; [contradiction|].
    inversion ND as [|? ? N1 N2]; subst. simpl in H1. destruct H1 as [H1|H1].
    + injection H1 as -> ->. rewrite String.eqb_refl. auto.
    + destruct (String.eqb m m') eqn:E.
      * apply String.eqb_eq in E. subst m'. exfalso. apply N1. apply (in_map fst) in H1. exact H1.
      * apply IH; auto. intros m0 j0 Hm. apply (Hu m0 j0). right; auto.
Qed.

Lemma supported_upper : forall m j, In (m, j) supported -> upper m = m.
Proof. intros m j H. simpl in H. repeat (destruct H as [H|H]; [injection H as <- <-; reflexivity|]). contradiction. Qed.
Lemma supported_nodup : NoDup (map fst supported).
Proof. repeat constructor; simpl; intuition discriminate. Qed.

(** Names are matched case-insensitively; everything else raises ValueError. *)
Theorem C44_solver_names :
  forall n, (forall i, get_interface false (Some n) = Ok i <-> exists m, In (m, i) supported /\ ci_eq n m)
            /\ ((~ exists m i, In (m, i) supported /\ ci_eq n m) -> get_interface false (Some n) = Err ValueError).
Proof.
  intro n. assert (H : forall i, assoc (upper n) mapping = Some i <-> exists m, In (m, i) supported /\ ci_eq n m).
  { intro i. apply (assoc_upper supported n i supported_upper supported_nodup). }
  unfold get_interface. cbn [andb]. split.
  - intro i. rewrite <- H. destruct (assoc (upper n) mapping); split; intro E; congruence.
  - intro Hn. destruct (assoc (upper n) mapping) as [i|] eqn:E; auto.
    exfalso. apply Hn. destruct (proj1 (H i) eq_refl) as (m & Em). exists m, i. exact Em.
Qed.
Print Assumptions C44_solver_names.

(** On Windows Clarabel is the only additional exclusion. *)
Theorem C44_windows : forall n,
  get_interface true (Some n) = if mem_str (upper n) ["CLARABEL"] then Err ValueError else get_interface false (Some n).
Proof. intro n. reflexivity. Qed.
Print Assumptions C44_windows.

(** 'explicit' in any case selects explicit mode, with duals iff requested; any other name
    is passed on unchanged in non-explicit mode. *)
Theorem C44_explicit : forall n dual,
  (ci_eq n "explicit" -> resolve (Some n) dual = (Some "PDAQP", if dual then 2 else 1))
  /\ (~ ci_eq n "explicit" -> resolve (Some n) dual = (Some n, 0)).
Proof.
  intros n dual. assert (H : String.eqb (lower n) "explicit" = true <-> ci_eq n "explicit").
  { rewrite String.eqb_eq. change "explicit" with (lower "explicit") at 1. apply lower_ci_s. }
  unfold resolve. destruct (String.eqb (lower n) "explicit"); split; intro E; auto.
  - exfalso. apply E. apply H. auto.
  - apply H in E. discriminate.
Qed.
Print Assumptions C44_explicit.

(** Which path a generation takes: the two-stage path exactly for gradients of a non-explicit
    solver whose name is not literally 'OSQP'. *)
Theorem C44_two_stage : forall n gradient dual,
  is_two_stage gradient (fst (resolve (Some n) dual)) (snd (resolve (Some n) dual)) = true
  <-> gradient = true /\ n <> "OSQP" /\ ~ ci_eq n "explicit".
Proof.
  intros n gradient dual. destruct (C44_explicit n dual) as [H1 H2].
  assert (D : ci_eq n "explicit" \/ ~ ci_eq n "explicit").
  { destruct (String.eqb (lower n) "explicit") eqn:E.
    - left. apply String.eqb_eq in E. apply lower_ci_s. exact E.
    - right. intro H. apply String.eqb_neq in E. apply E. change "explicit" with (lower "explicit"). apply lower_ci_s. exact H. }
  destruct D as [D|D].
  - rewrite (H1 D). unfold is_two_stage. cbn [fst snd]. split; [|tauto].
    intro H. destruct dual; rewrite andb_comm in H; discriminate.
  - rewrite (H2 D). unfold is_two_stage. cbn [fst snd]. destruct (String.eqb_spec n "OSQP") as [E|E]; destruct gradient; cbn; split; intro H; try discriminate; tauto.
Qed.
Print Assumptions C44_two_stage.

Example C44_example : get_interface false (Some "Clarabel") = Ok ICLARABEL
  /\ get_interface false (Some "GUROBI") = Err ValueError /\ resolve (Some "ExPlicit") true = (Some "PDAQP", 2).
Proof. vm_compute. auto. Qed.

(** The documented default (no solver) raises AttributeError for every problem, and
    lower-case 'osqp' with gradient=True takes the two-stage path although it denotes the
    same interface as 'OSQP', which does not. *)
Theorem C44_default_refuted :
  (forall windows data data2 mg bs lk gradient dual,
     exists e, generate_code windows data data2 mg bs lk None gradient dual = (Old, Err e))
  /\ forall windows data data2 mg bs lk dual,
     generate_code windows data data2 mg bs lk None false dual = (Old, Err AttributeError).
Proof.
  split.
  - intros. unfold generate_code, resolve, canonicalization. destruct (is_two_stage gradient None 0).
    + destruct (extract _ _ _); simpl; eauto.
    + simpl. eauto.
  - reflexivity.
Qed.
Print Assumptions C44_default_refuted.

Theorem C44_lower_case_osqp_refuted :
  get_interface false (Some "osqp") = get_interface false (Some "OSQP")
  /\ is_two_stage true (Some "osqp") 0 = true /\ is_two_stage true (Some "OSQP") 0 = false.
Proof. vm_compute. auto. Qed.
Print Assumptions C44_lower_case_osqp_refuted.

(** ** C45 *)

(** Failures found during canonicalization leave the directory as it was. *)
Theorem C45_failed_canonicalization_keeps_directory :
  forall windows data data2 mg bs lk solver gradient dual e,
  canonicalization windows data data2 mg (fst (resolve solver dual))
     (is_two_stage gradient (fst (resolve solver dual)) (snd (resolve solver dual))) = Err e ->
  generate_code windows data data2 mg bs lk solver gradient dual = (Old, Err e).
Proof.
  intros windows data data2 mg bs lk solver gradient dual e H. unfold generate_code.
  destruct (resolve solver dual) as [name ex]. simpl in *. rewrite H. reflexivity.
Qed.
Print Assumptions C45_failed_canonicalization_keeps_directory.

(** The named causes.  One-stage generation: solver name not supported, CVXPY rejects the
    problem (not DPP), no parameters, cone not supported by the interface. *)
Theorem C45_problem_errors_keep_directory :
  forall windows data data2 mg bs lk solver gradient dual,
  let name := fst (resolve solver dual) in
  let ex := snd (resolve solver dual) in
  is_two_stage gradient name ex = false ->
  (forall e, get_interface windows name = Err e ->
     generate_code windows data data2 mg bs lk solver gradient dual = (Old, Err e))
  /\ (forall i e, get_interface windows name = Ok i -> data i = Err e ->
     generate_code windows data data2 mg bs lk solver gradient dual = (Old, Err e))
  /\ (forall i d, get_interface windows name = Ok i -> data i = Ok d -> d_params d = 0 ->
     generate_code windows data data2 mg bs lk solver gradient dual = (Old, Err ValueError))
  /\ (forall i d c e, get_interface windows name = Ok i -> data i = Ok d -> d_params d <> 0 ->
     d_cones d = Some c -> check_cones i c = Err e ->
     generate_code windows data data2 mg bs lk solver gradient dual = (Old, Err e)).
Proof.
  intros windows data data2 mg bs lk solver gradient dual name ex H2.
  unfold generate_code. unfold name, ex in *. clear name ex.
  destruct (resolve solver dual) as [name ex]. cbn [fst snd] in *. rewrite H2.
  unfold canonicalization, extract. split; [|split; [|split]].
  - intros e E. rewrite E. reflexivity.
  - intros i e E1 E2. rewrite E1. cbn [bind]. rewrite E2. reflexivity.
  - intros i d E1 E2 E3. rewrite E1. cbn [bind]. rewrite E2. cbn [bind]. rewrite E3. reflexivity.
  - intros i d c e E1 E2 E3 E4 E5. rewrite E1. cbn [bind]. rewrite E2. cbn [bind].
    apply Nat.eqb_neq in E3. rewrite E3, E4, E5. reflexivity.
Qed.
Print Assumptions C45_problem_errors_keep_directory.

(** The same in two-stage mode, where the first extraction is for OSQP. *)
Theorem C45_two_stage_errors_keep_directory :
  forall windows data data2 mg bs lk solver gradient dual,
  let name := fst (resolve solver dual) in
  is_two_stage gradient name (snd (resolve solver dual)) = true ->
  (forall e, extract windows data (Some "OSQP") = Err e ->
     generate_code windows data data2 mg bs lk solver gradient dual = (Old, Err e))
  /\ (forall d e, extract windows data (Some "OSQP") = Ok d -> extract windows data2 name = Err e ->
     generate_code windows data data2 mg bs lk solver gradient dual = (Old, Err e))
  /\ (forall d d2 e, extract windows data (Some "OSQP") = Ok d -> extract windows data2 name = Ok d2 ->
     mg = Err e ->
     generate_code windows data data2 mg bs lk solver gradient dual = (Old, Err e)).
Proof.
  intros windows data data2 mg bs lk solver gradient dual name H2.
  unfold generate_code. unfold name in *. clear name.
  destruct (resolve solver dual) as [name ex]. cbn [fst snd] in *. rewrite H2.
  unfold canonicalization. split; [|split].
  - intros e E. rewrite E. reflexivity.
  - intros d e E1 E2. rewrite E1. cbn [bind]. rewrite E2. reflexivity.
  - intros d d2 e E1 E2 ->. rewrite E1. cbn [bind]. rewrite E2. reflexivity.
Qed.
Print Assumptions C45_two_stage_errors_keep_directory.

Example C45_example :
  generate_code false (fun _ => Err TypeError) (fun _ => Err TypeError) (Ok tt) true (Ok tt) (Some "ecos") false false
  = (Old, Err TypeError)
  /\ generate_code false (fun _ => Ok (mkPD 1 (Some (1, 0, 0)) (Ok tt) true true)) (fun _ => Err TypeError) (Ok tt)
       true (Ok tt) (Some "ecos") false false = (Old, Err ValueError)
  /\ generate_code false (fun _ => Ok (mkPD 1 (Some (1, 0, 0)) (Ok tt) true true)) (fun _ => Err TypeError) (Ok tt)
       true (Ok tt) (Some "clarabel") false false = (Written, Ok tt).
Proof. vm_compute. auto. Qed.

(** Explicit mode: the checks come after the directory has been deleted. *)
Theorem C45_explicit_refuted :
  exists data data2 mg lk,
    generate_code false data data2 mg true lk (Some "explicit") false false = (Emptied, Err ValueError)
    /\ (exists d, data IPDAQP = Ok d /\ d_chgA d = true).
Proof.
  exists (fun _ => Ok (mkPD 1 None (Ok tt) false true)), (fun _ => Err TypeError), (Ok tt), (Ok tt).
  vm_compute. eauto.
Qed.
Print Assumptions C45_explicit_refuted.

Theorem C45_explicit_bounds_refuted :
  exists data data2 mg lk,
    generate_code false data data2 mg false lk (Some "explicit") false false = (Emptied, Err ValueError)
    /\ (exists d, data IPDAQP = Ok d /\ d_chgA d = false /\ d_chgP d = false).
Proof.
  exists (fun _ => Ok (mkPD 1 None (Ok tt) false false)), (fun _ => Err TypeError), (Ok tt), (Ok tt).
  vm_compute. eauto.
Qed.
Print Assumptions C45_explicit_bounds_refuted.

(** ** C47 *)

(** C identifiers: letters, digits, underscores, not starting with a digit. *)
Definition ident_char (c : ascii) : bool := is_alpha c || is_digit c || Ascii.eqb c "_".
Fixpoint sall (f : ascii -> bool) (s : string) : bool :=
  match s with EmptyString => true | String c t => f c && sall f t end.
Definition ident_start (s : string) : Prop :=
  match s with
  | EmptyString => False
  | String c t => (is_alpha c = true \/ c = "_"%char) /\ sall ident_char (String c t) = true
  end.
Definition is_prefix (a b : string) : Prop := exists t, b = (a ++ t)%string.

Lemma sall_app : forall f a b, sall f (a ++ b) = sall f a && sall f b.
Proof. induction a; simpl; intros; auto. rewrite IHa. destruct (f a); auto. Qed.

Theorem C47_prefix_is_identifier_start : forall p, sall ident_char p = true ->
  gen_prefix p = "" \/ ident_start (gen_prefix p).
Proof.
  intros [|c p] H; [left; auto|right]. unfold gen_prefix. simpl in H. apply andb_true_iff in H. destruct H as [H1 H2].
  destruct (is_alpha c) eqn:E; cbn [append ident_start sall].
  - split; auto. rewrite H1, sall_app, H2. reflexivity.
  - split; auto. rewrite H1, sall_app, H2. reflexivity.
Qed.
Print Assumptions C47_prefix_is_identifier_start.

Lemma app_last_inj : forall a b, (a ++ "_")%string = (b ++ "_")%string -> a = b.
Proof.
  induction a as [|x a IH]; intros [|y b] H; simpl in H; auto.
  - injection H as H1 H2. destruct b; discriminate.
  - injection H as H1 H2. destruct a; discriminate.
  - injection H as H1 H2. rewrite H1. f_equal. apply IH. exact H2.
Qed.

Theorem C47_prefix_injective : forall p q, gen_prefix p = gen_prefix q -> p = q.
Proof.
  intros [|a p] [|b q] H; auto.
  - unfold gen_prefix in H. destruct (is_alpha b); discriminate.
  - unfold gen_prefix in H. destruct (is_alpha a); discriminate.
  - unfold gen_prefix in H. apply app_last_inj in H.
    destruct (is_alpha a) eqn:Ea, (is_alpha b) eqn:Eb; try congruence.
    + injection H as -> _. discriminate.
    + injection H as <- _. discriminate.
Qed.
Print Assumptions C47_prefix_injective.

Lemma app_prefixes : forall a b x y, (a ++ x)%string = (b ++ y)%string -> is_prefix a b \/ is_prefix b a.
Proof.
  induction a as [|c a IH]; intros [|d b] x y H.
  - left. exists ""%string. reflexivity.
  - left. exists (String d b). reflexivity.
  - right. exists (String c a). reflexivity.
  - simpl in H. injection H as -> H. destruct (IH _ _ _ H) as [[t ->]|[t ->]];
      [left|right]; exists t; reflexivity.
Qed.

(** Identifiers of two problems can only coincide if one generated prefix starts with the
    other. *)
Theorem C47_no_clash : forall p q x y,
  ~ is_prefix (gen_prefix p) (gen_prefix q) -> ~ is_prefix (gen_prefix q) (gen_prefix p) ->
  (gen_prefix p ++ x)%string <> (gen_prefix q ++ y)%string.
Proof. intros p q x y H1 H2 H. destruct (app_prefixes _ _ _ _ H); auto. Qed.
Print Assumptions C47_no_clash.

(** Prefixes of equal length (or generally: neither user prefix a string-prefix of the
    other) satisfy that condition. *)
Lemma app_assoc_s : forall a b c, ((a ++ b) ++ c)%string = (a ++ (b ++ c))%string.
Proof. induction a; simpl; intros; congruence. Qed.

Theorem C47_independent_prefixes : forall p q, p <> "" -> q <> "" ->
  ~ is_prefix p q -> ~ is_prefix q p ->
  forall x y, (gen_prefix p ++ x)%string <> (gen_prefix q ++ y)%string.
Proof.
  intros p q Hp Hq H1 H2 x y H.
  destruct p as [|a p]; [congruence|]. destruct q as [|b q]; [congruence|].
  unfold gen_prefix in H.
  assert (forall u v, (String a p ++ u)%string = (String b q ++ v)%string -> False) as HH.
  { intros u v E. destruct (app_prefixes _ _ _ _ E); auto. }
  destruct (is_alpha a) eqn:Ea, (is_alpha b) eqn:Eb; rewrite !app_assoc_s in H.
  - exact (HH _ _ H).
  - simpl in H. injection H as -> _. discriminate.
  - simpl in H. injection H as <- _. discriminate.
  - apply (HH ("_" ++ x)%string ("_" ++ y)%string). injection H as H. simpl. congruence.
Qed.
Print Assumptions C47_independent_prefixes.

Example C47_example : gen_prefix "ab" = "ab_" /\ gen_prefix "1a" = "_1a_" /\ gen_prefix "" = ""
  /\ sall ident_char "1a" = true /\ ~ is_prefix (gen_prefix "ab") (gen_prefix "ac").
Proof.
  repeat split; try reflexivity. intros [t H]. vm_compute in H. discriminate.
Qed.

(** Without the proviso identifiers do clash: parameter [cpg_solve] of the problem with
    prefix [a] and the solve function of the problem with prefix [a_cpg_update]. *)
Theorem C47_nested_prefixes_refuted :
  exists p q, p <> q
    /\ (gen_prefix p ++ "cpg_update_" ++ "cpg_solve")%string = (gen_prefix q ++ "cpg_solve")%string.
Proof. exists "a", "a_cpg_update". split; [discriminate|reflexivity]. Qed.
Print Assumptions C47_nested_prefixes_refuted.

(** Two-stage gradient code of prefix [a] uses the identifiers of prefix [gradient_a]. *)
Theorem C47_gradient_prefix_refuted :
  exists p q, p <> q /\ gradient_prefix p = gen_prefix q.
Proof. exists "a", "gradient_a". split; [discriminate|reflexivity]. Qed.
Print Assumptions C47_gradient_prefix_refuted.

(** ** C46, settings *)

Lemma iface_eqb_true : forall a b, iface_eqb a b = true <-> a = b.
Proof. intros [] []; simpl; split; intro; congruence. Qed.

Lemma names_enabled_spec : forall st n, In n (names_enabled st) <-> In (n, true) st.
Proof.
  intros st n. unfold names_enabled. rewrite in_map_iff. split.
  - intros ([m e] & E & H). apply filter_In in H. simpl in *. destruct H as [H1 H2]. subst. auto.
  - intro H. exists (n, true). split; auto. apply filter_In. auto.
Qed.

Lemma configure_in : forall st en n b, In (n, b) (configure st en) <->
    exists b0, In (n, b0) st /\ b = (b0 || mem_str n en)%bool.
Proof.
  intros st en n b. unfold configure. rewrite in_map_iff. split.
  - intros ([m e] & E & H). simpl in E. injection E as -> <-. eauto.
  - intros (b0 & H & ->). exists (n, b0). auto.
Qed.

(** The settings that are enabled after any number of generations: those enabled in the
    source, and every existing one that any earlier generation of that solver enabled. *)
Theorem C46_enabled_settings_accumulate :
  forall i st js n, In n (names_enabled (configure_all i iface_eqb st js))
    <-> In n (names_enabled st)
        \/ (In n (map fst st) /\ exists en, In (i, en) js /\ In n en).
Proof.
  intros i st js n. revert st. induction js as [|[j en] js IH]; intro st; simpl.
  - split; auto. intros [H|[_ (en & [] & _)]]; auto.
  - rewrite IH. destruct (iface_eqb i j) eqn:E.
    + apply iface_eqb_true in E. subst j.
      assert (F : map fst (configure st en) = map fst st).
      { unfold configure. rewrite map_map. reflexivity. }
      rewrite F. rewrite names_enabled_spec, configure_in, names_enabled_spec. split.
      * intros [(b0 & H1 & H2)|(H1 & en' & H2 & H3)].
        -- symmetry in H2. apply orb_true_iff in H2. destruct H2 as [->|H2]; auto.
           right. split; [apply (in_map fst) in H1; exact H1|]. exists en. split; auto. apply mem_str_In. auto.
        -- right. split; auto. exists en'. auto.
      * intros [H|(H1 & en' & [H2|H2] & H3)].
        -- left. exists true. split; auto.
        -- injection H2 as <-. left. apply in_map_iff in H1. destruct H1 as ([m b] & <- & H1).
           exists b. split; auto. apply mem_str_In in H3. simpl in *. rewrite H3. destruct b; auto.
        -- right. split; auto. exists en'. auto.
    + split; (intros [H|(H1 & en' & H2 & H3)]; [left; auto|right; split; auto]).
      * exists en'. auto.
      * destruct H2 as [H2|H2]; [|exists en'; auto].
        injection H2 as -> ->. assert (iface_eqb i i = true) by (apply iface_eqb_true; auto). congruence.
Qed.
Print Assumptions C46_enabled_settings_accumulate.

(** So a generation's settings depend on what was generated before it. *)
Theorem C46_settings_refuted :
  exists js, names_enabled (configure_all IOSQP iface_eqb osqp_stgs (js ++ [(IOSQP, [])]))
             <> names_enabled (configure_all IOSQP iface_eqb osqp_stgs [(IOSQP, [])]).
Proof. exists [(IOSQP, ["polishing"])]. vm_compute. discriminate. Qed.
Print Assumptions C46_settings_refuted.

Example C46_settings_example :
  names_enabled (configure_all IOSQP iface_eqb osqp_stgs [(ISCS, ["delta"]); (IOSQP, ["verbose"; "nonsense"])])
  = ["max_iter"; "eps_abs"; "eps_rel"; "eps_prim_inf"; "eps_dual_inf"; "scaled_termination";
     "check_termination"; "warm_starting"; "verbose"].
Proof. vm_compute. reflexivity. Qed.
