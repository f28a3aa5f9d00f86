(** C69: the struct types of generated programs, in C files that use one or several of them. *)

From Coq Require Import String List Bool Arith Lia ZArith.
From Verif Require Import Base Config Symbols CTypes CTypesSpec CTypesProofs.
Import ListNotations.
Open Scope string_scope.
Open Scope list_scope.

(** ** The structs of a program *)

Lemma sf_params : forall y, struct_fields (typedefs y) "Canon_Params_t" =
  Some (map (fun b => (fst b, if is_matrix (fst b) then TPtr (TName "cpg_csc")
                              else if String.eqb (fst b) "d" then fl else TPtr fl)) (t_blocks y)).
Proof. reflexivity. Qed.
Lemma sf_outdated : forall y, struct_fields (typedefs y) "Canon_Outdated_t" = Some (map (fun b => (fst b, TName "int")) (t_blocks y)).
Proof. reflexivity. Qed.
Lemma sf_prim : forall y, struct_fields (typedefs y) "CPG_Prim_t" = Some (prim_f y).
Proof. reflexivity. Qed.
Lemma sf_dual : forall y, struct_fields (typedefs y) "CPG_Dual_t" = if nonempty (t_duals y) then Some (dual_f y) else None.
Proof.
  intros. unfold struct_fields, typedefs. destruct (nonempty (t_duals y)); [reflexivity|].
  destruct (is_expl y), (extra_stgs (t_if y)); reflexivity.
Qed.
Lemma sf_info : forall y, struct_fields (typedefs y) "CPG_Info_t" = if is_expl y then None else Some (info_f y).
Proof. intros. unfold struct_fields, typedefs. destruct (nonempty (t_duals y)), (is_expl y), (extra_stgs (t_if y)); reflexivity. Qed.
Lemma sf_result : forall y, struct_fields (typedefs y) "CPG_Result_t" = Some (result_f y).
Proof. intros. unfold struct_fields, typedefs. destruct (nonempty (t_duals y)), (is_expl y); reflexivity. Qed.
Lemma sf_delta : forall y, struct_fields (typedefs y) "CPG_Delta_t" = Some (delta_f y).
Proof. intros. unfold struct_fields, typedefs. destruct (nonempty (t_duals y)), (is_expl y); reflexivity. Qed.

Lemma sized_accepts : forall l f v, In (f, v) (map (fun v => (fst v, sized_val v)) l) ->
  exists t, In (f, t) (map sized_t l) /\ accepts t v.
Proof.
  intros l f v H. apply in_map_iff in H. destruct H as ([n s] & E & H). injection E as <- <-.
  exists (snd (sized_t (n, s))). split.
  - apply in_map_iff. exists (n, s). split; auto.
  - unfold sized_t, sized_val. cbn [fst snd]. destruct (Nat.eqb s 1); simpl; auto.
Qed.
Lemma sized_covers : forall l f t, In (f, t) (map sized_t l) -> exists v, In (f, v) (map (fun v => (fst v, sized_val v)) l).
Proof.
  intros l f t H. apply in_map_iff in H. destruct H as ([n s] & E & H). injection E as <- <-.
  exists (sized_val (n, s)). apply in_map_iff. exists (n, s). auto.
Qed.
Lemma sized_names : forall l, map fst (map sized_t l) = map fst l.
Proof. intros. rewrite map_map. apply map_ext. auto. Qed.

(** Every struct written into cpg_workspace.c is declared with its type, gives each member at
    most one value, only values the member's type accepts, and no member is left out, except
    the matrices explicit programs do not need. *)
Theorem C69_initialisers : forall y, dicts y -> t_explicit y <= 2 ->
  (forall g T vs, In (g, T, vs) (inits y) ->
     In (g, T) (externs y) /\ NoDup (map fst vs) /\
     exists fs, struct_fields (typedefs y) T = Some fs /\ NoDup (map fst fs)
       /\ (forall f v, In (f, v) vs -> exists t, In (f, t) fs /\ accepts t v)
       /\ (forall f t, In (f, t) fs -> (exists v, In (f, v) vs)
             \/ (T = "Canon_Params_t" /\ t_explicit y <> 0 /\ (f = "A" \/ (f = "P" /\ t_reduced y = true)))))
  /\ (forall g T, In (g, T) (externs y) -> T <> "Canon_Settings_t" -> exists vs, In (g, T, vs) (inits y)).
Proof.
  intros y (NB & NV & ND & NP) LE.
  set (pre := fun s => (t_prefix y ++ s)%string).
  assert (CP : let vs := map (fun b => (fst b, block_val b)) (kept_blocks y) in
     NoDup (map fst vs) /\
     exists fs, struct_fields (typedefs y) "Canon_Params_t" = Some fs /\ NoDup (map fst fs)
       /\ (forall f v, In (f, v) vs -> exists t, In (f, t) fs /\ accepts t v)
       /\ (forall f t, In (f, t) fs -> (exists v, In (f, v) vs)
             \/ ("Canon_Params_t" = "Canon_Params_t" /\ t_explicit y <> 0 /\ (f = "A" \/ (f = "P" /\ t_reduced y = true))))).
  { cbv zeta. rewrite sf_params. split.
    - rewrite map_map. cbn [fst]. unfold kept_blocks. clear - NB. induction (t_blocks y) as [|b l IH]; [constructor|].
      inversion NB as [|? ? N1 N2]; subst. cbn [filter]. destruct (negb _); [|auto].
      cbn [map]. constructor; auto. intro H. apply N1. apply in_map_iff in H. destruct H as (c & E & H).
      apply filter_In in H. apply in_map_iff. exists c. tauto.
    - eexists. split; [reflexivity|]. split; [rewrite map_map; cbn [fst]; exact NB|]. split.
      + intros f v H. apply in_map_iff in H. destruct H as ([n s] & E & H). injection E as <- <-.
        apply filter_In in H. destruct H as [H _]. eexists. split.
        * apply in_map_iff. exists (n, s). split; [reflexivity | auto].
        * cbn [fst]. unfold block_val. cbn [fst snd].
          destruct (String.eqb n "d") eqn:E.
          { apply String.eqb_eq in E. subst n. destruct s; simpl; auto. }
          destruct (is_matrix n), s; simpl; auto.
      + intros f t H. apply in_map_iff in H. destruct H as ([n s] & E & H). injection E as <- <-.
        destruct (is_expl y && (String.eqb n "A" || (t_reduced y && String.eqb n "P"))) eqn:K.
        * right. split; [reflexivity|]. apply andb_true_iff in K. destruct K as [K1 K2]. split.
          { unfold is_expl in K1. apply negb_true_iff, Nat.eqb_neq in K1. auto. }
          apply orb_true_iff in K2. destruct K2 as [K2|K2]; [left; apply String.eqb_eq; auto|].
          apply andb_true_iff in K2. destruct K2. right. split; auto. apply String.eqb_eq; auto.
        * left. exists (block_val (n, s)). apply in_map_iff. exists (n, s). split; auto.
          unfold kept_blocks. apply filter_In. split; auto. cbn [fst]. rewrite K. reflexivity. }
  assert (FL : forall w, w = VNum \/ w = VZero -> let vs := map (fun b : string * nat => (fst b, w)) (t_blocks y) in
     NoDup (map fst vs) /\
     exists fs, struct_fields (typedefs y) "Canon_Outdated_t" = Some fs /\ NoDup (map fst fs)
       /\ (forall f v, In (f, v) vs -> exists t, In (f, t) fs /\ accepts t v)
       /\ (forall f t, In (f, t) fs -> (exists v, In (f, v) vs)
             \/ ("Canon_Outdated_t" = "Canon_Params_t" /\ t_explicit y <> 0 /\ (f = "A" \/ (f = "P" /\ t_reduced y = true))))).
  { intros w Hw. cbv zeta. rewrite sf_outdated. split; [rewrite map_map; cbn [fst]; exact NB|].
    eexists. split; [reflexivity|]. split; [rewrite map_map; cbn [fst]; exact NB|]. split.
    - intros f v H. apply in_map_iff in H. destruct H as (b & E & H). injection E as <- <-.
      exists (TName "int"). split; [apply in_map_iff; exists b; auto|]. destruct Hw; subst w; simpl; auto.
    - intros f t H. left. apply in_map_iff in H. destruct H as (b & E & H). injection E as <- <-.
      exists w. apply in_map_iff. exists b. auto. }
  split.
  - intros g T vs H. unfold inits in H. rewrite !in_app_iff in H. unfold externs. rewrite !in_app_iff.
    destruct H as [H|[H|[H|[H|[H|[H|[H|[H|H]]]]]]]].
    + destruct H as [H|[]]. injection H as <- <- <-. split; [simpl; tauto | exact CP].
    + destruct (inmem (t_if y)); [|destruct H]. destruct H as [H|[]]. injection H as <- <- <-.
      split; [simpl; tauto | exact CP].
    + destruct H as [H|[]]. injection H as <- <- <-. split; [simpl; tauto | apply FL; auto].
    + destruct (t_gradient y && negb (two_stage_t y)); [|destruct H]. destruct H as [H|[]]. injection H as <- <- <-.
      split; [simpl; tauto | apply FL; auto].
    + destruct H as [H|[]]. injection H as <- <- <-. split; [simpl; tauto|]. split.
      { rewrite map_map. cbn [fst]. exact NV. }
      exists (prim_f y). split; [apply sf_prim|]. split; [unfold prim_f; rewrite sized_names; auto|].
      split; [apply sized_accepts | intros f t Hf; left; eapply sized_covers; eauto].
    + destruct (negb (Nat.eqb (t_explicit y) 1) && nonempty (t_duals y)) eqn:E; [|destruct H].
      destruct H as [H|[]]. injection H as <- <- <-. split; [simpl; tauto|]. split.
      { rewrite map_map. cbn [fst]. exact ND. }
      exists (dual_f y). apply andb_true_iff in E. destruct E as [_ E]. rewrite sf_dual, E. split; [reflexivity|].
      split; [unfold dual_f; rewrite sized_names; auto|].
      split; [apply sized_accepts | intros f t Hf; left; eapply sized_covers; eauto].
    + destruct (is_expl y) eqn:E; [destruct H|]. destruct H as [H|[]]. injection H as <- <- <-.
      split; [simpl; tauto|]. split.
      { repeat (constructor; [simpl; intuition discriminate|]). constructor. }
      exists (info_f y). rewrite sf_info, E. split; [reflexivity|]. unfold info_f. split.
      { repeat (constructor; [simpl; intuition discriminate|]). constructor. }
      split.
      * intros f v Hf. simpl in Hf. destruct Hf as [X|[X|[X|[X|[X|[]]]]]]; injection X as <- <-.
        { exists fl; simpl; tauto. } { exists it; simpl; tauto. }
        { destruct (status_int (t_if y)); [exists it | exists (TPtr (TName "char"))]; simpl; tauto. }
        { exists fl; simpl; tauto. } { exists fl; simpl; tauto. }
      * intros f t Hf. left. simpl in Hf. destruct Hf as [X|[X|[X|[X|[X|[]]]]]]; injection X as <- <-;
          eexists; simpl; intuition reflexivity.
    + destruct H as [H|[]]. injection H as <- <- Hvs. split; [simpl; tauto|].
      assert (X : t_explicit y = 0 \/ t_explicit y = 1 \/ t_explicit y = 2) by lia.
      split.
      { rewrite <- Hvs. destruct X as [X|[X|X]]; rewrite X; destruct (nonempty (t_duals y));
          repeat (constructor; [simpl; intuition discriminate|]); constructor. }
      exists (result_f y). rewrite sf_result. split; [reflexivity|].
      unfold result_f, is_expl. rewrite <- Hvs. destruct X as [X|[X|X]]; rewrite X; destruct (nonempty (t_duals y)); cbn [when_f negb andb Nat.eqb app].
      all: (split; [repeat (constructor; [simpl; intuition discriminate|]); constructor|]).
      all: (split; [intros f v Hf; simpl in Hf; repeat (destruct Hf as [Y|Hf]; [injection Y as <- <-; eexists; split; [simpl; auto | reflexivity]|]); destruct Hf|]).
      all: (intros f t Hf; left; simpl in Hf; repeat (destruct Hf as [Y|Hf]; [injection Y as <- <-; eexists; simpl; eauto|]); destruct Hf).
    + destruct (t_gradient y); [|destruct H]. destruct H as [H|[]]. injection H as <- <- <-. split; [simpl; tauto|]. split.
      { rewrite map_map. cbn [fst]. rewrite map_id. exact NP. }
      exists (delta_f y). rewrite sf_delta. split; [reflexivity|]. unfold delta_f. split.
      { rewrite map_map. cbn [fst]. rewrite map_id. exact NP. }
      split.
      * intros f v Hf. apply in_map_iff in Hf. destruct Hf as (p & E & Hp). injection E as <- <-.
        exists (TPtr fl). split; [apply in_map_iff; exists p; auto | simpl; auto].
      * intros f t Hf. left. apply in_map_iff in Hf. destruct Hf as (p & E & Hp). injection E as <- <-.
        exists VArr. apply in_map_iff. exists p. auto.
  - intros g T H NT. unfold externs in H. rewrite !in_app_iff in H. unfold inits.
    destruct H as [H|[H|[H|[H|[H|[H|[H|[H|[H|H]]]]]]]]].
    + destruct H as [H|[]]. injection H as <- <-. eexists. rewrite !in_app_iff. left. simpl; auto.
    + destruct (inmem (t_if y)); [|destruct H]. destruct H as [H|[]]. injection H as <- <-.
      eexists. rewrite !in_app_iff. right; left. simpl; auto.
    + destruct H as [H|[]]. injection H as <- <-. eexists. rewrite !in_app_iff. do 2 right; left. simpl; auto.
    + destruct (t_gradient y && negb (two_stage_t y)); [|destruct H]. destruct H as [H|[]]. injection H as <- <-.
      eexists. rewrite !in_app_iff. do 3 right; left. simpl; auto.
    + destruct H as [H|[]]. injection H as <- <-. eexists. rewrite !in_app_iff. do 4 right; left. simpl; auto.
    + destruct (_ && _) in H |- *; [|destruct H]. destruct H as [H|[]]. injection H as <- <-.
      eexists. rewrite !in_app_iff. do 5 right; left. simpl; auto.
    + destruct (is_expl y); [destruct H|]. destruct H as [H|[]]. injection H as <- <-.
      eexists. rewrite !in_app_iff. do 6 right; left. simpl; auto.
    + destruct H as [H|[]]. injection H as <- <-. eexists. rewrite !in_app_iff. do 7 right; left. simpl; auto.
    + destruct (extra_stgs (t_if y)); [|destruct H]. destruct H as [H|[]]. injection H as _ <-. congruence.
    + destruct (t_gradient y); [|destruct H]. destruct H as [H|[]]. injection H as <- <-.
      eexists. rewrite !in_app_iff. do 8 right. simpl; auto.
Qed.
Print Assumptions C69_initialisers.

(** ** Files that include several headers *)

(** Whatever headers a file includes, it knows the types of the first program only; and it is
    accepted exactly when the first program's header defines the struct types the declarations
    of the others need. *)
Theorem C69_first_types : forall y zs,
  types_of (map workspace_h (y :: zs)) = typedefs y
  /\ (accepted (map workspace_h (y :: zs)) = true <->
      Forall (fun z => (t_explicit z <> 1 -> t_duals z <> [] -> t_duals y <> [])
                       /\ (t_explicit z = 0 -> t_explicit y = 0)
                       /\ (In (t_if z) [IOSQP; IECOS; ICLARABEL; IQOCO] -> In (t_if y) [IOSQP; IECOS; ICLARABEL; IQOCO])) zs).
Proof.
  intros. split; [apply types_first|]. rewrite accepted_iff.
  assert (X : forall i, extra_stgs i = true <-> In i [IOSQP; IECOS; ICLARABEL; IQOCO]).
  { destruct i; simpl; split; intro H; try discriminate; try tauto; intuition discriminate. }
  rewrite !Forall_forall. unfold fits_in. split; intros H z Hz; destruct (H z Hz) as (A & B & C);
    (split; [exact A | split; [exact B|]]); [rewrite <- !X | rewrite !X]; exact C.
Qed.
Print Assumptions C69_first_types.

Definition pad (b : string * bool) : string * ty := (fst b, if snd b then fl else TPtr fl).
Lemma sized_shape : forall l, map sized_t l = map pad (shape l).
Proof. intros. unfold shape. rewrite map_map. apply map_ext. intros [n s]. reflexivity. Qed.
Lemma pad_inj : forall a b, pad a = pad b -> a = b.
Proof. intros [n b] [m c] H. unfold pad in H. cbn [fst snd] in H. destruct b, c; injection H; intros; subst; auto; discriminate. Qed.
Lemma starts_map : forall A B (f : A -> B), (forall a b, f a = f b -> a = b) ->
  forall p l, starts_with (map f l) (map f p) <-> starts_with l p.
Proof.
  intros A B f I p. induction p as [|a p IH]; intro l.
  - split; intros _; eexists; reflexivity.
  - destruct l as [|b l].
    + split; intros [r H]; discriminate.
    + split; intros [r H].
      * cbn [map app] in H. injection H as H1 H2. apply I in H1. subst b.
        destruct (proj1 (IH l)) as [r' ->]; [exists r; auto|]. exists r'. reflexivity.
      * cbn [app] in H. injection H as H1 H2. subst b l. exists (map f r). cbn [map]. rewrite map_app. reflexivity.
Qed.
Lemma sized_starts : forall l p, starts_with (map sized_t l) (map sized_t p) <-> starts_with (shape l) (shape p).
Proof. intros. rewrite !sized_shape. apply starts_map, pad_inj. Qed.
Lemma plain_sized : forall l, plain (map sized_t l).
Proof. intro l. apply Forall_forall. intros f H. apply in_map_iff in H. destruct H as (v & <- & _). unfold sized_t. cbn [snd]. destruct (Nat.eqb (snd v) 1); auto. Qed.
Lemma plain_delta : forall y, plain (delta_f y).
Proof. intro y. apply Forall_forall. intros f H. apply in_map_iff in H. destruct H as (v & <- & _). auto. Qed.

Lemma result_prim : forall y1 y2, member (typedefs y1) (result_f y1) (typedefs y2) (result_f y2) "prim" = Ok "prim".
Proof. intros. reflexivity. Qed.

Lemma read_prim_eq : forall y1 y2 v, read_result (typedefs y1) (typedefs y2) "prim" v = Ok ("prim", v) <->
  member (typedefs y1) (prim_f y1) (typedefs y2) (prim_f y2) v = Ok v.
Proof.
  intros. unfold read_result. rewrite !sf_result, result_prim. cbn [bind target String.eqb Ascii.eqb Bool.eqb].
  rewrite !sf_prim. destruct (member _ _ _ _ v); cbn [bind]; split; congruence.
Qed.

(** The members of CPG_Result of ordinary programs. *)
Lemma ord_expl : forall y, ordinary y -> is_expl y = false.
Proof. intros y [E _]. unfold is_expl. rewrite E. reflexivity. Qed.
Lemma ord_result : forall y, ordinary y -> layout (typedefs y) 0 (result_f y) =
  if nonempty (t_duals y)
  then [(0, RP (RS "CPG_Prim_t"), "prim"); (8, RP (RS "CPG_Dual_t"), "dual"); (16, RP (RS "CPG_Info_t"), "info")]
  else [(0, RP (RS "CPG_Prim_t"), "prim"); (8, RP (RS "CPG_Info_t"), "info")].
Proof.
  intros y O. unfold result_f. rewrite (ord_expl y O). destruct O as [O _]. rewrite O.
  unfold typedefs, is_expl. rewrite O. destruct (nonempty (t_duals y)); reflexivity.
Qed.

Lemma result_member : forall y1 y2 s, ordinary y1 -> ordinary y2 ->
  member (typedefs y1) (result_f y1) (typedefs y2) (result_f y2) s =
  if String.eqb "prim" s then Ok "prim"
  else if String.eqb "dual" s then (if nonempty (t_duals y1) then if nonempty (t_duals y2) then Ok "dual" else Err OutOfBounds else Err AttributeError)
  else if String.eqb "info" s then (if Bool.eqb (nonempty (t_duals y1)) (nonempty (t_duals y2)) then Ok "info" else Err OutOfBounds)
  else Err AttributeError.
Proof.
  intros y1 y2 s O1 O2. unfold member. rewrite (ord_result y1 O1), (ord_result y2 O2).
  destruct (String.eqb "prim" s) eqn:E1.
  { apply String.eqb_eq in E1. subst s. destruct (nonempty (t_duals y1)), (nonempty (t_duals y2)); reflexivity. }
  destruct (String.eqb "dual" s) eqn:E2.
  { apply String.eqb_eq in E2. subst s. destruct (nonempty (t_duals y1)), (nonempty (t_duals y2)); reflexivity. }
  destruct (String.eqb "info" s) eqn:E3.
  { apply String.eqb_eq in E3. subst s. destruct (nonempty (t_duals y1)), (nonempty (t_duals y2)); reflexivity. }
  destruct (nonempty (t_duals y1)); cbn [find snd]; rewrite E1, ?E2, E3; reflexivity.
Qed.

Lemma read_dual_eq : forall y1 y2 v, ordinary y1 -> ordinary y2 ->
  (read_result (typedefs y1) (typedefs y2) "dual" v = Ok ("dual", v) <->
   nonempty (t_duals y1) = true /\ nonempty (t_duals y2) = true
   /\ member (typedefs y1) (dual_f y1) (typedefs y2) (dual_f y2) v = Ok v).
Proof.
  intros y1 y2 v O1 O2. unfold read_result. rewrite !sf_result, result_member by auto.
  cbn [String.eqb Ascii.eqb Bool.eqb].
  destruct (nonempty (t_duals y1)) eqn:E1; [|split; [discriminate | intros (A & _); discriminate]].
  destruct (nonempty (t_duals y2)) eqn:E2; [|split; [discriminate | intros (_ & A & _); discriminate]].
  cbn [bind target String.eqb Ascii.eqb Bool.eqb]. rewrite !sf_dual, E1, E2.
  destruct (member _ _ _ _ v); cbn [bind]; split.
  - intro H. injection H as ->. auto.
  - intros (_ & _ & H). congruence.
  - discriminate.
  - intros (_ & _ & H). discriminate.
Qed.

Lemma read_info_eq : forall y1 y2 f, ordinary y1 -> ordinary y2 ->
  (read_result (typedefs y1) (typedefs y2) "info" f = Ok ("info", f) <->
   nonempty (t_duals y1) = nonempty (t_duals y2)
   /\ member (typedefs y1) (info_f y1) (typedefs y2) (info_f y2) f = Ok f).
Proof.
  intros y1 y2 f O1 O2. unfold read_result. rewrite !sf_result, result_member by auto.
  cbn [String.eqb Ascii.eqb Bool.eqb].
  destruct (Bool.eqb (nonempty (t_duals y1)) (nonempty (t_duals y2))) eqn:E.
  - apply eqb_prop in E. cbn [bind target String.eqb Ascii.eqb Bool.eqb].
    rewrite !sf_info, (ord_expl y1 O1), (ord_expl y2 O2).
    destruct (member _ _ _ _ f); cbn [bind]; split.
    + intro H. injection H as ->. auto.
    + intros (_ & H). congruence.
    + discriminate.
    + intros (_ & H). discriminate.
  - apply eqb_false_iff in E. split; [discriminate | intros [H _]; congruence].
Qed.

(** Solvers whose info struct has the same layout. *)
Definition info_class (i : iface) : nat := match i with IOSQP | ISCS => 0 | ICLARABEL => 1 | _ => 2 end.

Lemma info_layout : forall y, ordinary y -> layout (typedefs y) 0 (info_f y) =
  match info_class (t_if y) with
  | 0 => [(0, RB "double", "obj_val"); (8, RB "int", "iter"); (16, RP (RB "char"), "status"); (24, RB "double", "pri_res"); (32, RB "double", "dua_res")]
  | 1 => [(0, RB "double", "obj_val"); (8, RB "uintptr_t", "iter"); (16, RB "uintptr_t", "status"); (24, RB "double", "pri_res"); (32, RB "double", "dua_res")]
  | _ => [(0, RB "double", "obj_val"); (8, RB "int", "iter"); (12, RB "int", "status"); (16, RB "double", "pri_res"); (24, RB "double", "dua_res")]
  end.
Proof.
  intros y O. pose proof (float_ordinary y O) as F. destruct O as [E N].
  assert (I : resolve (typedefs y) it = RB (norm_base (int_base (t_if y)))) by reflexivity.
  assert (C : resolve (typedefs y) (TPtr (TName "char")) = RP (RB "char")).
  { unfold typedefs, is_expl. rewrite E. destruct (nonempty (t_duals y)), (extra_stgs (t_if y)); reflexivity. }
  unfold info_f. cbn [layout]. rewrite F, I. destruct (t_if y); cbn [status_int info_class]; rewrite ?C, ?I; reflexivity.
Qed.

(** The exact condition under which a file that includes the header of the ordinary program y1
    before that of the ordinary program y2 reads the results of y2: its variables have to be
    the first variables of y1, its constraints the first constraints of y1, its parameters the
    first parameters of y1; the objective value needs both programs to have constraints or
    both to have none, the other solver information a solver with the same info struct. *)
Theorem C69_second_program : forall y1 y2, dicts y1 -> dicts y2 -> ordinary y1 -> ordinary y2 ->
  (reads_prim y1 y2 <-> starts_with (shape (t_vars y1)) (shape (t_vars y2)))
  /\ (reads_dual y1 y2 <-> starts_with (shape (t_duals y1)) (shape (t_duals y2)))
  /\ (reads_obj y1 y2 <-> (t_duals y1 = [] <-> t_duals y2 = []))
  /\ (reads_info y1 y2 <-> (t_duals y1 = [] <-> t_duals y2 = []) /\ info_class (t_if y1) = info_class (t_if y2))
  /\ (reads_delta y1 y2 <-> starts_with (t_params y1) (t_params y2)).
Proof.
  intros y1 y2 (_ & V1 & D1 & P1) (_ & V2 & D2 & P2) O1 O2.
  assert (NE : nonempty (t_duals y1) = nonempty (t_duals y2) <-> (t_duals y1 = [] <-> t_duals y2 = [])).
  { destruct (t_duals y1), (t_duals y2); simpl; split; intro H; try reflexivity; try tauto; try discriminate.
    - destruct H as [A _]. discriminate (A eq_refl).
    - destruct H as [_ A]. discriminate (A eq_refl).
    - split; discriminate. }
  split; [|split; [|split; [|split]]].
  - rewrite <- sized_starts. unfold reads_prim.
    pose proof (plain_members y1 y2 (prim_f y1) (prim_f y2) O1 O2 (plain_sized _) (plain_sized _)) as M.
    unfold prim_f in M. rewrite !sized_names in M. specialize (M V1 V2). rewrite <- M.
    split; intros H f Hf; apply read_prim_eq; auto.
  - rewrite <- sized_starts. unfold reads_dual.
    pose proof (plain_members y1 y2 (dual_f y1) (dual_f y2) O1 O2 (plain_sized _) (plain_sized _)) as M.
    unfold dual_f in M. rewrite !sized_names in M. specialize (M D1 D2). rewrite <- M.
    split; intros H f Hf.
    + apply read_dual_eq; auto.
    + apply read_dual_eq; auto. destruct (proj1 M H) as [r R].
      assert (N2 : t_duals y2 <> []) by (intro X; rewrite X in Hf; destruct Hf).
      assert (N1 : t_duals y1 <> []).
      { intro X. rewrite X in R. destruct (t_duals y2); [congruence | discriminate]. }
      split; [destruct (t_duals y1); [congruence | reflexivity]|].
      split; [destruct (t_duals y2); [congruence | reflexivity]|]. unfold dual_f. auto.
  - rewrite <- NE. unfold reads_obj. rewrite read_info_eq by auto. split; [tauto|]. intro H. split; auto.
    unfold member. rewrite (info_layout y1 O1), (info_layout y2 O2).
    destruct (t_if y1), (t_if y2); reflexivity.
  - rewrite <- NE. unfold reads_info. split.
    + intro H. pose proof (H "status") as A. pose proof (H "iter") as B.
      rewrite read_info_eq in A, B by auto.
      destruct A as [A1 A2]; [simpl; tauto|]. destruct B as [_ B2]; [simpl; tauto|]. split; auto.
      unfold member in A2, B2. rewrite (info_layout y1 O1), (info_layout y2 O2) in A2, B2.
      destruct (t_if y1), (t_if y2); try reflexivity; first [discriminate A2 | discriminate B2].
    + intros [A B] f Hf. apply read_info_eq; auto. split; auto.
      unfold member. rewrite (info_layout y1 O1), (info_layout y2 O2), B.
      destruct (info_class (t_if y2)) as [|[|]]; simpl in Hf; intuition (subst; reflexivity).
  - pose proof (plain_members y1 y2 (delta_f y1) (delta_f y2) O1 O2 (plain_delta _) (plain_delta _)) as M.
    assert (N : forall y, map fst (delta_f y) = t_params y) by (intro; unfold delta_f; rewrite map_map; apply map_id).
    rewrite !N in M. specialize (M P1 P2). unfold reads_delta, read_delta. rewrite !sf_delta, M.
    unfold delta_f. apply starts_map. intros a b E. injection E. auto.
Qed.
Print Assumptions C69_second_program.

(** ** Programs of the same form, in every mode *)

Lemma base_pos : forall r, 0 < rsize r.
Proof. destruct r; simpl; try lia. unfold base_size. destruct (mem_str _ _); try lia. destruct (String.eqb _ _); lia. Qed.
Lemma round_ge : forall o s, 0 < s -> o <= round_up o s.
Proof.
  intros. unfold round_up. pose proof (Nat.div_mod (o + s - 1) s ltac:(lia)) as D.
  pose proof (Nat.mod_upper_bound (o + s - 1) s ltac:(lia)). nia.
Qed.
Lemma layout_ge : forall e fs o c, In c (layout e o fs) -> o <= fst (fst c) /\ In (snd c) (map fst fs).
Proof.
  induction fs as [|[n t] fs IH]; intros o c H; simpl in H; [tauto|].
  pose proof (round_ge o (rsize (resolve e t)) (base_pos _)). pose proof (base_pos (resolve e t)).
  destruct H as [<-|H]; cbn [fst snd map].
  - split; [auto | left; auto].
  - apply IH in H. split; [lia | right; tauto].
Qed.
Lemma layout_ext : forall e e' fs o, (forall t, In t (map snd fs) -> resolve e t = resolve e' t) -> layout e o fs = layout e' o fs.
Proof.
  induction fs as [|[n t] fs IH]; intros o H; auto. cbn [layout]. rewrite (H t) by (simpl; auto). f_equal. apply IH.
  intros u Hu. apply H. simpl; auto.
Qed.
Lemma layout_reads : forall e fs o f, In f (map fst fs) -> reads (layout e o fs) (layout e o fs) f.
Proof.
  induction fs as [|[n t] fs IH]; intros o f H; [destruct H|].
  unfold reads, pick, at_cell. cbn [layout find fst snd].
  destruct (String.eqb n f) eqn:E.
  - apply String.eqb_eq in E. subst f. eexists _, _, _, _, _. split; [reflexivity|].
    rewrite Nat.eqb_refl, (proj2 (rty_eqb_eq _ _) eq_refl). reflexivity.
  - apply String.eqb_neq in E. destruct H as [H|H]; [simpl in H; congruence|].
    destruct (IH (round_up o (rsize (resolve e t)) + rsize (resolve e t)) f H) as (a & r & m & a' & r' & P & Q).
    exists a, r, m, a', r'. split; [exact P|].
    destruct (Nat.eqb (round_up o (rsize (resolve e t))) a) eqn:Ea; [|exact Q].
    apply Nat.eqb_eq in Ea. apply pick_name in P. destruct P as [_ P]. apply layout_ge in P. cbn [fst] in P.
    pose proof (base_pos (resolve e t)). lia.
Qed.
Lemma same_member : forall e e' fs f, (forall t, In t (map snd fs) -> resolve e t = resolve e' t) ->
  In f (map fst fs) -> member e fs e' fs f = Ok f.
Proof. intros. apply member_reads. rewrite (layout_ext e e') by auto. apply layout_reads; auto. Qed.

(** Programs for the same solver and mode, with the same variables, constraints and parameters
    (up to the sizes of arrays), in any order of inclusion: everything reads what it names. *)
Theorem C69_same_form : forall y1 y2,
  t_if y1 = t_if y2 -> t_explicit y1 = t_explicit y2 ->
  shape (t_vars y1) = shape (t_vars y2) -> shape (t_duals y1) = shape (t_duals y2) ->
  accepted [workspace_h y1; workspace_h y2] = true
  /\ reads_prim y1 y2
  /\ (t_explicit y2 <> 1 -> reads_dual y1 y2)
  /\ (t_explicit y2 = 0 -> reads_info y1 y2)
  /\ (t_params y1 = t_params y2 -> reads_delta y1 y2).
Proof.
  intros y1 y2 EI EE EV ED.
  assert (N : t_duals y1 = [] <-> t_duals y2 = []).
  { destruct (t_duals y1), (t_duals y2); simpl in ED; split; congruence. }
  assert (NE : nonempty (t_duals y1) = nonempty (t_duals y2)).
  { destruct (t_duals y1), (t_duals y2); simpl in ED; auto; discriminate. }
  assert (XE : is_expl y1 = is_expl y2) by (unfold is_expl; rewrite EE; auto).
  assert (R : forall t, resolve (typedefs y1) t = resolve (typedefs y2) t).
  { induction t as [n|t IH]; cbn [resolve]; [|congruence].
    unfold typedefs. rewrite XE, NE, EI. rewrite <- ?app_assoc.
    destruct (nonempty (t_duals y2)), (is_expl y2), (extra_stgs (t_if y2)); cbn [when_f negb app assoc];
      repeat (match goal with |- context [String.eqb ?a ?b] => destruct (String.eqb a b); [reflexivity|] end); reflexivity. }
  assert (FV : prim_f y1 = prim_f y2) by (unfold prim_f; rewrite !sized_shape, EV; auto).
  assert (FD : dual_f y1 = dual_f y2) by (unfold dual_f; rewrite !sized_shape, ED; auto).
  assert (FR : result_f y1 = result_f y2) by (unfold result_f; rewrite XE, NE, EE; auto).
  assert (FI : info_f y1 = info_f y2) by (unfold info_f; rewrite EI; auto).
  assert (SM : forall fs f, In f (map fst fs) -> member (typedefs y1) fs (typedefs y2) fs f = Ok f).
  { intros. apply same_member; auto. }
  split.
  { change [workspace_h y1; workspace_h y2] with (map workspace_h [y1; y2]). apply accepted_iff.
    constructor; [|constructor]. unfold fits_in. rewrite EI, EE. tauto. }
  split; [|split; [|split]].
  - intros v Hv. apply read_prim_eq. rewrite FV. apply SM. unfold prim_f. rewrite sized_names. auto.
  - intros X v Hv. unfold read_result. rewrite !sf_result, FR. rewrite SM.
    + cbn [bind target String.eqb Ascii.eqb Bool.eqb]. rewrite !sf_dual, NE, FD.
      assert (Y : nonempty (t_duals y2) = true) by (destruct (t_duals y2); [destruct Hv | auto]).
      rewrite Y, SM; [reflexivity|]. unfold dual_f. rewrite sized_names. auto.
    + unfold result_f. assert (Y : nonempty (t_duals y2) = true) by (destruct (t_duals y2); [destruct Hv | auto]).
      apply Nat.eqb_neq in X. rewrite X, Y. simpl. auto.
  - intros X f Hf. unfold read_result. rewrite !sf_result, FR. rewrite SM.
    + cbn [bind target String.eqb Ascii.eqb Bool.eqb]. rewrite !sf_info, XE, FI. unfold is_expl. rewrite X.
      cbn [Nat.eqb negb]. rewrite SM; [reflexivity | exact Hf].
    + unfold result_f, is_expl. rewrite X. destruct (nonempty (t_duals y2)); simpl; auto.
  - intros X p Hp. unfold read_delta. rewrite !sf_delta.
    assert (FP : delta_f y1 = delta_f y2) by (unfold delta_f; rewrite X; auto). rewrite FP. apply SM.
    unfold delta_f. rewrite map_map, map_id. auto.
Qed.
Print Assumptions C69_same_form.

(** ** What goes wrong *)

Definition p_osqp (pre : string) (vs ds : list (string * nat)) : tin :=
  mkTin IOSQP pre 0 false false [("P", 2); ("q", 4); ("d", 1); ("A", 4); ("l", 4); ("u", 4)] vs ds ["a"; "b"] [("rho", "double")].

(** Two accepted problems that differ in the order of two variables: the prefixed result of
    the second one silently yields the other variable. *)
Theorem C69_order_refuted : exists y1 y2, dicts y1 /\ dicts y2 /\ ordinary y1 /\ ordinary y2
  /\ t_prefix y1 <> t_prefix y2
  /\ accepted [workspace_h y1; workspace_h y2] = true
  /\ read_result (types_of [workspace_h y1; workspace_h y2]) (typedefs y2) "prim" "x" = Ok ("prim", "y").
Proof.
  exists (p_osqp "one_" [("x", 3); ("y", 3)] [("c", 2)]), (p_osqp "two_" [("y", 3); ("x", 3)] [("c", 2)]).
  unfold dicts, ordinary. cbn [t_blocks t_vars t_duals t_params t_if t_explicit t_prefix p_osqp map fst].
  repeat split; try (repeat (constructor; [simpl; intuition discriminate|]); constructor); try discriminate.
Qed.
Print Assumptions C69_order_refuted.
(** The second problem has no constraint: its objective value is read from nowhere. *)
Theorem C69_constraints_refuted : exists y1 y2, dicts y1 /\ dicts y2 /\ ordinary y1 /\ ordinary y2
  /\ accepted [workspace_h y1; workspace_h y2] = true
  /\ read_result (types_of [workspace_h y1; workspace_h y2]) (typedefs y2) "info" "obj_val" = Err OutOfBounds.
Proof.
  exists (p_osqp "one_" [("x", 3)] [("c", 2)]), (p_osqp "two_" [("x", 3)] []).
  unfold dicts, ordinary. cbn [t_blocks t_vars t_duals t_params t_if t_explicit t_prefix p_osqp map fst].
  repeat split; try (repeat (constructor; [simpl; intuition discriminate|]); constructor); try discriminate.
Qed.
Print Assumptions C69_constraints_refuted.
(** An explicit program stores float; after an ordinary program its arrays are read as double,
    before an ordinary program the file is not accepted. *)
Definition p_expl : tin :=
  mkTin IPDAQP "ex_" 1 false false [("P", 2); ("q", 4); ("d", 1); ("A", 4); ("l", 4); ("u", 4)] [("x", 3)] [("c", 2)] ["a"; "b"] [].
Theorem C69_explicit_refuted : exists y1 y2, dicts y1 /\ dicts y2 /\ ordinary y1 /\ t_explicit y2 = 1
  /\ t_vars y1 = t_vars y2
  /\ accepted [workspace_h y1; workspace_h y2] = true
  /\ read_result (types_of [workspace_h y1; workspace_h y2]) (typedefs y2) "prim" "x" = Err OutOfBounds
  /\ accepted [workspace_h y2; workspace_h y1] = false.
Proof.
  exists (p_osqp "one_" [("x", 3)] [("c", 2)]), p_expl.
  unfold dicts, ordinary. cbn [t_blocks t_vars t_duals t_params t_if t_explicit t_prefix p_osqp p_expl map fst].
  repeat split; try (repeat (constructor; [simpl; intuition discriminate|]); constructor); try discriminate.
Qed.
Print Assumptions C69_explicit_refuted.

(** The header of the second stage of two-stage gradient code may be included once only, by a
    single program. *)
Theorem C69_gradient_header : forall y s,
  accepted [workspace_h y; gradient_h y s] = true
  /\ forall hs y' s', accepted (gradient_h y s :: hs ++ [gradient_h y' s']) = false.
Proof.
  intros y s. split.
  - unfold accepted, types_of, decls_of. cbn [include fst snd h_guarded h_plain h_externs workspace_h gradient_h].
    rewrite ?app_nil_r. apply andb_true_iff. split.
    + unfold typedefs. rewrite !map_app. destruct (nonempty (t_duals y)), (is_expl y), (extra_stgs (t_if y)); reflexivity.
    + assert (K : forall n, known (typedefs y) n = true ->
        known (typedefs y ++ [] ++ [] ++ [("Canon_Params_Gradient_t", params_t (mkTin (t_if y) (t_prefix y) (t_explicit y) (t_gradient y) (t_reduced y) s [] [] [] []));
           ("Canon_Outdated_Gradient_t", outdated_t (mkTin (t_if y) (t_prefix y) (t_explicit y) (t_gradient y) (t_reduced y) s [] [] [] []))]) n = true).
      { intros n. unfold known. generalize (typedefs y) as e. induction e as [|[a b] e IH]; [discriminate|].
        cbn [app assoc]. destruct (String.eqb n a); auto. }
      assert (F : forallb (fun d => known (typedefs y) (snd d)) (externs y) = true).
      { pose proof (proj2 (accepted_iff y []) (Forall_nil _)) as Z. unfold accepted in Z.
        rewrite types_first, decls_all in Z. apply andb_true_iff in Z. destruct Z as [_ Z]. cbn [flat_map] in Z.
        rewrite app_nil_r in Z. exact Z. }
      rewrite forallb_forall in F |- *. intros d Hd. rewrite !in_app_iff in Hd. cbn [app] in *.
      destruct Hd as [Hd|[Hd|Hd]]; [apply K, F; auto | apply K, F; auto |].
      unfold known. assert (A : forall e n b, assoc n (e ++ [("Canon_Params_Gradient_t", b); ("Canon_Outdated_Gradient_t", outdated_t (mkTin (t_if y) (t_prefix y) (t_explicit y) (t_gradient y) (t_reduced y) s [] [] [] []))]) <> None
        \/ ~ In n ["Canon_Params_Gradient_t"; "Canon_Outdated_Gradient_t"]).
      { intros e n b. induction e as [|[a c] e IH]; cbn [app assoc].
        - destruct (String.eqb n "Canon_Params_Gradient_t") eqn:E1; [left; discriminate|].
          destruct (String.eqb n "Canon_Outdated_Gradient_t") eqn:E2; [left; discriminate|].
          right. apply String.eqb_neq in E1, E2. simpl. intuition congruence.
        - destruct (String.eqb n a); [left; discriminate | auto]. }
      match goal with |- context [assoc ?n (?e ++ [(_, ?b); _])] => destruct (A e n b) as [Z|Z] end.
      * destruct (assoc _ _); [reflexivity | congruence].
      * exfalso. apply Z. destruct Hd as [<-|[<-|[]]]; simpl; auto.
  - intros hs y' s'. unfold accepted, types_of. cbn [include]. 
    destruct (include true (hs ++ [gradient_h y' s'])) as [ts es] eqn:E. cbn [fst h_guarded h_plain gradient_h].
    apply andb_false_iff. left.
    assert (I : In "Canon_Params_Gradient_t" (map fst ts)).
    { clear - E. revert ts es E. induction hs as [|h hs IH]; intros ts es E.
      - cbn in E. injection E as <- _. simpl. auto.
      - cbn [app include] in E. destruct (include true (hs ++ [gradient_h y' s'])) as [ts' es'] eqn:E'.
        injection E as <- _. cbn [app]. rewrite map_app. apply in_or_app. right. eapply IH; eauto. }
    rewrite map_app. generalize (map fst (typedefs y)) as pre. intro pre. induction pre as [|a pre IH].
    + cbn [app map distinct fst]. apply andb_false_iff. left. apply negb_false_iff. apply mem_str_In. cbn [app map]. right. exact I.
    + cbn [app distinct]. apply andb_false_iff. right. exact IH.
Qed.
Print Assumptions C69_gradient_header.

(** The cast of Canon_Params.P to the gradient code's matrix type keeps the index arrays for
    every solver but Clarabel; with Clarabel the second entry of every index array is read
    as 0, so that a matrix with an entry in its first column is not read as it is. *)
Theorem C69_cast : forall y,
  (t_if y <> ICLARABEL -> forall a k, as_int (index_size y) a k = nth_error a k)
  /\ (t_if y = ICLARABEL -> forall u v a, (0 <= u < 2 ^ 32)%Z -> v <> 0%Z ->
        as_int (index_size y) (u :: v :: a) 1 = Some 0%Z /\ nth_error (u :: v :: a) 1 <> Some 0%Z).
Proof.
  intro y. assert (S : index_size y = base_size (norm_base (int_base (t_if y)))) by reflexivity. rewrite S.
  split.
  - intros N a k. destruct (t_if y); try reflexivity. congruence.
  - intros ->. intros u v a U V. split.
    + unfold as_int. cbn -[Z.div Z.modulo Z.pow]. rewrite Z.div_small by lia. reflexivity.
    + cbn. congruence.
Qed.
Print Assumptions C69_cast.

(** Adding two generated programs to one CMake project, as the generated README describes for
    one, always fails: the target names carry no prefix. *)
Theorem C69_targets : forall y z zs, configures [y] = true /\ configures (y :: z :: zs) = false.
Proof. intros. split; reflexivity. Qed.
Print Assumptions C69_targets.

(** ** Examples *)
Definition p_a := p_osqp "one_" [("x", 3); ("t", 1); ("y", 2)] [("c", 2); ("e", 1)].
Definition p_b := p_osqp "two_" [("x", 7); ("t", 1)] [("c", 5)].
Example C69_example :
  dicts p_a /\ dicts p_b /\ ordinary p_a /\ ordinary p_b
  /\ accepted (map workspace_h [p_a; p_b]) = true
  /\ read_result (typedefs p_a) (typedefs p_b) "prim" "t" = Ok ("prim", "t")
  /\ read_result (typedefs p_a) (typedefs p_b) "dual" "c" = Ok ("dual", "c")
  /\ read_result (typedefs p_b) (typedefs p_a) "prim" "y" = Err AttributeError
  /\ length (inits p_a) = 6.
Proof.
  unfold dicts, ordinary. cbn [t_blocks t_vars t_duals t_params t_if t_explicit t_prefix p_a p_b p_osqp map fst].
  repeat split; try (repeat (constructor; [simpl; intuition discriminate|]); constructor); try discriminate.
Qed.
Example C69_example_explicit : dicts p_expl /\ t_explicit p_expl <= 2 /\ t_explicit p_expl <> 0
  /\ accepted [workspace_h p_expl; workspace_h p_expl] = true
  /\ read_result (typedefs p_expl) (typedefs p_expl) "prim" "x" = Ok ("prim", "x").
Proof.
  unfold dicts. cbn [t_blocks t_vars t_duals t_params t_if t_explicit t_prefix p_expl map fst].
  repeat split; try (repeat (constructor; [simpl; intuition discriminate|]); constructor); try discriminate; auto.
Qed.
