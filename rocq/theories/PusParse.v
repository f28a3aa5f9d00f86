(** The emitted token lists: unique parse, a sound parser, extensionality. *)

From Coq Require Import String Arith Bool Lia List Permutation.
From Verif Require Import Base Pus.
Import ListNotations.

Lemma Parses_close_inv : forall l b, Parses l b -> forall r l2, l = TClose :: r ++ l2 -> False.
Proof. intros l b H. destruct H; intros; discriminate. Qed.

Lemma Parses_not_else : forall l b, Parses l b -> forall r, l = TElse :: r -> False.
Proof. intros l b H. destruct H; intros; discriminate. Qed.

(** Statement lists are self-delimiting: followed by a closing brace there is only one way
    to read them. *)
Lemma Parses_prefix : forall l1 b1, Parses l1 b1 ->
    forall l2 b2 r1 r2, Parses l2 b2 ->
    l1 ++ TClose :: r1 = l2 ++ TClose :: r2 -> l1 = l2 /\ b1 = b2 /\ r1 = r2.
Proof.
  induction 1 as [|c acts toks rest Hc Hp IH|c acts etoks els toks rest Hc He IHe Hp IH];
    intros l2 b2 r1 r2 H2 E.
  - destruct H2; simpl in E; inversion E; auto.
  - destruct H2; simpl in E; try discriminate.
    + injection E as E1 E2 E3. subst.
      destruct (IH _ _ _ _ H2 E3) as (-> & -> & ->). auto.
    + injection E as E1 E2 E3. subst. exfalso.
      destruct Hp; simpl in E3; try discriminate.
  - destruct H2; simpl in E; try discriminate.
    + injection E as E1 E2 E3. subst. exfalso.
      destruct H2; simpl in E3; discriminate.
    + injection E as E1 E2 E3. subst.
      rewrite <- !app_assoc in E3. simpl in E3.
      destruct (IHe _ _ _ _ H2_ E3) as (-> & -> & E4).
      destruct (IH _ _ _ _ H2_0 E4) as (-> & -> & ->). auto.
Qed.

Theorem Parses_det : forall l b1 b2, Parses l b1 -> Parses l b2 -> b1 = b2.
Proof.
  intros l b1 b2 H1 H2.
  destruct (Parses_prefix _ _ H1 _ _ [] [] H2 eq_refl) as (_ & H & _). exact H.
Qed.

(** Recursive-descent parser; [None] on malformed input or exhausted fuel. *)
Fixpoint parse (fuel : nat) (l : list tok) : option (ublock * list tok) :=
  match fuel with
  | O => None
  | S k =>
    match l with
    | TIf c :: TCall acts :: TClose :: l' =>
      match c with
      | [] => None
      | _ =>
        match l' with
        | TElse :: l'' =>
          match parse k l'' with
          | Some (els, TClose :: l3) =>
            match parse k l3 with
            | Some (rest, l4) => Some (UIf c acts els rest, l4)
            | None => None
            end
          | _ => None
          end
        | _ =>
          match parse k l' with
          | Some (rest, l4) => Some (UIf c acts UNil rest, l4)
          | None => None
          end
        end
      end
    | _ => Some (UNil, l)
    end
  end.

Lemma parse_sound : forall fuel l b r, parse fuel l = Some (b, r) ->
    exists l1, l = l1 ++ r /\ Parses l1 b.
Proof.
  induction fuel as [|k IH]; simpl; intros l b r H; [discriminate|].
  assert (Hnil : forall l0, Some (UNil, l0) = Some (b, r) -> exists l1, l0 = l1 ++ r /\ Parses l1 b).
  { intros l0 E. inversion E; subst. exists []. split; [reflexivity|constructor]. }
  destruct l as [|[c|acts| |] l]; try (apply Hnil; exact H).
  destruct l as [|[c'|acts| |] l]; try (apply Hnil; exact H).
  destruct l as [|[c'|acts'| |] l]; try (apply Hnil; exact H).
  destruct c as [|a c]; [discriminate|].
  assert (Hc : a :: c <> []) by discriminate.
  assert (Hplain : match parse k l with
                   | Some (rest, l4) => Some (UIf (a :: c) acts UNil rest, l4)
                   | None => None end = Some (b, r) ->
                   exists l1, TIf (a :: c) :: TCall acts :: TClose :: l = l1 ++ r /\ Parses l1 b).
  { destruct (parse k l) as [[rest l4]|] eqn:E; intro H1; [|discriminate].
    inversion H1; subst. destruct (IH _ _ _ E) as (l1 & -> & Hp).
    exists (TIf (a :: c) :: TCall acts :: TClose :: l1). split; [reflexivity|].
    apply PIf; assumption. }
  destruct l as [|[c'|acts'| |] l]; try (apply Hplain; exact H).
  clear Hplain.
  destruct (parse k l) as [[els [|[c'|acts'| |] l3]]|] eqn:E; try discriminate.
  destruct (parse k l3) as [[rest l4]|] eqn:E2; try discriminate.
  inversion H; subst.
  destruct (IH _ _ _ E) as (l1 & El & Hp1).
  destruct (IH _ _ _ E2) as (l2 & E2' & Hp2). subst.
  exists (TIf (a :: c) :: TCall acts :: TClose :: TElse :: l1 ++ TClose :: l2).
  split.
  - simpl. rewrite <- app_assoc. reflexivity.
  - apply PIfElse; assumption.
Qed.

Definition parse_all (l : list tok) : option ublock :=
  match parse (S (List.length l)) l with
  | Some (b, []) => Some b
  | _ => None
  end.

Lemma parse_all_sound : forall l b, parse_all l = Some b -> Parses l b.
Proof.
  unfold parse_all. intros l b H.
  destruct (parse (S (List.length l)) l) as [[b' [|]]|] eqn:E; try discriminate.
  inversion H; subst. destruct (parse_sound _ _ _ _ E) as (l1 & -> & Hp).
  rewrite app_nil_r. exact Hp.
Qed.

(** Flags that a statement list looks at. *)
Fixpoint block_atoms (b : ublock) : list pid :=
  match b with
  | UNil => []
  | UIf c _ els rest =>
    flat_map (fun x => match snd x with AtFlag p => [p] | _ => [] end) c
             ++ block_atoms els ++ block_atoms rest
  end.

Lemma eval_atom_ext : forall fl fl' i a,
    (forall p, a = AtFlag p -> fl p = fl' p) -> eval_atom fl i a = eval_atom fl' i a.
Proof. intros. destruct a as [[]|p]; simpl; auto. Qed.

Lemma eval_chain_ext : forall fl fl' i c acc,
    (forall o p, In (o, AtFlag p) c -> fl p = fl' p) ->
    eval_chain fl i acc c = eval_chain fl' i acc c.
Proof.
  induction c as [|[o a] c IH]; simpl; intros; auto.
  assert (E : eval_atom fl i a = eval_atom fl' i a).
  { apply eval_atom_ext. intros p ->. apply H with o. auto. }
  destruct o; rewrite E; rewrite IH; eauto.
Qed.

Lemma eval_cond_ext : forall fl fl' i c,
    (forall o p, In (o, AtFlag p) c -> fl p = fl' p) -> eval_cond fl i c = eval_cond fl' i c.
Proof.
  intros fl fl' i [|[o a] c] H; simpl; auto.
  assert (E : eval_atom fl i a = eval_atom fl' i a).
  { apply eval_atom_ext. intros p ->. apply H with o. simpl. auto. }
  rewrite E. apply eval_chain_ext. intros. apply H with o0. simpl. auto.
Qed.

Lemma run_ext : forall b fl fl' i,
    (forall p, In p (block_atoms b) -> fl p = fl' p) -> run b fl i = run b fl' i.
Proof.
  induction b as [|c acts els IHe rest IHr]; simpl; intros fl fl' i H; auto.
  rewrite (eval_cond_ext fl fl' i c).
  2: { intros o p Hin. apply H. apply in_or_app. left. apply in_flat_map.
       exists (o, AtFlag p). split; auto. simpl. auto. }
  rewrite (IHe fl fl' i) by (intros; apply H; apply in_or_app; right; apply in_or_app; auto).
  destruct (if eval_cond fl' i c then (acts, i || existsb sets_init acts) else run els fl' i) as [a1 i1].
  rewrite (IHr fl fl' i1) by (intros; apply H; apply in_or_app; right; apply in_or_app; auto).
  reflexivity.
Qed.

(** Generation depends on the change flags only pointwise. *)
Lemma chg_get_ext : forall c c' p, (forall q, c q = c' q) -> chg_get c p = chg_get c' p.
Proof. intros. unfold chg_get. rewrite H. reflexivity. Qed.

Lemma forallb_ext' : forall A (f g : A -> bool) l, (forall x, f x = g x) -> forallb f l = forallb g l.
Proof. induction l; simpl; intros; auto. rewrite H, IHl; auto. Qed.

Lemma existsb_ext' : forall A (f g : A -> bool) l, (forall x, f x = g x) -> existsb f l = existsb g l.
Proof. induction l; simpl; intros; auto. rewrite H, IHl; auto. Qed.

Lemma analyze_one_ext : forall t c c' f lg, (forall q, c q = c' q) ->
    analyze_one t c f lg = analyze_one t c' f lg.
Proof.
  intros. unfold analyze_one.
  destruct (extend_iff (fuel_of t) t (up_iff (ul_up lg))); simpl; auto.
  destruct (up_op (ul_up lg)) as [[]|].
  - rewrite (forallb_ext' _ (chg_get c) (chg_get c')) by (intro; apply chg_get_ext; auto). auto.
  - rewrite (existsb_ext' _ (chg_get c) (chg_get c')) by (intro; apply chg_get_ext; auto). auto.
  - destruct (up_xop (ul_up lg)); auto. destruct (up_out (ul_up lg)) as [|p [|]]; auto.
    unfold chg_item. destruct (pid_of_name f); auto. rewrite H. auto.
Qed.

Lemma analyze_loop_ext : forall t c c' items, (forall q, c q = c' q) ->
    analyze_loop t c items = analyze_loop t c' items.
Proof.
  induction items as [|[f lg] r IH]; simpl; intros; auto.
  rewrite (analyze_one_ext t c c' f lg H), IH by auto. reflexivity.
Qed.

Lemma analyze_pus_ext : forall t c c', (forall q, c q = c' q) -> analyze_pus t c = analyze_pus t c'.
Proof. intros. unfold analyze_pus. rewrite (analyze_loop_ext t c c' t H). reflexivity. Qed.

Lemma gen_update_ext : forall t quad c c' o, (forall q, c q = c' q) ->
    gen_update t quad c o = gen_update t quad c' o.
Proof. intros. unfold gen_update. rewrite (analyze_pus_ext t c c' H). reflexivity. Qed.

(** Finite enumerations. *)
Fixpoint subsets {A} (l : list A) : list (list A) :=
  match l with
  | [] => [[]]
  | x :: t => let s := subsets t in s ++ map (cons x) s
  end.

Lemma filter_in_subsets : forall A (f : A -> bool) l, In (filter f l) (subsets l).
Proof.
  induction l as [|x l IH]; simpl; auto.
  destruct (f x); apply in_or_app; [right|left; exact IH].
  apply in_map. exact IH.
Qed.

Fixpoint inserts {A} (x : A) (l : list A) : list (list A) :=
  (x :: l) :: match l with [] => [] | y :: t => map (cons y) (inserts x t) end.

Fixpoint perms {A} (l : list A) : list (list A) :=
  match l with
  | [] => [[]]
  | x :: t => flat_map (inserts x) (perms t)
  end.

Lemma inserts_app : forall A (x : A) l1 l2, In (l1 ++ x :: l2) (inserts x (l1 ++ l2)).
Proof.
  induction l1 as [|y l1 IH]; simpl; intros.
  - destruct l2; simpl; auto.
  - right. apply in_map. apply IH.
Qed.

Lemma perms_complete : forall A (l l' : list A), Permutation l l' -> In l' (perms l).
Proof.
  induction l as [|x l IH]; intros l' H.
  - apply Permutation_nil in H. subst. simpl. auto.
  - assert (Hin : In x l') by (eapply Permutation_in; [exact H|simpl; auto]).
    apply in_split in Hin. destruct Hin as (l1 & l2 & ->).
    apply Permutation_cons_app_inv in H.
    simpl. apply in_flat_map. exists (l1 ++ l2). split; [apply IH; exact H|].
    apply inserts_app.
Qed.
