(** A check of a template over all contexts of a kind at once, and its soundness: the template renders, and a scan of the
    rendered text goes from the first given state to the second. *)

From Coq Require Import String Ascii Arith Bool List Lia.
From Verif Require Import Template.
Import ListNotations.
Open Scope string_scope.
Open Scope list_scope.

(** What is known of a value: the value; only that its text takes the states of class [n] to those given by [after] (class 0: plain words, to themselves);
    that it is a number or a boolean; a list of tuples with entries of given kinds; a list of values of a kind. *)
Inductive kind := KV (v : val) | KCls (n : nat) | KNum | KBool | KList (ks : list kind) | KSeq (k : kind).
Notation KPlain := (KCls 0).
Definition kctx := list (string * kind).

Section Check.
  Variables (St : Type) (scan : string -> St -> option St) (cls : nat -> St -> bool) (after : nat -> St -> St) (plainb : string -> bool)
    (steq : forall a b : St, {a = b} + {a <> b}).
  Hypothesis scan_nil : forall s, scan ""%string s = Some s.
  Hypothesis scan_app : forall a b s, scan (a ++ b)%string s = match scan a s with Some s' => scan b s' | None => None end.
  Definition plain_in (n : nat) (t : string) : Prop := forall s, cls n s = true -> scan t s = Some (after n s).
  Hypothesis after_0 : forall s, after 0 s = s.
  Notation plain := (plain_in 0).
  Hypothesis plainb_ok : forall t, plainb t = true -> plain t.
  Hypothesis plain_num : forall n, plain (dec n).
  Variable trims : bool.
  Hypothesis plain_trim : trims = true -> forall t, plain t -> plain (rtrim (ltrim t)).

  Fixpoint has (v : val) (k : kind) {struct k} : Prop :=
    match k with
    | KV w => v = w
    | KCls n => plain_in n (pystr v)
    | KNum => exists n, v = VN n
    | KBool => exists b, v = VB b
    | KList ks => exists l, v = VL l /\ forall e, In e l -> exists l', e = VT l' /\
        (fix all (l : list val) (ks : list kind) {struct ks} : Prop :=
           match ks, l with [], [] => True | k :: ks, v :: l => has v k /\ all l ks | _, _ => False end) l' ks
    | KSeq k => exists l, v = VL l /\ forall e, In e l -> has e k
    end.
  Fixpoint hasall (l : list val) (ks : list kind) {struct ks} : Prop :=
    match ks, l with [], [] => True | k :: ks, v :: l => has v k /\ hasall l ks | _, _ => False end.
  Definition abs (c : ctx) (k : kctx) : Prop :=
    forall x d, get x k = Some d -> exists v, get x c = Some v /\ has v d.

  Definition printable (k : kind) : bool :=
    match k with
    | KCls 0 | KNum => true
    | KV (VS s) => plainb s
    | KV (VN _) => true
    | _ => false
    end.

  Fixpoint aeval (k : kctx) (e : texp) : option kind :=
    match e with
    | Nm x => get x k
    | Str s => Some (KV (VS s))
    | Num n => Some (KV (VN n))
    | Not e => match aeval k e with Some (KV v) => Some (KV (VB (negb (truthy v)))) | Some _ => Some KBool | None => None end
    | And e f => match aeval k e with Some (KV v) => if truthy v then aeval k f else Some (KV v) | _ => None end
    | Eq e f => match aeval k e, aeval k f with
                | Some (KV v), Some (KV w) => Some (KV (VB (veq v w))) | Some _, Some _ => Some KBool | _, _ => None end
    | Ne e f => match aeval k e, aeval k f with
                | Some (KV v), Some (KV w) => Some (KV (VB (negb (veq v w)))) | Some _, Some _ => Some KBool | _, _ => None end
    | Gt e f => match aeval k e, aeval k f with
                | Some KNum, Some (KV (VN _)) => Some KBool | _, _ => None end
    | Cond a q b =>
      match aeval k q with
      | Some (KV v) => if truthy v then aeval k a else aeval k b
      | Some _ => match aeval k a, aeval k b with
                  | Some x, Some y => if printable x && printable y then Some KPlain else None | _, _ => None end
      | None => None
      end
    | Cat e f => match aeval k e, aeval k f with
                 | Some x, Some y => if printable x && printable y then Some KPlain else None | _, _ => None end
    | Trim e => match aeval k e with Some x => if printable x && trims then Some KPlain else None | None => None end
    end.

  Fixpoint cnode (k : kctx) (t : node) (st : St) {struct t} : option St :=
    let cl := fix cl (k : kctx) (l : list node) (st : St) {struct l} : option St :=
      match l with [] => Some st | t :: r => match cnode k t st with Some s => cl k r s | None => None end end in
    match t with
    | Txt s => scan s st
    | Out e =>
      match aeval k e with
      | Some (KV v) => scan (pystr v) st
      | Some (KCls n) => if cls n st then Some (after n st) else None
      | Some d => if printable d && cls 0 st then Some st else None
      | None => None
      end
    | If q a b =>
      match aeval k q with
      | Some (KV v) => if truthy v then cl k a st else cl k b st
      | Some _ => match cl k a st, cl k b st with
                  | Some s, Some s' => if steq s s' then Some s else None | _, _ => None end
      | None => None
      end
    | For xs x body =>
      match get x k with
      | Some (KV (VL vs)) =>
        (fix go (vs : list val) (st : St) : option St :=
           match vs with
           | [] => Some st
           | v :: r => match bind_loop xs v with
                       | Done b => match cl (map (fun p => (fst p, KV (snd p))) b ++ k) body st with
                                   | Some s => go r s | None => None end
                       | Fail _ => None
                       end
           end) vs st
      | Some (KList ks) =>
        if (length ks =? length xs)%nat && (1 <? length xs)%nat then
          match cl (combine xs ks ++ k) body st with
          | Some s => if steq s st then Some st else None | None => None end
        else None
      | Some (KSeq d) =>
        match xs with
        | [y] => match cl ((y, d) :: k) body st with Some s => if steq s st then Some st else None | None => None end
        | _ => None
        end
      | _ => None
      end
    end.
  Fixpoint chk (k : kctx) (l : list node) (st : St) : option St :=
    match l with [] => Some st | t :: r => match cnode k t st with Some s => chk k r s | None => None end end.

  (** *** Soundness *)

  Lemma printable_ok : forall d v, has v d -> printable d = true -> plain (pystr v).
  Proof.
    intros d v H P. destruct d as [w|[|n]| | | |]; cbn in *; try discriminate; auto.
    - subst w. destruct v; try discriminate; cbn; auto.
    - destruct H as [n ->]. cbn. auto.
  Qed.
  Lemma plain_app : forall a b, plain a -> plain b -> plain (a ++ b)%string.
  Proof. intros a b A B s N. rewrite scan_app, (A s N), (after_0 s), (B s N). now rewrite after_0. Qed.

  Lemma aeval_ok : forall c k, abs c k -> forall e d, aeval k e = Some d -> exists v, eval c e = Done v /\ has v d.
  Proof.
    intros c k AB. induction e as [x|s|n|e IH|e IHe f IHf|e IHe f IHf|e IHe f IHf|e IHe f IHf|a IHa q IHq b IHb|e IHe f IHf|e IH];
      intros d H; cbn [aeval eval] in *.
    - destruct (AB x d H) as [v [E V]]. rewrite E. eauto.
    - injection H as <-. eexists; split; [reflexivity|reflexivity].
    - injection H as <-. eexists; split; [reflexivity|reflexivity].
    - destruct (aeval k e) as [d'|]; [|discriminate]. destruct (IH d' eq_refl) as [v [E V]]. rewrite E. cbn [tbind].
      destruct d'; injection H as <-; eexists; (split; [reflexivity|]); cbn in *; subst; eauto.
    - destruct (aeval k e) as [d'|]; [|discriminate]. destruct (IHe d' eq_refl) as [v [E V]]. rewrite E. cbn [tbind].
      destruct d' as [w| | | | |]; try discriminate. cbn in V. subst w. destruct (truthy v).
      + apply IHf; auto.
      + injection H as <-. eexists; split; [reflexivity|reflexivity].
    - destruct (aeval k e) as [d1|]; [|discriminate]. destruct (aeval k f) as [d2|]; [|destruct d1; discriminate].
      destruct (IHe d1 eq_refl) as [v [E V]]. destruct (IHf d2 eq_refl) as [w [F W]]. rewrite E, F. cbn [tbind].
      eexists; split; [reflexivity|].
      destruct d1; [destruct d2|..]; injection H as <-; cbn in *; subst; eauto.
    - destruct (aeval k e) as [d1|]; [|discriminate]. destruct (aeval k f) as [d2|]; [|destruct d1; discriminate].
      destruct (IHe d1 eq_refl) as [v [E V]]. destruct (IHf d2 eq_refl) as [w [F W]]. rewrite E, F. cbn [tbind].
      eexists; split; [reflexivity|].
      destruct d1; [destruct d2|..]; injection H as <-; cbn in *; subst; eauto.
    - destruct (aeval k e) as [d1|]; [|discriminate]. destruct (aeval k f) as [d2|]; [|destruct d1; discriminate].
      destruct (IHe d1 eq_refl) as [v [E V]]. destruct (IHf d2 eq_refl) as [w [F W]]. rewrite E, F. cbn [tbind].
      destruct d1; try discriminate. destruct d2 as [u| | | | |]; try discriminate. destruct u; try discriminate.
      injection H as <-. cbn in V, W. destruct V as [m ->]. subst w. cbn. eexists; split; [reflexivity|]. cbn. eauto.
    - destruct (aeval k q) as [dq|]; [|discriminate]. destruct (IHq dq eq_refl) as [v [E V]]. rewrite E. cbn [tbind].
      assert (X : (exists w, dq = KV w /\ (if truthy w then aeval k a else aeval k b) = Some d)
                  \/ (exists x y, aeval k a = Some x /\ aeval k b = Some y /\ printable x = true /\ printable y = true /\ d = KPlain)).
      { destruct dq as [w| | | | |]; [left; eauto|..];
          (right; destruct (aeval k a) as [x|]; [|discriminate]; destruct (aeval k b) as [y|]; [|discriminate];
           destruct (printable x) eqn:P1; [|discriminate]; destruct (printable y) eqn:P2; [|discriminate];
           injection H as <-; exists x, y; auto). }
      destruct X as [[w [-> X]]|[x [y [A [B [P1 [P2 ->]]]]]]].
      + cbn in V. subst w. destruct (truthy v); eauto.
      + destruct (IHa x A) as [u [U1 U2]]. destruct (IHb y B) as [w [W1 W2]].
        destruct (truthy v); [exists u|exists w]; (split; [assumption|]); cbn; eapply printable_ok; eauto.
    - destruct (aeval k e) as [d1|]; [|discriminate]. destruct (aeval k f) as [d2|]; [|discriminate].
      destruct (IHe d1 eq_refl) as [v [E V]]. destruct (IHf d2 eq_refl) as [w [F W]]. rewrite E, F. cbn [tbind].
      destruct (printable d1) eqn:P1; [|discriminate]. destruct (printable d2) eqn:P2; [|discriminate].
      injection H as <-. eexists; split; [reflexivity|]. cbn. apply plain_app; eapply printable_ok; eauto.
    - destruct (aeval k e) as [d1|]; [|discriminate]. destruct (IH d1 eq_refl) as [v [E V]]. rewrite E. cbn [tbind].
      destruct (printable d1) eqn:P1; [|discriminate]. destruct trims; [|discriminate].
      injection H as <-. eexists; split; [reflexivity|]. cbn. apply plain_trim; [reflexivity|]. eapply printable_ok; eauto.
  Qed.

  Lemma abs_app : forall b c kb k, abs c k ->
    (forall x d, get x kb = Some d -> exists v, get x b = Some v /\ has v d) ->
    (forall x, get x kb = None -> get x b = None) -> abs (b ++ c) (kb ++ k).
  Proof.
    intros b c kb k A B N x d H.
    assert (G : forall (A : Type) (l m : list (string * A)), get x (l ++ m) = match get x l with Some v => Some v | None => get x m end).
    { intros T l m. induction l as [|[y v] l IH]; cbn; [reflexivity|]. destruct (String.eqb y x); auto. }
    rewrite G in *. destruct (get x kb) as [d'|] eqn:E.
    - injection H as ->. destruct (B x d E) as [v [V1 V2]]. rewrite V1. eauto.
    - rewrite (N x E). now apply A.
  Qed.
  Lemma get_consts : forall b x, get x (map (fun p : string * val => (fst p, KV (snd p))) b) = option_map KV (get x b).
  Proof. induction b as [|[y v] b IH]; intros x; cbn; [reflexivity|]. destruct (String.eqb y x); cbn; auto. Qed.
  Lemma get_combine : forall xs l ks, hasall l ks -> length ks = length xs ->
    (forall x d, get x (combine xs ks) = Some d -> exists v, get x (combine xs l) = Some v /\ has v d)
    /\ (forall x, get x (combine xs ks) = None -> get x (combine xs l) = None).
  Proof.
    induction xs as [|y xs IH]; intros l ks H E.
    - cbn. split; [discriminate|reflexivity].
    - destruct ks as [|k ks]; [discriminate|]. destruct l as [|v l]; [destruct H|]. destruct H as [H1 H2].
      injection E as E. destruct (IH l ks H2 E) as [I1 I2]. cbn [combine get]. split; intros x; destruct (String.eqb y x).
      + intros d D. injection D as <-. eauto.
      + apply I1.
      + discriminate.
      + apply I2.
  Qed.
  Lemma hasall_length : forall l ks, hasall l ks -> length l = length ks.
  Proof. intros l ks. revert l. induction ks as [|k ks IH]; intros [|v l] H; cbn in *; try easy. f_equal. apply IH. apply H. Qed.
  Lemma has_list : forall v ks, has v (KList ks) <-> exists l, v = VL l /\ forall e, In e l -> exists l', e = VT l' /\ hasall l' ks.
  Proof.
    intros v ks. cbn [has].
    assert (X : forall ks l, (fix all (l : list val) (ks : list kind) {struct ks} : Prop :=
           match ks, l with [], [] => True | k :: ks, v :: l => has v k /\ all l ks | _, _ => False end) l ks <-> hasall l ks).
    { induction ks0 as [|k0 ks0 IH]; intros [|w l]; cbn; tauto. }
    split; intros [l [E H]]; exists l; (split; [exact E|]); intros e I1; destruct (H e I1) as [l' [E' H']]; exists l';
      (split; [exact E'|]); now apply X.
  Qed.

  Definition rl := fix rl (c : ctx) (l : list node) {struct l} : tres string :=
    match l with
    | [] => Done ""%string
    | t :: r => tbind (rnode c t) (fun a => tbind (rl c r) (fun b => Done (a ++ b)%string))
    end.
  Definition lp (c : ctx) (xs : list string) (body : list node) := fix loop (vs : list val) : tres string :=
         match vs with
         | [] => Done ""%string
         | v :: r => tbind (bind_loop xs v) (fun b => tbind (rl (b ++ c) body) (fun s =>
                     tbind (loop r) (fun s' => Done (s ++ s')%string)))
         end.
  Lemma rl_render : forall l c, rl c l = render c l.
  Proof. induction l as [|t l IH]; intros c; cbn; [reflexivity|]. now rewrite IH. Qed.
  Lemma lp_loop : forall c xs body vs, lp c xs body vs = loop c xs body vs.
  Proof.
    intros c xs body vs. induction vs as [|v vs IH]; [reflexivity|]. cbn [lp loop].
    destruct (bind_loop xs v); cbn [tbind]; [|reflexivity]. rewrite rl_render. fold (lp c xs body). now rewrite IH.
  Qed.
  Lemma rnode_if : forall c q a b, rnode c (If q a b) = tbind (eval c q) (fun v => if truthy v then render c a else render c b).
  Proof. intros. cbn [rnode]. fold rl. destruct (eval c q); cbn [tbind]; [|reflexivity]. now rewrite !rl_render. Qed.
  Lemma rnode_for : forall c xs x body, rnode c (For xs x body) =
    match get x c with None => Fail (Undefined x) | Some (VL vs) => loop c xs body vs | Some _ => Fail NotIterable end.
  Proof.
    intros. cbn [rnode]. fold rl. destruct (get x c) as [[]|]; try reflexivity. rewrite <- lp_loop. reflexivity.
  Qed.
  Definition cl := fix cl (k : kctx) (l : list node) (st : St) {struct l} : option St :=
      match l with [] => Some st | t :: r => match cnode k t st with Some s => cl k r s | None => None end end.
  Lemma cl_chk : forall l k st, cl k l st = chk k l st.
  Proof. induction l as [|t l IH]; intros k st; cbn; [reflexivity|]. destruct (cnode k t st); auto. Qed.
  Fixpoint go (k : kctx) (xs : list string) (body : list node) (vs : list val) (st : St) : option St :=
    match vs with
    | [] => Some st
    | v :: r => match bind_loop xs v with
                | Done b => match chk (map (fun p => (fst p, KV (snd p))) b ++ k) body st with
                            | Some s => go k xs body r s | None => None end
                | Fail _ => None
                end
    end.
  Definition gof (k : kctx) (xs : list string) (body : list node) :=
    fix go (vs : list val) (st : St) : option St :=
      match vs with
      | [] => Some st
      | v :: r => match bind_loop xs v with
                  | Done b => match cl (map (fun p => (fst p, KV (snd p))) b ++ k) body st with
                              | Some s => go r s | None => None end
                  | Fail _ => None
                  end
      end.
  Lemma gof_go : forall k xs body vs st, gof k xs body vs st = go k xs body vs st.
  Proof.
    intros k xs body. induction vs as [|v vs IH]; intros st; [reflexivity|]. cbn [gof go].
    destruct (bind_loop xs v); [|reflexivity]. rewrite cl_chk. fold (gof k xs body).
    destruct (chk _ body st); auto.
  Qed.
  Definition cfor (k : kctx) (xs : list string) (x : string) (body : list node) (st : St) : option St :=
    match get x k with
    | Some (KV (VL vs)) => go k xs body vs st
    | Some (KList ks) =>
      if (length ks =? length xs)%nat && (1 <? length xs)%nat then
        match chk (combine xs ks ++ k) body st with
        | Some s => if steq s st then Some st else None | None => None end
      else None
    | Some (KSeq d) =>
      match xs with
      | [y] => match chk ((y, d) :: k) body st with Some s => if steq s st then Some st else None | None => None end
      | _ => None
      end
    | _ => None
    end.
  Lemma cnode_for : forall k xs x body st, cnode k (For xs x body) st = cfor k xs x body st.
  Proof.
    intros k xs x body st. cbn [cnode]. fold cl. unfold cfor. destruct (get x k) as [d|]; [|reflexivity].
    destruct d as [v| | | |ks|d]; try reflexivity.
    destruct v; try reflexivity; apply gof_go.
  Qed.
  Lemma cnode_if : forall k q a b st, cnode k (If q a b) st =
    match aeval k q with
    | Some (KV v) => if truthy v then chk k a st else chk k b st
    | Some _ => match chk k a st, chk k b st with
                | Some s, Some s' => if steq s s' then Some s else None | _, _ => None end
    | None => None
    end.
  Proof.
    intros. cbn [cnode]. fold cl. rewrite !cl_chk. destruct (aeval k q) as [[]|]; reflexivity.
  Qed.

  Definition sound (t : node) : Prop := forall c k st st', abs c k -> cnode k t st = Some st' ->
    exists s, rnode c t = Done s /\ scan s st = Some st'.
  Definition soundl (l : list node) : Prop := forall c k st st', abs c k -> chk k l st = Some st' ->
    exists s, render c l = Done s /\ scan s st = Some st'.

  Lemma sound_nil : soundl [].
  Proof. intros c k st st' A H. injection H as <-. exists ""%string. split; [reflexivity|apply scan_nil]. Qed.
  Lemma sound_cons : forall t l, sound t -> soundl l -> soundl (t :: l).
  Proof.
    intros t l T L c k st st' A H. cbn [chk] in H. destruct (cnode k t st) as [s1|] eqn:E; [|discriminate].
    destruct (T c k st s1 A E) as [a [R1 S1]]. destruct (L c k s1 st' A H) as [b [R2 S2]].
    exists (a ++ b)%string. cbn [render]. rewrite R1. cbn [tbind]. rewrite R2. split; [reflexivity|].
    now rewrite scan_app, S1.
  Qed.
  Lemma sound_loop_fix : forall body xs c k st, soundl body -> forall (P : val -> Prop),
    (forall v, P v -> exists b kb, bind_loop xs v = Done b /\ abs (b ++ c) (kb ++ k) /\ chk (kb ++ k) body st = Some st) ->
    forall vs, (forall v, In v vs -> P v) -> exists s, loop c xs body vs = Done s /\ scan s st = Some st.
  Proof.
    intros body xs c k st B P H. induction vs as [|v vs IH]; intros I1.
    - exists ""%string. split; [reflexivity|apply scan_nil].
    - destruct (H v (I1 v (or_introl eq_refl))) as [b [kb [E [A K]]]].
      destruct (B _ _ _ _ A K) as [s [R S1]]. destruct (IH (fun w W => I1 w (or_intror W))) as [s' [R' S2]].
      exists (s ++ s')%string. cbn [loop]. rewrite E. cbn [tbind]. rewrite R. cbn [tbind]. rewrite R'. cbn [tbind].
      split; [reflexivity|]. now rewrite scan_app, S1.
  Qed.
  Lemma sound_go : forall body xs c k, soundl body -> abs c k -> forall vs st st', go k xs body vs st = Some st' ->
    exists s, loop c xs body vs = Done s /\ scan s st = Some st'.
  Proof.
    intros body xs c k B A. induction vs as [|v vs IH]; intros st st' H.
    - injection H as <-. exists ""%string. split; [reflexivity|apply scan_nil].
    - cbn [go] in H. destruct (bind_loop xs v) as [b|] eqn:E; [|discriminate].
      destruct (chk _ body st) as [s1|] eqn:C; [|discriminate].
      assert (A' : abs (b ++ c) (map (fun p => (fst p, KV (snd p))) b ++ k)).
      { apply abs_app; [exact A| |].
        - intros x d G. rewrite get_consts in G. destruct (get x b) as [w|]; [|discriminate]. injection G as <-. exists w. split; reflexivity.
        - intros x G. rewrite get_consts in G. destruct (get x b); [discriminate|reflexivity]. }
      destruct (B _ _ _ _ A' C) as [s [R S1]]. destruct (IH s1 st' H) as [s' [R' S2]].
      exists (s ++ s')%string. cbn [loop]. rewrite E. cbn [tbind]. rewrite R. cbn [tbind]. rewrite R'. cbn [tbind].
      split; [reflexivity|]. now rewrite scan_app, S1.
  Qed.

  Lemma sound_txt : forall s, sound (Txt s).
  Proof. intros s c k st st' A H. exists s. split; [reflexivity|exact H]. Qed.
  Lemma sound_out : forall e, sound (Out e).
  Proof.
    intros e c k st st' A H. cbn [cnode] in H. destruct (aeval k e) as [d|] eqn:E; [|discriminate].
    destruct (aeval_ok c k A e d E) as [v [V1 V2]]. exists (pystr v). cbn [rnode]. rewrite V1. split; [reflexivity|].
    assert (X : (d = KV v /\ scan (pystr v) st = Some st') \/ (exists n, d = KCls n /\ cls n st = true /\ st' = after n st)
                \/ (printable d = true /\ cls 0 st = true /\ st' = st)).
    { destruct d as [w|n| | | |]; [left; cbn in V2; subst w; auto|right; left|..];
        [exists n; destruct (cls n st); [|discriminate]; injection H as <-; auto|..];
        (right; right; destruct (printable _); [|discriminate]; destruct (cls 0 st); [|discriminate]; injection H as <-; auto). }
    destruct X as [[_ X]|[[n [-> [N ->]]]|[P [N ->]]]]; [exact X|now apply V2|]. rewrite (printable_ok d v V2 P st N). now rewrite after_0.
  Qed.
  Lemma sound_if : forall q a b, soundl a -> soundl b -> sound (If q a b).
  Proof.
    intros q a b SA SB c k st st' A H. rewrite cnode_if in H. rewrite rnode_if.
    destruct (aeval k q) as [d|] eqn:E; [|discriminate]. destruct (aeval_ok c k A q d E) as [v [V1 V2]]. rewrite V1. cbn [tbind].
    assert (X : (exists w, d = KV w /\ (if truthy w then chk k a st else chk k b st) = Some st')
                \/ (chk k a st = Some st' /\ chk k b st = Some st')).
    { destruct d as [w| | | | |]; [left; eauto|..];
        (right; destruct (chk k a st) as [s1|]; [|discriminate]; destruct (chk k b st) as [s2|]; [|discriminate];
         destruct (steq s1 s2) as [<-|]; [|discriminate]; injection H as <-; auto). }
    destruct X as [[w [-> X]]|[X Y]].
    - cbn in V2. subst w. destruct (truthy v); eauto.
    - destruct (truthy v); eauto.
  Qed.
  Lemma sound_for : forall xs x body, soundl body -> sound (For xs x body).
  Proof.
    intros xs x body B c k st st' A H. rewrite cnode_for in H. rewrite rnode_for. unfold cfor in H.
    destruct (get x k) as [d|] eqn:E; [|discriminate]. destruct (A x d E) as [v [V1 V2]]. rewrite V1.
    destruct d as [w| | | |ks|d]; try discriminate.
    - cbn in V2. subst w. destruct v as [| | | | |vs]; try discriminate. eapply sound_go; eauto.
    - apply has_list in V2. destruct V2 as [l [-> HL]].
      destruct (length ks =? length xs)%nat eqn:L1; [|discriminate]. destruct (1 <? length xs)%nat eqn:L2; [|discriminate].
      cbn [andb] in H. destruct (chk (combine xs ks ++ k) body st) as [s1|] eqn:C; [|discriminate].
      destruct (steq s1 st) as [->|]; [|discriminate]. injection H as <-.
      apply Nat.eqb_eq in L1. apply Nat.ltb_lt in L2.
      apply (sound_loop_fix body xs c k st B (fun e => exists l', e = VT l' /\ hasall l' ks)); [|exact HL].
      intros e [l' [-> HA]]. exists (combine xs l'), (combine xs ks).
      assert (LL : length l' = length xs) by (rewrite (hasall_length l' ks HA); exact L1).
      split.
      + unfold bind_loop. destruct xs as [|y [|z xs]]; try (cbn in L2; lia). apply Nat.eqb_eq in LL. now rewrite LL.
      + destruct (get_combine xs l' ks HA L1) as [G1 G2]. split; [|exact C]. now apply abs_app.
    - destruct V2 as [l [-> HL]]. destruct xs as [|y [|]]; try discriminate.
      destruct (chk ((y, d) :: k) body st) as [s1|] eqn:C; [|discriminate].
      destruct (steq s1 st) as [->|]; [|discriminate]. injection H as <-.
      apply (sound_loop_fix body [y] c k st B (fun e => has e d)); [|exact HL].
      intros e HE. exists [(y, e)], [(y, d)]. split; [reflexivity|]. split; [|exact C].
      apply abs_app; [exact A| |]; intros z; cbn [get]; destruct (String.eqb y z); try discriminate; auto.
      intros d' D. injection D as <-. eauto.
  Qed.

  Fixpoint sound_node (t : node) : sound t :=
    let sl := fix sl (l : list node) : soundl l :=
      match l with [] => sound_nil | t :: r => sound_cons t r (sound_node t) (sl r) end in
    match t with
    | Txt s => sound_txt s
    | Out e => sound_out e
    | If q a b => sound_if q a b (sl a) (sl b)
    | For xs x body => sound_for xs x body (sl body)
    end.
  Theorem chk_sound : forall l, soundl l.
  Proof. induction l as [|t l IH]; [exact sound_nil|]. apply sound_cons; [apply sound_node|exact IH]. Qed.
End Check.
