(** Proofs about the Python wrapper. *)

From Coq Require Import String Arith Bool Lia List Permutation.
From Verif Require Import Base Pus Machine PusParse PusCheck PusLift Runtime RuntimeSpec
     RuntimeProofs Wrapper.
Import ListNotations.

Section WrapperProofs.
  Variable N : Num.
  Notation V := (car N).
  Variable g : genc N.
  Variable scr : nat -> pid -> list V -> list V.
  Variable sv : Type.
  Variable enabled : list string.
  Variable translation : list (string * string).
  Variable dflt : string -> sv.
  Variable converts : string -> sv -> bool.

  Notation py := (py_solve N g scr sv enabled translation dflt converts).
  Notation sess := (session N g scr sv enabled translation dflt converts).
  Notation W0 := (w_init N g sv dflt).
  Notation call := (pcall N sv).
  Notation kw_ok := (set_kw sv enabled translation converts).

  (** ** Values passed to C *)

  (** A call whose parameters all have values of the right length. *)
  Definition vals_ok (c : call) : Prop :=
    forall n s, In (n, s) (g_params g) -> exists l, c_vals c n = Ok l /\ length l = s.

  (** The parameter values of a call. *)
  Definition vals_of (c : call) : pvals N :=
    fun n i => match c_vals c n with Ok l => nth i l n0 | Err _ => n0 end.

  Lemma set_par_ok : forall c ps, (forall n s, In (n, s) ps -> exists l, c_vals c n = Ok l /\ length l = s) ->
      set_par N sv c ps = Ok (map (fun ns => (fst ns, map (vals_of c (fst ns)) (seq 0 (snd ns)))) ps).
  Proof.
    induction ps as [|[n s] ps IH]; intros H; simpl; auto.
    destruct (H n s) as (l & E & L); [left; auto|]. rewrite E. cbn [bind]. rewrite L, Nat.eqb_refl.
    rewrite IH by (intros; apply H; right; auto). simpl. do 3 f_equal.
    apply nth_ext_len with n0.
    - rewrite map_length, seq_length. auto.
    - intros k Hk. transitivity (vals_of c n k); [unfold vals_of; rewrite E; auto|].
      symmetry. rewrite nth_indep with (d' := vals_of c n 0) by (rewrite map_length, seq_length; lia).
      rewrite map_nth with (d := 0). rewrite seq_nth by lia. reflexivity.
  Qed.

  Lemma final_vals_app : forall os1 os2 (th : pvals N),
      final_vals th (os1 ++ os2) = final_vals (final_vals th os1) os2.
  Proof. induction os1 as [|[]]; simpl; intros; auto. Qed.

  Lemma solve_vals_app : forall os1 os2 (th : pvals N),
      solve_vals th (os1 ++ os2) = solve_vals th os1 ++ solve_vals (final_vals th os1) os2.
  Proof. induction os1 as [|[]]; simpl; intros; auto. rewrite IHos1. reflexivity. Qed.

  Definition par_ops (c : call) (n : string) (k s : nat) : list (op N) :=
    map (fun i => OUpd n i (vals_of c n i)) (seq k s).

  Lemma par_ops_final : forall c n s k (th : pvals N) m i,
      final_vals th (par_ops c n k s) m i
      = if String.eqb m n && (Nat.leb k i && Nat.ltb i (k + s)) then vals_of c n i else th m i.
  Proof.
    intros c n. induction s as [|s IH]; intros k th m i.
    - unfold par_ops. cbn [seq map final_vals]. destruct (String.eqb m n); cbn [andb]; auto.
      destruct (Nat.leb_spec k i); cbn [andb]; auto. destruct (Nat.ltb_spec i (k + 0)); auto. lia.
    - unfold par_ops in *. cbn [seq map final_vals]. rewrite IH. unfold set_val.
      destruct (String.eqb m n) eqn:E; cbn [andb]; auto.
      destruct (Nat.leb_spec (S k) i), (Nat.ltb_spec i (S k + s)), (Nat.leb_spec k i),
        (Nat.ltb_spec i (k + S s)), (Nat.eqb_spec i k); cbn [andb]; subst; auto; lia.
  Qed.

  Lemma par_ops_no_solve : forall c n k s (th : pvals N), solve_vals th (par_ops c n k s) = [].
  Proof. intros c n k s. revert k. induction s; intros; simpl; auto. unfold par_ops in *. apply IHs. Qed.

  (** The update calls of one Python call. *)
  Definition ops_of (flag : string -> bool) (c : call) (ps : list (string * nat)) : list (op N) :=
    flat_map (fun ns => if flag (fst ns) then par_ops c (fst ns) 0 (snd ns) else []) ps.

  Lemma combine_seq_map : forall A (f : nat -> A) s k,
      combine (seq k s) (map f (seq k s)) = map (fun i => (i, f i)) (seq k s).
  Proof. induction s; intros; simpl; auto. rewrite IHs. reflexivity. Qed.

  Lemma upd_ops_is : forall flag c ps,
      upd_ops N flag (map (fun ns => (fst ns, map (vals_of c (fst ns)) (seq 0 (snd ns)))) ps)
      = ops_of flag c ps.
  Proof.
    intros. unfold upd_ops, ops_of. induction ps as [|[n s] ps IH]; auto.
    cbn [map flat_map fst snd]. rewrite IH. destruct (flag n); auto.
    rewrite map_length, seq_length, combine_seq_map, map_map. reflexivity.
  Qed.

  Lemma ops_of_final : forall flag c ps (th : pvals N) m i, NoDup (map fst ps) ->
      final_vals th (ops_of flag c ps) m i
      = match assoc m ps with
        | Some s => if flag m && Nat.ltb i s then vals_of c m i else th m i
        | None => th m i
        end.
  Proof.
    intros flag c. induction ps as [|[n s] ps IH]; intros th m i ND; simpl; auto.
    inversion ND as [|? ? Hn ND']; subst. rewrite final_vals_app, IH by auto.
    destruct (String.eqb m n) eqn:E.
    - apply String.eqb_eq in E. subst m.
      assert (assoc n ps = None) as En.
      { clear - Hn. induction ps as [|[k v] ps IH]; simpl; auto. simpl in Hn.
        destruct (String.eqb n k) eqn:E; [apply String.eqb_eq in E; subst; tauto|]. apply IH; tauto. }
      rewrite En. destruct (flag n); simpl; auto.
      rewrite par_ops_final, String.eqb_refl. simpl. reflexivity.
    - assert (EE : final_vals th (if flag n then par_ops c n 0 s else []) m i = th m i).
      { destruct (flag n); auto. rewrite par_ops_final, E. reflexivity. }
      destruct (assoc m ps) as [sz|]; [destruct (flag m && Nat.ltb i sz); auto|]; rewrite EE; auto.
  Qed.

  Lemma ops_of_no_solve : forall flag c ps (th : pvals N), solve_vals th (ops_of flag c ps) = [].
  Proof.
    intros flag c. induction ps as [|[n s] ps IH]; intros; simpl; auto.
    rewrite solve_vals_app, IH. destruct (flag n); [rewrite par_ops_no_solve|]; auto.
  Qed.

  Lemma ops_of_valid : forall flag c, Forall (valid_op (g_params g)) (ops_of flag c (g_params g)).
  Proof.
    intros. unfold ops_of. apply Forall_forall. intros o Ho. apply in_flat_map in Ho.
    destruct Ho as ([n s] & Hin & Ho). simpl in Ho. destruct (flag n); [|contradiction].
    unfold par_ops in Ho. apply in_map_iff in Ho. destruct Ho as (i & Eo & Hi). subst o.
    apply in_seq in Hi. simpl. exists s. split; auto. lia.
  Qed.

  Lemma flat_agree : forall (ps : list (string * nat)) (th th' : pvals N),
      (forall n s i, In (n, s) ps -> i < s -> th n i = th' n i) -> flat ps th = flat ps th'.
  Proof.
    intros ps th th' H. unfold flat. f_equal. apply flat_map_ext_in. intros [n s] Hin. simpl.
    apply map_ext_in. intros i Hi. apply in_seq in Hi. eapply H; eauto. lia.
  Qed.

  Lemma assoc_in : forall A (k : string) (v : A) l, NoDup (map fst l) -> In (k, v) l -> assoc k l = Some v.
  Proof.
    induction l as [|[k' v'] l IH]; simpl; intros ND H; [contradiction|].
    inversion ND; subst. destruct (String.eqb k k') eqn:E.
    - apply String.eqb_eq in E. subst k'. destruct H as [H|H]; [congruence|].
      exfalso. apply H2. apply (in_map fst) in H. exact H.
    - apply String.eqb_neq in E. destruct H as [H|H]; [congruence|]. auto.
  Qed.

  (** ** Sessions (C05) *)
  Variable th0 : pvals N.
  Hypothesis W : wf_gen g th0.
  Hypothesis Hecos : g_solver g = ECOS -> forall p, In p (owned ECOS) -> length (g_rows g p) <> 1.
  Hypothesis Hkeep : keeps (g_solver g) = true -> forall n p d, scr n p d = d.

  Definition updated_of (c : call) : list string :=
    match c_upd c with None => map fst (g_params g) | Some l => l end.

  (** The call is accepted by the wrapper. *)
  Definition call_ok (c : call) : Prop :=
    (forall p, In p (updated_of c) -> In p (map fst (g_params g)))
    /\ snd (kw_ok (fun _ => dflt EmptyString) (c_kw c)) = None
    /\ vals_ok c.

  Definition agree (th th' : pvals N) : Prop :=
    forall n s i, In (n, s) (g_params g) -> i < s -> th n i = th' n i.

  (** [updated_params] lists every parameter that differs from the previous values. *)
  Definition covers (prev : pvals N) (c : call) : Prop :=
    forall n s, In (n, s) (g_params g) -> ~ In n (updated_of c) ->
                forall i, i < s -> vals_of c n i = prev n i.

  Fixpoint all_cover (prev : pvals N) (cs : list call) : Prop :=
    match cs with
    | [] => True
    | c :: t => covers prev c /\ all_cover (vals_of c) t
    end.

  Lemma set_kw_exn : forall kw st st', snd (kw_ok st kw) = snd (kw_ok st' kw).
  Proof.
    induction kw as [|[k v] kw IH]; intros; simpl; auto.
    destruct (mem_str (setting_name translation k) enabled).
    - destruct (converts _ v); auto.
    - destruct (String.eqb _ _); auto.
  Qed.

  Lemma canon_spec_flat : forall th th' p, flat (g_params g) th = flat (g_params g) th' ->
      canon_spec g th p = canon_spec g th' p.
  Proof. intros th th' p H. unfold canon_spec. rewrite H. reflexivity. Qed.

  Lemma entry_ok_agree : forall e th th', agree th th' -> entry_ok N g e th -> entry_ok N g e th'.
  Proof.
    intros e th th' H [H1 H2].
    assert (E : flat (g_params g) th = flat (g_params g) th') by (apply flat_agree; exact H).
    split; [intros p Hp; rewrite H1 by auto|rewrite H2]; apply canon_spec_flat; auto.
  Qed.

  Lemma steps_app : forall os1 os2 s,
      steps g scr s (os1 ++ os2) = bind (steps g scr s os1) (fun s1 => steps g scr s1 os2).
  Proof.
    induction os1 as [|o os1 IH]; intros; simpl; auto.
    destruct (step g scr s o); simpl; auto.
  Qed.

  Lemma call_step : forall w th c, Inv N g scr th (w_rst w) -> call_ok c -> covers th c ->
      exists w' e, py w c = (w', None) /\ Inv N g scr (vals_of c) (w_rst w')
        /\ r_log (w_rst w') = r_log (w_rst w) ++ [e] /\ entry_ok N g e (vals_of c).
  Proof.
    intros w th c I (Hn & Hk & Hv) Hc. unfold py_solve. fold (updated_of c).
    assert (E1 : forallb (fun p => mem_str p (map fst (g_params g))) (updated_of c) = true).
    { apply forallb_forall. intros p Hp. apply mem_str_In. auto. }
    rewrite E1. rewrite (set_kw_exn (c_kw c) _ (reset N g sv enabled dflt (w_set w))) in Hk.
    destruct (kw_ok (reset N g sv enabled dflt (w_set w)) (c_kw c)) as [st e]. simpl in Hk. subst e.
    rewrite set_par_ok by exact Hv. rewrite upd_ops_is.
    set (flag := fun n => mem_str n (updated_of c)).
    destruct (steps_ok N g th0 W scr Hecos Hkeep (ops_of flag c (g_params g)) th (w_rst w) I (ops_of_valid flag c))
      as (r1 & log & Es & L1 & F & I1).
    rewrite Es. rewrite ops_of_no_solve in F. inversion F; subst. rewrite app_nil_r in L1.
    assert (HA : agree (final_vals th (ops_of flag c (g_params g))) (vals_of c)).
    { intros n s i Hin Hi. rewrite ops_of_final by apply (w_names _ _ _ W).
      rewrite (assoc_in _ _ _ _ (w_names _ _ _ W) Hin).
      destruct (flag n) eqn:Ef; simpl.
      - destruct (Nat.ltb_spec i s); auto; lia.
      - symmetry. apply (Hc n s Hin); auto. intro HI. apply mem_str_In in HI. unfold flag in Ef. congruence. }
    assert (I2 : Inv N g scr (vals_of c) r1).
    { assert (E : flat (g_params g) (final_vals th (ops_of flag c (g_params g))) = flat (g_params g) (vals_of c))
        by (apply flat_agree; exact HA).
      destruct I1 as [J1 J2 J3 J4 J5 J6 J7]. constructor; auto.
      - rewrite J1. exact E.
      - intros p Hp Hf. rewrite J3 by auto. apply canon_spec_flat. exact E. }
    destruct (inv_solve N g th0 W scr Hecos Hkeep _ _ I2) as (r2 & e & Ed & I3 & L2 & D1 & D2).
    rewrite Ed. exists (mkW st (effective N g sv enabled dflt (mkW st (w_eff w) r1) st) r2), e.
    simpl. split; [reflexivity|]. split; [exact I3|]. split; [rewrite L2, L1; reflexivity|]. split; auto.
  Qed.

  Theorem session_data : forall cs w th, Inv N g scr th (w_rst w) -> Forall call_ok cs ->
      all_cover th cs ->
      exists w' log, sess w cs = (w', map (fun _ => None) cs)
        /\ r_log (w_rst w') = r_log (w_rst w) ++ log
        /\ Forall2 (fun e c => entry_ok N g e (vals_of c)) log cs.
  Proof.
    induction cs as [|c cs IH]; intros w th I Hok Hc; simpl.
    - exists w, []. rewrite app_nil_r. repeat split; auto.
    - inversion Hok; subst. destruct Hc as [Hc1 Hc2].
      destruct (call_step w th c I H1 Hc1) as (w1 & e & E1 & I1 & L1 & D1). rewrite E1.
      destruct (IH w1 (vals_of c) I1 H2 Hc2) as (w' & log & E2 & L2 & F). rewrite E2.
      exists w', (e :: log). split; [reflexivity|]. split.
      + rewrite L2, L1, <- app_assoc. reflexivity.
      + constructor; auto.
  Qed.

  Lemma all_cover_none : forall cs prev, (forall c, In c cs -> c_upd c = None) -> all_cover prev cs.
  Proof.
    induction cs as [|c cs IH]; intros prev H; simpl; auto. split.
    - intros n s Hin Hn. exfalso. apply Hn. unfold updated_of. rewrite H by (left; auto).
      apply (in_map fst) in Hin. exact Hin.
    - apply IH. intros; apply H; right; auto.
  Qed.
End WrapperProofs.

(** ** Settings and rejected calls (C50, C51) *)
(** The setting a keyword stands for: its translation if the interface lists one, else itself. *)
Definition own_name (translation : list (string * string)) (k : string) : string :=
  match find (fun p => String.eqb (fst p) k) translation with Some p => snd p | None => k end.
Lemma own_name_ok : forall tr k, setting_name tr k = own_name tr k.
Proof.
  intros tr k. unfold setting_name, own_name. induction tr as [|(a, b) tr IH]; [reflexivity|]. cbn [assoc find fst].
  rewrite String.eqb_sym. destruct (String.eqb a k); [reflexivity|exact IH].
Qed.

Section Settings.
  Variable N : Num.
  Notation V := (car N).
  Variable g : genc N.
  Variable scr : nat -> pid -> list V -> list V.
  Variable sv : Type.
  Variable enabled : list string.
  Variable translation : list (string * string).
  Variable dflt : string -> sv.
  Variable converts : string -> sv -> bool.

  Notation py := (py_solve N g scr sv enabled translation dflt converts).
  Notation sess := (session N g scr sv enabled translation dflt converts).
  Notation kw_ok := (set_kw sv enabled translation converts).

  (** The value a list of keyword settings gives to setting [n]: the last one that
      translates to it, else the default. *)
  Fixpoint overridden (kw : list (string * sv)) (n : string) (d : sv) : sv :=
    match kw with
    | [] => d
    | (k, v) :: t => overridden t n (if String.eqb n (own_name translation k) then v else d)
    end.

  Lemma set_kw_overridden : forall kw st st', kw_ok st kw = (st', None) ->
      forall n, st' n = overridden kw n (st n).
  Proof.
    induction kw as [|[k v] kw IH]; intros st st' H n; simpl in *.
    - inversion H; subst. reflexivity.
    - destruct (mem_str (setting_name translation k) enabled).
      + destruct (converts _ v); [|discriminate]. rewrite (IH _ _ H), <- own_name_ok. reflexivity.
      + destruct (String.eqb _ "default_settings"); discriminate.
  Qed.

  Lemma reset_enabled : forall st n, In n enabled -> reset N g sv enabled dflt st n = dflt n.
  Proof.
    intros st n H. unfold reset. apply mem_str_In in H.
    destruct (solver_stgs (g_solver g)); auto; rewrite H; auto.
  Qed.

  Theorem settings_per_call : forall w c w', solver_stgs (g_solver g) <> SAtInit ->
      py w c = (w', None) ->
      forall n, In n enabled -> w_eff w' n = overridden (c_kw c) n (dflt n).
  Proof.
    intros w c w' Hm H n Hn. unfold py_solve in H.
    destruct (forallb _ _); [|discriminate].
    destruct (kw_ok _ (c_kw c)) as [st e] eqn:Ek. destruct e as [e|]; [discriminate|].
    destruct (set_par N sv c (g_params g)) as [pars|]; [|discriminate].
    destruct (steps g scr (w_rst w) _) as [r1|]; [|discriminate].
    destruct (do_solve g scr r1) as [r2|]; [|discriminate].
    inversion H; subst w'. simpl.
    assert (E : st n = overridden (c_kw c) n (dflt n)).
    { rewrite (set_kw_overridden _ _ _ Ek). rewrite reset_enabled by auto. reflexivity. }
    unfold effective. apply mem_str_In in Hn.
    destruct (solver_stgs (g_solver g)); try congruence; simpl; auto; rewrite Hn; auto.
  Qed.

  (** The same for SCS when this solve (re)initialises the workspace. *)
  Theorem settings_at_init : forall w c w', solver_stgs (g_solver g) = SAtInit ->
      py w c = (w', None) ->
      forall n, In n enabled -> w_eff w' n = overridden (c_kw c) n (dflt n) \/ w_eff w' n = w_eff w n.
  Proof.
    intros w c w' Hm H n Hn. unfold py_solve in H.
    destruct (forallb _ _); [|discriminate].
    destruct (kw_ok _ (c_kw c)) as [st e] eqn:Ek. destruct e as [e|]; [discriminate|].
    destruct (set_par N sv c (g_params g)) as [pars|]; [|discriminate].
    destruct (steps g scr (w_rst w) _) as [r1|]; [|discriminate].
    destruct (do_solve g scr r1) as [r2|]; [|discriminate].
    inversion H; subst w'. simpl.
    assert (E : st n = overridden (c_kw c) n (dflt n)).
    { rewrite (set_kw_overridden _ _ _ Ek). rewrite reset_enabled by auto. reflexivity. }
    unfold effective. apply mem_str_In in Hn. rewrite Hm. simpl.
    destruct (existsb _ _); auto. rewrite Hn. auto.
  Qed.

  (** Two module states that Python solve calls cannot tell apart. *)
  Definition same_w (w1 w2 : wst N sv) : Prop :=
    w_rst w1 = w_rst w2 /\ (forall n, w_eff w1 n = w_eff w2 n)
    /\ forall n, ~ In n enabled -> solver_stgs (g_solver g) = SDirect \/ w_set w1 n = w_set w2 n.

  Lemma reset_same : forall w1 w2, same_w w1 w2 ->
      forall n, reset N g sv enabled dflt (w_set w1) n = reset N g sv enabled dflt (w_set w2) n.
  Proof.
    intros w1 w2 (H1 & H2 & H3) n. unfold reset.
    destruct (solver_stgs (g_solver g)) eqn:E; auto;
      (destruct (mem_str n enabled) eqn:En; auto; destruct (H3 n) as [H|H]; auto;
       [intro Hi; apply mem_str_In in Hi; congruence|discriminate]).
  Qed.

  Lemma set_kw_ext : forall kw st1 st2, (forall n, st1 n = st2 n) ->
      snd (kw_ok st1 kw) = snd (kw_ok st2 kw) /\ forall n, fst (kw_ok st1 kw) n = fst (kw_ok st2 kw) n.
  Proof.
    induction kw as [|[k v] kw IH]; intros st1 st2 H; simpl; auto.
    destruct (mem_str _ enabled).
    - destruct (converts _ v); auto. apply IH. intro n. destruct (String.eqb n _); auto.
    - destruct (String.eqb _ _); auto.
  Qed.

  Lemma set_kw_outside : forall kw st n, ~ In n enabled -> fst (kw_ok st kw) n = st n.
  Proof.
    induction kw as [|[k v] kw IH]; intros st n H; simpl; auto.
    destruct (mem_str (setting_name translation k) enabled) eqn:E.
    - destruct (converts _ v); auto. rewrite IH by auto.
      destruct (String.eqb n (setting_name translation k)) eqn:E2; auto.
      apply String.eqb_eq in E2. subst n. apply mem_str_In in E. tauto.
    - destruct (String.eqb _ "default_settings"); auto.
  Qed.

  Lemma py_same : forall w1 w2 c, same_w w1 w2 ->
      snd (py w1 c) = snd (py w2 c) /\ same_w (fst (py w1 c)) (fst (py w2 c)).
  Proof.
    intros w1 w2 c H. pose proof H as (H1 & H2 & H3). unfold py_solve.
    destruct (forallb _ _); [|split; auto].
    pose proof (set_kw_ext (c_kw c) _ _ (reset_same w1 w2 H)) as [K1 K2].
    destruct (kw_ok (reset N g sv enabled dflt (w_set w1)) (c_kw c)) as [st1 e1] eqn:E1.
    destruct (kw_ok (reset N g sv enabled dflt (w_set w2)) (c_kw c)) as [st2 e2] eqn:E2.
    simpl in K1, K2. subst e2.
    assert (HS : forall r1 r2 f1 f2, r1 = r2 -> (forall n, f1 n = f2 n) ->
                 same_w (mkW st1 f1 r1) (mkW st2 f2 r2)).
    { intros. split; [auto|]. split; [auto|]. simpl. auto. }
    destruct e1 as [e|]; [split; [reflexivity|apply HS; auto]|].
    destruct (set_par N sv c (g_params g)) as [pars|e]; [|split; [reflexivity|apply HS; auto]].
    rewrite <- H1. destruct (steps g scr (w_rst w1) _) as [r1|e]; [|split; [reflexivity|apply HS; auto]].
    destruct (do_solve g scr r1) as [r2|e]; [|split; [reflexivity|apply HS; auto]].
    split; [reflexivity|]. apply HS; auto. intro n. unfold effective. simpl.
    destruct (solver_stgs (g_solver g)); auto.
    - destruct (mem_str n enabled); auto.
    - destruct (existsb _ _); auto. destruct (mem_str n enabled); auto.
  Qed.

  Lemma sess_same : forall cs w1 w2, same_w w1 w2 ->
      snd (sess w1 cs) = snd (sess w2 cs) /\ same_w (fst (sess w1 cs)) (fst (sess w2 cs)).
  Proof.
    induction cs as [|c cs IH]; intros w1 w2 H; simpl; [auto|].
    destruct (py_same w1 w2 c H) as [P1 P2].
    destruct (py w1 c) as [v1 e1]. destruct (py w2 c) as [v2 e2]. simpl in P1, P2. subst e2.
    destruct (IH v1 v2 P2) as [I1 I2].
    destruct (sess v1 cs). destruct (sess v2 cs). simpl in *. subst. auto.
  Qed.

  Variable th0 : pvals N.
  Hypothesis W : wf_gen g th0.
  Hypothesis Hecos : g_solver g = ECOS -> forall p, In p (owned ECOS) -> length (g_rows g p) <> 1.
  Hypothesis Hkeep : keeps (g_solver g) = true -> forall n p d, scr n p d = d.

  Lemma set_par_vals : forall c ps pars, set_par N sv c ps = Ok pars ->
      forall n s, In (n, s) ps -> exists l, c_vals c n = Ok l /\ length l = s.
  Proof.
    induction ps as [|[k z] ps IH]; intros pars H n s Hin; [contradiction|].
    simpl in H. destruct (c_vals c k) as [l|] eqn:E; [|discriminate]. cbn [bind] in H.
    destruct (Nat.eqb (length l) z) eqn:El; [|discriminate]. apply Nat.eqb_eq in El.
    destruct (set_par N sv c ps) as [rest|] eqn:Er; [|discriminate].
    destruct Hin as [Hin|Hin].
    - inversion Hin; subst. eauto.
    - eapply IH; eauto.
  Qed.

  (** Every call keeps the run-time invariant; a call that raises leaves the C globals. *)
  Lemma py_inv : forall w c th, Inv N g scr th (w_rst w) ->
      (exists th', Inv N g scr th' (w_rst (fst (py w c))))
      /\ (forall e, snd (py w c) = Some e -> same_w (fst (py w c)) w).
  Proof.
    intros w c th I. unfold py_solve.
    destruct (forallb _ _); [|simpl; split; [eauto|]; intros; split; [auto|split; auto]].
    destruct (kw_ok (reset N g sv enabled dflt (w_set w)) (c_kw c)) as [st e1] eqn:E1.
    assert (HS : same_w (mkW st (w_eff w) (w_rst w)) w).
    { split; [auto|]. split; [auto|]. intros n Hn. simpl.
      pose proof (set_kw_outside (c_kw c) (reset N g sv enabled dflt (w_set w)) n Hn) as HO.
      rewrite E1 in HO. simpl in HO. rewrite HO. unfold reset.
      destruct (solver_stgs (g_solver g)); auto; right;
        (destruct (mem_str n enabled) eqn:En; auto; apply mem_str_In in En; tauto). }
    destruct e1 as [e|]; [simpl; split; [eauto|]; auto|].
    destruct (set_par N sv c (g_params g)) as [pars|e] eqn:Ep; [|simpl; split; [eauto|]; auto].
    rewrite (set_par_ok N sv c (g_params g)) in Ep by (eapply set_par_vals; eauto).
    inversion Ep; subst pars. rewrite upd_ops_is.
    destruct (steps_ok N g th0 W scr Hecos Hkeep _ th (w_rst w) I (ops_of_valid N g sv
       (fun n => mem_str n match c_upd c with Some l => l | None => map fst (g_params g) end) c))
      as (r1 & log & Es & L1 & F & I1).
    rewrite Es.
    destruct (inv_solve N g th0 W scr Hecos Hkeep _ _ I1) as (r2 & e & Ed & I3 & L2 & D1 & D2).
    rewrite Ed. simpl. split; [eauto|]. intros; discriminate.
  Qed.

  Lemma sess_inv : forall cs w th, Inv N g scr th (w_rst w) ->
      exists th', Inv N g scr th' (w_rst (fst (sess w cs))).
  Proof.
    induction cs as [|c cs IH]; intros w th I; simpl; [eauto|].
    destruct (py_inv w c th I) as [[th' I'] _].
    destruct (py w c) as [w1 e]. simpl in I'.
    destruct (IH w1 th' I') as [th2 I2]. destruct (sess w1 cs). simpl in *. eauto.
  Qed.

  Theorem rejected_calls : forall cs1 c cs2 w' e,
      let w := fst (sess (w_init N g sv dflt) cs1) in
      py w c = (w', Some e) ->
      w_rst w' = w_rst w
      /\ snd (sess w' cs2) = snd (sess w cs2)
      /\ w_rst (fst (sess w' cs2)) = w_rst (fst (sess w cs2))
      /\ forall n, w_eff (fst (sess w' cs2)) n = w_eff (fst (sess w cs2)) n.
  Proof.
    intros cs1 c cs2 w' e w H.
    assert (I0 : Inv N g scr th0 (w_rst (w_init N g sv dflt))) by (apply inv_init; auto).
    destruct (sess_inv cs1 _ _ I0) as [th I]. fold w in I.
    destruct (py_inv w c th I) as [_ HS]. rewrite H in HS. simpl in HS.
    specialize (HS e eq_refl). destruct (sess_same cs2 w' w HS) as [S1 (S2 & S3 & _)].
    split; [apply HS|]. auto.
  Qed.
End Settings.
