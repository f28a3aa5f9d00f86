(** C63: parameter values from the user's arrays to the solver's data. *)

From Coq Require Import String Arith Bool Lia List ZArith.
From Verif Require Import Base Pus Machine PusParse PusCheck PusLift Runtime RuntimeSpec RuntimeProofs RuntimeMore
     Retrieve RetrieveProofs Wrapper WrapperProofs Params ParamsProofs Canon CanonSpec CanonGen Examples PropRuntime.
Import ListNotations.
Open Scope string_scope.
Open Scope list_scope.

(** The C++ module compiles exactly if every parameter has an entry in the parameter vector. *)
Theorem C63_compiles : forall ups : list uparam,
  forallb (fun u => cpp_ok (up_red u)) ups = true <-> forall u, In u ups -> up_red u <> 0.
Proof.
  intro ups. rewrite forallb_forall. split; intros H u Hu; specialize (H u Hu); unfold cpp_ok, is_array in *.
  - intro E. rewrite E in H. discriminate.
  - destruct (Nat.eqb_spec (up_red u) 1) as [E|E]; [rewrite E; reflexivity|]. apply Nat.ltb_lt. lia.
Qed.
Print Assumptions C63_compiles.

(** The assignment to a parameter's field: the entries of CVXPY's parameter vector, or TypeError
    if there is one entry but the array has more (or none). *)
Theorem C63_field : forall (V : Type) (u : uparam) (a : list nat -> V), up_wf u -> up_red u <> 0 ->
  (up_red u = 1 /\ fsize (up_shape u) <> 1 -> field u (Some a) = Err TypeError)
  /\ (~ (up_red u = 1 /\ fsize (up_shape u) <> 1) -> exists l, field u (Some a) = Ok l /\ cvx_entries u a l).
Proof. intros V u a W H0. split; intro H; [apply field_lone|apply field_ok]; auto. Qed.
Print Assumptions C63_field.

(** A parameter without a value. *)
Theorem C63_no_value : forall (V : Type) (u : uparam),
  field (V := V) u None = Err (if Nat.eqb (fsize (up_shape u)) 1 then TypeError
                               else match up_attr u with PDiag => ValueError | _ => AttributeError end).
Proof. intros V u. unfold field, get_param_value. destruct (Nat.eqb _ 1); [reflexivity|]. destruct (up_attr u); reflexivity. Qed.
Print Assumptions C63_no_value.

Section C63.
  Variable N : Num.
  Variable g : genc N.
  Variable th0 : pvals N.
  Variable scr : nat -> pid -> list N -> list N.
  Variable sv : Type.
  Variable enabled : list string.
  Variable translation : list (string * string).
  Variable dflt : string -> sv.
  Variable converts : string -> sv -> bool.
  Variable ups : list uparam.

  (** Known parameter names, known settings with values that convert. *)
  Definition accepted (c : ucall N sv) : Prop :=
    (forall l, uc_upd c = Some l -> incl l (map up_name ups))
    /\ forall k v, In (k, v) (uc_kw c) ->
         let n := setting_name translation k in In n enabled /\ converts n v = true.

  Lemma kw_accepted : forall kw st, (forall k v, In (k, v) kw ->
      let n := setting_name translation k in In n enabled /\ converts n v = true) ->
    snd (set_kw sv enabled translation converts st kw) = None.
  Proof.
    induction kw as [|[k v] kw IH]; intros st H; cbn [set_kw]; auto.
    destruct (H k v (or_introl eq_refl)) as (H1 & H2). apply mem_str_In in H1. rewrite H1, H2.
    apply IH. intros; apply H; right; auto.
  Qed.

  (** A session of calls on arrays: nothing raises, and every solve gets the problem data at the
      entries of CVXPY's parameter vector for the arrays of its call.  [a0] are the arrays at
      generation; each call names at least the parameters whose arrays changed. *)
  Theorem C63_arrays_reach_the_solver :
    wf_gen g th0 ->
    (g_solver g = ECOS -> forall p, In p (owned ECOS) -> length (g_rows g p) <> 1) ->
    (keeps (g_solver g) = true -> forall n p d, scr n p d = d) ->
    g_params g = up_params ups -> Forall up_wf ups -> Forall (fun u => up_red u <> 0) ups ->
    Forall (fun u => ~ (up_red u = 1 /\ fsize (up_shape u) <> 1)) ups ->
    forall (a0 : arrays N) (cs : list (ucall N sv * arrays N)),
    entries_of N ups a0 th0 ->
    Forall (fun ca => accepted (fst ca) /\ values_are N sv ups (fst ca) (snd ca)) cs ->
    all_named N sv ups a0 cs ->
    exists w', session N g scr sv enabled translation dflt converts (w_init N g sv dflt) (map (fun ca => to_call ups (fst ca)) cs)
                 = (w', map (fun _ => None) cs)
      /\ Forall2 (fun e ca => exists th, entries_of N ups (snd ca) th /\ solve_data_of g e th /\ e_d e = canon_spec g th pd)
                 (r_log (w_rst w')) cs.
  Proof.
    intros W He Hk Hp HW H0 HL a0 cs Ha0 Hcs Hn.
    assert (HN : NoDup (map up_name ups)).
    { rewrite <- up_params_names, <- Hp. apply (w_names _ _ _ W). }
    assert (I : Inv N g scr th0 (w_rst (w_init N g sv dflt))) by (apply inv_init; auto).
    assert (Hv : Forall (fun ca => values_are N sv ups (fst ca) (snd ca)) cs).
    { eapply Forall_impl; [|exact Hcs]. intros ca H; apply H. }
    assert (Hok : Forall (call_ok N g sv enabled translation dflt converts) (map (fun ca => to_call ups (fst ca)) cs)).
    { apply Forall_map. eapply Forall_impl; [|exact Hcs]. intros [c a] ((A1 & A2) & A3). cbn [fst snd] in *.
      split; [|split].
      - unfold updated_of. cbn [c_upd to_call]. rewrite Hp, up_params_names.
        destruct (uc_upd c) as [l|]; [apply A1; auto|auto].
      - cbn [c_kw to_call]. apply kw_accepted. exact A2.
      - eapply call_vals; eauto. }
    pose proof (named_cover N sv ups HN HW H0 HL g Hp cs a0 th0 Ha0 Hv Hn) as Hc.
    destruct (session_data N g scr sv enabled translation dflt converts th0 W He Hk _ _ th0 I Hok Hc) as (w' & log & E1 & L1 & F1).
    exists w'. rewrite E1. split; [rewrite map_map; reflexivity|]. rewrite L1. cbn [w_init w_rst init_state r_log app].
    clear - F1 Hv Hp HN HW H0 HL.
    remember (map (fun ca => to_call ups (fst ca)) cs) as l eqn:El. revert cs El Hv. induction F1 as [|e c log l H F IH]; intros cs El Hv.
    - destruct cs; [constructor|discriminate].
    - destruct cs as [|[c0 a] cs]; [discriminate|]. injection El as -> ->. inversion Hv; subst. constructor; auto.
      destruct H as (H1' & H2'). cbn [fst snd] in *. eexists. split; [|split; [exact H1'|exact H2']].
      eapply call_vals; eauto.
  Qed.

  (** One stored entry of a larger array: every call raises TypeError. *)
  Theorem C63_single_entry_rejected :
    g_params g = up_params ups -> NoDup (map up_name ups) -> Forall up_wf ups -> Forall (fun u => up_red u <> 0) ups ->
    Exists (fun u => up_red u = 1 /\ fsize (up_shape u) <> 1) ups ->
    forall w c a, accepted c -> values_are N sv ups c a ->
    snd (py_solve N g scr sv enabled translation dflt converts w (to_call ups c)) = Some TypeError.
  Proof.
    intros Hp HN HW H0 HE w c a (A1 & A2) Hv. unfold py_solve. cbn [c_upd c_kw to_call].
    assert (E1 : forallb (fun p => mem_str p (map fst (g_params g)))
                   (match uc_upd c with None => map fst (g_params g) | Some l => l end) = true).
    { apply forallb_forall. intros p Hp'. apply mem_str_In. rewrite Hp, up_params_names in *.
      destruct (uc_upd c); [eapply A1; eauto|auto]. }
    rewrite E1.
    pose proof (kw_accepted (uc_kw c) (reset N g sv enabled dflt (w_set w)) A2) as E2.
    destruct (set_kw _ _ _ _ _ _) as [st e]. cbn [snd] in E2. subst e.
    assert (E3 : set_par N sv (to_call ups c) (g_params g) = Err TypeError).
    { rewrite Hp. unfold up_params.
      assert (HI : forall u, In u ups -> c_vals (to_call ups c) (up_name u) = field u (Some (a (up_name u)))).
      { intros u Hu. cbn [c_vals to_call]. rewrite (find_up_in ups HN u Hu), (Hv u Hu). reflexivity. }
      clear - HI HW H0 HE. revert HI. generalize (to_call ups c) as cc. intros cc HI. revert HI HW H0. induction HE as [u l H|u l H IH]; intros HI HW H0; cbn [map set_par];
        inversion HW; subst; inversion H0; subst.
      - rewrite HI by (left; auto). rewrite field_lone by auto. reflexivity.
      - rewrite (HI u) by (left; auto).
        destruct (Nat.eq_dec (up_red u) 1) as [L1|L1], (Nat.eq_dec (fsize (up_shape u)) 1) as [L2|L2].
        2: { rewrite field_lone by (auto; split; auto). reflexivity. }
        all: destruct (field_ok _ u (a (up_name u)) H3 H5) as (l' & -> & HL); [unfold lone; tauto|]; cbn [bind];
          rewrite (cvx_entries_length _ _ _ _ H3 HL), Nat.eqb_refl, IH; auto; intros; apply HI; right; auto. }
    rewrite E3. reflexivity.
  Qed.
End C63.
Print Assumptions C63_arrays_reach_the_solver.
Print Assumptions C63_single_entry_rejected.

(** A sparse 2x2 parameter with one stored entry. *)
Theorem C63_single_entry_refuted : exists (ups : list uparam) (g : genc ZRing) th0,
  wf_gen g th0 /\ g_params g = up_params ups /\ Forall up_wf ups /\ Forall (fun u => up_red u <> 0) ups
  /\ forallb (fun u => cpp_ok (up_red u)) ups = true
  /\ forall w (c : ucall ZRing nat) a, accepted ZRing nat [] [] (fun _ _ => true) ups c -> values_are ZRing nat ups c a ->
     snd (py_solve ZRing g (fun _ _ d => d) nat [] [] (fun _ => 0) (fun _ _ => true) w (to_call ups c)) = Some TypeError.
Proof.
  exists [mkUP "p" [2] PPlain; mkUP "q" [2; 2] (PSparse [[0; 1]])], (ex_gen OSQP), ex_th0.
  assert (Hw : Forall up_wf [mkUP "p" [2] PPlain; mkUP "q" [2; 2] (PSparse [[0; 1]])]).
  { constructor; [exact I|]. constructor; [|constructor]. split; [repeat constructor; auto|]. repeat constructor. }
  assert (H0 : Forall (fun u => up_red u <> 0) [mkUP "p" [2] PPlain; mkUP "q" [2; 2] (PSparse [[0; 1]])]).
  { repeat constructor; cbn; discriminate. }
  assert (Hp : g_params (ex_gen OSQP) = up_params [mkUP "p" [2] PPlain; mkUP "q" [2; 2] (PSparse [[0; 1]])]) by (vm_compute; reflexivity).
  split; [apply ex_wf_gen|]. split; [exact Hp|]. split; [exact Hw|]. split; [exact H0|]. split; [reflexivity|].
  intros w c a Hc Hv. eapply C63_single_entry_rejected; eauto.
  - repeat constructor; cbn; intuition discriminate.
  - apply Exists_cons_tl. apply Exists_cons_hd. split; [reflexivity|]. cbn. discriminate.
Qed.
Print Assumptions C63_single_entry_refuted.

(** The running example with p the diagonal of a 2x2 parameter (or two stored entries of one),
    q a 1x1 parameter: the second call changes p only and says so. *)
Definition c63_ups (at_p : pattr) : list uparam := [mkUP "p" [2; 2] at_p; mkUP "q" [1; 1] PPlain].
Definition c63_arr (p0 p1 q : Z) : arrays ZRing :=
  fun n idx => if String.eqb n "p" then (match idx with [0; 0] | [1; 0] => p0 | [1; 1] | [0; 1] => p1 | _ => 0%Z end) else q.
Definition c63_call (l : option (list string)) (a : arrays ZRing) : ucall ZRing nat * arrays ZRing := (mkUC l [] (fun n => Some (a n)), a).
Definition c63_cs : list (ucall ZRing nat * arrays ZRing) :=
  [c63_call None (c63_arr 3 4 5); c63_call (Some ["p"]) (c63_arr 9 7 5); c63_call (Some []) (c63_arr 9 7 5)].
Example C63_example : forall at_p, In at_p [PDiag; PSparse [[1; 0]; [0; 1]]] ->
  wf_gen (ex_gen OSQP) ex_th0 /\ g_params (ex_gen OSQP) = up_params (c63_ups at_p) /\ Forall up_wf (c63_ups at_p)
  /\ Forall (fun u => up_red u <> 0) (c63_ups at_p)
  /\ Forall (fun u => ~ (up_red u = 1 /\ fsize (up_shape u) <> 1)) (c63_ups at_p)
  /\ entries_of ZRing (c63_ups at_p) (c63_arr 3 4 5) ex_th0
  /\ Forall (fun ca => accepted ZRing nat [] [] (fun _ _ => true) (c63_ups at_p) (fst ca) /\ values_are ZRing nat (c63_ups at_p) (fst ca) (snd ca)) c63_cs
  /\ all_named ZRing nat (c63_ups at_p) (c63_arr 3 4 5) c63_cs
  /\ map (fun e => (e_data e pA, e_data e pu))
       (r_log (w_rst (fst (session ZRing (ex_gen OSQP) (fun _ _ d => d) nat [] [] (fun _ => 0) (fun _ _ => true)
          (w_init ZRing (ex_gen OSQP) nat (fun _ => 0)) (map (fun ca => to_call (c63_ups at_p) (fst ca)) c63_cs)))))
     = [([1; -3; 2; -1], [-5; 0; 0; 4]); ([1; -9; 2; -1], [-5; 0; 0; 7]); ([1; -9; 2; -1], [-5; 0; 0; 7])]%Z.
Proof.
  intros at_p Hat. split; [apply ex_wf_gen|]. cbn [In] in Hat.
  assert (Hcase : forall P : pattr -> Prop, P PDiag -> P (PSparse [[1; 0]; [0; 1]]) -> P at_p).
  { intros P P1 P2. destruct Hat as [<-|[<-|[]]]; auto. }
  split; [revert Hat; apply Hcase; intros _; vm_compute; reflexivity|].
  split.
  { clear Hat. revert at_p Hcase. intros at_p Hcase. apply (Hcase (fun at_p => Forall up_wf (c63_ups at_p))).
    - constructor; [exists 2; reflexivity|]. constructor; [exact I|constructor].
    - constructor; [|constructor; [exact I|constructor]]. split; [repeat constructor; cbn; intuition discriminate|].
      repeat constructor. }
  split; [apply (Hcase (fun at_p => Forall (fun u => up_red u <> 0) (c63_ups at_p))); repeat constructor; cbn; discriminate|].
  split.
  { apply (Hcase (fun at_p => Forall (fun u => ~ (up_red u = 1 /\ fsize (up_shape u) <> 1)) (c63_ups at_p)));
      repeat constructor; cbn; intuition discriminate. }
  split.
  { assert (Hq : forall idx, in_shape [1; 1] idx -> idx = [0; 0]).
    { intros idx H. rewrite (shape_one [1; 1] idx eq_refl H). reflexivity. }
    assert (Hqq : cvx_entries (mkUP "q" [1; 1] PPlain) (c63_arr 3 4 5 "q") (map (ex_th0 "q") (seq 0 1))).
    { split; [reflexivity|]. intros idx H. rewrite (Hq idx H). reflexivity. }
    apply (Hcase (fun at_p => entries_of ZRing (c63_ups at_p) (c63_arr 3 4 5) ex_th0)).
    - intros u [<-|[<-|[]]]; [|exact Hqq]. intros n En. injection En as <-. split; [reflexivity|].
      intros [|[|i]] Hi; [reflexivity|reflexivity|lia].
    - intros u [<-|[<-|[]]]; [|exact Hqq]. split; [reflexivity|]. intros [|[|k]] p Hk; cbn in Hk; try (injection Hk as <-; reflexivity).
      destruct k; discriminate. }
  split.
  { assert (HV : forall a l, match l with Some l => incl l ["p"; "q"] | None => True end ->
        accepted ZRing nat [] [] (fun _ _ => true) (c63_ups at_p) (fst (c63_call l a)) /\ values_are ZRing nat (c63_ups at_p) (fst (c63_call l a)) a).
    { intros a l Hl. split; [|intros u _; reflexivity]. split; [|intros k v []].
      cbn [fst c63_call uc_upd]. intros l' E. subst l. exact Hl. }
    apply Forall_cons; [apply HV; exact I|]. apply Forall_cons; [apply HV|apply Forall_cons; [apply HV|constructor]];
      intros z Hz; cbn in *; tauto. }
  split.
  { split; [|split; [|split; [|exact I]]]; intros l El u Hu Hn idx Hidx; cbn [c63_call fst uc_upd] in El; try discriminate; injection El as <-.
    - destruct Hu as [<-|[<-|[]]]; [exfalso; apply Hn; left; reflexivity|]. reflexivity.
    - reflexivity. }
  apply (Hcase (fun at_p => map (fun e => (e_data e pA, e_data e pu))
       (r_log (w_rst (fst (session ZRing (ex_gen OSQP) (fun _ _ d => d) nat [] [] (fun _ => 0) (fun _ _ => true)
          (w_init ZRing (ex_gen OSQP) nat (fun _ => 0)) (map (fun ca => to_call (c63_ups at_p) (fst ca)) c63_cs)))))
     = [([1; -3; 2; -1], [-5; 0; 0; 4]); ([1; -9; 2; -1], [-5; 0; 0; 7]); ([1; -9; 2; -1], [-5; 0; 0; 7])]%Z)); vm_compute; reflexivity.
Qed.
