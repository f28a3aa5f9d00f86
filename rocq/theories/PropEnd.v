(** C64: from the user's arrays to the values in the user's variables, duals and objective. *)

From Coq Require Import String Arith Bool Lia List ZArith Permutation.
From Verif Require Import Base Pus Machine PusParse PusCheck PusLift Runtime RuntimeSpec RuntimeProofs RuntimeMore
     Canon CanonSpec CanonProofs CanonMain CanonGen CanonProblem CanonMore Info Retrieve RetrieveProofs PropRetrieve
     Wrapper WrapperProofs Params ParamsProofs PropParams EndToEnd EndSpec EndProofs Examples.
Import ListNotations.
Open Scope string_scope.
Open Scope list_scope.

Section C64.
  Variable K : ORing.
  Local Open Scope num_scope.
  Variable big : K.
  Variable x : cvx K.
  Variable th0 : pvals K.
  Variable s : solver.
  (** Variables of the reduced problem (id, size), the user's variables, canonical equality and other
      constraints (id, size), the chain of constraint id maps, the user's parameters. *)
  Variables (red : list (nat * nat)) (us : list uvar) (eqs neqs m0 : list (nat * nat)) (rest : list (list (nat * nat))).
  Variable ups : list uparam.

  (** Constraint sizes add up to the numbers of rows. *)
  Definition rows_match : Prop :=
    match solver_api s with
    | OneVec _ => total (eqs ++ neqs) = (x_neq x + x_nineq x)%nat
    | TwoVecs _ _ => total eqs = x_neq x /\ total neqs = x_nineq x
    end.

  (** CVXPY's data are consistent and outside the known exceptions of C03, C20 and C63. *)
  Record problem_ok : Prop := mkPO
    { po_data : wf_cvx x th0;
      po_for : wf_for x s;
      po_ecos : s = ECOS -> forall p, In p (owned ECOS) -> length (pr_rows (proc big x s p)) <> 1%nat;
      po_vars : vars_ok red us;
      po_red : NoDup (map fst red) /\ total red = x_n x;
      po_con : NoDup (map fst (eqs ++ neqs));
      po_maps : forall u, In u (map fst m0) -> exists c, chase rest u = Ok c /\ In c (map fst (eqs ++ neqs));
      po_split : split_api s -> neqs <> [] \/ eqs ++ neqs = [];
      po_rows : rows_match;
      po_params : x_params x = up_params ups;
      po_up : Forall up_wf ups /\ Forall (fun u => up_red u <> 0%nat) ups
              /\ Forall (fun u => ~ (up_red u = 1%nat /\ fsize (up_shape u) <> 1%nat)) ups }.

  Variable order : list string -> list string.
  Variable lim : K.
  Variable scr : nat -> pid -> list K -> list K.
  Variable sv : Type.
  Variable enabled : list string.
  Variable translation : list (string * string).
  Variable dflt : string -> sv.
  Variable converts : string -> sv -> bool.
  Variable ans : nat -> entry K -> answer K.
  Variable cells : nat -> string -> nat -> K.

  (** Calls on the arrays [a0] (at generation), [a1], ...: known names, settings that convert, and
      updated_params lists at least the parameters whose arrays changed. *)
  Record session_ok (a0 : arrays K) (cs : list (ucall K sv * arrays K)) : Prop := mkSO
    { so_start : entries_of K ups a0 th0;
      so_calls : Forall (fun ca => accepted K sv enabled translation converts ups (fst ca) /\ values_are K sv ups (fst ca) (snd ca)) cs;
      so_named : all_named K sv ups a0 cs }.

  (** The multipliers of all rows in one vector. *)
  Definition lam_of (an : answer K) : list K :=
    match solver_api s with OneVec v => an_dual an v | TwoVecs v w => an_dual an v ++ an_dual an w end.
  (** The solver's vectors have the right lengths. *)
  Definition shaped (an : answer K) : Prop :=
    length (an_x an) = x_n x
    /\ match solver_api s with
       | OneVec v => length (an_dual an v) = (x_neq x + x_nineq x)%nat
       | TwoVecs v w => length (an_dual an v) = x_neq x /\ length (an_dual an w) = x_nineq x
       end.

  Notation gen_all := (generate_all big x s order red us eqs neqs (m0 :: rest)).
  Notation run k cs := (full_session K lim k scr sv enabled translation dflt converts ups ans cells
                          (w_init K (pk_gen k) sv dflt) 0 (map fst cs)).

  (** Every user variable holds its entries of the solution vector [xs] (C21-C23). *)
  Definition vars_stored (xs : list K) (o : outcome K) : Prop :=
    Forall2 (fun u r => fst r = uv_name u /\ var_value n0 u (cut red (uv_id u) xs) (snd r)) us (oc_vars o).
  (** Every user constraint holds the multipliers of its canonical constraint. *)
  Definition duals_stored (lam : list K) (o : outcome K) : Prop :=
    exists cs, mapM (chase rest) (map fst m0) = Ok cs /\ oc_duals o = map (fun c => cut (eqs ++ neqs) c lam) cs.

  Lemma outcome_ok : problem_ok -> forall k, gen_all = Ok k -> forall cl e an, shaped an ->
    exists o, outcome_of lim k cl e an = Ok o /\ vars_stored (an_x an) o /\ duals_stored (lam_of an) o
      /\ oc_val o = py_value lim (retrieve_obj (pk_gen k) e (an_obj an)).
  Proof.
    intros PO k Hk cl e an (Lx & Ld). destruct PO as [W Hfor Hecos HV [Nr Tr] Nc Hm Hsp Hrows Hp Hu].
    set (st := mkRS cl (fun v => if String.eqb v "x" then an_x an else an_dual an v)).
    assert (HB : forall i z, In (i, z) red -> length (cut red i (an_x an)) = z).
    { apply cut_length; auto. congruence. }
    assert (Hx : r_vecs st "x" = concat (map (fun e => cut red (fst e) (an_x an)) red)).
    { rewrite cut_concat by (auto; congruence). reflexivity. }
    destruct (primal_ok K n0 s red us (fun i => cut red i (an_x an)) HV HB st Hx) as (ps & rs & E1 & E2 & F1).
    assert (Tl : length (lam_of an) = total (eqs ++ neqs)).
    { unfold lam_of, rows_match in *. destruct (solver_api s); [congruence|]. rewrite app_length, total_app. lia. }
    assert (HL : forall i z, In (i, z) (eqs ++ neqs) -> length (cut (eqs ++ neqs) i (lam_of an)) = z).
    { apply cut_length; auto. }
    assert (HA : answered s eqs neqs (fun c => cut (eqs ++ neqs) c (lam_of an)) (r_vecs st)).
    { unfold answered, rows_match in *. cbn [r_vecs st].
      assert (Hv : forall v, v = "y" \/ v = "z" -> String.eqb v "x" = false) by (intros v [->| ->]; reflexivity).
      assert (Ha : match solver_api s with OneVec v => v = "y" \/ v = "z" | TwoVecs v w => v = "y" /\ w = "z" end)
        by (destruct s; simpl; auto).
      unfold lam_of in *. destruct (solver_api s) as [v|v w].
      - rewrite (Hv v Ha). rewrite cut_concat by auto. reflexivity.
      - destruct Ha as [-> ->]. cbn [String.eqb Ascii.eqb Bool.eqb]. destruct Ld as [L1 L2], Hrows as [R1 R2]. split.
        + transitivity (concat (map (fun e => cut eqs (fst e) (an_dual an "y")) eqs)).
          * symmetry. apply cut_concat; [|congruence]. rewrite map_app in Nc. apply (NoDup_parts _ _ _ Nc).
          * f_equal. apply map_ext_in. intros e' He'. symmetry. apply cut_app_l; auto. congruence.
        + transitivity (concat (map (fun e => cut neqs (fst e) (an_dual an "z")) neqs)).
          * symmetry. apply cut_concat; [|congruence]. rewrite map_app in Nc. apply (NoDup_parts _ _ _ Nc).
          * f_equal. apply map_ext_in. intros e' He'. symmetry. apply cut_app_r; auto. congruence. }
    destruct (C19_duals_reach_their_constraint K s eqs neqs m0 rest _ st Nc Hm HL Hsp HA) as (cs & ds & D1 & D2 & D3).
    unfold generate_all in Hk. rewrite E1, D2 in Hk. cbn [bind] in Hk.
    destruct (generate big x s order) as [g|] eqn:Eg; [|discriminate]. cbn [bind] in Hk. injection Hk as <-.
    assert (Es : g_solver g = s) by (eapply gen_solver; eauto).
    unfold outcome_of. cbn [pk_gen pk_prim pk_dual]. fold st. rewrite Es, E2. cbn [bind]. rewrite D3. cbn [bind].
    eexists. split; [reflexivity|]. split; [exact F1|]. split; [|reflexivity]. exists cs. auto.
  Qed.

  (** Generation succeeds. *)
  Theorem C64_generation : problem_ok -> (forall l, Permutation l (order l)) -> exists k, gen_all = Ok k.
  Proof.
    intros PO Hord. destruct PO as [W Hfor Hecos HV [Nr Tr] Nc Hm Hsp Hrows Hp Hu]. unfold generate_all.
    set (xs := repeat (n0 : K) (total red)). set (ls := repeat (n0 : K) (total (eqs ++ neqs))).
    destruct (prim_info_ok K n0 red us (fun i => cut red i xs) HV) as (ps & -> & _).
    { apply cut_length; auto. apply repeat_length. }
    destruct (dual_info_ok K s eqs neqs m0 rest (fun c => cut (eqs ++ neqs) c ls) Nc Hm) as (cs & ds & _ & -> & _).
    { apply cut_length; auto. apply repeat_length. }
    { intro E. apply Hsp, split_iff, E. }
    destruct (generate_wf K big x th0 W s order Hord) as (g & -> & _). cbn [bind]. eauto.
  Qed.

  (** What is common to the theorems below. *)
  Lemma each_call : problem_ok -> (forall l, Permutation l (order l)) ->
    (keeps s = true -> forall n p d, scr n p d = d) ->
    forall k, gen_all = Ok k -> forall a0 cs, session_ok a0 cs ->
    exists w' outs, run k cs = (w', outs) /\ length outs = length cs /\ length (r_log (w_rst w')) = length cs
      /\ forall i c a e, nth_error cs i = Some (c, a) -> nth_error (r_log (w_rst w')) i = Some e ->
         exists th, entries_of K ups a th /\ (forall p, In p (owned s) -> e_data e p = canon_spec (pk_gen k) th p)
           /\ e_d e = canon_spec (pk_gen k) th pd
           /\ nth_error outs i = Some (outcome_of lim k (cells i) e (ans i e)).
  Proof.
    intros PO Hord Hkeep k Hk a0 cs [Ha0 Hcs Hn]. destruct PO as [W Hfor Hecos HV [Nr Tr] Nc Hm Hsp Hrows Hp [HW [H0 HL]]].
    unfold generate_all in Hk. destruct (prim_info red us) as [ps|]; [|discriminate]. cbn [bind] in Hk.
    destruct (dual_info (dual_split s) (dual_vec0 s) (dual_vec1 s) eqs neqs (m0 :: rest)) as [ds|]; [|discriminate]. cbn [bind] in Hk.
    destruct (generate_wf K big x th0 W s order Hord) as (g & Eg & Wg & Es). rewrite Eg in Hk. cbn [bind] in Hk. injection Hk as <-.
    set (k := mkPkg g ps ds) in *.
    destruct (gen_parts K big x s order g Eg) as (Hgp & Hr).
    assert (Hup : g_params g = up_params ups) by congruence.
    assert (HN : NoDup (map up_name ups)).
    { rewrite <- up_params_names, <- Hup. apply (w_names _ _ _ Wg). }
    assert (He' : g_solver g = ECOS -> forall p, In p (owned ECOS) -> length (g_rows g p) <> 1%nat).
    { intros Ee p Hpo. rewrite Es in Ee. rewrite Hr by (rewrite Ee; apply owned_pids in Hpo; tauto). apply Hecos; auto. }
    assert (Hk' : keeps (g_solver g) = true -> forall n p d, scr n p d = d) by (rewrite Es; exact Hkeep).
    assert (I : Inv K g scr th0 (w_rst (w_init K g sv dflt))) by (apply inv_init; auto).
    assert (Hv : Forall (fun ca => values_are K sv ups (fst ca) (snd ca)) cs).
    { eapply Forall_impl; [|exact Hcs]. intros ca H; apply H. }
    assert (Hmap : map (to_call ups) (map fst cs) = map (fun ca => to_call ups (fst ca)) cs) by apply map_map.
    assert (Hok : Forall (call_ok K g sv enabled translation dflt converts) (map (to_call ups) (map fst cs))).
    { rewrite Hmap. apply Forall_map. eapply Forall_impl; [|exact Hcs]. intros [c a] ((A1 & A2) & A3). cbn [fst snd] in *.
      split; [|split].
      - unfold updated_of. cbn [c_upd to_call]. rewrite Hup, up_params_names.
        destruct (uc_upd c) as [l|]; [apply A1; auto|auto].
      - cbn [c_kw to_call]. eapply kw_accepted. exact A2.
      - eapply call_vals; eauto. }
    pose proof (named_cover K sv ups HN HW H0 HL g Hup cs a0 th0 Ha0 Hv Hn) as Hc. rewrite <- Hmap in Hc.
    destruct (full_ok K lim k scr sv enabled translation dflt converts ups ans cells th0 Wg) with (cs := map fst cs)
      (w := w_init K g sv dflt) (i := 0%nat) (th := th0) as (w' & log & outs & E1 & L1 & N1 & F1 & R1); auto.
    exists w', outs. split; [exact E1|]. split; [rewrite N1, map_length; reflexivity|].
    cbn [w_init w_rst init_state r_log app] in L1. rewrite L1.
    split; [rewrite (Forall2_length F1), map_length; reflexivity|].
    intros i c a e Hi He. pose proof (R1 i e He) as Ho. cbn [Nat.add] in Ho.
    destruct (Forall2_nth _ _ _ _ _ i e F1 He) as (c' & Hc' & D1 & D2).
    rewrite (map_nth_error fst i cs Hi) in Hc'. injection Hc' as <-. cbn [fst] in *.
    exists (vals_of K sv (to_call ups c)). split.
    - eapply call_vals; eauto. rewrite Forall_forall in Hv. apply (Hv (c, a)). eapply nth_error_In; eauto.
    - cbn [pk_gen k] in *. rewrite Es in D1. auto.
  Qed.

  Variable cone : list K -> Prop.
  Variable half : K.

  (** If the solver's answer to a call minimises the problem it was given whenever that has a minimiser, and
      the objective value it reports is the one of its answer, then the user's variables hold an optimal
      point of the user's problem at the arrays of that call, and the value is its objective (infinite in
      place of -lim, lim). *)
  Definition minimises (e : entry K) (an : answer K) : Prop :=
    (exists y, s_opt big x s cone half e y) ->
    s_opt big x s cone half e (pt (an_x an)) /\ an_obj an = solver_obj big x half s e (pt (an_x an)).

  Theorem C64_optimal_values : problem_ok -> (forall l, Permutation l (order l)) ->
    (keeps s = true -> forall n p d, scr n p d = d) ->
    forall k, gen_all = Ok k -> forall a0 cs, session_ok a0 cs ->
    exists w' outs, run k cs = (w', outs) /\ length outs = length cs /\ length (r_log (w_rst w')) = length cs
      /\ forall i c a e, nth_error cs i = Some (c, a) -> nth_error (r_log (w_rst w')) i = Some e -> shaped (ans i e) ->
         exists th o, entries_of K ups a th /\ nth_error outs i = Some (Ok o)
           /\ vars_stored (an_x (ans i e)) o
           /\ let v := flat (x_params x) th in let y := pt (an_x (ans i e)) in
              ((s = OSQP -> small big x v) -> minimises e (ans i e) -> (exists y', u_opt x s cone half v y') ->
               u_opt x s cone half v y
               /\ (user_obj x half v y <> lim -> user_obj x half v y <> - lim -> oc_val o = Fin (user_obj x half v y))
               /\ (ole n0 lim -> lim <> n0 -> (user_obj x half v y = lim -> oc_val o = PosInf)
                                          /\ (user_obj x half v y = - lim -> oc_val o = NegInf))).
  Proof.
    intros PO Hord Hkeep k Hk a0 cs Hs. pose proof PO as [W Hfor _ _ _ _ _ _ _ _ _].
    destruct (each_call PO Hord Hkeep k Hk a0 cs Hs) as (w' & outs & E1 & N1 & N2 & R).
    exists w', outs. split; [exact E1|]. split; [exact N1|]. split; [exact N2|].
    intros i c a e Hi He Hsh. destruct (R i c a e Hi He) as (th & Hth & D1 & D2 & Ho).
    destruct (outcome_ok PO k Hk (cells i) e (ans i e) Hsh) as (o & Eo & V1 & V2 & V3).
    assert (Hg : generate big x s order = Ok (pk_gen k)) by (eapply gen_all_gen; eauto).
    exists th, o. split; [exact Hth|]. split; [congruence|]. split; [exact V1|]. cbv zeta.
    intros HS HM (y' & Hy').
    pose proof (opt_same K big x th0 W s order (pk_gen k) Hord Hg Hfor e th D1 D2 cone HS half) as HO.
    destruct HM as (M1 & M2). { exists y'. apply HO. exact Hy'. }
    split; [apply HO; exact M1|]. rewrite V3, M2.
    rewrite (obj_reported K big x th0 W s order (pk_gen k) e (flat (x_params x) th) half _ Hord Hg Hfor) by (eapply e_means; eauto).
    split; [intros F1 F2; apply py_value_fin; auto|]. intros L1 L2.
    destruct (py_value_inf K lim L1 L2) as (P1 & P2). split; intros ->; auto.
  Qed.

  Variable rel : list K -> list K -> Prop.

  (** If the solver's answer to a call satisfies the KKT conditions of the problem it was given whenever some
      point does, then the user's variables and duals hold a point and multipliers that satisfy the KKT
      conditions of the user's problem at the arrays of that call. *)
  Definition solves_kkt (e : entry K) (an : answer K) : Prop :=
    (exists y lam, s_kkt big x s rel half e y lam) -> s_kkt big x s rel half e (pt (an_x an)) (lam_of an).

  Theorem C64_multipliers : problem_ok -> (forall l, Permutation l (order l)) ->
    (keeps s = true -> forall n p d, scr n p d = d) ->
    forall k, gen_all = Ok k -> forall a0 cs, session_ok a0 cs ->
    exists w' outs, run k cs = (w', outs) /\ length outs = length cs /\ length (r_log (w_rst w')) = length cs
      /\ forall i c a e, nth_error cs i = Some (c, a) -> nth_error (r_log (w_rst w')) i = Some e -> shaped (ans i e) ->
         exists th o, entries_of K ups a th /\ nth_error outs i = Some (Ok o)
           /\ vars_stored (an_x (ans i e)) o /\ duals_stored (lam_of (ans i e)) o
           /\ let v := flat (x_params x) th in
              ((s = OSQP -> small big x v) -> solves_kkt e (ans i e) -> (exists y lam, u_kkt x s rel half v y lam) ->
               u_kkt x s rel half v (pt (an_x (ans i e))) (lam_of (ans i e))).
  Proof.
    intros PO Hord Hkeep k Hk a0 cs Hs. pose proof PO as [W Hfor _ _ _ _ _ _ _ _ _].
    destruct (each_call PO Hord Hkeep k Hk a0 cs Hs) as (w' & outs & E1 & N1 & N2 & R).
    exists w', outs. split; [exact E1|]. split; [exact N1|]. split; [exact N2|].
    intros i c a e Hi He Hsh. destruct (R i c a e Hi He) as (th & Hth & D1 & D2 & Ho).
    destruct (outcome_ok PO k Hk (cells i) e (ans i e) Hsh) as (o & Eo & V1 & V2 & V3).
    assert (Hg : generate big x s order = Ok (pk_gen k)) by (eapply gen_all_gen; eauto).
    exists th, o. split; [exact Hth|]. split; [congruence|]. split; [exact V1|]. split; [exact V2|]. cbv zeta.
    intros HS HM (y' & lam' & Hy').
    pose proof (kkt_same K big x th0 W s order (pk_gen k) Hord Hg Hfor e th D1 D2 (fun _ => True) rel HS half) as HO.
    apply HO. apply HM. exists y', lam'. apply HO. exact Hy'.
  Qed.
End C64.
Print Assumptions C64_generation.
Print Assumptions C64_optimal_values.
Print Assumptions C64_multipliers.

(** A linear program with four inequality rows: minimise q*x0 + x1 + 2q subject to x0 + q >= 0, 2 x1 >= 0,
    p0 x0 >= 0, x1 + p1 >= 0, for OSQP, ECOS (no equality rows) and SCS (all rows in one cone).  The first
    call sets p = (-1, 0), the second changes q to 7 only. *)
Definition c64_x (s : solver) : cvx ZORing := match s with SCS _ => ex_x 4 0 false | _ => ex_x 0 4 false end.
Definition c64_us := [mkUV "X" 3 [2] false].
Definition c64_red := [(3, 2)].
Definition c64_neqs := [(11, 1); (12, 3)].
Definition c64_m := [(12, 12); (1, 1)].
Definition c64_rest := [[(1, 11); (12, 12)]].
Definition c64_ups := [mkUP "p" [2] PPlain; mkUP "q" [] PPlain].
Definition c64_arr (p0 p1 q : Z) : arrays ZORing :=
  fun n idx => if String.eqb n "p" then (match idx with [0] => p0 | _ => p1 end) else q.
Definition c64_call (l : option (list string)) (a : arrays ZORing) : ucall ZORing nat * arrays ZORing := (mkUC l [] (fun n => Some (a n)), a).
Definition c64_cs : list (ucall ZORing nat * arrays ZORing) :=
  [c64_call None (c64_arr (-1) 0 5); c64_call (Some ["q"]) (c64_arr (-1) 0 7)].
Definition c64_q (i : nat) : Z := match i with 0 => 5%Z | _ => 7%Z end.
(** The solver's answers: the optimal points and multipliers. *)
Definition c64_ans (s : solver) (i : nat) (e : entry ZORing) : answer ZORing :=
  let q := c64_q i in
  mkAns (K := ZORing) [(-q)%Z; 0%Z]
        (fun v => if (match s with ECOS => true | _ => false end) && String.eqb v "y" then [] else [q; 0%Z; 0%Z; 1%Z]) (- q * q)%Z.
Definition nonneg (l : list Z) : Prop := forall i, (i < 4)%nat -> (0 <= nth i l 0)%Z.
Definition c64_rel (r lam : list Z) : Prop := nonneg r /\ nonneg lam /\ forall i, (i < 4)%nat -> (nth i r 0 * nth i lam 0 = 0)%Z.
Definition c64_pkg (s : solver) : res (package ZORing) :=
  generate_all (K := ZORing) 1000000%Z (c64_x s) s ex_order c64_red c64_us [] c64_neqs (c64_m :: c64_rest).
Definition c64_run (s : solver) : wst ZORing nat * list (res (outcome ZORing)) :=
  match c64_pkg s with
  | Ok k => full_session ZORing 100000000%Z k (fun _ _ d => d) nat [] [] (fun _ => 0) (fun _ _ => true) c64_ups (c64_ans s)
              (fun _ _ _ => 77%Z) (w_init ZORing (pk_gen k) nat (fun _ => 0)) 0 (map fst c64_cs)
  | Err e => (mkW (fun _ => 0) (fun _ => 0) (init_state (ex_gen s)), [])
  end.
Definition c64_show (o : res (outcome ZORing)) : res (list Z * list (list Z) * pvalue ZORing) :=
  o' <- o;; Ok (flat_map (fun r => [snd r [0]; snd r [1]]) (oc_vars o'), oc_duals o', oc_val o').

Definition c64_v (q : Z) : list Z := [-1; 0; q; 1]%Z.
Definition c64_y (q : Z) : nat -> Z := pt (K := ZORing) [(-q)%Z; 0%Z].
(** The data of the example spelt out. *)
Lemma c64_slacks : forall s q (y : nat -> Z), In s [OSQP; ECOS; SCS true] ->
  u_slacks (K := ZORing) (c64_x s) (c64_v q) y = [y 0%nat + q; 2 * y 1%nat; - y 0%nat; y 1%nat]%Z.
Proof.
  intros s q y Hs. destruct Hs as [<-|[<-|[<-|[]]]]; cbv -[Z.add Z.mul Z.opp]; repeat (f_equal; try ring).
Qed.
Lemma c64_obj : forall s q (y : nat -> Z), In s [OSQP; ECOS; SCS true] ->
  user_obj (K := ZORing) (c64_x s) 1%Z (c64_v q) y = (q * y 0%nat + y 1%nat + 2 * q)%Z
  /\ canon_obj (K := ZORing) (c64_x s) 1%Z (c64_v q) y = (q * y 0%nat + y 1%nat + 2 * q)%Z
  /\ cd (K := ZORing) (c64_x s) (c64_v q) = (2 * q)%Z.
Proof.
  intros s q y Hs. destruct Hs as [<-|[<-|[<-|[]]]]; (split; [|split]); cbv -[Z.add Z.mul Z.opp]; ring.
Qed.
Lemma c64_feas : forall s q (y : nat -> Z), In s [OSQP; ECOS; SCS true] ->
  (u_feas (K := ZORing) (c64_x s) s nonneg (c64_v q) y <-> (0 <= y 0%nat + q /\ 0 <= 2 * y 1%nat /\ 0 <= - y 0%nat /\ 0 <= y 1%nat)%Z).
Proof.
  intros s q y Hs. unfold u_feas. rewrite c64_slacks by auto.
  assert (G : (forall i, (i < 4)%nat -> (0 <= nth i [y 0%nat + q; 2 * y 1%nat; - y 0%nat; y 1%nat] 0)%Z)
              <-> (0 <= y 0%nat + q /\ 0 <= 2 * y 1%nat /\ 0 <= - y 0%nat /\ 0 <= y 1%nat)%Z).
  { split.
    - intro H. split; [exact (H 0 ltac:(lia))|]. split; [exact (H 1 ltac:(lia))|]. split; [exact (H 2 ltac:(lia))|exact (H 3 ltac:(lia))].
    - intros (H0 & H1 & H2 & H3) [|[|[|[|i]]]] Hi; auto. lia. }
  destruct Hs as [<-|[<-|[<-|[]]]]; exact G.
Qed.
Lemma c64_opt : forall s q, In s [OSQP; ECOS; SCS true] -> (0 <= q)%Z ->
  u_opt (K := ZORing) (c64_x s) s nonneg 1%Z (c64_v q) (c64_y q).
Proof.
  intros s q Hs Hq. split.
  - apply c64_feas; auto. unfold c64_y, pt. cbn [nth]. lia.
  - intros y' Hy'. apply c64_feas in Hy'; auto.
    assert (Em : x_max (c64_x s) = false) by (destruct Hs as [<-|[<-|[<-|[]]]]; reflexivity). rewrite Em.
    rewrite !(proj1 (c64_obj s q _ Hs)). unfold c64_y, pt. cbn [nth]. cbn [ole ZORing]. nia.
Qed.
Lemma c64_kkt : forall s q, In s [OSQP; ECOS; SCS true] -> (0 <= q)%Z ->
  u_kkt (K := ZORing) (c64_x s) s c64_rel 1%Z (c64_v q) (c64_y q) [q; 0; 0; 1]%Z.
Proof.
  intros s q Hs Hq. split.
  - assert (En : x_n (c64_x s) = 2) by (destruct Hs as [<-|[<-|[<-|[]]]]; reflexivity).
    intros j Hj. rewrite En in Hj. destruct Hs as [<-|[<-|[<-|[]]]]; (destruct j as [|[|j]]; [| |lia]); cbv -[Z.add Z.mul Z.opp]; ring.
  - unfold u_rel. rewrite c64_slacks by auto. unfold c64_y, pt. cbn [nth].
    assert (G1 : nonneg [- q + q; 2 * 0; - - q; 0]%Z) by (intros [|[|[|[|i]]]] Hi; cbn [nth]; lia).
    assert (G2 : nonneg [q; 0; 0; 1]%Z) by (intros [|[|[|[|i]]]] Hi; cbn [nth]; lia).
    assert (G3 : c64_rel [- q + q; 2 * 0; - - q; 0]%Z [q; 0; 0; 1]%Z).
    { split; [exact G1|]. split; [exact G2|]. intros [|[|[|[|i]]]] Hi; cbn [nth]; lia. }
    destruct Hs as [<-|[<-|[<-|[]]]]; [|exact G3|exact G3]. cbn [is_qp]. split; [exact G1|].
    intros i [_ Hi]. split; [apply G2; exact Hi|]. change (x_neq (c64_x OSQP) + x_nineq (c64_x OSQP))%nat with 4 in Hi.
    destruct i as [|[|[|[|i]]]]; [right|left|left|right|lia]; cbn [nth]; cbn; lia.
Qed.

Lemma c64_po : forall s, In s [OSQP; ECOS; SCS true] ->
  problem_ok ZORing 1000000%Z (c64_x s) ex_th0 s c64_red c64_us [] c64_neqs c64_m c64_rest c64_ups.
Proof.
  intros s Hs.
  constructor.
    + destruct Hs as [<-|[<-|[<-|[]]]]; apply ex_wf_x; reflexivity.
    + destruct Hs as [<-|[<-|[<-|[]]]]; simpl; auto.
    + intros -> p Hp. simpl in Hp. destruct Hp as [<-|[<-|[<-|[<-|[<-|[]]]]]]; vm_compute; discriminate.
    + constructor.
      * repeat constructor; simpl; tauto.
      * intros u [<-|[]]. reflexivity.
      * intros u [<-|[]] E; discriminate.
    + split; [repeat constructor; simpl; tauto|]. destruct Hs as [<-|[<-|[<-|[]]]]; reflexivity.
    + repeat constructor; simpl; intuition discriminate.
    + intros u [<-|[<-|[]]]; eexists; (split; [vm_compute; reflexivity|simpl; auto]).
    + intros _. left. discriminate.
    + destruct Hs as [<-|[<-|[<-|[]]]]; unfold rows_match; simpl; auto.
    + destruct Hs as [<-|[<-|[<-|[]]]]; reflexivity.
    + split; [repeat constructor|]. split; [repeat constructor; cbn; discriminate|]. repeat constructor; cbn; intuition discriminate.
Qed.
Lemma c64_so : session_ok ZORing ex_th0 c64_ups nat [] [] (fun _ _ => true) (c64_arr 3 4 5) c64_cs.
Proof.
  constructor.
    + intros u [<-|[<-|[]]].
      * split; [reflexivity|]. intros idx Hidx. inversion Hidx as [|? ? i is Hi His]; subst. inversion His; subst.
        destruct i as [|[|i]]; try reflexivity. lia.
      * split; [reflexivity|]. intros idx Hidx. inversion Hidx; subst. reflexivity.
    + apply Forall_cons; [|apply Forall_cons; [|constructor]]; (split; [split; [|intros k v []]|intros u _; reflexivity]); intros l E;
        cbn in E; [discriminate E|]. injection E as <-. intros z [<-|[]]. simpl. auto.
    + split; [|split; [|exact I]]; intros l El u Hu Hn idx Hidx; cbn [c64_call fst uc_upd] in El; try discriminate; injection El as <-.
      destruct Hu as [<-|[<-|[]]]; [reflexivity|]. exfalso; apply Hn; left; reflexivity.
Qed.

Example C64_example : forall s, In s [OSQP; ECOS; SCS true] ->
  problem_ok ZORing 1000000%Z (c64_x s) ex_th0 s c64_red c64_us [] c64_neqs c64_m c64_rest c64_ups
  /\ session_ok ZORing ex_th0 c64_ups nat [] [] (fun _ _ => true) (c64_arr 3 4 5) c64_cs
  /\ map c64_show (snd (c64_run s))
     = [Ok ([-5; 0], [[0; 0; 1]; [5]], Fin (K := ZORing) (-15)); Ok ([-7; 0], [[0; 0; 1]; [7]], Fin (K := ZORing) (-35))]%Z
  /\ forall i e, nth_error (r_log (w_rst (fst (c64_run s)))) i = Some e ->
       let v := c64_v (c64_q i) in
       shaped ZORing (c64_x s) s (c64_ans s i e)
       /\ small (K := ZORing) 1000000%Z (c64_x s) v
       /\ minimises ZORing 1000000%Z (c64_x s) s nonneg 1%Z e (c64_ans s i e)
       /\ u_opt (K := ZORing) (c64_x s) s nonneg 1%Z v (pt (K := ZORing) (an_x (c64_ans s i e)))
       /\ solves_kkt ZORing 1000000%Z (c64_x s) s 1%Z c64_rel e (c64_ans s i e)
       /\ u_kkt (K := ZORing) (c64_x s) s c64_rel 1%Z v (pt (K := ZORing) (an_x (c64_ans s i e))) (lam_of ZORing s (c64_ans s i e)).
Proof.
  intros s Hs. split; [apply c64_po; auto|]. split; [apply c64_so|]. split; [destruct Hs as [<-|[<-|[<-|[]]]]; vm_compute; reflexivity|].
  intros i e He. cbv zeta. split; [destruct Hs as [<-|[<-|[<-|[]]]]; split; try split; reflexivity|].
  assert (Hq : c64_q i = 5%Z \/ c64_q i = 7%Z) by (destruct i; simpl; auto).
  assert (HS : small (K := ZORing) 1000000%Z (c64_x s) (c64_v (c64_q i))).
  { assert (Em : x_neq (c64_x s) + x_nineq (c64_x s) = 4) by (destruct Hs as [<-|[<-|[<-|[]]]]; reflexivity).
    intros j Hj. rewrite Em in Hj. destruct Hq as [-> | ->], Hs as [<-|[<-|[<-|[]]]]; (destruct j as [|[|[|[|j]]]]; [| | | |lia]);
      split; intro C; vm_compute in C; congruence. }
  split; [exact HS|].
  destruct (C64_generation ZORing 1000000%Z (c64_x s) ex_th0 s c64_red c64_us [] c64_neqs c64_m c64_rest c64_ups ex_order
              (c64_po s Hs) ex_order_perm) as (k & Hk).
  destruct (each_call ZORing 1000000%Z (c64_x s) ex_th0 s c64_red c64_us [] c64_neqs c64_m c64_rest c64_ups ex_order
              100000000%Z (fun _ _ d => d) nat [] [] (fun _ => 0) (fun _ _ => true) (c64_ans s) (fun _ _ _ => 77%Z)
              (c64_po s Hs) ex_order_perm (fun _ _ _ _ => eq_refl) k Hk _ _ c64_so) as (w' & outs & E1 & _ & N2 & R).
  unfold c64_run, c64_pkg in He. rewrite Hk, E1 in He. cbn [fst] in He.
  assert (Hi : i = 0 \/ i = 1).
  { assert (i < length (r_log (w_rst w'))) by (apply nth_error_Some; congruence). rewrite N2 in H. simpl in H. lia. }
  destruct (nth_error c64_cs i) as [[c a]|] eqn:Ec; [|destruct Hi as [-> | ->]; discriminate].
  destruct (R i c a e Ec He) as (th & Hth & D1 & D2 & _).
  assert (Ev : flat (x_params (c64_x s)) th = c64_v (c64_q i)).
  { assert (Ea : a = c64_arr (-1) 0 (c64_q i)).
    { destruct Hi as [-> | ->]; injection Ec as _ <-; reflexivity. }
    assert (E : flat (x_params (c64_x s)) th = [th "p" 0; th "p" 1; th "q" 0; 1%Z]).
    { destruct Hs as [<-|[<-|[<-|[]]]]; reflexivity. }
    rewrite E. clear E. subst a.
    destruct (Hth _ (or_introl eq_refl)) as (_ & P1). destruct (Hth _ (or_intror (or_introl eq_refl))) as (_ & P2).
    pose proof (P1 [0] ltac:(repeat constructor)) as A0. pose proof (P1 [1] ltac:(repeat constructor)) as A1.
    pose proof (P2 [] ltac:(repeat constructor)) as A2. cbn in A0, A1, A2. injection A0 as ->. injection A1 as ->. injection A2 as ->.
    reflexivity. }
  pose proof (c64_po s Hs) as [W Hfor _ _ _ _ _ _ _ _ _].
  pose proof (gen_all_gen _ _ _ _ _ _ _ _ _ _ _ Hk) as Hg.
  assert (HS' : s = OSQP -> small (K := ZORing) 1000000%Z (c64_x s) (flat (x_params (c64_x s)) th)) by (rewrite Ev; auto).
  pose proof (opt_same ZORing 1000000%Z (c64_x s) ex_th0 W s ex_order (pk_gen k) ex_order_perm Hg Hfor e th D1 D2 nonneg HS' 1%Z) as HO.
  pose proof (kkt_same ZORing 1000000%Z (c64_x s) ex_th0 W s ex_order (pk_gen k) ex_order_perm Hg Hfor e th D1 D2 nonneg c64_rel HS' 1%Z) as HKK.
  pose proof (obj_same ZORing 1000000%Z (c64_x s) ex_th0 W s ex_order (pk_gen k) ex_order_perm Hg Hfor e th D1 D2 1%Z) as HB.
  assert (Hq0 : (0 <= c64_q i)%Z) by (destruct Hq as [-> | ->]; lia).
  pose proof (c64_opt s (c64_q i) Hs Hq0) as O1. pose proof (c64_kkt s (c64_q i) Hs Hq0) as O2.
  assert (EL : lam_of ZORing s (c64_ans s i e) = [c64_q i; 0; 0; 1]%Z) by (destruct Hs as [<-|[<-|[<-|[]]]]; reflexivity).
  rewrite Ev in HO, HKK, HB. split; [|split; [exact O1|split]].
  - intros _. split; [apply HO; exact O1|]. specialize (HB (c64_y (c64_q i))).
    destruct (c64_obj s (c64_q i) (c64_y (c64_q i)) Hs) as (_ & B1 & B2). rewrite B1, B2 in HB.
    change (pt (K := ZORing) (an_x (c64_ans s i e))) with (c64_y (c64_q i)). revert HB.
    generalize (solver_obj (K := ZORing) 1000000%Z (c64_x s) 1%Z s e (c64_y (c64_q i))). intros z HB. cbn in HB, z. unfold c64_y, pt in HB. cbn [nth] in HB.
    cbn [an_obj c64_ans]. cbn. lia.
  - intros _. rewrite EL. apply HKK. exact O2.
  - rewrite EL. exact O2.
Qed.
Print Assumptions C64_example.
