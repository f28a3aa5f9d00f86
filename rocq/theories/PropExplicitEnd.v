(** C65: explicit mode from the user's arrays to the values in the user's variables and duals. *)

From Coq Require Import String Arith Bool Lia List ZArith Permutation Ring.
From Verif Require Import Base Pus Machine PusParse PusCheck PusLift Runtime RuntimeSpec RuntimeProofs RuntimeMore
     Canon CanonSpec CanonProofs CanonMain CanonGen CanonProblem CanonMore Info Retrieve RetrieveProofs PropRetrieve
     Wrapper WrapperProofs Params ParamsProofs PropParams EndToEnd EndSpec EndProofs PropEnd
     Explicit ExplicitProofs ExplicitVars PropExplicit ExplicitEnd ExplicitEndSpec ExplicitEndProofs Examples.
Import ListNotations.
Open Scope string_scope.
Open Scope list_scope.

Section C65.
  Variable K : ORing.
  Local Open Scope num_scope.
  Add Ring Kring65 : (rth K).
  Variables big eps : K.
  Variable x : cvx K.
  Variable th0 : pvals K.
  Variables (red : list (nat * nat)) (us : list uvar) (eqs neqs m0 : list (nat * nat)) (rest : list (list (nat * nat))).
  Variable ups : list uparam.
  (** The user's constraints as far as parameter bounds are concerned; solver_opts['stored_vars']. *)
  Variable cons : list (ucon K).
  Variable sels : option (list (string * option (list Z))).
  Variable order : list string -> list string.
  Notation gen := (generate_explicit big eps x order red us eqs neqs (m0 :: rest) cons sels).
  Notation lower n i := (last_lower cons n i (- big)).
  Notation upper n i := (last_upper cons n i big).

  (** CVXPY's data are consistent (as for OSQP); bounds are on whole parameters and not contradictory; initial
      values satisfy them; no symmetric variables; the selection is outside the known exceptions of C30; and
      equality rows without variables come last. *)
  Record explicit_ok : Prop := mkXOK
    { xk_po : problem_ok K big x th0 OSQP red us eqs neqs m0 rest ups;
      xk_bounds : Forall (simple_bound (x_params x)) cons;
      xk_order : forall n s i, In (n, s) (x_params x) -> (i < s)%nat -> ole (lower n i) (upper n i);
      xk_start : forall n s i, In (n, s) (x_params x) -> (i < s)%nat -> ole (lower n i) (th0 n i) /\ ole (th0 n i) (upper n i);
      xk_sym : forall u, In u us -> uv_sym u = false;
      xk_sels : good_sels us sels;
      xk_drop : forall j i, nth_error (dropped (sel_names us sels) 0 us) j = Some i -> (i + j < length us)%nat;
      xk_zero : zero_eqs_last x (flat (x_params x) th0) }.
  (** The entries of theta do not mix coefficients of both signs (C27). *)
  Definition signs_ok (k : xpkg K) : Prop :=
    Forall (one_sign (xp_lo k) (xp_hi k)) (g_rows (xp_gen k) pq ++ g_rows (xp_gen k) pu).

  Variable sv : Type.
  (** Calls on the arrays [a0] (at generation), [a1], ...: known names, and updated_params lists at least the
      parameters whose arrays changed. *)
  Record xsession_ok (a0 : arrays K) (cs : list (ucall K sv * arrays K)) : Prop := mkXS
    { xso_start : entries_of K ups a0 th0;
      xso_calls : Forall (fun ca => (forall l, uc_upd (fst ca) = Some l -> incl l (map up_name ups))
                                    /\ values_are K sv ups (fst ca) (snd ca)) cs;
      xso_named : all_named K sv ups a0 cs }.
  (** The values the program works with: those of the call, limited to the declared bounds. *)
  Definition all_limited (th tc : pvals K) : Prop :=
    forall n s i, In (n, s) (x_params x) -> (i < s)%nat -> limited (lower n i) (upper n i) (th n i) (tc n i).
  (** Every selected variable holds the requested entries of its part of [xs], and zero elsewhere. *)
  Definition partly_stored (xs : list K) (o : xoutcome K) : Prop :=
    Forall2 (fun u r => fst r = uv_name u /\ forall idx, in_shape (uv_shape u) idx ->
               let p := fpos (uv_shape u) idx in
               (requested (sel_of us sels (uv_name u)) p -> snd r idx = nth p (cut red (uv_id u) xs) n0)
               /\ (~ requested (sel_of us sels (uv_name u)) p -> snd r idx = n0))
            (filter (fun u => if in_dec string_dec (uv_name u) (sel_names us sels) then true else false) us) (xo_vars o).

  Variable cells : nat -> string -> nat -> K.
  Notation run k dual tab cs := (x_session k dual tab sv ups cells (x_init (xp_gen k)) 0 (map fst cs)).

  Section Gen.
    Variable g : genc K.
    Hypothesis OK : explicit_ok.
    Hypothesis Hord : forall l, Permutation l (order l).
    Hypothesis Hg : generate big x OSQP order = Ok g.

    Lemma gen_eq : chg_get (g_chg g) pP = false -> chg_get (g_chg g) pA = false ->
      exists ps ds lo hi xv, prim_info red us = Ok ps
        /\ dual_info (dual_split OSQP) (dual_vec0 OSQP) (dual_vec1 OSQP) eqs neqs (m0 :: rest) = Ok ds
        /\ bounds big (x_params x) cons = Ok (lo, hi) /\ store_vars ps sels = Ok xv
        /\ let mat p r := toarray r (x_n x) (g_baked g p) (pr_idx (proc big x OSQP p)) (pr_ip (proc big x OSQP p)) in
           let bx := box (g_rows g pq ++ g_rows g pu) lo hi in
           let R := reduce (x_n x) (mat pA (x_neq x + x_nineq x)%nat) (fst bx) (snd bx) in
           gen = Ok (mkXPkg g lo hi (x_n x) (add_eye eps (x_n x) (mat pP (x_n x))) R
                       (eq_inds (length (g_rows g pl)) (xq_amask R)) xv
                       (drop_bounds (is_bound cons) ds) (map (fun u => (uv_name u, uv_shape u)) us)).
    Proof.
      intros HP HA. destruct OK as [[W Hfor Hecos HV [Nr Tr] Nc Hm Hsp Hrows Hp Hu] Hb Ho Hs Hsy Hse Hd Hz].
      set (xs := repeat (n0 : K) (total red)). set (ls := repeat (n0 : K) (total (eqs ++ neqs))).
      assert (HB : forall i z, In (i, z) red -> length (cut red i xs) = z) by (apply cut_length; auto; apply repeat_length).
      destruct (prim_info_ok K n0 red us (fun i => cut red i xs) HV HB) as (ps & Ep & _).
      destruct (dual_info_ok K OSQP eqs neqs m0 rest (fun c => cut (eqs ++ neqs) c ls) Nc Hm) as (cs & ds & _ & Ed & _).
      { apply cut_length; auto. apply repeat_length. }
      { intro E. apply Hsp, split_iff, E. }
      destruct (generate_wf K big x th0 W OSQP order Hord) as (g' & Eg & Wg & _). rewrite Hg in Eg. injection Eg as <-.
      destruct (gen_parts K big x OSQP order g Hg) as (Hgp & _).
      destruct (C26_bounds_declared K (x_params x)) with (inf := big) (cs := cons) as (lo & hi & Eb & _); auto.
      { rewrite <- Hgp. apply (w_names _ _ _ Wg). }
      destruct (stored_ok (n0 : K) red us (fun i => cut red i xs) ps sels HV HB Hsy Hse Ep Hd 0 (fun _ _ => n0)) as (xv & _ & _ & Ex & _).
      exists ps, ds, lo, hi, xv. split; [exact Ep|]. split; [exact Ed|]. split; [exact Eb|]. split; [exact Ex|]. cbv zeta.
      unfold generate_explicit. rewrite Ep. cbn [bind]. rewrite Ed. cbn [bind]. rewrite Hg. cbn [bind]. rewrite HP, HA. cbn [orb].
      rewrite Hgp, Eb. cbn [bind fst snd]. rewrite Ex. reflexivity.
    Qed.
  End Gen.

  (** Generation succeeds if neither P nor A depends on parameters, and is refused with a ValueError otherwise. *)
  Theorem C65_generation : explicit_ok -> (forall l, Permutation l (order l)) ->
    exists g, generate big x OSQP order = Ok g
      /\ (chg_get (g_chg g) pP = false -> chg_get (g_chg g) pA = false -> exists k, gen = Ok k)
      /\ (chg_get (g_chg g) pP = true \/ chg_get (g_chg g) pA = true -> gen = Err ValueError).
  Proof.
    intros OK Hord. pose proof OK as [[W Hfor Hecos HV [Nr Tr] Nc Hm Hsp Hrows Hp Hu] Hb Ho Hs Hsy Hse Hd Hz].
    destruct (generate_wf K big x th0 W OSQP order Hord) as (g & Hg & Wg & _). exists g. split; [exact Hg|]. split.
    - intros HP HA. destruct (gen_eq g OK Hord Hg HP HA) as (ps & ds & lo & hi & xv & _ & _ & _ & _ & E). cbv zeta in E. rewrite E. eauto.
    - intro HC. set (xs := repeat (n0 : K) (total red)). set (ls := repeat (n0 : K) (total (eqs ++ neqs))).
      assert (HB : forall i z, In (i, z) red -> length (cut red i xs) = z) by (apply cut_length; auto; apply repeat_length).
      destruct (prim_info_ok K n0 red us (fun i => cut red i xs) HV HB) as (ps & Ep & _).
      destruct (dual_info_ok K OSQP eqs neqs m0 rest (fun c => cut (eqs ++ neqs) c ls) Nc Hm) as (cs & ds & _ & Ed & _).
      { apply cut_length; auto. apply repeat_length. }
      { intro E. apply Hsp, split_iff, E. }
      unfold generate_explicit. rewrite Ep. cbn [bind]. rewrite Ed. cbn [bind]. rewrite Hg. cbn [bind].
      destruct HC as [-> | ->]; [reflexivity|]. rewrite orb_true_r. reflexivity.
  Qed.

  (** What a generated program knows. *)
  Lemma gen_inv : explicit_ok -> (forall l, Permutation l (order l)) -> forall k, gen = Ok k ->
    generate big x OSQP order = Ok (xp_gen k)
    /\ chg_get (g_chg (xp_gen k)) pP = false /\ chg_get (g_chg (xp_gen k)) pA = false.
  Proof.
    intros OK Hord k Hk. destruct (C65_generation OK Hord) as (g & Hg & _ & HE).
    destruct (chg_get (g_chg g) pP) eqn:HP; [rewrite HE in Hk by auto; discriminate|].
    destruct (chg_get (g_chg g) pA) eqn:HA; [rewrite HE in Hk by auto; discriminate|].
    destruct (gen_eq g OK Hord Hg HP HA) as (ps & ds & lo & hi & xv & _ & _ & _ & _ & E). cbv zeta in E. rewrite E in Hk.
    assert (Ek : xp_gen k = g) by (injection Hk as <-; reflexivity). rewrite Ek. auto.
  Qed.

  (** The program is only generated if P and A of the user's problem are the same for all parameter values. *)
  Theorem C65_constant_matrices : explicit_ok -> (forall l, Permutation l (order l)) -> forall k, gen = Ok k ->
    forall t t' i j, (j < x_n x)%nat ->
      cA x (flat (x_params x) t) i j = cA x (flat (x_params x) t') i j
      /\ cP x (flat (x_params x) t) i j = cP x (flat (x_params x) t') i j.
  Proof.
    intros OK Hord k Hk t t' i j Hj. destruct (gen_inv OK Hord k Hk) as (Hg & HP & HA).
    pose proof OK as [[W _ _ _ _ _ _ _ _ _ _] _ _ _ _ _ _ _].
    pose proof (e_qp K big x th0 W order _ Hord Hg t) as ((P1 & _) & A1 & _).
    pose proof (e_qp K big x th0 W order _ Hord Hg t') as ((P2 & _) & A2 & _).
    assert (EP : canon_spec (xp_gen k) t pP = canon_spec (xp_gen k) t' pP) by (unfold canon_spec; rewrite HP; reflexivity).
    assert (EA : canon_spec (xp_gen k) t pA = canon_spec (xp_gen k) t' pA) by (unfold canon_spec; rewrite HA; reflexivity).
    split.
    - specialize (A1 i j Hj). specialize (A2 i j Hj). unfold dmat in A1, A2. cbn [e_data] in A1, A2. rewrite EA, A2 in A1.
      destruct (Nat.ltb i (x_neq x)); [auto|]. 
      transitivity (- - cA x (flat (x_params x) t) i j); [ring|]. rewrite <- A1. ring.
    - rewrite <- P1, <- P2 by (simpl; auto). unfold dmat. cbn [e_data]. rewrite EP. reflexivity.
  Qed.

  Variable half : K.

  Section Each.
    Hypothesis OK : explicit_ok.
    Hypothesis Hord : forall l, Permutation l (order l).
    Variable k : xpkg K.
    Hypothesis Hk : gen = Ok k.
    Hypothesis HS : signs_ok k.
    Notation g := (xp_gen k).
    Notation theta_of tc := (mask_sel (xq_mask (xp_qp k)) (canon_spec g tc pq ++ canon_spec g tc pu)).

    Lemma bounds_facts :
      length (xp_lo k) = length (g_vec0 g) /\ length (xp_hi k) = length (g_vec0 g)
      /\ nth (length (xp_lo k) - 1) (xp_lo k) n0 = n1 /\ nth (length (xp_lo k) - 1) (xp_hi k) n0 = n1
      /\ forall n s i, In (n, s) (x_params x) -> (i < s)%nat -> lo_of g (xp_lo k) n i = lower n i /\ hi_of g (xp_hi k) n i = upper n i.
    Proof.
      destruct (gen_inv OK Hord k Hk) as (Hg & HP & HA).
      destruct (gen_eq g OK Hord Hg HP HA) as (ps & ds & lo & hi & xv & _ & _ & Eb & _ & E). cbv zeta in E. rewrite E in Hk.
      assert (Elo : xp_lo k = lo) by (injection Hk as <-; reflexivity). assert (Ehi : xp_hi k = hi) by (injection Hk as <-; reflexivity).
      pose proof OK as [[W _ _ _ _ _ _ _ _ _ _] Hb _ _ _ _ _ _].
      destruct (generate_wf K big x th0 W OSQP order Hord) as (g' & Eg & Wg & _). rewrite Hg in Eg. injection Eg as <-.
      destruct (gen_parts K big x OSQP order g Hg) as (Hgp & _).
      assert (HN : NoDup (map fst (x_params x))) by (rewrite <- Hgp; apply (w_names _ _ _ Wg)).
      destruct (C26_bounds_declared K (x_params x) HN big cons Hb) as (lo' & hi' & Eb' & L1 & L2 & N1 & N2 & N3).
      rewrite Eb in Eb'. injection Eb' as <- <-. rewrite Elo, Ehi.
      assert (Lv : length (g_vec0 g) = S (list_sum (map snd (x_params x)))).
      { rewrite (w_vec0 _ _ _ Wg), Hgp. apply total_flat. }
      split; [congruence|]. split; [congruence|]. rewrite L1. replace (S (list_sum (map snd (x_params x))) - 1)%nat with (list_sum (map snd (x_params x))) by lia.
      split; [exact N1|]. split; [exact N2|]. intros n s i Hin Hi.
      destruct (base_in K g n s) as (c & Hc); [rewrite Hgp; auto|].
      unfold lo_of, hi_of. rewrite Hc. unfold base_col in Hc. rewrite Hgp in Hc. apply (N3 n s i c Hin Hi Hc).
    Qed.

    Lemma limited_ok : forall th, let tc := clampth K g (xp_lo k) (xp_hi k) th in
      all_limited th tc /\ within (xp_lo k) (xp_hi k) (flat (g_params g) tc).
    Proof.
      intro th. cbv zeta. destruct bounds_facts as (L1 & L2 & N1 & N2 & B). destruct (gen_inv OK Hord k Hk) as (Hg & _).
      pose proof OK as [[W _ _ _ _ _ _ _ _ _ _] _ Ho _ _ _ _ _].
      destruct (generate_wf K big x th0 W OSQP order Hord) as (g' & Eg & Wg & _). rewrite Hg in Eg. injection Eg as <-.
      destruct (gen_parts K big x OSQP order g Hg) as (Hgp & _). split.
      - intros n s i Hin Hi. destruct (B n s i Hin Hi) as (E1 & E2). unfold clampth. rewrite E1, E2.
        destruct (clamp_ok K (lower n i) (upper n i) (th n i) (Ho n s i Hin Hi)) as (_ & _ & C1 & C2 & C3). split; auto.
      - apply within_flat; auto.
        + apply (w_names _ _ _ Wg).
        + rewrite L1, (w_vec0 _ _ _ Wg). apply flat_length.
        + congruence.
        + intros n s i Hin Hi. rewrite Hgp in Hin. destruct (B n s i Hin Hi) as (E1 & E2). unfold clampth. rewrite E1, E2.
          destruct (clamp_ok K (lower n i) (upper n i) (th n i) (Ho n s i Hin Hi)) as (C1 & C2 & _). auto.
    Qed.

    Lemma each_xcall : forall dual tab a0 cs, xsession_ok a0 cs ->
      exists st outs, run k dual tab cs = (st, outs) /\ length outs = length cs
        /\ forall i c a, nth_error cs i = Some (c, a) ->
           exists th tc, entries_of K ups a th /\ all_limited th tc /\ within (xp_lo k) (xp_hi k) (flat (g_params g) tc)
             /\ nth_error outs i = Some (x_outcome k dual tab (cells i) (theta_of tc)).
    Proof.
      intros dual tab a0 cs [Ha0 Hcs Hn]. destruct bounds_facts as (L1 & L2 & N1 & N2 & B). destruct (gen_inv OK Hord k Hk) as (Hg & HP & HA).
      pose proof OK as [[W _ _ _ _ _ _ _ _ Hp [HW [H0 HL]]] _ Ho Hst _ _ _ _].
      destruct (generate_wf K big x th0 W OSQP order Hord) as (g' & Eg & Wg & Es). rewrite Hg in Eg. injection Eg as <-.
      destruct (gen_parts K big x OSQP order g Hg) as (Hgp & Hr).
      assert (Hup : g_params g = up_params ups) by congruence.
      assert (HN : NoDup (map up_name ups)).
      { rewrite <- up_params_names, <- Hup. apply (w_names _ _ _ Wg). }
      assert (Hv : Forall (fun ca => values_are K sv ups (fst ca) (snd ca)) cs).
      { eapply Forall_impl; [|exact Hcs]. intros ca H; apply H. }
      assert (Hmap : map (to_call ups) (map fst cs) = map (fun ca => to_call ups (fst ca)) cs) by apply map_map.
      assert (Hok : Forall (fun c => (forall p, In p (updated_of K g sv c) -> In p (map fst (g_params g))) /\ vals_ok K g sv c)
                           (map (to_call ups) (map fst cs))).
      { rewrite Hmap. apply Forall_map. eapply Forall_impl; [|exact Hcs]. intros [c a] (A1 & A3). cbn [fst snd] in *.
        split.
        - unfold updated_of. cbn [c_upd to_call]. rewrite Hup, up_params_names.
          destruct (uc_upd c) as [l|]; [apply A1; auto|auto].
        - eapply call_vals; eauto. }
      pose proof (named_cover K sv ups HN HW H0 HL g Hup cs a0 th0 Ha0 Hv Hn) as Hc. rewrite <- Hmap in Hc.
      assert (I0 : XInv K g (clampth K g (xp_lo k) (xp_hi k) th0) (x_init g)).
      { eapply xinv_flat; [|apply xinv_init; exact Wg]. apply flat_agree. intros n z i Hin Hi. rewrite Hgp in Hin.
        destruct (B n z i Hin Hi) as (E1 & E2). unfold clampth. rewrite E1, E2.
        destruct (clamp_ok K (lower n i) (upper n i) (th0 n i) (Ho n z i Hin Hi)) as (_ & _ & C1 & _).
        destruct (Hst n z i Hin Hi) as (S1 & S2). symmetry. auto. }
      assert (Hkn : xp_n k = length (g_baked g pq)
                    /\ length (xq_mask (xp_qp k)) = (length (g_baked g pq) + length (g_baked g pu))%nat).
      { destruct (limited_ok th0) as (_ & HWt).
        destruct (gen_eq g OK Hord Hg HP HA) as (ps & ds & lo & hi & xv & _ & _ & Eb & _ & E). cbv zeta in E. rewrite E in Hk.
        assert (Elo : xp_lo k = lo) by (injection Hk as <-; reflexivity). assert (Ehi : xp_hi k = hi) by (injection Hk as <-; reflexivity).
        rewrite Elo in L1. rewrite Ehi in L2.
        pose proof (len_q K big x th0 W order g Hord Hg lo hi L1 L2 th0) as Lq.
        pose proof (len_u K big x th0 W order g Hord Hg lo hi L1 L2 th0) as Lu.
        split; [rewrite Lq; injection Hk as <-; reflexivity|].
        assert (Eq : xp_qp k = reduce (x_n x) (toarray (x_neq x + x_nineq x) (x_n x) (g_baked g pA) (pr_idx (proc big x OSQP pA)) (pr_ip (proc big x OSQP pA)))
            (fst (box (g_rows g pq ++ g_rows g pu) lo hi)) (snd (box (g_rows g pq ++ g_rows g pu) lo hi))).
        { injection Hk as <-. reflexivity. }
        rewrite Eq, Lq, Lu. rewrite Elo, Ehi in HWt. unfold signs_ok in HS. rewrite Elo, Ehi in HS.
        apply (theta_facts K big x th0 W order g Hord Hg lo hi L1 L2 HS _ HWt). }
      destruct Hkn as (Hkn & Hkm).
      destruct (x_session_ok K k th0 Wg Es L1 L2 Hkn Hkm dual tab sv ups cells (map fst cs) (x_init g) 0 th0 I0 Hok Hc)
        as (st & outs & E1 & E2 & E3).
      exists st, outs. split; [exact E1|]. split; [rewrite E2, map_length; reflexivity|].
      intros i c a Hi. specialize (E3 i c (map_nth_error fst i cs Hi)). cbn [Nat.add] in E3.
      exists (vals_of K sv (to_call ups c)), (clampth K g (xp_lo k) (xp_hi k) (vals_of K sv (to_call ups c))).
      split; [|split; [apply limited_ok|split; [apply limited_ok|exact E3]]].
      eapply call_vals; eauto. rewrite Forall_forall in Hv. apply (Hv (c, a)). eapply nth_error_In; eauto.
    Qed.

    (** Storing: variables. *)
    Lemma stored_vars : forall xs cl, length xs = x_n x ->
      exists o rs vs, table_out xs (xv_out (xp_vars k)) = Ok o /\ x_primal n0 (xp_n k) (xp_vars k) cl o = Ok rs
        /\ mapM (fun r => sh <- key (assoc (fst r) (xp_shapes k));; a <- reshapeF n0 sh (snd r);; Ok (fst r, a)) rs = Ok vs
        /\ forall du, partly_stored xs (mkXO vs du).
    Proof.
      intros xs cl Lx. destruct (gen_inv OK Hord k Hk) as (Hg & HP & HA).
      destruct (gen_eq g OK Hord Hg HP HA) as (ps & ds & lo & hi & xv & Ep & _ & Eb & Ex & E). cbv zeta in E. rewrite E in Hk.
      assert (Exv : xp_vars k = xv) by (injection Hk as <-; reflexivity).
      assert (Esh : xp_shapes k = map (fun u => (uv_name u, uv_shape u)) us) by (injection Hk as <-; reflexivity).
      pose proof OK as [[W _ _ HV [Nr Tr] _ _ _ _ _ _] _ _ _ Hsy Hse Hd _].
      assert (HB : forall i z, In (i, z) red -> length (cut red i xs) = z) by (apply cut_length; auto; congruence).
      destruct (stored_ok (n0 : K) red us (fun i => cut red i xs) ps sels HV HB Hsy Hse Ep Hd (xp_n k) cl) as (xv' & o & rs & Ex' & To & Xp & F).
      rewrite Ex in Ex'. injection Ex' as <-. rewrite cut_concat in To by (auto; congruence).
      exists o, rs. rewrite Exv, Esh.
      set (fl := filter (fun u => if in_dec string_dec (uv_name u) (sel_names us sels) then true else false) us) in *.
      assert (Hin : forall u, In u fl -> In u us) by (intros u Hu; apply filter_In in Hu; tauto).
      assert (G : exists vs, mapM (fun r => sh <- key (assoc (fst r) (map (fun u => (uv_name u, uv_shape u)) us));; a <- reshapeF n0 sh (snd r);; Ok (fst r, a)) rs = Ok vs
                  /\ Forall2 (fun u r => fst r = uv_name u /\ forall idx, in_shape (uv_shape u) idx ->
                       let p := fpos (uv_shape u) idx in
                       (requested (sel_of us sels (uv_name u)) p -> snd r idx = nth p (cut red (uv_id u) xs) n0)
                       /\ (~ requested (sel_of us sels (uv_name u)) p -> snd r idx = n0)) fl vs).
      { clear To Xp. revert Hin. induction F as [|u r fl' rs' (F1 & F2 & F3) F IH]; intro Hin.
        - exists []. split; [reflexivity|constructor].
        - destruct IH as (vs & Ev & Fv); [intros; apply Hin; right; auto|].
          assert (Hu : In u us) by (apply Hin; left; reflexivity).
          assert (Lb : length (cut red (uv_id u) xs) = fsize (uv_shape u)).
          { pose proof (vo_size _ _ HV u Hu) as El. unfold packed_size in El. rewrite (Hsy u Hu) in El.
            apply HB. apply lookup_in; auto. }
          cbn [mapM]. rewrite F1.
          assert (Ea : assoc (uv_name u) (map (fun u => (uv_name u, uv_shape u)) us) = Some (uv_shape u)).
          { apply assoc_in; [rewrite map_map; apply (vo_names _ _ HV)|]. apply in_map_iff. exists u. auto. }
          rewrite Ea. cbn [key bind]. rewrite Lb in F2. unfold reshapeF at 1. rewrite F2, Nat.eqb_refl. cbn [bind].
          rewrite Ev. cbn [bind]. eexists. split; [reflexivity|]. constructor; [|exact Fv]. cbn [fst snd]. split; [reflexivity|].
          intros idx Hidx. cbv zeta. apply F3. rewrite Lb. apply fpos_lt. exact Hidx. }
      destruct G as (vs & Ev & Fv). exists vs. split; [exact To|]. split; [exact Xp|]. split; [exact Ev|].
      intro du. exact Fv.
    Qed.

    (** The table is asked for the right problem. *)
    Lemma asked : forall th tc, all_limited th tc -> within (xp_lo k) (xp_hi k) (flat (g_params g) tc) ->
      let v := flat (x_params x) tc in
      within (xq_min (xp_qp k)) (xq_max (xp_qp k)) (theta_of tc)
      /\ ((exists y0, u_feas x OSQP (fun _ => True) v y0) ->
          forall y, mp_opt (xp_n k) (xp_H k) (xp_qp k) (xp_eq k) half (theta_of tc) y <-> reg_opt x half eps v y)
      /\ (forall y full, reg_kkt x half eps v y full -> length full = (x_neq x + x_nineq x)%nat ->
            exists lam, length lam = length (xq_A (xp_qp k)) /\ mp_kkt (xp_n k) (xp_H k) (xp_qp k) (xp_eq k) half (theta_of tc) y lam)
      /\ (forall lam, length lam = length (xq_A (xp_qp k)) ->
            exists full, length full = (x_neq x + x_nineq x)%nat /\ mask_sel (xq_amask (xp_qp k)) full = lam
              /\ forall y, (exists y0, u_feas x OSQP (fun _ => True) v y0) ->
                   mp_kkt (xp_n k) (xp_H k) (xp_qp k) (xp_eq k) half (theta_of tc) y lam -> reg_kkt x half eps v y full)
      /\ length (xq_amask (xp_qp k)) = (x_neq x + x_nineq x)%nat
      /\ (forall i d, (i < x_neq x + x_nineq x)%nat -> (nth i (xq_amask (xp_qp k)) d = false <-> zero_row x v i)).
    Proof.
      intros th tc Hl HW. cbv zeta. destruct bounds_facts as (L1 & L2 & _). destruct (gen_inv OK Hord k Hk) as (Hg & HP & HA).
      pose proof OK as [[W _ _ _ _ _ _ _ _ _ _] _ _ _ _ _ _ Hz0].
      assert (Hz : zero_eqs_last x (flat (x_params x) tc)).
      { intros i i' Hi Hzi j Hj. rewrite (proj1 (C65_constant_matrices OK Hord k Hk tc th0 i' j Hj)).
        apply (Hz0 i i' Hi); auto. intros j' Hj'. rewrite (proj1 (C65_constant_matrices OK Hord k Hk th0 tc i j' Hj')). auto. }
      unfold signs_ok in HS.
      destruct (gen_eq g OK Hord Hg HP HA) as (ps & ds & lo & hi & xv & _ & _ & _ & _ & E). cbv zeta in E. rewrite E in Hk.
      assert (Elo : xp_lo k = lo) by (injection Hk as <-; reflexivity). assert (Ehi : xp_hi k = hi) by (injection Hk as <-; reflexivity).
      rewrite Elo, Ehi in *.
      assert (En : xp_n k = x_n x) by (injection Hk as <-; reflexivity).
      assert (EH : xp_H k = add_eye eps (x_n x) (toarray (x_n x) (x_n x) (g_baked g pP) (pr_idx (proc big x OSQP pP)) (pr_ip (proc big x OSQP pP))))
        by (injection Hk as <-; reflexivity).
      assert (ER : xp_qp k = reduce (x_n x) (toarray (x_neq x + x_nineq x) (x_n x) (g_baked g pA) (pr_idx (proc big x OSQP pA)) (pr_ip (proc big x OSQP pA)))
          (fst (box (g_rows g pq ++ g_rows g pu) lo hi)) (snd (box (g_rows g pq ++ g_rows g pu) lo hi)))
        by (injection Hk as <-; reflexivity).
      assert (Ee : xp_eq k = eq_inds (length (g_rows g pl)) (xq_amask (xp_qp k))) by (injection Hk as <-; reflexivity).
      rewrite Ee, ER, EH, En. clear Ee ER EH En E Hk.
      split; [apply (theta_facts K big x th0 W order g Hord Hg lo hi L1 L2 HS tc HW)|].
      split; [intros HF y; apply (opt_reg K big eps x th0 W order g Hord Hg HP HA lo hi L1 L2 HS tc HW Hz); exact HF|].
      split; [intros y full HF HLf; eexists; apply (kkt_to K big eps x th0 W order g Hord Hg HP HA lo hi L1 L2 HS tc HW Hz); eauto|].
      split; [|split].
      - intros lam HLl. exists (lam_full K big x g lo hi lam). split; [|split].
        + unfold lam_full. rewrite map_length, seq_length. reflexivity.
        + apply lam_full_sel. rewrite HLl. apply A_len.
        + intros y HF HK. apply (kkt_from K big eps x th0 W order g Hord Hg HP HA lo hi L1 L2 HS tc HW Hz); auto.
      - apply am_len.
      - intros i d Hi. apply (zero_row_am K big x th0 W order g Hord Hg HA lo hi tc i d Hi).
    Qed.
  End Each.

  (** If the table answers every theta of its box with a minimiser of the problem MPQP was given (if there is
      one), then every call of the generated program stores in the user's variables the requested entries of
      an optimal point of the user's problem, at the values of the call limited to the declared bounds, with
      the regularisation half*eps*|y|^2 (half = 1/2, eps = 1e-6). *)
  Theorem C65_optimal_values : explicit_ok -> (forall l, Permutation l (order l)) -> forall k, gen = Ok k -> signs_ok k ->
    forall tab, table_opt (xp_n k) (xp_H k) (xp_qp k) (xp_eq k) half tab ->
    forall a0 cs, xsession_ok a0 cs ->
    exists st outs, run k false tab cs = (st, outs) /\ length outs = length cs
      /\ forall i c a, nth_error cs i = Some (c, a) ->
         exists th tc o xs, entries_of K ups a th /\ all_limited th tc /\ nth_error outs i = Some (Ok o)
           /\ length xs = x_n x /\ partly_stored xs o
           /\ let v := flat (x_params x) tc in ((exists y, reg_opt x half eps v y) -> reg_opt x half eps v (pt xs)).
  Proof.
    intros OK Hord k Hk HS tab HT a0 cs Hs.
    destruct (each_xcall OK Hord k Hk HS false tab a0 cs Hs) as (st & outs & E1 & E2 & E3).
    exists st, outs. split; [exact E1|]. split; [exact E2|]. intros i c a Hi.
    destruct (E3 i c a Hi) as (th & tc & H1 & H2 & HW & Ho).
    destruct (asked OK Hord k Hk HS th tc H2 HW) as (A1 & A2 & _). cbv zeta in *.
    destruct A1 as (B1 & B2 & B3). set (t := mask_sel (xq_mask (xp_qp k)) (canon_spec (xp_gen k) tc pq ++ canon_spec (xp_gen k) tc pu)) in *.
    destruct (HT t) as (T1 & T2).
    { congruence. }
    { intros j Hj. apply B3. congruence. }
    assert (Lx : length (fst (tab t)) = x_n x).
    { rewrite T1. destruct (gen_inv OK Hord k Hk) as (Hg & HP & HA). destruct (gen_eq _ OK Hord Hg HP HA) as (ps & ds & lo & hi & xv & _ & _ & _ & _ & E).
      cbv zeta in E. rewrite E in Hk. injection Hk as <-. reflexivity. }
    destruct (stored_vars OK Hord k Hk (fst (tab t)) (cells i) Lx) as (o & rs & vs & S1 & S2 & S3 & S4).
    exists th, tc, (mkXO vs []), (fst (tab t)). split; [exact H1|]. split; [exact H2|]. split; [|split; [exact Lx|split; [apply S4|]]].
    - rewrite Ho. unfold x_outcome. rewrite S1. cbn [bind]. rewrite S2. cbn [bind]. rewrite S3. reflexivity.
    - intros (y & Hy). assert (HF : exists y0, u_feas x OSQP (fun _ => True) (flat (x_params x) tc) y0) by (exists y; apply Hy).
      apply (A2 HF). apply T2. exists y. apply (A2 HF). exact Hy.
  Qed.

  (** With multipliers (explicit=2).  The bounds are the last constraints of the problem, their rows are the
      ones without variables (the conditions of C29). *)
  Variables (oth bnds m1 m2 : list (nat * nat)).
  Record bounds_last : Prop := mkBL
    { bl_neqs : neqs = oth ++ bnds;
      bl_map : m0 = m1 ++ m2;
      bl_own : forall u, In u (map fst m1) -> exists c, chase rest u = Ok c /\ In c (map fst (eqs ++ oth));
      bl_bnd : forall u, In u (map fst m2) -> exists c, chase rest u = Ok c /\ In c (map fst bnds);
      bl_cons : forall i, (i < length m0)%nat -> is_bound cons i = Nat.leb (length m1) i;
      bl_rows : forall i, (i < x_neq x + x_nineq x)%nat -> (zero_row x (flat (x_params x) th0) i <-> (total (eqs ++ oth) <= i)%nat) }.

  (** The constraints other than bounds hold their parts of [full], saved under their positions. *)
  Definition own_duals (full : list K) (o : xoutcome K) : Prop :=
    exists cs, mapM (chase rest) (map fst m1) = Ok cs
      /\ xo_duals o = combine (seq 0 (length m1)) (map (fun c => cut (eqs ++ neqs) c full) cs).

  Lemma total_sum : forall l, total l = list_sum (map snd l).
  Proof. induction l as [|[i z] l IH]; simpl; auto. Qed.
  Lemma dual_names : forall sp v0 v1 eqs' neqs' maps ds, dual_info sp v0 v1 eqs' neqs' maps = Ok ds ->
    forall d, In d ds -> (di_name d < length ds)%nat.
  Proof.
    intros sp v0 v1 eqs' neqs' maps ds H d Hd. unfold dual_info in H. cbv zeta in H.
    destruct (dual_ids maps) as [cs|]; [|discriminate]. cbn [bind] in H.
    match type of H with bind ?a _ = _ => destruct a as [[offs vecs]|]; [|discriminate] end. cbn [bind] in H. cbv zeta in H.
    match type of H with bind ?a _ = _ => destruct a as [qs|]; [|discriminate] end. cbn [bind] in H.
    injection H as <-. rewrite map_length, combine_length, seq_length, Nat.min_id.
    apply in_map_iff in Hd. destruct Hd as ((i & ((v & o) & z)) & <- & Hi). apply in_combine_l in Hi. apply in_seq in Hi. cbn [di_name]. lia.
  Qed.

  (** Then the variables and duals hold a point and multipliers that satisfy the KKT conditions of the user's
      problem with the regularisation, if the table's answers satisfy those of the problem MPQP was given. *)
  Theorem C65_multipliers : explicit_ok -> bounds_last -> (forall l, Permutation l (order l)) -> forall k, gen = Ok k -> signs_ok k ->
    forall tab, table_kkt (xp_n k) (xp_H k) (xp_qp k) (xp_eq k) half tab ->
    forall a0 cs, xsession_ok a0 cs ->
    exists st outs, run k true tab cs = (st, outs) /\ length outs = length cs
      /\ forall i c a, nth_error cs i = Some (c, a) ->
         exists th tc o xs full, entries_of K ups a th /\ all_limited th tc /\ nth_error outs i = Some (Ok o)
           /\ length xs = x_n x /\ length full = (x_neq x + x_nineq x)%nat /\ partly_stored xs o /\ own_duals full o
           /\ let v := flat (x_params x) tc in
              ((exists y lam, length lam = (x_neq x + x_nineq x)%nat /\ reg_kkt x half eps v y lam) ->
               reg_kkt x half eps v (pt xs) full).
  Proof.
    intros OK BL Hord k Hk HS tab HT a0 cs Hs.
    destruct (each_xcall OK Hord k Hk HS true tab a0 cs Hs) as (st & outs & E1 & E2 & E3).
    exists st, outs. split; [exact E1|]. split; [exact E2|]. intros i c a Hi.
    destruct (E3 i c a Hi) as (th & tc & H1 & H2 & HW & Ho).
    destruct (asked OK Hord k Hk HS th tc H2 HW) as (A1 & _ & A3 & A4 & A5 & A6). cbv zeta in *.
    destruct A1 as (B1 & B2 & B3). set (t := mask_sel (xq_mask (xp_qp k)) (canon_spec (xp_gen k) tc pq ++ canon_spec (xp_gen k) tc pu)) in *.
    destruct (HT t) as (T1 & T2 & T3).
    { congruence. }
    { intros j Hj. apply B3. congruence. }
    destruct (A4 (snd (tab t)) T2) as (full & F1 & F2 & F3).
    destruct (gen_inv OK Hord k Hk) as (Hg & HP & HA).
    assert (Hkk : xp_n k = x_n x /\ exists ds, dual_info (dual_split OSQP) (dual_vec0 OSQP) (dual_vec1 OSQP) eqs neqs (m0 :: rest) = Ok ds
                  /\ xp_duals k = drop_bounds (is_bound cons) ds).
    { destruct (gen_eq _ OK Hord Hg HP HA) as (ps & ds & lo & hi & xv & _ & Ed & _ & _ & E). cbv zeta in E. rewrite E in Hk.
      assert (En : xp_n k = x_n x) by (injection Hk as <-; reflexivity).
      assert (Ek : xp_duals k = drop_bounds (is_bound cons) ds) by (injection Hk as <-; reflexivity).
      split; [exact En|]. exists ds. auto. }
    destruct Hkk as (En & ds & Ed & Ek).
    assert (Lx : length (fst (tab t)) = x_n x) by congruence.
    destruct (stored_vars OK Hord k Hk (fst (tab t)) (cells i) Lx) as (o & rs & vs & S1 & S2 & S3 & S4).
    destruct BL as [G1 G2 G3 G4 G5 G6].
    pose proof OK as [[W _ _ _ _ Nc _ _ Hrows _ _] _ _ _ _ _ _ _].
    unfold rows_match in Hrows. cbn [solver_api] in Hrows.
    assert (HL : forall i z, In (i, z) (eqs ++ neqs) -> length (cut (eqs ++ neqs) i full) = z) by (apply cut_length; auto; congruence).
    assert (Hcat : dcat K (fun c => cut (eqs ++ neqs) c full) (eqs ++ neqs) = full) by (apply cut_concat; auto; congruence).
    rewrite G1 in Nc, HL, Hcat, Ed.
    destruct (C29_bounds_last K eqs oth bnds m1 m2 rest _ Nc G3 G4 HL (cells i)) as (cc & ds' & C1 & C2 & C3 & C4).
    rewrite G2 in Ed. cbn [dual_split dual_vec0 dual_vec1] in Ed.
    assert (Edd : ds' = ds).
    { assert (E0 : Ok ds' = Ok ds) by (rewrite <- C2, <- Ed; reflexivity). congruence. }
    subst ds'.
    assert (Em : repeat true (list_sum (map snd (eqs ++ oth))) ++ repeat false (list_sum (map snd bnds)) = xq_amask (xp_qp k)).
    { assert (Lm : (list_sum (map snd (eqs ++ oth)) + list_sum (map snd bnds))%nat = (x_neq x + x_nineq x)%nat).
      { rewrite <- Hrows, G1, total_sum, app_assoc, (map_app _ (eqs ++ oth)), list_sum_app. reflexivity. }
      apply (nth_ext _ _ false false).
      - rewrite app_length, !repeat_length. congruence.
      - intros j Hj. rewrite app_length, !repeat_length in Hj.
        assert (Hz : zero_row x (flat (x_params x) tc) j <-> (total (eqs ++ oth) <= j)%nat).
        { rewrite <- G6 by lia. unfold zero_row. split; intros Z q Hq; specialize (Z q Hq).
          - rewrite (proj1 (C65_constant_matrices OK Hord k Hk th0 tc j q Hq)). exact Z.
          - rewrite (proj1 (C65_constant_matrices OK Hord k Hk tc th0 j q Hq)). exact Z. }
        rewrite total_sum in Hz. rewrite <- (A6 j false) in Hz by lia.
        destruct (Nat.lt_ge_cases j (list_sum (map snd (eqs ++ oth)))) as [L|L].
        + rewrite app_nth1 by (rewrite repeat_length; auto). rewrite (nth_indep _ false true), nth_repeat by (rewrite repeat_length; auto).
          destruct (nth j (xq_amask (xp_qp k)) false); auto. destruct Hz as (Hz & _). specialize (Hz eq_refl). lia.
        + rewrite app_nth2, repeat_length, nth_repeat by (rewrite repeat_length; lia). symmetry. apply Hz. lia. }
    assert (Edrop : drop_bounds (fun i => Nat.leb (length m1) i) ds = drop_bounds (is_bound cons) ds).
    { unfold drop_bounds. apply filter_ext_in. intros d Hd. f_equal. symmetry. apply G5. rewrite G2, app_length, <- C3.
      eapply dual_names; eauto. }
    unfold x_duals in C4. rewrite Edrop, Em, Hcat, F2, <- Ek in C4.
    destruct (dual_results OSQP (xp_duals k) (mkRS (cells i) (fun _ => snd (tab t)))) as [dr|] eqn:Edr; [|discriminate].
    cbn [bind] in C4. injection C4 as C4.
    exists th, tc, (mkXO vs (save_list dr)), (fst (tab t)), full.
    split; [exact H1|]. split; [exact H2|]. split; [|split; [exact Lx|split; [exact F1|split; [apply S4|split]]]].
    - rewrite Ho. unfold x_outcome. rewrite S1. cbn [bind]. rewrite S2. cbn [bind]. rewrite S3. cbn [bind]. rewrite Edr. reflexivity.
    - exists cc. split; [exact C1|]. cbn [xo_duals]. rewrite C4, G1. reflexivity.
    - intros (y & lam & Ll & Hy). assert (HF : exists y0, u_feas x OSQP (fun _ => True) (flat (x_params x) tc) y0) by (exists y; apply Hy).
      apply (F3 _ HF). apply T3. destruct (A3 y lam Hy Ll) as (lam' & L1 & L2). exists y, lam'. auto.
  Qed.

  (** In terms of the user's objective: no feasible point is better by more than half*eps*(|y'|^2 - |y|^2). *)
  Theorem C65_near_optimal : forall v y, reg_opt x half eps v y -> forall y', u_feas x OSQP (fun _ => True) v y' ->
    let slack := half * eps * (sqn x y' - sqn x y) in
    if x_max x then ole (user_obj x half v y') (user_obj x half v y + slack)
    else ole (user_obj x half v y) (user_obj x half v y' + slack).
  Proof.
    intros v y (_ & H) y' Hy'. specialize (H y' Hy'). cbv zeta. unfold reg_obj in H.
    assert (G : ole (canon_obj x half v y) (canon_obj x half v y' + half * eps * (sqn x y' - sqn x y))).
    { apply le_sub0 in H. apply le_sub0. match type of H with ole _ ?a => match goal with |- ole _ ?b => replace b with a by ring end end. exact H. }
    unfold user_obj, canon_obj in *. destruct (x_max x); [|exact G].
    apply le_sub0 in G. apply le_sub0. match type of G with ole _ ?a => match goal with |- ole _ ?b => replace b with a by ring end end. exact G.
  Qed.
End C65.
Print Assumptions C65_generation.
Print Assumptions C65_constant_matrices.
Print Assumptions C65_optimal_values.
Print Assumptions C65_near_optimal.
Print Assumptions C65_multipliers.

(** Minimise z0^2 + z1^2 + q z0 subject to z1 >= 3, z0 == q, q >= -10, q <= 10 (with half = 1 and eps = 1, so
    that the regularisation is |z|^2); the table's theta is the linear term and the right-hand side of the
    equality.  The calls set q = 5, then 20. *)
Definition c65_x : cvx ZORing :=
  mkCvx ZRing [("q", 1)] [2; 1]%Z 2 1 3 (Some ([[(1, 1%Z)]; [(1, 1%Z)]], [0; 1], [0; 1; 2]))
        [[(0, 1%Z)]; []; []]
        [[(1, 1%Z)]; [(1, 1%Z)]; [(0, (-1)%Z)]; [(1, (-3)%Z)]; [(0, 1%Z); (1, 10%Z)]; [(0, (-1)%Z); (1, 10%Z)]]
        [0; 1; 0; 1; 2; 3] [0; 1; 2; 6] false.
Definition c65_th0 : pvals ZORing := fun _ _ => 2%Z.
Definition c65_us := [mkUV "z" 3 [2] false].
Definition c65_ups := [mkUP "q" [] PPlain].
Definition c65_m1 := [(21, 21); (20, 20)].
Definition c65_m2 := [(30, 30); (31, 31)].
Definition c65_cons : list (ucon ZORing) := [@UVars ZORing; @UVars ZORing; @ULower ZORing "q" [(-10)%Z]; @UUpper ZORing "q" [10%Z]].
Definition c65_sels : option (list (string * option (list Z))) := Some [("z", Some [1; 0]%Z)].
Definition c65_gen : res (xpkg ZORing) :=
  generate_explicit (K := ZORing) 1000000%Z 1%Z c65_x ex_order [(3, 2)] c65_us [(20, 1)] [(21, 1); (30, 1); (31, 1)]
    [c65_m1 ++ c65_m2] c65_cons c65_sels.
Definition c65_tab (th : list Z) : list Z * list Z :=
  let a := nth 0 th 0%Z in let b := nth 1 th 0%Z in ([b; 3]%Z, [- a - 4 * b; 12]%Z).
Definition c65_arr (q : Z) : arrays ZORing := fun _ _ => q.
Definition c65_call (l : option (list string)) (q : Z) : ucall ZORing nat * arrays ZORing := (mkUC l [] (fun n => Some (c65_arr q n)), c65_arr q).
Definition c65_cs : list (ucall ZORing nat * arrays ZORing) := [c65_call None 5; c65_call (Some ["q"]) 20].
Definition c65_run (dual : bool) : list (res (xoutcome ZORing)) :=
  match c65_gen with
  | Ok k => snd (x_session (K := ZORing) k dual c65_tab nat c65_ups (fun _ _ _ => 77%Z) (x_init (xp_gen k)) 0 (map fst c65_cs))
  | Err e => []
  end.
Definition c65_show (o : res (xoutcome ZORing)) : res (list Z * list (nat * list Z)) :=
  o' <- o;; Ok (flat_map (fun r => [snd r [0]; snd r [1]]) (xo_vars o'), xo_duals o').
Definition c65_view : option (nat * list (list Z) * xqp ZRing * list nat * list (row ZRing) * (list Z * list Z)) :=
  match c65_gen with
  | Ok k => Some (xp_n k, xp_H k, xp_qp k, xp_eq k, g_rows (xp_gen k) pq ++ g_rows (xp_gen k) pu, (xp_lo k, xp_hi k))
  | Err _ => None
  end.
Definition c65_q : xqp ZRing :=
  mkXQ (K := ZRing) [0; 0]%Z [[1; 0]; [0; 0]]%Z [[1; 0]; [0; -1]]%Z [0; -3]%Z [[0; 1]; [0; 0]]%Z [-10; -10]%Z [10; 10]%Z
       [true; false; true; false; false; false] [true; true; false; false].
Lemma c65_view_is : c65_view
  = Some (2, [[2; 0]; [0; 2]]%Z, c65_q, [0],
          [[(0, 1%Z)]; []; [(0, 1%Z)]; [(1, (-3)%Z)]; [(0, 1%Z); (1, 10%Z)]; [(0, (-1)%Z); (1, 10%Z)]], ([-10; 1]%Z, [10; 1]%Z)).
Proof. vm_compute. reflexivity. Qed.
(** What was generated. *)
Lemma c65_is : forall k, c65_gen = Ok k ->
  xp_n k = 2 /\ xp_H k = [[2; 0]; [0; 2]]%Z /\ xp_qp k = c65_q /\ xp_eq k = [0]
  /\ g_rows (xp_gen k) pq ++ g_rows (xp_gen k) pu
     = [[(0, 1%Z)]; []; [(0, 1%Z)]; [(1, (-3)%Z)]; [(0, 1%Z); (1, 10%Z)]; [(0, (-1)%Z); (1, 10%Z)]]
  /\ xp_lo k = [-10; 1]%Z /\ xp_hi k = [10; 1]%Z.
Proof.
  intros k Hk. pose proof c65_view_is as E. unfold c65_view in E. rewrite Hk in E.
  assert (F : forall a b c d e f g a' b' c' d' e' f' g',
    Some (a : nat, b : list (list Z), c : xqp ZRing, d : list nat, e : list (row ZRing), (f : list Z, g : list Z)) = Some (a', b', c', d', e', (f', g')) ->
    a = a' /\ b = b' /\ c = c' /\ d = d' /\ e = e' /\ f = f' /\ g = g') by (intros; intuition congruence).
  apply F in E. exact E.
Qed.

Lemma c65_wf : wf_cvx c65_x c65_th0.
Proof.
  constructor.
  - repeat constructor; simpl; tauto.
  - reflexivity.
  - split; [reflexivity|]. split; [reflexivity|]. split; [reflexivity|].
    intros c Hc. simpl in Hc. destruct c as [|[|[|]]]; simpl; lia.
  - reflexivity.
  - intros i Hi. simpl in *. lia.
  - simpl. repeat constructor; simpl; intuition lia.
  - intros r c w H1 H2. simpl in H1. fin; simpl in H2; fin.
  - reflexivity.
  - intros r c w H1 H2. simpl in H1. fin; simpl in H2; fin.
  - intros rows idx ip E. simpl in E. inversion E; subst.
    split; [|split; [reflexivity|]].
    + split; [reflexivity|]. split; [reflexivity|]. split; [reflexivity|].
      intros c Hc. simpl in Hc. destruct c as [|[|]]; simpl; lia.
    + intros r c w H1 H2. simpl in H1. fin; simpl in H2; fin.
Qed.
Lemma c65_po : problem_ok ZORing 1000000%Z c65_x c65_th0 OSQP [(3, 2)] c65_us [(20, 1)] [(21, 1); (30, 1); (31, 1)]
                 (c65_m1 ++ c65_m2) [] c65_ups.
Proof.
  constructor.
  - apply c65_wf.
  - exact I.
  - discriminate.
  - constructor.
    + repeat constructor; simpl; tauto.
    + intros u [<-|[]]. reflexivity.
    + intros u [<-|[]] E; discriminate.
  - split; [repeat constructor; simpl; tauto|reflexivity].
  - repeat constructor; simpl; intuition discriminate.
  - simpl. intros u [<-|[<-|[<-|[<-|[]]]]]; eexists; (split; [reflexivity|simpl; tauto]).
  - intros _. left. discriminate.
  - reflexivity.
  - reflexivity.
  - split; [repeat constructor|]. split; [repeat constructor; cbn; discriminate|]. repeat constructor; cbn; intuition discriminate.
Qed.
Lemma c65_ok : explicit_ok ZORing 1000000%Z c65_x c65_th0 [(3, 2)] c65_us [(20, 1)] [(21, 1); (30, 1); (31, 1)]
                 (c65_m1 ++ c65_m2) [] c65_ups c65_cons c65_sels.
Proof.
  constructor.
  - apply c65_po.
  - repeat (apply Forall_cons; [simpl; auto|]). constructor.
  - intros n s i [H|[]] Hi. injection H as <- <-. destruct i; [|lia]. vm_compute. discriminate.
  - intros n s i [H|[]] Hi. injection H as <- <-. destruct i; [|lia]. split; vm_compute; discriminate.
  - intros u [<-|[]]. reflexivity.
  - split; [repeat constructor; simpl; tauto|]. intros n inds [H|[]]. injection H as <- <-.
    exists (mkUV "z" 3 [2] false). split; [left; reflexivity|]. split; [reflexivity|].
    split; [repeat constructor; simpl; intuition discriminate|]. split; [|discriminate].
    simpl. intros y [<-|[<-|[]]]; lia.
  - intros [|j] i E; discriminate E.
  - intros i i' [H1 H2]. simpl in H2. lia.
Qed.
Lemma c65_so : xsession_ok ZORing c65_th0 c65_ups nat (c65_arr 2) c65_cs.
Proof.
  constructor.
  - intros u [<-|[]]. split; [reflexivity|]. intros idx Hidx. inversion Hidx; subst. reflexivity.
  - apply Forall_cons; [|apply Forall_cons; [|constructor]]; (split; [|intros u _; reflexivity]); intros l E; cbn in E; [discriminate E|].
    injection E as <-. intros z Hz. exact Hz.
  - split; [|split; [|exact I]]; intros l El u Hu Hn idx Hidx; cbn [c65_call fst uc_upd] in El; try discriminate; injection El as <-.
    destruct Hu as [<-|[]]. exfalso; apply Hn; left; reflexivity.
Qed.
Lemma c65_bl : bounds_last ZORing c65_x c65_th0 [(20, 1)] [(21, 1); (30, 1); (31, 1)] (c65_m1 ++ c65_m2) [] c65_cons
                 [(21, 1)] [(30, 1); (31, 1)] c65_m1 c65_m2.
Proof.
  constructor.
  - reflexivity.
  - reflexivity.
  - simpl. intros u [<-|[<-|[]]]; eexists; (split; [reflexivity|simpl; tauto]).
  - simpl. intros u [<-|[<-|[]]]; eexists; (split; [reflexivity|simpl; tauto]).
  - intros [|[|[|[|i]]]] Hi; try reflexivity. simpl in Hi. lia.
  - intros i Hi. change (x_neq c65_x + x_nineq c65_x) with 4 in Hi. change (total ([(20, 1)] ++ [(21, 1)])) with 2. unfold zero_row. split.
    + intro Z. destruct i as [|[|i]]; [| |lia].
      * specialize (Z 0 ltac:(simpl; lia)). vm_compute in Z. discriminate.
      * specialize (Z 1 ltac:(simpl; lia)). vm_compute in Z. discriminate.
    + intros L j Hj. change (x_n c65_x) with 2 in Hj. destruct i as [|[|[|[|i]]]]; try lia; (destruct j as [|[|j]]; [reflexivity|reflexivity|lia]).
Qed.

(** The table's problem spelt out. *)
Definition c65_H : list (list Z) := [[2; 0]; [0; 2]]%Z.
Lemma c65_mfeas : forall a b (y : nat -> Z),
  mp_feas (K := ZORing) 2 c65_q [0] [a; b] y <-> (y 0%nat = b /\ 3 <= y 1%nat)%Z.
Proof.
  intros a b y.
  assert (R0 : mp_row (K := ZORing) 2 c65_q 0 y = y 0%nat) by (cbv -[Z.add Z.mul Z.opp]; ring).
  assert (R1 : mp_row (K := ZORing) 2 c65_q 1 y = (- y 1%nat)%Z) by (cbv -[Z.add Z.mul Z.opp]; ring).
  assert (S0 : mp_rhs (K := ZORing) c65_q [a; b] 0 = b) by (cbv -[Z.add Z.mul Z.opp]; ring).
  assert (S1 : mp_rhs (K := ZORing) c65_q [a; b] 1 = (-3)%Z) by (cbv -[Z.add Z.mul Z.opp]; ring).
  split.
  - intro H. destruct (H 0 ltac:(simpl; lia)) as (H0 & _). destruct (H 1 ltac:(simpl; lia)) as (_ & H1).
    specialize (H0 ltac:(simpl; auto)). specialize (H1 ltac:(simpl; lia)). rewrite R0, S0 in H0. rewrite R1, S1 in H1. cbn in H1. lia.
  - intros (H0 & H1) [|[|i]] Hi; [| |simpl in Hi; lia].
    + split; [intros _; rewrite R0, S0; auto|intro C; exfalso; apply C; simpl; auto].
    + split; [intros [C|[]]; discriminate|intros _; rewrite R1, S1; cbn; lia].
Qed.
Lemma c65_mobj : forall a b (y : nat -> Z),
  mp_obj (K := ZORing) 2 c65_H c65_q 1%Z [a; b] y = (2 * (y 0%nat * y 0%nat) + 2 * (y 1%nat * y 1%nat) + a * y 0%nat)%Z.
Proof. intros. cbv -[Z.add Z.mul Z.opp]. ring. Qed.
Lemma c65_table : table_opt (K := ZORing) 2 c65_H c65_q [0] 1%Z c65_tab /\ table_kkt (K := ZORing) 2 c65_H c65_q [0] 1%Z c65_tab.
Proof.
  assert (F : forall a b, mp_feas (K := ZORing) 2 c65_q [0] [a; b] (pt (K := ZORing) [b; 3%Z])).
  { intros a b. apply c65_mfeas. unfold pt. cbn [nth]. split; [reflexivity|]. lia. }
  split; intros th HL _; (destruct th as [|a [|b [|c th]]]; try discriminate HL); cbn [c65_tab nth fst snd].
  - split; [reflexivity|]. intros _. split; [apply F|].
    intros y' Hy'. apply c65_mfeas in Hy'. destruct Hy' as (E0 & Hy). rewrite !c65_mobj, E0. unfold pt. cbn [nth].
    cbn [ole ZORing]. nia.
  - split; [reflexivity|]. split; [reflexivity|]. intros _. split; [apply F|]. split.
    + intros [|[|j]] Hj; [| |lia]; cbv -[Z.add Z.mul Z.opp Z.sub]; ring.
    + intros [|[|i]] Hi Hn; [exfalso; apply Hn; simpl; auto| |simpl in Hi; lia]. split; [cbn; lia|]. right. cbv. reflexivity.
Qed.

Definition c65_v (q : Z) : list Z := [q; 1]%Z.
Lemma c65_reg : forall q, (-10 <= q <= 10)%Z ->
  reg_opt (K := ZORing) c65_x 1%Z 1%Z (c65_v q) (pt (K := ZORing) [q; 3]%Z).
Proof.
  intros q Hq.
  assert (Sl : forall y, u_slacks (K := ZORing) c65_x (c65_v q) y = [y 0%nat - q; y 1%nat - 3; q + 10; 10 - q]%Z).
  { intro y. cbv -[Z.add Z.mul Z.opp Z.sub]. repeat (f_equal; try ring). }
  assert (Ob : forall y, reg_obj (K := ZORing) c65_x 1%Z 1%Z (c65_v q) y = (2 * (y 0%nat * y 0%nat) + 2 * (y 1%nat * y 1%nat) + q * y 0%nat)%Z).
  { intro y. cbv -[Z.add Z.mul Z.opp]. ring. }
  split.
  - unfold u_feas. cbn [is_qp]. rewrite Sl. intros i Hi. change (x_neq c65_x + x_nineq c65_x) with 4 in Hi. change (x_neq c65_x) with 1.
    unfold pt. destruct i as [|[|[|[|i]]]]; [| | | |lia]; cbn -[Z.add Z.sub]; lia.
  - intros y' Hy'. unfold u_feas in Hy'. cbn [is_qp] in Hy'. rewrite Sl in Hy'.
    pose proof (Hy' 0 ltac:(simpl; lia)) as H0. pose proof (Hy' 1 ltac:(simpl; lia)) as H1. cbn -[Z.add Z.sub] in H0, H1.
    rewrite !Ob. unfold pt. cbn [nth]. cbn [ole ZORing].
    assert (E : y' 0%nat = q) by lia. rewrite E. nia.
Qed.

Example C65_example :
  explicit_ok ZORing 1000000%Z c65_x c65_th0 [(3, 2)] c65_us [(20, 1)] [(21, 1); (30, 1); (31, 1)]
    (c65_m1 ++ c65_m2) [] c65_ups c65_cons c65_sels
  /\ bounds_last ZORing c65_x c65_th0 [(20, 1)] [(21, 1); (30, 1); (31, 1)] (c65_m1 ++ c65_m2) [] c65_cons
       [(21, 1)] [(30, 1); (31, 1)] c65_m1 c65_m2
  /\ xsession_ok ZORing c65_th0 c65_ups nat (c65_arr 2) c65_cs
  /\ (exists k, c65_gen = Ok k /\ signs_ok ZORing k
        /\ table_opt (K := ZORing) (xp_n k) (xp_H k) (xp_qp k) (xp_eq k) 1%Z c65_tab
        /\ table_kkt (K := ZORing) (xp_n k) (xp_H k) (xp_qp k) (xp_eq k) 1%Z c65_tab)
  /\ map c65_show (c65_run true) = [Ok ([5; 3]%Z, [(0, [12%Z]); (1, [(-25)%Z])]); Ok ([10; 3]%Z, [(0, [12%Z]); (1, [(-50)%Z])])]
  /\ map c65_show (c65_run false) = [Ok ([5; 3]%Z, []); Ok ([10; 3]%Z, [])]
  /\ reg_opt (K := ZORing) c65_x 1%Z 1%Z (c65_v 5) (pt (K := ZORing) [5; 3]%Z)
  /\ reg_opt (K := ZORing) c65_x 1%Z 1%Z (c65_v 10) (pt (K := ZORing) [10; 3]%Z).
Proof.
  split; [apply c65_ok|]. split; [apply c65_bl|]. split; [apply c65_so|]. split.
  - destruct (c65_gen) as [k|] eqn:Hk; [|exfalso; assert (E : c65_view <> None) by (rewrite c65_view_is; discriminate); unfold c65_view in E; rewrite Hk in E; auto].
    exists k. split; [reflexivity|]. destruct (c65_is k Hk) as (-> & -> & -> & -> & Er & El & Eh). split; [|apply c65_table].
    unfold signs_ok. rewrite Er, El, Eh.
    assert (G : forall c w, (c = 0%nat -> (0 <= w)%Z) -> nth c [-10; 1]%Z 0%Z = nth c [10; 1]%Z 0%Z \/ (0 <= w)%Z).
    { intros [|[|[|c]]] w Hw; auto. }
    assert (G' : forall c w, (c = 0%nat -> (w <= 0)%Z) -> nth c [-10; 1]%Z 0%Z = nth c [10; 1]%Z 0%Z \/ (w <= 0)%Z).
    { intros [|[|[|c]]] w Hw; auto. }
    do 5 (apply Forall_cons; [left; intros c w Hc; apply G; intros ->; simpl in Hc; intuition (try congruence); match goal with H : (_, _) = (_, _) |- _ => injection H as <-; lia end|]).
    apply Forall_cons; [right; intros c w Hc; apply G'; intros ->; simpl in Hc; intuition (try congruence); match goal with H : (_, _) = (_, _) |- _ => injection H as <-; lia end|constructor].
  - split; [vm_compute; reflexivity|]. split; [vm_compute; reflexivity|]. split; apply c65_reg; lia.
Qed.

(** The positions of the equalities given to MPQP are counted before rows without variables are removed: for
    p == 2, z == q, z >= -5 the reduced rows are z <= q and -z <= 5, and the second one is declared an equality.
    The table, correct for the problem it was given, returns -5 although z == q has the solution 3. *)
Definition c65_y : cvx ZORing :=
  mkCvx ZRing [("p", 1); ("q", 1)] [2; 3; 1]%Z 1 2 1 None [[]; []]
        [[(2, 1%Z)]; [(2, 1%Z)]; [(0, 1%Z); (2, (-2)%Z)]; [(1, (-1)%Z)]; [(2, 5%Z)]]
        [1; 2; 0; 1; 2] [0; 2; 5] false.
Definition c65_yth : pvals ZORing := fun n _ => if String.eqb n "p" then 2%Z else 3%Z.
Definition c65_ycons : list (ucon ZORing) := [@UUpper ZORing "p" [2%Z]; @UVars ZORing; @UVars ZORing].
Definition c65_yus := [mkUV "z" 3 [] false].
Definition c65_yups := [mkUP "p" [] PPlain; mkUP "q" [] PPlain].
Definition c65_ym := [(20, 20); (22, 22); (21, 21)].
Definition c65_ygen : res (xpkg ZORing) :=
  generate_explicit (K := ZORing) 1000000%Z 1%Z c65_y ex_order [(3, 1)] c65_yus [(20, 1); (22, 1)] [(21, 1)] [c65_ym] c65_ycons None.
Definition c65_ytab (th : list Z) : list Z * list Z := ([-5]%Z, [0; 0]%Z).
Definition c65_yarr : arrays ZORing := fun n _ => if String.eqb n "p" then 2%Z else 3%Z.
Definition c65_ycs : list (ucall ZORing nat * arrays ZORing) := [(mkUC None [] (fun n => Some (c65_yarr n)), c65_yarr)].
Definition c65_yview : option (nat * list (list Z) * xqp ZRing * list nat * list (row ZRing) * list (res (list Z))) :=
  match c65_ygen with
  | Ok k => Some (xp_n k, xp_H k, xp_qp k, xp_eq k, g_rows (xp_gen k) pq ++ g_rows (xp_gen k) pu,
                  map (fun o => o' <- o;; Ok (map (fun r => snd r []) (xo_vars o')))
                    (snd (x_session (K := ZORing) k false c65_ytab nat c65_yups (fun _ _ _ => 77%Z) (x_init (xp_gen k)) 0 (map fst c65_ycs))))
  | Err _ => None
  end.
Definition c65_yq : xqp ZRing :=
  mkXQ (K := ZRing) [0]%Z [[0]]%Z [[1]; [-1]]%Z [0; 5]%Z [[1]; [0]]%Z [-1000000]%Z [1000000]%Z [false; false; true; false] [false; true; true].
Lemma c65_yview_is : c65_yview
  = Some (1, [[1]]%Z, c65_yq, [1], [[]; [(0, (-1)%Z); (2, 2%Z)]; [(1, 1%Z)]; [(2, 5%Z)]], [Ok [(-5)%Z]]).
Proof. vm_compute. reflexivity. Qed.
Lemma c65_ywf : wf_cvx c65_y c65_yth.
Proof.
  constructor.
  - repeat constructor; simpl; intuition discriminate.
  - reflexivity.
  - split; [reflexivity|]. split; [reflexivity|]. split; [reflexivity|].
    intros c Hc. simpl in Hc. destruct c as [|[|[|]]]; simpl; lia.
  - reflexivity.
  - intros i Hi. simpl in *. lia.
  - simpl. repeat constructor; simpl; intuition lia.
  - intros r c w H1 H2. simpl in H1. fin; simpl in H2; fin.
  - reflexivity.
  - intros r c w H1 H2. simpl in H1. fin; simpl in H2; fin.
  - intros rows idx ip E. discriminate E.
Qed.
Lemma c65_ypo : problem_ok ZORing 1000000%Z c65_y c65_yth OSQP [(3, 1)] c65_yus [(20, 1); (22, 1)] [(21, 1)] c65_ym [] c65_yups.
Proof.
  constructor.
  - apply c65_ywf.
  - exact I.
  - discriminate.
  - constructor.
    + repeat constructor; simpl; tauto.
    + intros u [<-|[]]. reflexivity.
    + intros u [<-|[]] E; discriminate.
  - split; [repeat constructor; simpl; tauto|reflexivity].
  - repeat constructor; simpl; intuition discriminate.
  - simpl. intros u [<-|[<-|[<-|[]]]]; eexists; (split; [reflexivity|simpl; tauto]).
  - intros _. left. discriminate.
  - reflexivity.
  - reflexivity.
  - split; [repeat constructor|]. split; [repeat constructor; cbn; discriminate|]. repeat constructor; cbn; intuition discriminate.
Qed.
Lemma c65_yso : xsession_ok ZORing c65_yth c65_yups nat c65_yarr c65_ycs.
Proof.
  constructor.
  - intros u [<-|[<-|[]]]; (split; [reflexivity|]); intros idx Hidx; inversion Hidx; subst; reflexivity.
  - apply Forall_cons; [|constructor]. split; [|intros u _; reflexivity]. intros l E. discriminate E.
  - split; [|exact I]. intros l El. discriminate El.
Qed.

Theorem C65_equality_indices_refuted :
  problem_ok ZORing 1000000%Z c65_y c65_yth OSQP [(3, 1)] c65_yus [(20, 1); (22, 1)] [(21, 1)] c65_ym [] c65_yups
  /\ Forall (simple_bound (x_params c65_y)) c65_ycons
  /\ xsession_ok ZORing c65_yth c65_yups nat c65_yarr c65_ycs
  /\ exists k, c65_ygen = Ok k
       /\ table_opt (K := ZORing) (xp_n k) (xp_H k) (xp_qp k) (xp_eq k) 1%Z c65_ytab
       /\ map (fun o => o' <- o;; Ok (map (fun r => snd r []) (xo_vars o')))
            (snd (x_session (K := ZORing) k false c65_ytab nat c65_yups (fun _ _ _ => 77%Z) (x_init (xp_gen k)) 0 (map fst c65_ycs)))
          = [Ok [(-5)%Z]]
       /\ reg_opt (K := ZORing) c65_y 1%Z 1%Z [2; 3; 1]%Z (pt (K := ZORing) [3]%Z)
       /\ ~ u_feas (K := ZORing) c65_y OSQP (fun _ => True) [2; 3; 1]%Z (pt (K := ZORing) [-5]%Z).
Proof.
  split; [apply c65_ypo|]. split; [repeat (apply Forall_cons; [simpl; auto|]); constructor|]. split; [apply c65_yso|].
  pose proof c65_yview_is as E. unfold c65_yview in E. destruct c65_ygen as [k|]; [|discriminate]. exists k. split; [reflexivity|].
  assert (F : forall a b c d e f a' b' c' d' e' f',
    Some (a : nat, b : list (list Z), c : xqp ZRing, d : list nat, e : list (row ZRing), f : list (res (list Z))) = Some (a', b', c', d', e', f') ->
    a = a' /\ b = b' /\ c = c' /\ d = d' /\ f = f') by (intros; intuition congruence).
  apply F in E. destruct E as (-> & -> & -> & -> & Eo). split; [|split; [exact Eo|split]].
  - intros th HL _. destruct th as [|a [|b th]]; try discriminate HL. split; [reflexivity|]. intros (y & Hy & _).
    assert (R0 : forall y, mp_row (K := ZORing) 1 c65_yq 0 y = y 0%nat) by (intro; cbv -[Z.add Z.mul Z.opp]; ring).
    assert (R1 : forall y, mp_row (K := ZORing) 1 c65_yq 1 y = (- y 0%nat)%Z) by (intro; cbv -[Z.add Z.mul Z.opp]; ring).
    assert (S0 : mp_rhs (K := ZORing) c65_yq [a] 0 = a) by (cbv -[Z.add Z.mul Z.opp]; ring).
    assert (S1 : mp_rhs (K := ZORing) c65_yq [a] 1 = 5%Z) by (cbv -[Z.add Z.mul Z.opp]; ring).
    assert (G : forall y, mp_feas (K := ZORing) 1 c65_yq [1] [a] y -> y 0%nat = (-5)%Z /\ (-5 <= a)%Z).
    { intros z Hz. destruct (Hz 0 ltac:(simpl; lia)) as (_ & H0). destruct (Hz 1 ltac:(simpl; lia)) as (H1 & _).
      specialize (H0 ltac:(simpl; lia)). specialize (H1 ltac:(simpl; auto)). rewrite R0, S0 in H0. rewrite R1, S1 in H1. cbn [ole ZORing] in H0. lia. }
    split.
    + intros [|[|i]] Hi; [| |simpl in Hi; lia].
      * split; [intros [C|[]]; discriminate|]. intros _. rewrite R0, S0. apply (G y Hy).
      * split; [intros _; rewrite R1, S1; reflexivity|]. intro C. exfalso. apply C. simpl. auto.
    + intros y' Hy'. destruct (G y' Hy') as (E0 & _).
      assert (O : forall z, mp_obj (K := ZORing) 1 [[1]]%Z c65_yq 1%Z [a] z = (z 0%nat * z 0%nat)%Z) by (intro; cbv -[Z.add Z.mul Z.opp]; ring).
      rewrite !O, E0. unfold pt. cbn. lia.
  - assert (Sl : forall y, u_slacks (K := ZORing) c65_y [2; 3; 1]%Z y = [0; y 0%nat - 3; y 0%nat + 5]%Z).
    { intro y. cbv -[Z.add Z.mul Z.opp Z.sub]. repeat (f_equal; try ring). }
    assert (O : forall z, reg_obj (K := ZORing) c65_y 1%Z 1%Z [2; 3; 1]%Z z = (z 0%nat * z 0%nat)%Z) by (intro; cbv -[Z.add Z.mul Z.opp]; ring).
    split.
    + unfold u_feas. cbn [is_qp]. rewrite Sl. intros i Hi. change (x_neq c65_y + x_nineq c65_y) with 3 in Hi. change (x_neq c65_y) with 2.
      unfold pt. destruct i as [|[|[|i]]]; [| | |lia]; cbn; try reflexivity; lia.
    + intros y' Hy'. unfold u_feas in Hy'. cbn [is_qp] in Hy'. rewrite Sl in Hy'. pose proof (Hy' 1 ltac:(simpl; lia)) as H1.
      cbn -[Z.add Z.sub] in H1. assert (E0 : y' 0%nat = 3%Z) by lia. rewrite !O, E0. unfold pt. cbn. lia.
  - intro C. specialize (C 1 ltac:(simpl; lia)). vm_compute in C. discriminate.
Qed.
