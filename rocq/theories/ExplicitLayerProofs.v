(** Proofs about ExplicitLayer.v. *)

From Coq Require Import String Arith Bool ZArith Lia List Permutation Field.
From Verif Require Import Base Pus Machine Runtime RuntimeSpec RuntimeProofs Canon CanonSpec CanonProofs CanonMain CanonGen Retrieve RetrieveProofs Params ParamsProofs.
From Verif Require Import Explicit ExplicitProofs ExplicitVars ExplicitGrad PropExplicit ExplicitEnd ExplicitEndSpec ExplicitEndProofs EndSpec EndProofs PropEnd Wrapper WrapperProofs.
From Verif Require Import GradMain GradSession GradSessionProofs GradDeriv GradUser PropUser Layer LayerSpec LayerProofs PropLayer ExplicitLayer ExplicitLayerSpec.
Import ListNotations.
Open Scope string_scope.
Open Scope list_scope.
Local Open Scope nat_scope.

(** ** Sums *)
Section Sums.
  Variable F : Fld.
  Add Field Fxl : (fth F).
  Lemma rsum_perm : forall (l l' : list F), Permutation l l' -> rsum l = rsum l'.
  Proof. induction 1 as [|a l l' _ IH|a b l|l l' l2 _ IH1 _ IH2]; unfold rsum in *; cbn [fold_right]; auto; try congruence. ring. Qed.
  Lemma rsum_zero : forall A (h : A -> F) l, (forall a, In a l -> h a = n0) -> rsum (map h l) = n0.
  Proof.
    induction l as [|a l IH]; intro H; cbn [map]; [reflexivity|]. change (rsum (?a :: ?l)) with (nadd a (rsum l)).
    rewrite (H a (or_introl eq_refl)), IH by (intros; apply H; right; auto). ring.
  Qed.
  Lemma rsum_sub : forall A (h : A -> F) l2 l, NoDup l -> NoDup l2 -> incl l2 l -> (forall a, In a l -> ~ In a l2 -> h a = n0) ->
    rsum (map h l) = rsum (map h l2).
  Proof.
    induction l2 as [|b l2 IH]; intros l HN HN2 HI Hz; [apply rsum_zero; auto|].
    destruct (in_split b l (HI b (or_introl eq_refl))) as (l1 & l3 & ->). apply NoDup_cons_iff in HN2. destruct HN2 as [N1 N2].
    pose proof (NoDup_remove_1 _ _ _ HN) as N3. pose proof (NoDup_remove_2 _ _ _ HN) as N4.
    rewrite (rsum_perm (map h (l1 ++ b :: l3)) (map h (b :: l1 ++ l3))) by (apply Permutation_map, Permutation_sym, Permutation_middle).
    cbn [map]. change (rsum (?a :: ?l)) with (nadd a (rsum l)). f_equal. apply IH; auto.
    - intros a Ha. assert (H : In a (l1 ++ b :: l3)) by (apply HI; right; auto). apply in_app_iff in H. apply in_app_iff. destruct H as [H|[->|H]]; auto. contradiction.
    - intros a Ha Hn. apply Hz.
      + apply in_app_iff in Ha. apply in_app_iff. cbn. tauto.
      + intros [->|H]; [contradiction|auto].
  Qed.
  Lemma ldot_ip : forall (a b : list F), length a = length b -> ldot a b = ip (length a) a b.
  Proof.
    intros a b HL. rewrite (ldot_seq F a b (length a)) by auto. unfold ip. reflexivity.
  Qed.
End Sums.

Section Main.
  Variable O : OFld.
  Notation F := (of_fld O).
  Notation K := (of_ord O).
  Variables (big : F) (x : cvx F) (th0 : pvals F) (order : list string -> list string) (g : genc F).
  Variables (cons : list (ucon K)) (lo hi : list F) (mask : list bool).
  Variables (red : list (nat * nat)) (us : list uvar) (ps : list pinfo) (sels : option (list (string * option (list Z)))) (xv : xvars).
  Variables (t : table F) (leaf : list F -> nat) (law : nat -> list F -> list F).
  Variables (pids : list (nat * string)) (shapes : list (string * list nat)) (ctxs : nat -> ctx) (cells : string -> nat -> F).
  Hypothesis W : wf_cvx x th0.
  Hypothesis Hord : forall l, Permutation l (order l).
  Hypothesis Hg : generate big x OSQP order = Ok g.
  Hypothesis Hbd : bounds (K := K) big (x_params x) cons = Ok (lo, hi).
  Hypothesis Hsb : Forall (simple_bound (x_params x)) cons.
  Hypothesis Hlh : forall nm s i, In (nm, s) (g_params g) -> i < s -> of_le O (low O big cons nm i) (high O big cons nm i).
  Hypothesis Hst : in_bounds O big cons g th0.
  Hypothesis Hmask : length mask = length (g_baked g pq) + length (g_baked g pu).
  Hypothesis HV : vars_ok red us.
  Hypothesis HR : NoDup (map fst red).
  Hypothesis HI : NoDup (map uv_id us).
  Hypothesis HS : forall u, In u us -> uv_sym u = false.
  Hypothesis HG : good_sels us sels.
  Hypothesis Hps : prim_info red us = Ok ps.
  Hypothesis Hall : forall u, In u us -> In (uv_name u) (sel_names us sels).
  Hypothesis Hxv : store_vars ps sels = Ok xv.
  Hypothesis HT : table_laws O mask leaf law red xv t.
  Hypothesis HF : full_params (x_params x) shapes.
  Hypothesis HP : params_ok pids shapes.
  Hypothesis HC : forall k, ctx_ok pids shapes us (ctxs k).
  Notation n := (length (g_baked g pq)).
  Notation theta_at := (theta_at O g mask).
  Notation region_at := (region_at O g mask leaf).
  Notation limited_to := (limited_to O big cons g).
  Notation vars_show := (vars_show O red us sels ctxs).
  Notation nsol := (list_sum (map snd (xv_rsize xv))).
  Notation cl th := (clampth K g lo hi th).

  Lemma gp : g_params g = x_params x.
  Proof.
    pose proof Hg as E. unfold generate in E. destruct (block_for big x OSQP order); [|discriminate]. cbn [bind] in E.
    apply (f_equal (fun r => match r with Ok a => g_params a | Err _ => [] end)) in E. cbv beta iota in E. rewrite <- E. reflexivity.
  Qed.
  Lemma wg : wf_gen g th0 /\ g_solver g = OSQP.
  Proof. destruct (generate_wf F big x th0 W OSQP order Hord) as (g' & Eg & W' & Hs). rewrite Hg in Eg. injection Eg as <-. auto. Qed.

  Lemma bound_facts : length lo = length (g_vec0 g) /\ length hi = length (g_vec0 g)
    /\ forall nm s i, In (nm, s) (g_params g) -> i < s -> lo_of (K := K) g lo nm i = low O big cons nm i /\ hi_of (K := K) g hi nm i = high O big cons nm i.
  Proof.
    destruct wg as [Wg Hs].
    assert (HN : NoDup (map fst (x_params x))) by (rewrite <- gp; apply (w_names _ _ _ Wg)).
    destruct (C26_bounds_declared K (x_params x) HN big cons Hsb) as (lo' & hi' & Eb' & L1 & L2 & N1 & N2 & N3).
    rewrite Hbd in Eb'. injection Eb' as <- <-.
    assert (Lv : length (g_vec0 g) = S (list_sum (map snd (x_params x)))) by (rewrite (w_vec0 _ _ _ Wg), gp; apply (total_flat K)).
    split; [exact (eq_trans L1 (eq_sym Lv))|]. split; [exact (eq_trans L2 (eq_sym Lv))|]. intros nm s i Hin Hi.
    destruct (base_in F g nm s Hin) as (c & Hc). assert (Hc2 : base_col (N := K) g nm = Some c) by exact Hc. unfold lo_of, hi_of. rewrite Hc2. unfold base_col in Hc. rewrite gp in Hc, Hin. apply (N3 nm s i c Hin Hi Hc).
  Qed.
  Lemma clamp_lim : forall th, limited_to th (cl th).
  Proof.
    intros th nm s i Hin Hi. destruct bound_facts as (_ & _ & B). destruct (B nm s i Hin Hi) as (E1 & E2). unfold clampth. rewrite E1, E2.
    destruct (clamp_ok K (low O big cons nm i) (high O big cons nm i) (th nm i) (Hlh nm s i Hin Hi)) as (_ & _ & C1 & C2 & C3). split; auto.
  Qed.
  Lemma start_inv : XInv K g (cl th0) (x_init (K := K) g).
  Proof.
    eapply xinv_flat; [|apply xinv_init; apply wg]. apply flat_agree. intros nm z i Hin Hi.
    destruct (clamp_lim th0 nm z i Hin Hi) as (C1 & _). destruct (Hst nm z i Hin Hi) as (S1 & S2). symmetry. apply C1; auto.
  Qed.

  Lemma theta_len : forall p, length (theta_at p) = t_np t.
  Proof.
    intro p. destruct HT as (-> & _). rewrite mask_pos_sel. apply mask_sel_length. rewrite seq_length, Hmask, app_length. destruct wg as [Wg _].
    assert (G : forall q, length (canon_spec g p q) = length (g_baked g q)).
    { intro q. unfold canon_spec. destruct (chg_get (g_chg g) q) eqn:Ec; auto. rewrite app_length, map_length, skipn_length. pose proof (w_len _ _ _ Wg q). lia. }
    rewrite !G. reflexivity.
  Qed.
  Lemma reg_ok : forall p, region_at p < length (t_hp t).
  Proof. intro p. destruct HT as (_ & _ & _ & H & _). apply H. apply theta_len. Qed.

  (** The values Python stores if law [r] is applied at [p]. *)
  Lemma filter_all : filter (fun u => if in_dec string_dec (uv_name u) (sel_names us sels) then true else false) us = us.
  Proof.
    pose proof Hall as H. revert H. generalize (sel_names us sels) as l. intro l. clear. induction us as [|u us' IH]; intro H; cbn [filter]; auto.
    destruct (in_dec string_dec (uv_name u) l) as [_|N]; [|exfalso; apply N, H; left; auto]. f_equal. apply IH. intros w Hw. apply H. right. auto.
  Qed.
  Lemma blk_len : forall xs : list F, length xs = total red -> forall i z, In (i, z) red -> length (cut red i xs) = z.
  Proof. intros xs L. apply cut_length; auto. Qed.
  Lemma drop_none : forall k i, nth_error (dropped (sel_names us sels) 0 us) k = Some i -> i + k < length us.
  Proof. intros k i H. rewrite dropped_nil in H by auto. destruct k; discriminate. Qed.
  Lemma law_stored : forall r p cl0, r < length (t_hp t) -> exists o rs, t_eval t r (theta_at p) = Ok o /\ x_primal n0 n xv cl0 o = Ok rs
    /\ Forall2 (fun u r' => fst r' = uv_name u /\ partly n0 (sel_of us sels (uv_name u)) (cut red (uv_id u) (law r (theta_at p))) (snd r')) us rs.
  Proof.
    intros r p cl0 Hr. destruct HT as (_ & _ & _ & _ & H). destruct (H r (theta_at p) Hr (theta_len p)) as (L & o & E1 & E2).
    destruct (stored_ok (n0 : F) red us (fun i => cut red i (law r (theta_at p))) ps sels HV (blk_len _ L) HS HG Hps drop_none n cl0) as (xv' & o' & rs & Ex & To & Xp & HFa).
    rewrite Hxv in Ex. injection Ex as <-. rewrite cut_concat in To by auto. rewrite E1 in To. injection To as <-.
    rewrite filter_all in HFa. exists o, rs. auto.
  Qed.
  Lemma var_size : forall u xs, In u us -> length xs = total red -> length (cut red (uv_id u) xs : list F) = fsize (uv_shape u).
  Proof.
    intros u xs Hu L. pose proof (vo_size _ _ HV u Hu) as El. unfold packed_size in El. rewrite (HS u Hu) in El. apply (blk_len xs L). apply lookup_in; auto.
  Qed.
  Lemma law_len : forall r p, r < length (t_hp t) -> length (law r (theta_at p)) = total red.
  Proof. intros r p Hr. destruct HT as (_ & _ & _ & _ & H). apply (H r (theta_at p) Hr (theta_len p)). Qed.

  Lemma arrays_ok : forall p, exists vs, stored_arrays O n xv t leaf us cells (theta_at p) = Ok vs
    /\ Forall2 (fun u r => fst r = uv_name u /\ shown O red us sels (law (region_at p) (theta_at p)) u (snd r)) us vs.
  Proof.
    intro p. pose proof (reg_ok p) as Hr. destruct (law_stored (region_at p) p cells Hr) as (o & rs & E1 & E2 & HFa).
    unfold stored_arrays. unfold ExplicitLayerSpec.region_at in E1. rewrite E1. cbn [bind]. rewrite E2. cbn [bind]. clear E1 E2.
    assert (HN := vo_names _ _ HV). pose proof (law_len _ p Hr) as HL. revert HL. generalize (law (region_at p) (theta_at p)) HFa. intros xs HFx HL.
    assert (G : forall us' rs, incl us' us -> Forall2 (fun u r' => fst r' = uv_name u /\ partly n0 (sel_of us sels (uv_name u)) (cut red (uv_id u) xs) (snd r')) us' rs ->
      exists vs, mapM (fun r => sh <- key (assoc (fst r) (map (fun u => (uv_name u, uv_shape u)) us));; a <- reshapeF n0 sh (snd r);; Ok (fst r, a)) rs = Ok vs
        /\ Forall2 (fun u r => fst r = uv_name u /\ shown O red us sels xs u (snd r)) us' vs).
    { intros us' rs' Hi H. induction H as [|u [nm l] us' rs' (A1 & A2 & A3) H IH]; [exists []; auto|]. cbn [fst snd] in *. subst nm.
      destruct IH as (vs & Ev & Hv); [intros w Hw; apply Hi; right; auto|]. assert (Hu : In u us) by (apply Hi; left; auto).
      assert (Ea : assoc (uv_name u) (map (fun u => (uv_name u, uv_shape u)) us) = Some (uv_shape u)).
      { apply assoc_in; [rewrite map_map; auto|]. apply in_map_iff. exists u. auto. }
      pose proof (var_size u xs Hu HL) as Ls. cbn [mapM fst snd]. rewrite Ea. cbn [key bind]. unfold reshapeF at 1. rewrite A2, Ls, Nat.eqb_refl. cbn [bind]. rewrite Ev. cbn [bind].
      eexists. split; [reflexivity|]. constructor; [|exact Hv]. cbn [fst snd]. split; auto. intros idx Hidx. cbv zeta. apply A3. rewrite Ls. apply fpos_lt; auto. }
    apply (G us rs (fun u Hu => Hu) HFx).
  Qed.

  Lemma outs_ok : forall k xs (vs : list (string * (list nat -> F))), Forall2 (fun u r => fst r = uv_name u /\ shown O red us sels xs u (snd r)) us vs ->
    exists outs, mapM (fun i => u <- var_by_id us i;; key (assoc (uv_name u) vs)) (cx_vars (ctxs k)) = Ok outs /\ vars_show k xs outs.
  Proof.
    intros k xs vs H. apply mapM_ok. intros i Hi. destruct (var_known us HI i (co_known_vars _ _ _ _ (HC k) i Hi)) as (u & Hu & Ei & E). rewrite E. cbn [bind].
    assert (HN := vo_names _ _ HV).
    assert (G : exists a, assoc (uv_name u) vs = Some a /\ shown O red us sels xs u a).
    { assert (GG : forall us' vs', NoDup (map uv_name us') -> In u us' -> Forall2 (fun u r => fst r = uv_name u /\ shown O red us sels xs u (snd r)) us' vs' -> exists a, assoc (uv_name u) vs' = Some a /\ shown O red us sels xs u a).
      { clear. intros us' vs' HN Hu H. induction H as [|w [nm a] us' vs' [E1 E2] H IH]; [destruct Hu|]. cbn [fst snd] in *. subst nm. cbn [assoc map] in *. apply NoDup_cons_iff in HN. destruct HN as [N1 N2].
        destruct (String.eqb_spec (uv_name u) (uv_name w)) as [En|En].
        - destruct Hu as [->|Hu]; [eauto|]. exfalso. apply N1. rewrite <- En. apply in_map. auto.
        - destruct Hu as [->|Hu]; [congruence|]. auto. }
      apply (GG us vs HN Hu H). }
    destruct G as (a & Ea & Ha). rewrite Ea. cbn [key]. exists a. split; auto. exists u. auto.
  Qed.

  (** ** forward *)
  Lemma final_set : forall (ups : list (string * nat * F)) (th : pvals F), final_vals th (map (fun e => OUpd (fst (fst e)) (snd (fst e)) (snd e)) ups) = set_vals th ups.
  Proof.
    induction ups as [|[[nm i] v] ups IH]; intro th; cbn [map final_vals fst snd]; [reflexivity|]. rewrite IH. reflexivity.
  Qed.
  Lemma no_solves : forall (ups : list (string * nat * F)) (th : pvals F) f, (forall nm i v, exists nm' i' v', f (OUpd nm i v) = OUpd nm' i' v') ->
    solve_vals th (map f (map (fun e => OUpd (fst (fst e)) (snd (fst e)) (snd e)) ups)) = [].
  Proof.
    induction ups as [|[[nm i] v] ups IH]; intros th f H; cbn [map fst snd]; [reflexivity|]. destruct (H nm i v) as (a & b & c & ->). cbn [solve_vals]. apply IH. exact H.
  Qed.

  Lemma forward_ok : forall s c p th k vals, holds F shapes (q_val p) th -> XInv K g (cl th) s ->
    xlop_ok O pids shapes us ctxs (XLF k vals) ->
    let th' := after pids th (ctxs k) vals in
    exists s' v outs, xforward O g lo hi n mask xv t leaf pids shapes us ctxs cells s c p k vals
        = Ok (s', (Some (region_at (cl th')), snd c), mkXP v (q_grad p) (nset k (region_at (cl th')) (q_info p)), OVars outs)
      /\ holds F shapes v th' /\ XInv K g (cl th') s' /\ vars_show k (law (region_at (cl th')) (theta_at (cl th'))) outs.
  Proof.
    intros s c p th k vals Hh HX Ho th'. cbn [xlop_ok] in Ho. destruct wg as [Wg Hs]. destruct bound_facts as (L1 & L2 & _).
    destruct (holds_after F pids shapes us HP (q_val p) th (ctxs k) vals (HC k) Hh Ho) as (v & Ev & Hv). fold th' in Hv.
    unfold xforward. rewrite Ev. cbn [bind]. rewrite (updates_ok F pids shapes us HP (ctxs k) v th' (HC k) Hv). cbn [bind].
    set (ups := ups_of F shapes (ctxs k) th'). set (os := map (fun e => OUpd (fst (fst e)) (snd (fst e)) (snd e)) ups).
    assert (HVal : Forall (valid_op (g_params g)) os).
    { unfold os. apply Forall_map. apply Forall_forall. intros [[nm i] v1] Hin. apply in_ups in Hin. destruct Hin as (sh & Hsh & _ & Hi & _). cbn [fst snd valid_op]. exists (fsize sh). split; auto. rewrite gp.
      clear -HF Hsh. induction HF as [|[n1 s1] [n2 s2] l l' [E1 E2] HF' IH]; [destruct Hsh|]. cbn [fst snd] in *. destruct Hsh as [E|Hs]; [injection E as <- <-; left; congruence|right; auto]. }
    destruct (x_run_ok K g th0 Wg Hs lo hi L1 L2 mask os (cl th) s HX HVal Hmask) as (s1 & E1 & I1 & G1).
    assert (I2 : XInv K g (cl th') s1).
    { eapply xinv_flat; [|exact I1]. apply flat_agree. intros nm z i Hin Hi.
      rewrite (final_clamp K g lo hi os (cl th) th) by (intros; reflexivity). unfold clampth. f_equal. unfold os. 
      change (final_vals (N := K) th (map (fun e => OUpd (fst (fst e)) (snd (fst e)) (snd e)) ups) nm i = th' nm i).
      etransitivity; [exact (f_equal (fun f => f nm i) (final_set ups th))|]. apply (set_after F pids shapes us HP (ctxs k) th vals (HC k) Ho). }
    assert (Es : solve_vals (cl th) (map (clamp_op (K := K) g lo hi) os) = []).
    { unfold os. apply no_solves. intros nm i v1. cbn [clamp_op]. eauto. }
    rewrite Es in G1. cbn [map] in G1. rewrite app_nil_r in G1.
    destruct (xinv_solve K g th0 Wg Hs lo hi L1 L2 mask (cl th') s1 I2 Hmask) as (s2 & E2 & I3 & G2).
    match goal with |- context [x_steps ?a1 ?a2 ?a3 ?a4 ?a5 ?a6 ?a7] => replace (x_steps (K := K) a1 a2 a3 a4 a5 a6 a7) with (Ok s1) by (symmetry; exact E1) end. cbn [bind].
    match goal with |- context [x_solve ?a1 ?a2 ?a3 ?a4] => replace (x_solve (K := K) a1 a2 a3 a4) with (Ok s2) by (symmetry; exact E2) end. cbn [bind]. rewrite G2, rev_app_distr. cbn [rev app bind].
    change (mask_sel mask (canon_spec g (cl th') pq ++ canon_spec g (cl th') pu)) with (theta_at (cl th')).
    destruct (arrays_ok (cl th')) as (vs & Evs & Hvs). rewrite Evs. cbn [bind].
    destruct (outs_ok k _ vs Hvs) as (outs & Eo & Houts). rewrite Eo. cbn [bind].
    exists s2, v, outs. split; [reflexivity|]. auto.
  Qed.

  (** ** backward *)
  Lemma stored_all : Forall2 (fun u v => xi_name v = uv_name u /\ xi_size v = fsize (uv_shape u)) us (xv_vars xv).
  Proof.
    assert (HB : forall i z, In (i, z) red -> length ((fun i => match lookup i red with Some z => repeat tt z | None => [] end) i) = z).
    { intros i z Hin. cbv beta. rewrite (in_lookup _ red i z HR Hin). apply repeat_length. }
    pose proof (prim_plain unit red us _ ps HV HB HS Hps) as FP.
    destruct (store_conds red us _ ps sels HV HB HS HG Hps) as (C1 & C2 & C3).
    destruct (store_vars_ok ps sels C1 C2 C3) as [HOK _].
    destruct HOK as (xv' & E & _ & _ & HFa).
    { intros k i. rewrite (sel_fst _ _ _ _ _ sels FP), (pdrops_dropped _ _ _ _ _ _ 0 FP), dropped_nil by auto. destruct k; discriminate. }
    rewrite Hxv in E. injection E as <-. rewrite (sel_fst _ _ _ _ _ sels FP) in HFa.
    assert (Ff : filter (fun p => mem_str (pi_name p) (sel_names us sels)) ps = ps).
    { assert (Hmem : forall p, In p ps -> mem_str (pi_name p) (sel_names us sels) = true).
      { intros p Hin. rewrite mem_str_dec. destruct (in_dec string_dec (pi_name p) (sel_names us sels)) as [_|N]; auto.
        exfalso. apply N. destruct (plain_in red us _ ps HV HB HS Hps p Hin) as (u & Hu & -> & _). auto. }
      revert Hmem. clear. induction ps as [|a l IH]; cbn [filter]; intro H; auto. rewrite (H a) by (left; auto). f_equal. apply IH. intros; apply H; right; auto. }
    rewrite Ff in HFa. assert (HFb : Forall2 (fun p v => xi_name v = pi_name p /\ xi_size v = pi_size p) ps (xv_vars xv)).
    { clear - HFa. revert HFa. generalize (assoc (A := option (list Z))) as q. intro q. generalize (sel_list ps sels) as z. intros z H. induction H as [|? ? ? ? (? & ? & _)]; constructor; auto. }
    clear - FP HFb. rename HFb into HFa. revert HFa. generalize (xv_vars xv) as l. induction FP as [|u p us' ps' P FP IH]; intros l HFa; inversion HFa as [|? v ? l' A HFa']; subst; constructor; auto.
    destruct A as (A1 & A2). destruct P as (P1 & P2 & _). split; congruence.
  Qed.
  Lemma xstored_all : xstored xv us = us.
  Proof.
    unfold xstored. assert (E : map xi_name (xv_vars xv) = map uv_name us).
    { pose proof stored_all as H. clear -H. induction H as [|u v l l' [E _] H IH]; cbn [map]; auto. f_equal; auto. }
    rewrite E. assert (G : forall l, incl l us -> filter (fun u => mem_str (uv_name u) (map uv_name us)) l = l); [|apply G; intros u Hu; auto].
    induction l as [|u l IH]; intro Hi; cbn [filter]; auto. assert (Em : mem_str (uv_name u) (map uv_name us) = true) by (apply mem_str_In; apply in_map; apply Hi; left; auto).
    rewrite Em. f_equal. apply IH. intros w Hw. apply Hi. right. auto.
  Qed.

  Lemma grad_ok : forall (c : xgst O) r vd, snd c = repeat n0 nsol -> r < length (t_hp t) -> (forall u, In u us -> length (vd (uv_name u)) = fsize (uv_shape u)) ->
    exists dp, grad_call (xg_of F g mask nsol) t (xv_vars xv) c (Some r, vd) = Ok ((Some r, repeat n0 nsol), dp) /\ adjoint_of g mask n xv t r vd dp.
  Proof.
    intros [cur dx] r vd Hc Hr Hvd. cbn [snd] in Hc. subst dx. destruct HT as (T1 & T2 & T3 & _).
    destruct (C31_explicit_gradient F big x th0 order g mask red us ps sels xv t W Hord Hg Hmask HV HR HI HS HG Hps Hall Hxv T1 T2 T3 [GGrad (Some r) vd]) as (dps & E & HD).
    { intros c' vd' Hin. cbn [call_regions In] in Hin. destruct Hin as [Hin|[]]. injection Hin as <- <-. split; [eauto|exact Hvd]. }
    specialize (HD n). cbn [call_regions] in HD. inversion HD as [|? dp ? dps' (r1 & E1 & Ad) HD' Ea Eb]; subst. inversion HD'; subst. cbn [fst snd] in *. injection E1 as <-.
    exists dp. split; [|exact Ad]. cbn [grad_run] in E. unfold grad_call in E |- *. cbn [fst snd] in *.
    destruct (put_deltas _ _ _) as [dx|]; [|discriminate]. cbn [bind] in E |- *. unfold x_gradient in E |- *. destruct (t_base t r) as [b|]; [|discriminate]. cbn [bind] in E |- *.
    destruct (mapM _ _) as [dth|]; [|discriminate]. cbn [bind] in E |- *. destruct (back_loop _ _ _ _ _) as [dp'|]; [|discriminate]. cbn [bind] in E |- *. injection E as ->. reflexivity.
  Qed.

  (** From the flat identity to the arrays. *)
  Lemma requested_dec : forall s i, requested s i \/ ~ requested s i.
  Proof. intros [[|z l]|] i; cbn; auto. destruct (in_dec Z.eq_dec (Z.of_nat i) (z :: l)); auto. Qed.
  Lemma shown_part : forall xs u a l, In u us -> length xs = total red -> shown O red us sels xs u a -> partly n0 (sel_of us sels (uv_name u)) (cut red (uv_id u) xs) l ->
    forall idx, in_shape (uv_shape u) idx -> a idx = nth (fpos (uv_shape u) idx) l n0.
  Proof.
    intros xs u a l Hu HL Ha [A1 A2] idx Hidx. specialize (Ha idx Hidx). cbv zeta in Ha. destruct Ha as [B1 B2]. destruct (A2 (fpos (uv_shape u) idx)) as [C1 C2].
    { rewrite (var_size u xs Hu HL). apply fpos_lt. auto. }
    destruct (requested_dec (sel_of us sels (uv_name u)) (fpos (uv_shape u) idx)) as [R|R].
    - rewrite B1, C1; auto.
    - rewrite B2, C2; auto.
  Qed.

  Definition rqb (inds : option (list Z)) (i : nat) : bool :=
    match inds with Some (z :: l) => if in_dec Z.eq_dec (Z.of_nat i) (z :: l) then true else false | _ => true end.
  Lemma rqb_ok : forall inds i, if rqb inds i then requested inds i else ~ requested inds i.
  Proof. intros [[|z l]|] i; cbn -[in_dec]; auto. destruct (in_dec Z.eq_dec (Z.of_nat i) (z :: l)); auto. Qed.
  (** What is shown of entry [pos]. *)
  Definition sv (xs : list F) (u : uvar) (pos : nat) : F := if rqb (sel_of us sels (uv_name u)) pos then nth pos (cut red (uv_id u) xs) n0 else n0.
  Lemma shown_sv : forall xs u a, shown O red us sels xs u a -> forall idx, in_shape (uv_shape u) idx -> a idx = sv xs u (fpos (uv_shape u) idx).
  Proof. intros xs u a H idx Hi. destruct (H idx Hi) as [H1 H2]. unfold sv. pose proof (rqb_ok (sel_of us sels (uv_name u)) (fpos (uv_shape u) idx)) as R. destruct (rqb _ _); auto. Qed.
  Lemma partly_sv : forall xs u l, In u us -> length xs = total red -> partly n0 (sel_of us sels (uv_name u)) (cut red (uv_id u) xs) l ->
    length l = fsize (uv_shape u) /\ forall i, i < fsize (uv_shape u) -> nth i l n0 = sv xs u i.
  Proof.
    intros xs u l Hu HL [A1 A2]. rewrite (var_size u xs Hu HL) in A1, A2. split; auto. intros i Hi. destruct (A2 i Hi) as [H1 H2]. unfold sv.
    pose proof (rqb_ok (sel_of us sels (uv_name u)) i) as R. destruct (rqb _ _); auto.
  Qed.

  Add Field Fxm : (fth F).
  Section Change.
    Variables (k : nat) (dv : list (varr F)) (r : nat) (vd : string -> list F) (dp : list F).
    Hypothesis Hdv : Forall2 (fun i a => forall u, In u us -> uv_id u = i -> fst a = uv_shape u) (cx_vars (ctxs k)) dv.
    Hypothesis Hvd : forall u, In u us -> vd (uv_name u) = vd_flat (vg_of us (ctxs k) dv) (uv_name u).
    Hypothesis Hr : r < length (t_hp t).
    Hypothesis Had : adjoint_of g mask n xv t r vd dp.
    Variable pg : list (string * (list nat -> F)).
    Hypothesis Hpg : grad_out (x_params x) shapes dp = Ok pg.
    Variable l : list (list nat -> F).
    Hypothesis Hl : grads_right pids shapes ctxs k pg l.
    Variables p p' : pvals F.
    Hypothesis Hdi : differ_in O g pids ctxs k p p'.
    Notation xs := (law r (theta_at p)).
    Notation xs' := (law r (theta_at p')).
    Notation vg := (vg_of us (ctxs k) dv).

    (** Part of one variable. *)
    Definition part (u : uvar) : F :=
      rsum (map (fun idx => nmul (snd (vg (uv_name u)) idx) (rsub (sv xs' u (fpos (uv_shape u) idx)) (sv xs u (fpos (uv_shape u) idx)))) (fidx (uv_shape u))).

    Lemma one_part : forall u l1 l2, In u us -> partly n0 (sel_of us sels (uv_name u)) (cut red (uv_id u) xs) l1 ->
      partly n0 (sel_of us sels (uv_name u)) (cut red (uv_id u) xs') l2 -> ldot (vd (uv_name u)) (vsub F l2 l1) = part u.
    Proof.
      intros u l1 l2 Hu H1 H2. destruct (partly_sv xs u l1 Hu (law_len r p Hr) H1) as [L1 V1]. destruct (partly_sv xs' u l2 Hu (law_len r p' Hr) H2) as [L2 V2].
      pose proof (vg_shape F pids shapes us ctxs (vo_names _ _ HV) HC k dv u Hdv Hu) as Esh.
      rewrite (ldot_seq F _ _ (fsize (uv_shape u))).
      - unfold part. rewrite <- map_fpos, map_map. apply rsum_ext. intros idx Hidx. apply fidx_in in Hidx. pose proof (fpos_lt _ _ Hidx) as Hlt. f_equal.
        + rewrite (Hvd u Hu). unfold vd_flat. rewrite Esh. unfold flattenF. pose proof (nth_fidx _ _ Hidx) as Hn. apply nth_error_nth. rewrite nth_error_map, Hn. reflexivity.
        + rewrite <- V1, <- V2 by auto. unfold vsub. clear -L1 L2 Hlt. rewrite <- L1 in *. clear L1. revert Hlt L2. generalize (fpos (uv_shape u) idx) as i. revert l2. induction l1 as [|a l1 IH]; intros [|b l2] i Hlt L2; cbn [length] in *; try lia.
          destruct i as [|i]; cbn [map2 nth]; auto. apply IH; lia.
      - rewrite (Hvd u Hu). unfold vd_flat. rewrite Esh. unfold flattenF. rewrite map_length. apply fidx_length.
      - rewrite (vsub_length F); lia.
    Qed.

    Lemma left_side : exists o o' rs rs', t_eval t r (theta_at p) = Ok o /\ t_eval t r (theta_at p') = Ok o'
       /\ x_primal n0 n xv cells o = Ok rs /\ x_primal n0 n xv cells o' = Ok rs'
       /\ rsum (map (fun e => ldot (vd (fst (fst e))) (vsub F (snd (snd e)) (snd (fst e)))) (combine rs rs')) = rsum (map part us).
    Proof.
      destruct (law_stored r p cells Hr) as (o & rs & E1 & E2 & H1). destruct (law_stored r p' cells Hr) as (o' & rs' & E3 & E4 & H2).
      exists o, o', rs, rs'. split; auto. split; auto. split; auto. split; auto. clear E1 E2 E3 E4.
      assert (G : forall us1 rs rs', incl us1 us -> Forall2 (fun u r' => fst r' = uv_name u /\ partly n0 (sel_of us sels (uv_name u)) (cut red (uv_id u) xs) (snd r')) us1 rs ->
        Forall2 (fun u r' => fst r' = uv_name u /\ partly n0 (sel_of us sels (uv_name u)) (cut red (uv_id u) xs') (snd r')) us1 rs' ->
        rsum (map (fun e => ldot (vd (fst (fst e))) (vsub F (snd (snd e)) (snd (fst e)))) (combine rs rs')) = rsum (map part us1)).
      { clear H1 H2 rs rs'. intros us1 rs rs' Hi A. revert rs'. induction A as [|u [nm l1] us1 rs [N1 P1] A IH]; intros rs' B; inversion B as [|? [nm2 l2] ? rs2 [N2 P2] B']; subst; [reflexivity|]. cbn [fst snd] in *. subst nm.
        cbn [combine map fst snd]. change (rsum (?a :: ?l)) with (nadd a (rsum l)). f_equal; [apply one_part; auto; apply Hi; left; auto|]. apply IH; auto. intros w Hw. apply Hi. right. auto. }
      apply (G us rs rs' (fun u Hu => Hu) H1 H2).
    Qed.

    Lemma vars_side : forall vs vs', vars_show k xs vs -> vars_show k xs' vs' -> vars_change O dv vs vs' = rsum (map part us).
    Proof.
      intros vs vs' A B. set (E := fun i => match var_by_id us i with Ok u => part u | Err _ => n0 end).
      assert (EU : forall u, In u us -> E (uv_id u) = part u).
      { intros u Hu. unfold E. destruct (var_known us HI (uv_id u) (in_map uv_id us u Hu)) as (w & Hw & Ei & ->). f_equal. apply (nodup_inj _ _ uv_id us); auto. }
      assert (ER : rsum (map part us) = rsum (map E (cx_vars (ctxs k)))).
      { rewrite <- (map_ext_in _ _ us EU), <- (map_map uv_id E). apply rsum_perm. apply Permutation_map. destruct (HC k). apply NoDup_Permutation; auto. intro i. split; auto. }
      rewrite ER. clear ER. unfold vars_change.
      assert (HL : forall i a, In (i, a) (combine (cx_vars (ctxs k)) dv) -> lookup i (combine (cx_vars (ctxs k)) dv) = Some a).
      { intros i a. apply in_lookup. rewrite combine_fst by (apply (Forall2_len _ _ _ _ _ Hdv)). destruct (HC k). auto. }
      assert (G : forall cx dv1, Forall2 (fun i a => forall u, In u us -> uv_id u = i -> fst a = uv_shape u) cx dv1 -> forall vs vs',
        Forall2 (fun i a => exists u, In u us /\ uv_id u = i /\ shown O red us sels xs u a) cx vs ->
        Forall2 (fun i a => exists u, In u us /\ uv_id u = i /\ shown O red us sels xs' u a) cx vs' ->
        incl (combine cx dv1) (combine (cx_vars (ctxs k)) dv) ->
        rsum (map (fun e : varr F * ((list nat -> F) * (list nat -> F)) =>
                 rsum (map (fun idx => nmul (snd (fst e) idx) (rsub (snd (snd e) idx) (fst (snd e) idx))) (fidx (fst (fst e)))))
              (combine dv1 (combine vs vs'))) = rsum (map E cx)); [|apply (G _ _ Hdv vs vs' A B); intros ? ?; auto].
      clear vs vs' A B. intros cx dv1 D.
      induction D as [|i a cx dv1 Ha D IH]; intros vs vs' A B Hs; inversion A as [|? f ? vs1 (u & Hu & Ei & Sf) A']; inversion B as [|? f' ? vs1' (u' & Hu' & Ei' & Sf') B']; subst; [reflexivity|].
      assert (u' = u) by (apply (nodup_inj _ _ uv_id us); auto). subst u'.
      cbn [combine map fst snd]. change (rsum (?a :: ?l)) with (nadd a (rsum l)). f_equal.
      - rewrite (EU u Hu). unfold part. rewrite (Ha u Hu eq_refl). apply rsum_ext. intros idx Hidx. apply fidx_in in Hidx.
        rewrite (shown_sv _ _ _ Sf idx Hidx), (shown_sv _ _ _ Sf' idx Hidx). f_equal.
        unfold vg_of.
        assert (Ef : List.find (fun w => String.eqb (uv_name w) (uv_name u)) us = Some u).
        { destruct (List.find (fun w => String.eqb (uv_name w) (uv_name u)) us) as [w|] eqn:Ew.
          - apply find_some in Ew. destruct Ew as [Hw E1]. apply String.eqb_eq in E1. f_equal. apply (nodup_inj _ _ uv_name us); auto. apply (vo_names _ _ HV).
          - exfalso. pose proof (find_none _ _ Ew u Hu) as E1. cbv beta in E1. rewrite String.eqb_refl in E1. discriminate. }
        rewrite Ef. rewrite (HL (uv_id u) a) by (apply Hs; left; auto). reflexivity.
      - apply IH; auto; intros z Hz; apply Hs; right; auto.
    Qed.

    Lemma right_side : ldot dp (vsub F (flat (g_params g) p') (flat (g_params g) p)) = pars_change O pids shapes ctxs k l p p'.
    Proof.
      set (dth := fun nm i => rsub (p' nm i) (p nm i)).
      assert (Ed : vsub F (flat (g_params g) p') (flat (g_params g) p) = dir F (g_params g) dth).
      { unfold flat, dir, vsub, dth. clear. induction (g_params g) as [|[nm s] ps' IH]; cbn [flat_map app fst snd].
        - cbn [map2]. f_equal. ring.
        - rewrite <- !app_assoc, <- IH. generalize (flat_map (fun ns => map (p' (fst ns)) (seq 0 (snd ns))) ps' ++ [n1]) as A. generalize (flat_map (fun ns => map (p (fst ns)) (seq 0 (snd ns))) ps' ++ [n1]) as B. clear. intros B A.
          generalize (seq 0 s) as q. induction q as [|a q IH]; cbn [map app map2]; auto. f_equal; auto. }
      rewrite Ed. destruct Had as [HL _]. rewrite gp. destruct wg as [Wg _].
      assert (Ld : length dp = length (dir F (x_params x) dth)) by (rewrite HL, (w_vec0 _ _ _ Wg), gp; symmetry; apply dir_length).
      rewrite (ldot_ip F) by auto. assert (HN : NoDup (map fst (x_params x))) by (rewrite <- gp; apply (w_names _ _ _ Wg)).
      rewrite (pairing_ok F (x_params x) shapes dp pg dth HN HF Ld Hpg). unfold param_pairing.
      destruct HP as (HP1 & HP2 & HP3 & HP4 & HP5).
      set (h := fun nm => rsum (map (fun idx => nmul (PropUser.stored pg nm idx) (dth nm (fpos (shape_of shapes nm) idx))) (fidx (shape_of shapes nm)))).
      transitivity (rsum (map h (map fst shapes))).
      { rewrite map_map. apply rsum_ext. intros [nm sh] Hin. cbn [fst snd]. unfold h, shape_of. rewrite (assoc_in _ nm sh shapes HP4 Hin). reflexivity. }
      rewrite (rsum_sub F _ h (map (pname pids) (cx_pids (ctxs k))) (map fst shapes)); auto.
      - unfold pars_change. pose proof (co_known _ _ _ _ (HC k)) as Hk. pose proof Hl as HL2. unfold grads_right in HL2. revert Hk. clear -HL2 HP1 HP2 HP4. induction HL2 as [|i a ids l0 (nm & sh & H1 & H2 & H3) H IH]; intro Hk; [reflexivity|].
        cbn [map combine fst snd]. change (rsum (?a :: ?l)) with (nadd a (rsum l)). f_equal; [|apply IH; intros z Hz; apply Hk; right; auto].
        assert (En : pname pids i = nm) by (unfold pname; rewrite (in_lookup _ pids i nm HP1 H1); reflexivity). rewrite En. unfold h, shape_of. rewrite (assoc_in _ nm sh shapes HP4 H2).
        apply rsum_ext. intros idx Hidx. apply fidx_in in Hidx. rewrite (H3 idx Hidx). reflexivity.
      - destruct (HC k) as [C1 C2 _ _ _ _]. clear -C1 C2 HP1 HP2 HP. induction (cx_pids (ctxs k)) as [|i ids IH]; cbn [map]; constructor.
        + intro Hin. apply in_map_iff in Hin. destruct Hin as (j & Ej & Hj). apply NoDup_cons_iff in C1. destruct C1 as [C1 _]. apply C1. replace i with j; auto. apply (pname_inj pids shapes HP); auto; apply C2; [right|left]; auto.
        + apply NoDup_cons_iff in C1. apply IH; [apply C1|]. intros z Hz. apply C2. right. auto.
      - intros nm Hin. apply in_map_iff in Hin. destruct Hin as (i & <- & Hi). destruct (pname_shape pids shapes HP i (co_known _ _ _ _ (HC k) i Hi)) as (sh & _ & H). apply (in_map fst) in H. auto.
      - intros nm Hin Hn. unfold h. apply (rsum_zero F). intros idx Hidx. apply fidx_in in Hidx. apply in_map_iff in Hin. destruct Hin as ([nm' sh] & En & Hin). cbn [fst] in En. subst nm'.
        unfold dth. unfold shape_of in *. rewrite (assoc_in _ nm sh shapes HP4 Hin) in *. rewrite (Hdi nm (fsize sh) (fpos sh idx)); [ring| |apply fpos_lt; auto|auto].
        rewrite gp. clear -HF Hin. induction HF as [|[n1 s1] [n2 s2] l l' [E1 E2] HF' IH]; [destruct Hin|]. cbn [fst snd] in *. destruct Hin as [E|Hs]; [injection E as <- <-; left; congruence|right; auto].
    Qed.

    Lemma change_ok : forall vs vs', vars_show k xs vs -> vars_show k xs' vs' -> vars_change O dv vs vs' = pars_change O pids shapes ctxs k l p p'.
    Proof.
      intros vs vs' A B. rewrite (vars_side vs vs' A B), <- right_side. destruct left_side as (o & o' & rs & rs' & E1 & E2 & E3 & E4 & <-).
      destruct Had as [_ H]. destruct (H p p' cells) as (o1 & o1' & rs1 & rs1' & F1 & F2 & F3 & F4 & _ & <-).
      unfold ExplicitLayerSpec.theta_at in E1, E2. rewrite F1 in E1. injection E1 as <-. rewrite F2 in E2. injection E2 as <-. rewrite F3 in E3. injection E3 as <-. rewrite F4 in E4. injection E4 as <-. reflexivity.
    Qed.
  End Change.

  Lemma backward_ok : forall s c p k dv own, snd c = repeat n0 nsol -> q_info p k = Some (region_at (cl own)) -> xlop_ok O pids shapes us ctxs (XLB k dv) ->
    exists v l, xbackward O g mask xv t pids shapes us ctxs s c p k dv = Ok (s, (Some (region_at (cl own)), repeat n0 nsol), mkXP (q_val p) v (q_info p), OGrads l)
      /\ xl_right O big cons g mask leaf law pids shapes red us sels ctxs (XEB k own dv) (OGrads l).
  Proof.
    intros s c p k dv own Hc Hi Ho. cbn [xlop_ok] in Ho. unfold xbackward. rewrite Hi.
    destruct (grads_in F pids shapes red us ctxs HV HI HC k dv (q_grad p) (Forall2_len _ _ _ _ _ Ho)) as (v & l & E1 & E2 & E3).
    rewrite E1. cbn [bind]. rewrite xstored_all, E2. cbn [bind].
    cbv zeta. set (vg := fun nm : string => match assoc nm l with Some a => a | None => ([], fun _ : list nat => n0) end : varr F).
    assert (Esh : forall u, In u us -> fst (vg (uv_name u)) = uv_shape u).
    { intros u Hu. unfold vg. rewrite (E3 u Hu). apply (vg_shape F pids shapes us ctxs (vo_names _ _ HV) HC k dv u Ho Hu). }
    assert (Em : exists l, mapM (fun w => if Nat.eqb (fsize (fst (vg (xi_name w)))) (xi_size w) then Ok tt else Err TypeError) (xv_vars xv) = Ok l).
    { pose proof stored_all as HSt. assert (G : forall us1 vs1, incl us1 us -> Forall2 (fun u v => xi_name v = uv_name u /\ xi_size v = fsize (uv_shape u)) us1 vs1 ->
        exists l, mapM (fun w => if Nat.eqb (fsize (fst (vg (xi_name w)))) (xi_size w) then Ok tt else Err TypeError) vs1 = Ok l); [|apply (G us (xv_vars xv)); auto; intros ? ?; auto].
      intros us1 vs1 Hin A. induction A as [|u w us1 vs1 [A1 A2] A IH]; [exists []; reflexivity|]. destruct IH as (l' & El); [intros z Hz; apply Hin; right; auto|]. cbn [mapM]. rewrite A1, A2, Esh, Nat.eqb_refl by (apply Hin; left; auto). cbn [bind]. rewrite El. cbn [bind]. eauto. }
    destruct Em as (lm & Em). match goal with |- context [mapM ?f (xv_vars xv)] => replace (mapM f (xv_vars xv)) with (Ok lm) by (symmetry; exact Em) end. cbn [bind].
    destruct (grad_ok c (region_at (cl own)) (vd_flat vg) Hc (reg_ok _)) as (dp & Eg & Ad).
    { intros u Hu. unfold vd_flat. rewrite (Esh u Hu). unfold flattenF. rewrite map_length. apply fidx_length. }
    rewrite Eg. cbn [bind]. destruct wg as [Wg _]. rewrite gp.
    assert (HN : NoDup (map fst (x_params x))) by (rewrite <- gp; apply (w_names _ _ _ Wg)).
    assert (HL : list_sum (map snd (x_params x)) <= length dp).
    { destruct Ad as [-> _]. rewrite (w_vec0 _ _ _ Wg), gp, (total_flat K). lia. }
    destruct (grad_out_ok F (x_params x) shapes dp HN HL HF) as (pg & Ep & _). rewrite Ep. cbn [bind].
    destruct (grads_outs F x pids shapes us ctxs HP HC k dp pg Ep) as (outs & Eo & Hr). rewrite Eo. cbn [bind].
    exists v, outs. split; [reflexivity|]. cbn [xl_right]. split; [symmetry; apply (Forall2_len _ _ _ _ _ Hr)|]. exists (cl own). split; [apply clamp_lim|].
    intros q q' Hd vs vs' A B. apply (change_ok k dv (region_at (cl own)) (vd_flat vg) dp Ho) with (pg := pg); auto; [|apply reg_ok].
    intros u Hu. unfold vd_flat. unfold vg. rewrite (E3 u Hu). reflexivity.
  Qed.

  (** ** Sessions *)
  Definition infos (ow : nat -> option (pvals F)) (p : xpst O) : Prop := forall k own, ow k = Some own -> q_info p k = Some (region_at (cl own)).
  Lemma session_ok : forall os s c p th ow done, holds F shapes (q_val p) th -> XInv K g (cl th) s -> snd c = repeat n0 nsol -> infos ow p -> (forall k, In k done -> ow k <> None) ->
    Forall (xlop_ok O pids shapes us ctxs) os -> xordered O done os ->
    exists rs, xlsteps O g lo hi n mask xv t leaf pids shapes us ctxs cells s c p os = Ok rs
      /\ Forall2 (xl_right O big cons g mask leaf law pids shapes red us sels ctxs) (xlexpect O pids ctxs th ow os) rs.
  Proof.
    induction os as [|o os IH]; intros s c p th ow done Hh HX Hc Hi Hd HO Hr; [exists []; split; [reflexivity|constructor]|].
    inversion HO as [|? ? Ho HO']; subst. cbn [xlsteps xlexpect]. destruct o as [k vals|k dv]; cbn [xlstep].
    - destruct (forward_ok s c p th k vals Hh HX Ho) as (s' & v & outs & E & H1 & H2 & H3). rewrite E. cbn [bind].
      destruct (IH s' (Some (region_at (cl (after pids th (ctxs k) vals))), snd c) (mkXP v (q_grad p) (nset k (region_at (cl (after pids th (ctxs k) vals))) (q_info p)))
        (after pids th (ctxs k) vals) (nset k (after pids th (ctxs k) vals) ow) (k :: done)) as (rs & Er & HF2); auto.
      + intros j own. cbn [q_info]. unfold nset. destruct (Nat.eqb j k); [intro Ej; injection Ej as <-; reflexivity|]. apply Hi.
      + intros j Hj. unfold nset. destruct (Nat.eqb_spec j k); [discriminate|]. destruct Hj as [->|Hj]; [congruence|auto].
      + rewrite Er. cbn [bind]. eexists. split; [reflexivity|]. constructor; [|exact HF2]. cbn [xl_right]. exists (cl (after pids th (ctxs k) vals)). split; [apply clamp_lim|exact H3].
    - cbn [xordered] in Hr. destruct Hr as [Hk Hr]. destruct (ow k) as [own|] eqn:Eo; [|exfalso; apply (Hd k Hk Eo)].
      destruct (backward_ok s c p k dv own Hc (Hi k own Eo) Ho) as (v & l & E & HR2). rewrite E. cbn [bind].
      destruct (IH s (Some (region_at (cl own)), repeat n0 nsol) (mkXP (q_val p) v (q_info p)) th ow done) as (rs & Er & HF2); auto.
      rewrite Er. cbn [bind]. eexists. split; [reflexivity|]. constructor; auto.
  Qed.
  Lemma layer_ok : forall v0 os, holds F shapes v0 th0 -> Forall (xlop_ok O pids shapes us ctxs) os -> xordered O [] os ->
    exists rs, xlayer_session O g lo hi n mask xv t leaf pids shapes us ctxs cells v0 os = Ok rs
      /\ Forall2 (xl_right O big cons g mask leaf law pids shapes red us sels ctxs) (xlexpect O pids ctxs th0 (fun _ => None) os) rs.
  Proof.
    intros v0 os Hh HO Hr. unfold xlayer_session. apply (session_ok os _ _ _ th0 _ []); auto.
    - apply start_inv.
    - intros k own H. discriminate.
  Qed.
End Main.
