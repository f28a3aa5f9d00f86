(** Property C67: forward and backward as called by CVXPY layers. *)

From Coq Require Import String Arith Bool ZArith Lia List Sorted Permutation QArith Qcanon Field Reals Lra FunctionalExtensionality.
From Verif Require Import Base Pus Machine PusCheck Runtime RuntimeSpec RuntimeProofs RuntimeMore Canon CanonSpec CanonProofs CanonMain CanonGen CanonProblem CanonMore.
From Verif Require Import Retrieve RetrieveProofs Params ParamsProofs Explicit ExplicitVars Examples Sparse SparseProofs Ldl LdlRank1 LdlProofs GradSpec LdlMain FactorProofs Gradient GradKkt Qdldl GradSolve GradKktSolve GradMain GradCall GradSession GradSessionProofs GradGen GradVars GradTotal PropExplicit PropFactor PropGrad PropTotal GradSens GradDeriv PropSens GradUser PropUser.
From Verif Require Import EndSpec EndProofs Layer LayerSpec LayerProofs.
Import ListNotations.
Open Scope string_scope.
Open Scope list_scope.
Local Open Scope nat_scope.

(** ** The gradient depends on the parameters through P and A only *)

Definition same_matrices {F : Fld} (x : cvx F) (th1 th2 : pvals F) : Prop :=
  (forall i j, i < x_n x -> j < x_n x -> cP x (flat (x_params x) th1) i j = cP x (flat (x_params x) th2) i j)
  /\ (forall i j, i < x_neq x + x_nineq x -> j < x_n x -> cA x (flat (x_params x) th1) i j = cA x (flat (x_params x) th2) i j).

Lemma grad_of_transport : forall (F : Fld) (x : cvx F) eps half below above th1 th2 sx sy dx dp, same_matrices x th1 th2 ->
  grad_of F x half below above eps (th1, sx, sy, dx) dp -> grad_of F x half below above eps (th2, sx, sy, dx) dp.
Proof.
  intros F x eps half below above th1 th2 sx sy dx dp [EP EA] (L1 & r & U1 & S1).
  set (n := x_n x) in *. set (m := x_neq x + x_nineq x) in *.
  assert (LF : length (flat (x_params x) th1) = length (flat (x_params x) th2)) by apply flat_length.
  assert (G : forall a b, (a = th1 /\ b = th2) \/ (a = th2 /\ b = th1) -> 
    (forall p q, p <= q -> q < n + m -> kkt_upper F x eps (flat (x_params x) a) p q = kkt_upper F x eps (flat (x_params x) b) p q)
    /\ (forall p q, p < n + m -> q < n + m -> kkt_exact F x (flat (x_params x) a) p q = kkt_exact F x (flat (x_params x) b) p q)).
  { assert (G0 : (forall p q, p <= q -> q < n + m -> kkt_upper F x eps (flat (x_params x) th1) p q = kkt_upper F x eps (flat (x_params x) th2) p q)
      /\ (forall p q, p < n + m -> q < n + m -> kkt_exact F x (flat (x_params x) th1) p q = kkt_exact F x (flat (x_params x) th2) p q)).
    { assert (QA : forall i j, i < m -> j < n -> qA F x (flat (x_params x) th1) i j = qA F x (flat (x_params x) th2) i j) by (intros; unfold qA; rewrite EA by auto; auto).
      split; intros p q Hp Hq; [unfold kkt_upper|unfold kkt_exact]; fold n.
      - destruct (Nat.ltb_spec q n); [rewrite EP by lia; auto|]. destruct (Nat.ltb_spec p n); auto. apply QA; lia.
      - destruct (Nat.ltb_spec p n), (Nat.ltb_spec q n); auto; apply QA; lia. }
    destruct G0 as [G1 G2]. intros a b [[-> ->]|[-> ->]]; split; intros; [apply G1|apply G2|symmetry; apply G1|symmetry; apply G2]; auto. }
  assert (GR : forall a b r', (a = th1 /\ b = th2) \/ (a = th2 /\ b = th1) ->
    refined (n + m) (fun k => Nat.ltb k n || active_at F below above sy (k - n)) (masked (fun k => Nat.ltb k n || active_at F below above sy (k - n)) (kkt_symm F x eps (flat (x_params x) a))) (kkt_exact F x (flat (x_params x) a)) (dx ++ repeat n0 m) 3 r' ->
    refined (n + m) (fun k => Nat.ltb k n || active_at F below above sy (k - n)) (masked (fun k => Nat.ltb k n || active_at F below above sy (k - n)) (kkt_symm F x eps (flat (x_params x) b))) (kkt_exact F x (flat (x_params x) b)) (dx ++ repeat n0 m) 3 r').
  { intros a b r' Hab. destruct (G a b Hab) as [G1 G2]. apply (refined_ext F n (n + m) (Nat.le_add_r n m)); auto.
    - intros p q Hp Hq. unfold masked, kkt_symm. destruct (_ && _); auto. destruct (Nat.leb_spec p q); apply G1; lia. }
  split; [congruence|]. exists r. split.
  - intro r'. rewrite <- (U1 r'). split; intro H; [apply (GR th2 th1)|apply (GR th1 th2)]; auto.
  - intros delta Hd. rewrite <- LF in *. apply S1. auto.
Qed.

(** One gradient, from its characterisation to the derivative (the steps of C58 and C60). *)
Lemma grad_derivative : forall (x : cvx RFld) eps below above th sx sy dx dp, eps <> 0%R -> length dx = x_n x ->
  grad_of RFld x (/ 2)%R below above eps (th, sx, sy, dx) dp -> derivative_of x eps below above (th, sx, sy, dx) dp.
Proof.
  intros x eps below above th sx sy dx dp He Hdx H. split; [exact (proj1 H)|].
  intros dth zs ys xd yd delta DP DD HF HS Hsx Hsy Hact.
  assert (HM : moves RFld x (active_at RFld below above sy) (flat (x_params x) th) delta sx sy xd yd).
  { apply (family_moves x th dth zs ys xd yd HF HS); auto. intros i Hi. rewrite <- Hsy by auto. rewrite <- Hact by auto. unfold active_at, binds.
    rewrite orb_true_iff. tauto. }
  destruct (grad_moves RFld x eps (/ 2)%R below above th sx sy dx dp delta xd yd H He) as (s0 & Hs & E).
  - cbn. lra.
  - exact Hdx.
  - exact DP.
  - exact DD.
  - rewrite <- (dir_length RFld (x_params x) dth th). apply dir_last.
  - exact HM.
  - exists s0. split; [exact Hs|].
    assert (HD : D (fun t => rsum (map (fun j => nmul (nth j dx n0) (zs t j)) (seq 0 (x_n x)))) (rsum (map (fun j => nmul (nth j dx n0) (xd j)) (seq 0 (x_n x))))).
    { apply D_sum. intros j Hj. eapply D_eq; [|apply (D_mul (fun _ => nth j dx n0) (fun t => zs t j)); [apply D_const|apply (proj1 (proj2 HF) j Hj)]].
      cbv beta. cbn. ring. }
    eapply D_eq; [|exact HD]. etransitivity; [exact E|]. cbn [fpow]. cbn. ring.
Qed.

Lemma derivative_user : forall (x : cvx RFld) th0 eps below above red us ps shapes th sx sy vg dp pg,
  wf_cvx x th0 -> vars_ok red us -> NoDup (map fst red) -> NoDup (map uv_id us) -> (forall u, In u us -> uv_sym u = false) -> x_n x = list_sum (map snd red) ->
  prim_info red us = Ok ps -> full_params (x_params x) shapes -> (forall u, In u us -> fst (vg (uv_name u)) = uv_shape u) ->
  derivative_of x eps below above (th, sx, sy, writes (x_n x) (vd_writes ps (vd_flat vg))) dp -> grad_out (x_params x) shapes dp = Ok pg ->
  user_derivative x eps below above red us shapes (th, sx, sy, vg) pg.
Proof.
  intros x th0 eps below above red us ps shapes th sx sy vg dp pg W HV HR HU HS Hn Eps HP Hsh [HL HDer] Eg. set (n := x_n x) in *.
  assert (HS' : list_sum (map snd (x_params x)) <= length dp).
  { rewrite HL. unfold flat. rewrite app_length. clear. induction (x_params x) as [|[nm sz] l IH]; cbn [flat_map map list_sum fold_right snd fst app]; [lia|]. rewrite app_length, map_length, seq_length. unfold list_sum in *. lia. }
  destruct (grad_out_ok RFld (x_params x) shapes dp (wx_names _ _ _ W) HS' HP) as (g1 & Eg1 & Hfst & _). rewrite Eg in Eg1. injection Eg1 as <-.
  split; [exact Hfst|].
  assert (HVP : forall blk, (forall i z, In (i, z) red -> length (blk i) = z) ->
    ip n (writes n (vd_writes ps (vd_flat vg))) (concat (map (fun e => blk (fst e)) red)) = var_pairing us vg blk).
  { intros blk HB. pose proof (blocks_length RFld x red Hn blk HB) as Hlen. fold n in Hlen. rewrite <- Hlen.
    apply (var_pairing_ok RFld red us ps blk vg _ HV HR HU HS HB eq_refl Eps Hsh). }
  exists (writes n (vd_writes ps (vd_flat vg))). split.
  { apply (expect_dx RFld n [PGrad (vd_writes ps (vd_flat vg)) None] th sx sy (th, sx, sy, _)). left. reflexivity. }
  split; [exact HVP|]. intros dth blk ys xd yd zs HB DP DD HF HSt Hsx Hsy Hact.
  destruct (HDer dth zs ys xd yd DP DD HF HSt Hsx Hsy Hact) as (s0 & Hs & HDe). exists s0. split; [exact Hs|].
  rewrite <- (pairing_ok RFld (x_params x) shapes dp pg dth (wx_names _ _ _ W) HP ltac:(rewrite HL; symmetry; apply dir_length) Eg). rewrite HL.
  eapply D_ext; [|exact HDe]. intro t. rewrite <- (HVP (blk t) (HB t)). reflexivity.
Qed.

(** ** The calls as a history of cpg_solve and cpg_gradient *)

Definition calls_of {F : Fld} (us : list uvar) (ctxs : nat -> ctx) (es : list (lexp F)) : list (pvals F * list F * list F * (string -> varr F)) :=
  flat_map (fun e => match e with XGrads k _ sx sy th dv => [(th, sx, sy, vg_of us (ctxs k) dv)] | XVars _ _ => [] end) es.

Section Hist.
  Variable F : Fld.
  Variables (x : cvx F) (g : genc F) (below : F -> bool).
  Variables (pids : list (nat * string)) (shapes : list (string * list nat)) (red : list (nat * nat)) (us : list uvar).
  Variable ctxs : nat -> ctx.
  Hypothesis HP : params_ok pids shapes.
  Hypothesis HPar : g_params g = x_params x.
  Hypothesis HF : full_params (x_params x) shapes.
  Hypothesis HN : NoDup (map uv_name us).
  Hypothesis HI : NoDup (map uv_id us).
  Hypothesis HC : forall k, ctx_ok pids shapes us (ctxs k).
  Notation uops := (uops F pids shapes us ctxs).
  Notation lop_ok := (lop_ok F pids shapes us ctxs x g below).

  Lemma calls_uops : forall os th own sx sy, Forall lop_ok os -> calls th sx sy (uops th own os) = calls_of us ctxs (lexpect pids ctxs th own os).
  Proof.
    induction os as [|[k vals sx1 sy1|k dv] os IH]; intros th own sx sy HO; cbn [LayerProofs.uops lexpect calls calls_of flat_map]; auto; apply Forall_cons_iff in HO; destruct HO as [Ho HO].
    - cbn [app]. assert (E : set_vals th (ups_of F shapes (ctxs k) (after pids th (ctxs k) vals)) = after pids th (ctxs k) vals).
      { apply functional_extensionality. intro nm. apply functional_extensionality. intro i. apply (set_after F pids shapes us HP (ctxs k) th vals (HC k) (proj1 Ho)). }
      rewrite E. apply IH. auto.
    - destruct (own k) as [[[tho sx1] sy1]|]; cbn [calls flat_map app]; [|apply IH; auto]. f_equal. apply IH. auto.
  Qed.

  Lemma vg_shape : forall k (dv : list (varr F)) u, Forall2 (fun i a => forall u, In u us -> uv_id u = i -> fst a = uv_shape u) (cx_vars (ctxs k)) dv -> In u us ->
    fst (vg_of (F := F) us (ctxs k) dv (uv_name u)) = uv_shape u.
  Proof.
    intros k dv u H Hu. unfold vg_of. rewrite (find_first _ _ us u Hu (String.eqb_refl _)); [|intros b Hb Eb; apply String.eqb_eq in Eb; apply (nodup_inj _ _ uv_name us); auto].
    destruct (lookup_some _ (uv_id u) (combine (cx_vars (ctxs k)) dv)) as (a & E & Hin).
    { rewrite combine_fst by (apply (Forall2_len _ _ _ _ _ H)). apply (co_all _ _ _ _ (HC k)). apply in_map. auto. }
    rewrite E. clear E. induction H as [|i b ids dv Hb H IH]; [destruct Hin|]. destruct Hin as [E|Hin]; [|auto]. injection E as -> ->. apply Hb; auto.
  Qed.

  Lemma uops_ok : forall os th own, Forall lop_ok os -> (forall k t sx sy, own k = Some (t, sx, sy) -> py_ok F x g below (PSolve [] sx sy)) ->
    Forall (user_ok F x g below us) (uops th own os).
  Proof.
    induction os as [|[k vals sx sy|k dv] os IH]; intros th own HO Hown; cbn [LayerProofs.uops]; [constructor| |]; apply Forall_cons_iff in HO; destruct HO as [Ho HO].
    - constructor.
      + cbn [user_ok]. destruct Ho as [_ [_ Ho]]. split; [|exact Ho]. apply Forall_forall. intros [[nm i] v] Hin. apply in_ups in Hin. destruct Hin as (sh & Hs & _ & Hi & _).
        cbn [valid_op]. exists (fsize sh). split; auto. rewrite HPar. clear -HF Hs. induction HF as [|[n1 s1] [n2 s2] l l' [E1 E2] HF' IH]; [destruct Hs|]. cbn [fst snd] in *. destruct Hs as [E|Hs]; [injection E as <- <-; left; congruence|right; auto].
      + apply IH; auto. intros k' t sx' sy' E. unfold nset in E. destruct (Nat.eqb k' k); [injection E as _ <- <-; exact (proj2 Ho)|apply (Hown _ _ _ _ E)].
    - destruct (own k) as [[[tho sx] sy]|] eqn:E; [|apply IH; auto]. constructor; [|apply IH; auto]. split; [intros u Hu; apply vg_shape; auto|].
      destruct (Hown _ _ _ _ E) as [_ H]. split; [constructor|exact H].
  Qed.

  (** Parameter values of gradient calls are those of a solve. *)
  Lemma calls_vals : forall (Q : pvals F -> Prop) os th own done, ordered done os -> (done = [] \/ Q th) -> Forall Q (lvals pids ctxs th os) ->
    Forall (fun '(th, _, _, _) => Q th) (calls_of us ctxs (lexpect pids ctxs th own os)).
  Proof.
    intros Q. induction os as [|[k vals sx sy|k dv] os IH]; intros th own done Hord Hd HQ; cbn [lexpect calls_of flat_map ordered lvals] in *; [constructor| |].
    - cbn [app]. apply Forall_cons_iff in HQ. destruct HQ as [Q1 Q2]. apply (IH _ _ (k :: done)); auto.
    - destruct Hord as [Hk Hord]. destruct (own k) as [[[tho sx] sy]|]; [|apply (IH _ _ done); auto]. cbn [flat_map app]. constructor; [|apply (IH _ _ done); auto].
      destruct Hd as [->|Hq]; [destruct Hk|exact Hq].
  Qed.
End Hist.

(** ** The theorem *)

(** What a call of the layer should return.  forward: the variables' entries of the solution.
    backward: gradients [pg] of the sum over all variables of (derivative * value) at the context's
    own solution, differentiating the problem with the parameter values of the latest solve; if P and A
    are the same at the context's own parameter values, also of the problem with those. *)
Definition layer_right (x : cvx RFld) (eps : RFld) (below above : RFld -> bool) (red : list (nat * nat)) (us : list uvar) (pids : list (nat * string))
    (shapes : list (string * list nat)) (ctxs : nat -> ctx) (e : lexp RFld) (o : lout RFld) : Prop :=
  match e, o with
  | XVars k sx, OVars vs => vars_right us ctxs red k sx vs
  | XGrads k own sx sy latest dv, OGrads l => exists pg, grads_right pids shapes ctxs k pg l
      /\ user_derivative x eps below above red us shapes (latest, sx, sy, vg_of us (ctxs k) dv) pg
      /\ (same_matrices x latest own -> user_derivative x eps below above red us shapes (own, sx, sy, vg_of us (ctxs k) dv) pg)
  | _, _ => False
  end.

Lemma gen_params : forall (K : Fld) (big : K) (x : cvx K) s order g, generate big x s order = Ok g -> g_params g = x_params x.
Proof.
  intros K big x s order g E. unfold generate in E. destruct (block_for big x s order); [|discriminate]. cbn [bind] in E.
  apply (f_equal (fun r => match r with Ok a => g_params a | Err _ => [] end)) in E. cbv beta iota in E. rewrite <- E. reflexivity.
Qed.

Theorem C67_layers :
  forall (big : RFld) (x : cvx RFld) (th0 : pvals RFld) (order : list string -> list string) (g : genc RFld)
         (sqr : RFld -> res RFld) (eps : RFld) (below above : RFld -> bool)
         (qfactor : csc RFld -> csc RFld -> res (list nat * list nat * list RFld * list RFld * list RFld))
         (qsolve : csc RFld -> list RFld -> list RFld -> res (list RFld)) (scr : nat -> pid -> list RFld -> list RFld)
         (red : list (nat * nat)) (us : list uvar) (pids : list (nat * string)) (shapes : list (string * list nat))
         (ctxs : nat -> ctx) (cells : string -> nat -> RFld) (v0 : string -> option (list nat -> RFld)),
  let n := x_n x in
  let m := (x_neq x + x_nineq x)%nat in
  let prP := proc big x OSQP pP in
  wf_cvx x th0 -> layout x -> (forall l, Permutation l (order l)) -> generate big x OSQP order = Ok g ->
  (forall z s, sqr z = Ok s -> nmul s s = z) -> (forall z e, sqr z = Err e -> e = Arith) -> (forall z, r_pos z -> exists s, sqr z = Ok s) ->
  factor_contract RFld n (n + m) qfactor -> solve_contract RFld (n + m) qsolve ->
  below n0 = false -> r_pos eps -> no_zero RFld n eps (matP RFld (pr_ip prP) (pr_idx prP) (g_baked g pP)) ->
  vars_ok red us -> NoDup (map fst red) -> NoDup (map uv_id us) -> (forall u, In u us -> uv_sym u = false) -> n = list_sum (map snd red) ->
  full_params (x_params x) shapes -> params_ok pids shapes -> (forall k, ctx_ok pids shapes us (ctxs k)) ->
  (forall nm sh, In (nm, sh) shapes -> exists a, v0 nm = Some a /\ forall idx, in_shape sh idx -> th0 nm (fpos sh idx) = a idx) ->
  forall os, Forall (lop_ok RFld pids shapes us ctxs x g below) os -> ordered [] os ->
  Forall (fun th => convex_at RFld r_pos x (flat (x_params x) th)) (lvals pids ctxs th0 os) ->
  exists ps s p outs, prim_info red us = Ok ps
    /\ layer_session RFld big x g sqr eps (/ 2)%R below above qfactor qsolve scr pids shapes us ps ctxs cells v0 os = Ok (s, p, outs)
    /\ Forall2 (layer_right x eps below above red us pids shapes ctxs) (lexpect pids ctxs th0 (fun _ => None) os) outs.
Proof.
  intros big x th0 order g sqr eps below above qfactor qsolve scr red us pids shapes ctxs cells v0 n m prP W Y Hord Hg S1 S2 S3 QF QS B0 Ep NZ HV HR HU HS Hn HF HP HC H0 os HO Hor HX.
  pose proof (gen_params _ _ _ _ _ _ Hg) as HPar. assert (HN := vo_names _ _ HV).
  set (own := fun _ : nat => @None (pvals RFld * list RFld * list RFld)). set (uo := uops RFld pids shapes us ctxs th0 own os).
  assert (HUO : Forall (user_ok RFld x g below us) uo) by (apply (uops_ok RFld x g below pids shapes us ctxs HPar HF HN HC); auto; discriminate).
  pose proof (calls_uops RFld x g below pids shapes us ctxs HP HC os th0 own (repeat n0 n) (repeat n0 m) HO) as EC. fold uo in EC.
  assert (HCv : Forall (fun '(th, _, _, _) => convex_at RFld r_pos x (flat (x_params x) th)) (calls th0 (repeat n0 n) (repeat n0 m) uo)).
  { rewrite EC. apply (calls_vals RFld pids us ctxs (fun th => convex_at RFld r_pos x (flat (x_params x) th)) os th0 own []); auto. }
  destruct (C60_user_gradients big x th0 order g sqr eps below above qfactor qsolve scr red us shapes W Y Hord Hg S1 S2 S3 QF QS B0 Ep NZ HV HR HU HS Hn HF uo HUO HCv) as (s & gs & ES & HD).
  fold n m in HD. unfold user_session in ES.
  destruct (prim_info red us) as [ps|] eqn:Eps; [|discriminate]. cbn [bind] in ES. destruct (mapM (to_py ps) uo) as [pos|] eqn:Epos; [|discriminate]. cbn [bind] in ES.
  destruct (py_session _ _ _ _ _ _ _ _ _ _ _ _ pos) as [[s1 dps]|] eqn:Erun; [|discriminate]. cbn [bind] in ES.
  destruct (mapM (grad_out (x_params x) shapes) dps) as [gs1|] eqn:Egs; [|discriminate]. cbn [bind] in ES. injection ES as -> ->.
  destruct (py_of_user RFld x g below red us ps HV HR HU HS Eps Hn uo HUO) as (pos' & E1 & HPos & HE). rewrite Epos in E1. injection E1 as <-.
  specialize (HE th0 (repeat n0 n) (repeat n0 m)). fold n in HE.
  pose proof (C35_gradients_of_latest_solve RFld big x th0 W Y order Hord g Hg sqr eps (/ 2)%R below above qfactor qsolve S1 S2 QF QS B0 NZ scr pos HPos) as HG.
  rewrite Erun in HG. unfold run in HG. fold n m in HG. rewrite HE in HG.
  destruct (sim RFld big x g sqr eps (/ 2)%R below above qfactor qsolve scr pids shapes red us ps ctxs cells HP HV HR HU HS Eps Hn HC os th0 own [] 
    (init_sst RFld (x_n x) (x_n x + (x_neq x + x_nineq x)) eps g (pr_ip (proc big x OSQP pP)) (pr_idx (proc big x OSQP pP)) (pr_ip (proc big x OSQP pA)) (pr_idx (proc big x OSQP pA)))
    (mkP v0 (fun _ => None) (fun _ => None)) s pos dps gs) as (p & outs & El & Hout); auto.
  { discriminate. }
  exists ps, s, p, outs. split; auto. split; [exact El|].
  assert (He : eps <> 0%R) by (unfold r_pos in Ep; cbn in Ep; lra).
  apply mapM_Forall2 in Egs.
  assert (HQ : Forall2 (fun '(th, sx, sy, vg) pg => exists dp, grad_of RFld x (/ 2)%R below above eps (th, sx, sy, writes n (vd_writes ps (vd_flat vg))) dp /\ grad_out (x_params x) shapes dp = Ok pg
      /\ user_derivative x eps below above red us shapes (th, sx, sy, vg) pg) (calls th0 (repeat n0 n) (repeat n0 m) uo) gs).
  { clear -HG Egs HD. revert dps gs HG Egs HD. generalize (calls th0 (repeat n0 n) (repeat n0 m) uo) as cs.
    induction cs as [|[[[th sx] sy] vg] cs IH]; intros dps gs HG Egs HD; cbn [map] in HG; inversion HG as [|? dp ? dps' G1 G2]; subst; inversion Egs as [|? pg ? gs' A1 A2]; subst; inversion HD; subst; constructor; [|eauto].
    exists dp. auto. }
  rewrite EC in HQ.
  assert (HSh : Forall (fun e : lexp RFld => match e with XGrads k _ _ _ _ dv => forall u, In u us -> fst (vg_of us (ctxs k) dv (uv_name u)) = uv_shape u | XVars _ _ => True end) (lexpect pids ctxs th0 own os)).
  { clear -HO HN HC. generalize th0 own. induction HO as [|[k vals sx sy|k dv] os Ho HO IH]; intros th ow; cbn [lexpect]; [constructor| |].
    - constructor; auto.
    - destruct (ow k) as [[[tho sx] sy]|]; [|apply IH]. constructor; [|apply IH]. intros u Hu. apply (vg_shape RFld pids shapes us ctxs HN HC k dv u Ho Hu). }
  clear -HQ HSh Hout W HV HR HU HS Hn HF Eps He. revert HQ HSh. fold own. induction Hout as [|k sx es gs vs outs Hv Hout IH|k tho sx sy th dv es pg gs l outs Hl Hout IH]; intros HQ HSh; [constructor| |]; apply Forall_cons_iff in HSh; destruct HSh as [Hs HSh].
  - constructor; [exact Hv|]. apply IH; auto.
  - cbn [calls_of flat_map app] in HQ. inversion HQ as [|? ? ? ? HQ1 HQ']; subst. cbv beta iota in HQ1. destruct HQ1 as (dp & Hg1 & Hg2 & Hd). constructor; [|apply IH; auto].
    cbn [layer_right]. exists pg. split; auto. split; auto. intro HM.
    apply (derivative_user x th0 eps below above red us ps shapes tho sx sy (vg_of us (ctxs k) dv) dp pg); auto.
    apply grad_derivative; auto.
    + apply (expect_dx RFld n [PGrad (vd_writes ps (vd_flat (vg_of us (ctxs k) dv))) None] th sx sy (th, sx, sy, _)). left. reflexivity.
    + apply (grad_of_transport RFld x eps (/ 2)%R below above th tho); auto.
Qed.
Print Assumptions C67_layers.

(** A variable of the problem that no context lists has no gradient: no session with a backward call
    completes, over any field. *)
Section Missing.
  Variable F : Fld.
  Variables (big : F) (x : cvx F) (g : genc F) (sqr : F -> res F) (eps half : F) (below above : F -> bool).
  Variable qfactor : csc F -> csc F -> res (list nat * list nat * list F * list F * list F).
  Variable qsolve : csc F -> list F -> list F -> res (list F).
  Variable scr : nat -> pid -> list F -> list F.
  Variables (pids : list (nat * string)) (shapes : list (string * list nat)) (us : list uvar) (ps : list pinfo).
  Variable ctxs : nat -> ctx.
  Variable cells : string -> nat -> F.
  Notation lsteps := (lsteps F big x g sqr eps half below above qfactor qsolve scr pids shapes us ps ctxs cells).

  Lemma set_grads_miss : forall u, In u us -> NoDup (map uv_name us) -> forall l (v v' : string -> option (varr F)), ~ In (uv_id u) (map fst l) -> v (uv_name u) = None ->
    set_grads us l v = Ok v' -> v' (uv_name u) = None.
  Proof.
    intros u Hu HN. induction l as [|[i a] l IH]; intros v v' Hl Hv E; cbn [set_grads] in E; [congruence|].
    destruct (var_by_id us i) as [w|] eqn:Ew; [|discriminate]. cbn [bind] in E. apply (IH _ _ (fun H => Hl (or_intror H))) in E; auto.
    unfold sset. destruct (String.eqb_spec (uv_name u) (uv_name w)) as [En|]; auto. exfalso. apply Hl. left. cbn [fst].
    unfold var_by_id in Ew. destruct (List.find _ us) as [w'|] eqn:Ef; [|discriminate]. cbn [key] in Ew. injection Ew as ->. apply find_some in Ef. destruct Ef as [Hw Ei]. apply Nat.eqb_eq in Ei.
    assert (u = w) by (apply (nodup_inj _ _ uv_name us); auto). subst w. auto.
  Qed.
  Lemma read_grads_miss : forall u l, In u l -> forall (v : string -> option (varr F)), v (uv_name u) = None -> exists e, read_grads l v = Err e.
  Proof.
    intros u l Hu v Hv. unfold read_grads. induction l as [|w l IH]; [destruct Hu|]. cbn [mapM]. destruct (v (uv_name w)) as [a|] eqn:Ew.
    - cbn [bind]. destruct Hu as [->|Hu]; [congruence|]. destruct (IH Hu) as (e & ->). cbn [bind]. eauto.
    - cbn [bind]. eauto.
  Qed.
  Theorem C67_missing_variable : forall u, In u us -> NoDup (map uv_name us) -> (forall k, ~ In (uv_id u) (cx_vars (ctxs k))) ->
    forall os k dv s p, In (LBackward k dv) os -> o_grad p (uv_name u) = None -> exists e, lsteps s p os = Err e.
  Proof.
    intros u Hu HN HM os k dv. assert (HM' : forall k (l : list (varr F)), ~ In (uv_id u) (map fst (combine (cx_vars (ctxs k)) l))).
    { intros k' l Hin. apply (HM k'). revert l Hin. generalize (cx_vars (ctxs k')) as ids. induction ids as [|i ids IH]; intros [|a l] Hin; cbn [combine map In fst] in *; try contradiction. destruct Hin as [E|Hin]; [left; exact E|right; apply (IH l Hin)]. }
    induction os as [|o os IH]; intros s p Hin Hp; [destruct Hin|]. cbn [Layer.lsteps].
    destruct o as [k1 vals sx sy|k1 dv1]; cbn [lstep].
    - destruct Hin as [E|Hin]; [discriminate|]. unfold forward. destruct (set_params _ _ _ _) as [v|]; [|cbn [bind]; eauto]. cbn [bind]. destruct (updates _ _ _) as [ups|]; [|cbn [bind]; eauto]. cbn [bind].
      destruct (py_run _ _ _ _ _ _ _ _ _ _ _ _ _ _) as [[s1 o1]|]; [|cbn [bind]; eauto]. cbn [bind]. destruct (primal_results _ _ _ _) as [rs|]; [|cbn [bind]; eauto]. cbn [bind].
      destruct (mapM _ _) as [vs|]; [|cbn [bind]; eauto]. cbn [bind]. destruct (IH s1 (mkP v (o_grad p) (nset k1 (sx, sy) (o_info p))) Hin Hp) as (e & ->). cbn [bind]. eauto.
    - unfold backward. destruct (o_info p k1) as [info|]; [|cbn [bind]; eauto]. destruct (set_grads _ _ _) as [v|] eqn:Ev; [|cbn [bind]; eauto]. cbn [bind].
      apply (set_grads_miss u Hu HN _ _ _ (HM' k1 dv1) Hp) in Ev. destruct (read_grads_miss u us Hu v Ev) as (e & ->). cbn [bind]. eauto.
  Qed.
End Missing.
Print Assumptions C67_missing_variable.

(** ** Examples over the rationals: minimise (7/8)(y^2 + z^2) + 2 a y + 2 b z subject to 4 y <= 1. *)
Definition l_x : cvx QcFld :=
  mkCvx QcFld [("a", 1); ("b", 1)] [qz 4; qz 1; qz 1] 2 0 1
        (Some ([[(2, qd 7 4)]; [(2, qd 7 4)]], [0; 1], [0; 1; 2]))
        [[(0, qz 2)]; [(1, qz 2)]; []]
        [[(2, qz (-4))]; [(2, qz 1)]] [0; 0] [0; 1; 1; 2] false.
Definition l_us : list uvar := [mkUV "y" 7 [] false; mkUV "z" 8 [1] false].
Definition l_red : list (nat * nat) := [(7, 1); (8, 1)].
Definition l_pids : list (nat * string) := [(1, "a"); (2, "b")].
Definition l_sh : list (string * list nat) := [("a", []); ("b", [1; 1])].
(** Context 0: both variables; context 1: only y; others like 0. *)
Definition l_ctx (k : nat) : ctx := mkCtx [2; 1] (if Nat.eqb k 1 then [7] else [8; 7]) None.
Definition l_ctx1 (k : nat) : ctx := mkCtx [2; 1] [7] None.
Definition num0 (q : QcFld) : varr QcFld := ([], fun _ => q).
Definition num1 (q : QcFld) : varr QcFld := ([1], fun _ => q).
Definition num2 (q : QcFld) : varr QcFld := ([1; 1], fun _ => q).
Definition l_v0 (nm : string) : option (list nat -> QcFld) := Some (fun _ => if String.eqb nm "a" then qz 4 else qz 1).
Definition l_run (c : nat -> ctx) (os : list (lop QcFld)) : res (list (list Q)) :=
  ps <- prim_info l_red l_us;;
  '(_, _, outs) <- layer_session QcFld q_big l_x (q_gen l_x) qsqrt q_eps q_half q_below q_above (qfactor_ref QcFld 3) (qsolve_ref QcFld 3) q_scr l_pids l_sh l_us ps c (fun _ _ => qz 0) l_v0 os;;
  Ok (map (fun o : lout QcFld => match o with OVars l => map (fun a => this (a [0; 0])) l | OGrads l => map (fun a => this (a [0; 0])) l end) outs).
Definition l_f (k : nat) (a b : QcFld) (sx sy : list QcFld) : lop QcFld := LForward k [num2 b; num0 a] sx sy.
(** Values come back in the order of the context's variables, gradients in the order of its
    parameters (b, then a). *)
Example C67_order : l_run l_ctx [l_f 0 (qz (-2)) (qz 7) [qd 1 4; qz (-8)] [qd 9 8]; LBackward 0 [num1 (qz 5); num0 (qz 3)]]
  = Ok [[-8; 1 # 4]; [-42125 # 8192; 137781 # 5120000]]%Q.
Proof. vm_compute. reflexivity. Qed.
(** A layer that returns only y cannot be differentiated. *)
Example C67_missing_example : let os := [l_f 0 (qz (-2)) (qz 7) [qd 1 4; qz (-8)] [qd 9 8]; LBackward 0 [num0 (qz 3)]] in
  In (mkUV "z" 8 [1] false) l_us /\ NoDup (map uv_name l_us) /\ (forall k, ~ In 8 (cx_vars (l_ctx1 k))) /\ In (LBackward 0 [num0 (qz 3)]) os
  /\ l_run l_ctx1 (firstn 1 os) = Ok [[1 # 4]]%Q /\ l_run l_ctx1 os = Err TypeError.
Proof.
  cbv zeta. split; [right; left; reflexivity|]. split; [repeat constructor; simpl; intuition discriminate|]. split; [intros k [H|[]]; discriminate|]. split; [right; left; reflexivity|].
  split; vm_compute; reflexivity.
Qed.
(** A layer that returns only y, after another layer of the same problem that returns y and z: with the
    derivative 0 for y the gradient of b is not 0 but the one for the other layer's derivative of z. *)
Theorem C67_partial_context_refuted : exists os k dv gs,
  l_run l_ctx (os ++ [LBackward k dv]) = Ok gs /\ dv = [num0 (qz 0)] /\ cx_vars (l_ctx k) = [7] /\ nth 0 (last gs []) 0%Q = (-42125 # 8192)%Q
  /\ forall k', k' <> 1 -> ctx_ok l_pids l_sh l_us (l_ctx k').
Proof.
  exists [l_f 0 (qz (-2)) (qz 7) [qd 1 4; qz (-8)] [qd 9 8]; LBackward 0 [num1 (qz 5); num0 (qz 3)]; l_f 1 (qz (-2)) (qz 7) [qd 1 4; qz (-8)] [qd 9 8]], 1, [num0 (qz 0)].
  eexists. split; [vm_compute; reflexivity|]. split; [reflexivity|]. split; [reflexivity|]. split; [reflexivity|].
  intros k' Hk. unfold l_ctx. apply Nat.eqb_neq in Hk. rewrite Hk. constructor; cbn [cx_pids cx_vars cx_upd].
  - repeat constructor; simpl; intuition discriminate.
  - intros i Hi. simpl in Hi |- *. tauto.
  - repeat constructor; simpl; intuition discriminate.
  - intros i Hi. simpl in Hi |- *. tauto.
  - intros i Hi. simpl in Hi |- *. tauto.
  - discriminate.
Qed.
Print Assumptions C67_partial_context_refuted.

(** If A changes between a context's forward and backward calls, the gradient is not the one right
    after its forward call: minimise (7/8) x^2 + 2 b x subject to a x <= b. *)
Definition lq_run (os : list (lop QcFld)) : res (list (list Q)) :=
  ps <- prim_info [(7, 1)] [mkUV "x" 7 [] false];;
  '(_, _, outs) <- layer_session QcFld q_big (q_x 0 1) (q_gen (q_x 0 1)) qsqrt q_eps q_half q_below q_above (qfactor_ref QcFld 2) (qsolve_ref QcFld 2) q_scr l_pids [("a", []); ("b", [])]
                     [mkUV "x" 7 [] false] ps (fun _ => mkCtx [1; 2] [7] None) (fun _ _ => qz 0) l_v0 os;;
  Ok (map (fun o : lout QcFld => match o with OVars l => map (fun a => this (a [])) l | OGrads l => map (fun a => this (a [])) l end) outs).
Theorem C67_changed_matrices_refuted : exists f1 f2 b gs1 gs2,
  lq_run [f1; b] = Ok gs1 /\ lq_run [f1; f2; b] = Ok gs2 /\ last gs1 [] <> last gs2 []
  /\ f1 = LForward 0 [num0 (qz 2); num0 (qz (-2))] [qz (-1)] [qd 23 8] /\ f2 = LForward 1 [num0 (qz 1); num0 (qz (-2))] [qz (-2)] [qd 15 2] /\ b = LBackward 0 [num0 (qz 1)].
Proof.
  exists (LForward 0 [num0 (qz 2); num0 (qz (-2))] [qz (-1)] [qd 23 8]), (LForward 1 [num0 (qz 1); num0 (qz (-2))] [qz (-2)] [qd 15 2]), (LBackward 0 [num0 (qz 1)]).
  eexists. eexists. split; [vm_compute; reflexivity|]. split; [vm_compute; reflexivity|]. split; [vm_compute; discriminate|]. split; [reflexivity|]. split; reflexivity.
Qed.
Print Assumptions C67_changed_matrices_refuted.

(** ** Example: the problem of C60_example, two contexts that both set b (to -2 and to 1); the backward call
    of the first one comes after the forward call of the second one.  The matrices do not change. *)
Definition y_ctx (k : nat) : ctx := mkCtx [2] [7] (if Nat.eqb k 0 then Some ["b"] else None).
Definition y_v0 (nm : string) : option (list nat -> RFld) := Some (fun _ => r_th0 nm 0).
Definition y_num (q : R) : varr RFld := ([], fun _ => q).
Definition y_num1 (q : R) : varr RFld := ([1], fun _ => q).
Definition y_hist : list (lop RFld) :=
  [LForward (F := RFld) 0 [y_num (-2)%R] [(- / 2)%R] [(5 / 4)%R]; LForward (F := RFld) 1 [y_num 1%R] [(-1)%R] [0%R]; LBackward (F := RFld) 0 [y_num1 1%R]; LBackward (F := RFld) 1 [y_num1 3%R]].
Definition y_pids : list (nat * string) := [(1, "a"); (2, "b")].
Example C67_example : exists ps s p vs1 vs2 l1 l2,
  layer_session RFld r_big s_x s_gen r_sqrt (/ 1000000)%R (/ 2)%R r_below r_above (qfactor_ref RFld 2) (qsolve_ref RFld 2) (fun _ _ d => d) y_pids u_sh u_us ps y_ctx (fun _ _ => 0%R) y_v0 y_hist
    = Ok (s, p, [OVars vs1; OVars vs2; OGrads l1; OGrads l2])
  /\ (exists pg, grads_right y_pids u_sh y_ctx 0 pg l1
        /\ user_derivative s_x (/ 1000000)%R r_below r_above u_red u_us u_sh (after y_pids r_th0 (y_ctx 0) [y_num (-2)%R], [(- / 2)%R], [(5 / 4)%R], vg_of u_us (y_ctx 0) [y_num1 1%R]) pg)
  /\ after y_pids r_th0 (y_ctx 0) [y_num (-2)%R] "b" 0 = (-2)%R.
Proof.
  assert (S1 : forall z s, r_sqrt z = Ok s -> nmul s s = z).
  { intros z s. unfold r_sqrt. destruct (Rlt_dec z 0) as [Hz|Hz]; [discriminate|]. intro E. injection E as <-. cbn. apply sqrt_sqrt. cbn in Hz. lra. }
  assert (S2 : forall z e, r_sqrt z = Err e -> e = Arith).
  { intros z e. unfold r_sqrt. destruct (Rlt_dec z 0); [|discriminate]. intro E. injection E as <-. reflexivity. }
  assert (S3 : forall z, r_pos z -> exists s, r_sqrt z = Ok s).
  { intros z Hz. unfold r_sqrt, r_pos in *. destruct (Rlt_dec z 0) as [H1|H1]; [exfalso; cbn in *; lra|eauto]. }
  assert (B0 : r_below n0 = false) by (unfold r_below; cbn; destruct (Rlt_dec 0 (- / 1000000)) as [H1|H1]; auto; exfalso; lra).
  assert (HSol : forall a b : R, (0 <= b)%R -> py_ok RFld s_x s_gen r_below (PSolve (F := RFld) [] [a] [b])).
  { intros a b Hb. split; [constructor|]. split; auto. split; auto. intros i Hi. cbn in Hi. replace i with 0 by lia. unfold r_below. cbn [nth]. destruct (Rlt_dec b (- / 1000000)) as [H|H]; auto. exfalso. lra. }
  destruct (C67_layers r_big s_x r_th0 ex_order s_gen r_sqrt (/ 1000000)%R r_below r_above (qfactor_ref RFld 2) (qsolve_ref RFld 2) (fun _ _ d => d) u_red u_us y_pids u_sh y_ctx (fun _ _ => 0%R) y_v0
    s_wf s_layout ex_order_perm s_generate S1 S2 S3 (qfactor_ref_ok RFld 1 2) (qsolve_ref_ok RFld 2) B0) with (os := y_hist) as (ps & s & p & outs & _ & E & HD).
  - unfold r_pos. cbn. lra.
  - apply s_nz.
  - constructor.
    + repeat constructor; simpl; intuition discriminate.
    + intros u [<-|[]]. reflexivity.
    + intros u [<-|[]] E; discriminate.
  - repeat constructor; simpl; intuition discriminate.
  - repeat constructor; simpl; intuition discriminate.
  - intros u [<-|[]]. reflexivity.
  - reflexivity.
  - repeat constructor.
  - split; [repeat constructor; simpl; intuition discriminate|]. split; [repeat constructor; simpl; intuition discriminate|]. split; [intros i Hi; simpl in Hi |- *; tauto|].
    split; [repeat constructor; simpl; intuition discriminate|]. intros s0 [<-|[<-|[]]]; discriminate.
  - intro k. unfold y_ctx. constructor; cbn [cx_pids cx_vars cx_upd].
    + repeat constructor; simpl; intuition discriminate.
    + intros i Hi. simpl in Hi |- *. tauto.
    + repeat constructor; simpl; intuition discriminate.
    + intros i Hi. simpl in Hi |- *. tauto.
    + intros i Hi. simpl in Hi |- *. tauto.
    + intros l El. destruct (Nat.eqb k 0); [|discriminate]. injection El as <-. split; intros i Hi; simpl in Hi |- *; tauto.
  - intros nm sh [E|[E|[]]]; injection E as <- <-; eexists; (split; [reflexivity|]); intros idx Hidx; unfold r_th0; reflexivity.
  - unfold y_hist. apply Forall_cons; [|apply Forall_cons; [|apply Forall_cons; [|apply Forall_cons; [|apply Forall_nil]]]].
    + split; [repeat constructor|apply HSol; lra].
    + split; [repeat constructor|apply HSol; lra].
    + constructor; [|constructor]. intros u [<-|[]] _. reflexivity.
    + constructor; [|constructor]. intros u [<-|[]] _. reflexivity.
  - simpl. tauto.
  - apply Forall_forall. intros th _. apply s_convex.
  - unfold y_hist in HD. cbn [lexpect y_hist nset Nat.eqb] in HD.
    inversion HD as [|e1 o1 es1 os1 H1 R1]; subst. inversion R1 as [|e2 o2 es2 os2 H2 R2]; subst. inversion R2 as [|e3 o3 es3 os3 H3 R3]; subst. inversion R3 as [|e4 o4 es4 os4 H4 R4]; subst. inversion R4; subst.
    destruct o1 as [vs1|]; [|destruct H1]. destruct o2 as [vs2|]; [|destruct H2]. destruct o3 as [|l1]; [destruct H3|]. destruct o4 as [|l2]; [destruct H4|].
    exists ps, s, p, vs1, vs2, l1, l2. split; [exact E|]. split; [|reflexivity]. destruct H3 as (pg & G1 & _ & G3). exists pg. split; [exact G1|]. apply G3.
    split; intros i j Hi Hj; cbn in Hi, Hj; replace i with 0 by lia; replace j with 0 by lia; cbn; reflexivity.
Qed.
Print Assumptions C67_example.
