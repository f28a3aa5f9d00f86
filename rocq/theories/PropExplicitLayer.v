(** Property C71: forward and backward in explicit mode. *)

From Coq Require Import String Arith Bool ZArith Lia List Permutation QArith Qcanon Field.
From Verif Require Import Base Pus Machine Runtime RuntimeSpec RuntimeProofs Canon CanonSpec CanonProofs CanonMain CanonGen Retrieve RetrieveProofs Params ParamsProofs Examples.
From Verif Require Import Explicit ExplicitProofs ExplicitVars ExplicitGrad PropExplicit ExplicitEnd ExplicitEndSpec ExplicitEndProofs EndSpec EndProofs PropEnd Wrapper WrapperProofs.
From Verif Require Import GradMain GradSession GradSessionProofs GradDeriv PropFactor PropGrad GradUser PropUser Layer LayerSpec LayerProofs PropLayer ExplicitLayer ExplicitLayerSpec ExplicitLayerProofs.
Import ListNotations.
Open Scope string_scope.
Open Scope list_scope.
Local Open Scope nat_scope.

(** A program and the objects of the Python process around it. *)
Record xlayer_ok (O : OFld) (big : O) (x : cvx O) (th0 : pvals O) (order : list string -> list string) (g : genc O) (cons : list (ucon (of_ord O))) (lo hi : list O) (mask : list bool)
  (red : list (nat * nat)) (us : list uvar) (ps : list pinfo) (sels : option (list (string * option (list Z)))) (xv : xvars) (t : table O) (leaf : list O -> nat) (law : nat -> list O -> list O)
  (pids : list (nat * string)) (shapes : list (string * list nat)) (ctxs : nat -> ctx) : Prop := mkXLO
  { xl_wf : wf_cvx x th0;
    xl_order : forall l, Permutation l (order l);
    xl_gen : generate big x OSQP order = Ok g;
    (** declared bounds: consistent, and the values at generation satisfy them *)
    xl_bounds : bounds (K := of_ord O) big (x_params x) cons = Ok (lo, hi);
    xl_simple : Forall (simple_bound (x_params x)) cons;
    xl_lh : forall nm s i, In (nm, s) (g_params g) -> i < s -> of_le O (low O big cons nm i) (high O big cons nm i);
    xl_start : in_bounds O big cons g th0;
    xl_mask : length mask = length (g_baked g pq) + length (g_baked g pu);
    (** variables: none symmetric, all stored at least in part *)
    xl_vars : vars_ok red us;
    xl_red : NoDup (map fst red);
    xl_ids : NoDup (map uv_id us);
    xl_sym : forall u, In u us -> uv_sym u = false;
    xl_sels : good_sels us sels;
    xl_prim : prim_info red us = Ok ps;
    xl_all : forall u, In u us -> In (uv_name u) (sel_names us sels);
    xl_store : store_vars ps sels = Ok xv;
    xl_table : table_laws O mask leaf law red xv t;
    xl_full : full_params (x_params x) shapes;
    xl_params : params_ok pids shapes;
    xl_ctx : forall k, ctx_ok pids shapes us (ctxs k) }.

Section C71.
  Variable O : OFld.
  Notation F := (of_fld O).
  Variables (big : F) (x : cvx F) (th0 : pvals F) (order : list string -> list string) (g : genc F) (cons : list (ucon (of_ord O))) (lo hi : list F) (mask : list bool).
  Variables (red : list (nat * nat)) (us : list uvar) (ps : list pinfo) (sels : option (list (string * option (list Z)))) (xv : xvars).
  Variables (t : table F) (leaf : list F -> nat) (law : nat -> list F -> list F).
  Variables (pids : list (nat * string)) (shapes : list (string * list nat)) (ctxs : nat -> ctx) (cells : string -> nat -> F).
  Notation ok := (xlayer_ok O big x th0 order g cons lo hi mask red us ps sels xv t leaf law pids shapes ctxs).
  Notation session := (xlayer_session O g lo hi (length (g_baked g pq)) mask xv t leaf pids shapes us ctxs cells).
  Notation right := (xl_right O big cons g mask leaf law pids shapes red us sels ctxs).

  (** All calls succeed; each forward call returns the solution at its own values limited to the bounds, each
      backward call the gradient of the law of the region of its context's latest forward call, whatever other
      calls came in between. *)
  Theorem C71_layers : ok -> forall v0 os, holds F shapes v0 th0 -> Forall (xlop_ok O pids shapes us ctxs) os -> xordered O [] os ->
    exists outs, session v0 os = Ok outs /\ Forall2 right (xlexpect O pids ctxs th0 (fun _ => None) os) outs.
  Proof.
    intros [W Hord Hg Hbd Hsb Hlh Hst Hm HV HR HI HS HG Hp Ha Hx HT HF HP HC] v0 os H0 HO Hr.
    apply (layer_ok O big x th0 order g cons lo hi mask red us ps sels xv t leaf law pids shapes ctxs cells W Hord Hg Hbd Hsb Hlh Hst Hm HV HR HI HS HG Hp Ha Hx HT HF HP HC v0 os H0 HO Hr).
  Qed.

  Lemma lim_theta : forall th tc, in_bounds O big cons g th -> limited_to O big cons g th tc -> theta_at O g mask tc = theta_at O g mask th.
  Proof.
    intros th tc HB HL. unfold theta_at. assert (E : flat (g_params g) tc = flat (g_params g) th).
    { apply flat_agree. intros nm s i Hin Hi. destruct (HL nm s i Hin Hi) as [H _]. apply H; apply (HB nm s i Hin Hi). }
    rewrite !(canon_spec_flat F g tc th _ E). reflexivity.
  Qed.

  (** Two forward calls of a session at values within the bounds and in the same region: the results of the second
      differ from those of the first as the gradient returned for the first says, exactly. *)
  Theorem C71_two_calls : ok -> forall v0 os, holds F shapes v0 th0 -> Forall (xlop_ok O pids shapes us ctxs) os -> xordered O [] os ->
    forall outs, session v0 os = Ok outs -> forall i j b k th th' dv vs vs' l,
    let es := xlexpect O pids ctxs th0 (fun _ => None) os in
    nth_error es i = Some (XEF k th) -> nth_error es j = Some (XEF k th') -> nth_error es b = Some (XEB k th dv) ->
    nth_error outs i = Some (OVars vs) -> nth_error outs j = Some (OVars vs') -> nth_error outs b = Some (OGrads l) ->
    in_bounds O big cons g th -> in_bounds O big cons g th' -> region_at O g mask leaf th = region_at O g mask leaf th' -> differ_in O g pids ctxs k th th' ->
    vars_change O dv vs vs' = pars_change O pids shapes ctxs k l th th'.
  Proof.
    intros OK v0 os H0 HO Hr outs E i j b k th th' dv vs vs' l es Ei Ej Eb Oi Oj Ob B1 B2 HR HD.
    destruct (C71_layers OK v0 os H0 HO Hr) as (outs' & E' & HF). rewrite E in E'. injection E' as <-. fold es in HF.
    assert (G : forall a e o, nth_error es a = Some e -> nth_error outs a = Some o -> right e o).
    { clear -HF. induction HF as [|e0 o0 es outs H HF IH]; intros [|a] e o E1 E2; try discriminate; cbn [nth_error] in *; [injection E1 as <-; injection E2 as <-; auto|eauto]. }
    pose proof (G _ _ _ Ei Oi) as (t1 & L1 & V1). pose proof (G _ _ _ Ej Oj) as (t2 & L2 & V2). pose proof (G _ _ _ Eb Ob) as (_ & t3 & L3 & HG).
    pose proof (lim_theta _ _ B1 L1) as T1. pose proof (lim_theta _ _ B2 L2) as T2. pose proof (lim_theta _ _ B1 L3) as T3.
    assert (R1 : region_at O g mask leaf t1 = region_at O g mask leaf t3) by (unfold region_at; rewrite T1, T3; reflexivity).
    assert (R2 : region_at O g mask leaf t2 = region_at O g mask leaf t3) by (unfold region_at in *; rewrite T2, T3; auto).
    apply HG; auto.
    - rewrite <- T1, <- R1. exact V1.
    - rewrite <- T2, <- R2. exact V2.
  Qed.

  (** A stored variable that no context returns: backward always fails. *)
  Theorem C71_missing_variable : forall u, In u us -> NoDup (map uv_name us) -> In (uv_name u) (map xi_name (xv_vars xv)) -> (forall k, ~ In (uv_id u) (cx_vars (ctxs k))) ->
    forall v0 os k dv, In (XLB k dv) os -> exists e, session v0 os = Err e.
  Proof.
    intros u Hu HN Hs HM v0 os k dv Hin. unfold xlayer_session.
    assert (HM' : forall k (l : list (varr F)), ~ In (uv_id u) (map fst (combine (cx_vars (ctxs k)) l))).
    { intros k' l Hi. apply (HM k'). revert l Hi. generalize (cx_vars (ctxs k')) as ids. induction ids as [|i ids IH]; intros [|a l] Hi; cbn [combine map In fst] in *; try contradiction. destruct Hi as [E|Hi]; [left; exact E|right; apply (IH l Hi)]. }
    assert (Hus : In u (xstored xv us)) by (apply filter_In; split; auto; apply mem_str_In; auto).
    assert (G : forall os s c p, In (XLB k dv) os -> q_grad p (uv_name u) = None -> exists e, xlsteps O g lo hi (length (g_baked g pq)) mask xv t leaf pids shapes us ctxs cells s c p os = Err e); [|apply G; auto].
    clear v0 os Hin. induction os as [|o os IH]; intros s c p Hin Hp; [destruct Hin|]. cbn [xlsteps]. destruct o as [k1 vals|k1 dv1]; cbn [xlstep].
    - destruct Hin as [E|Hin]; [discriminate|]. unfold xforward. destruct (set_params _ _ _ _) as [v|]; [|cbn [bind]; eauto]. cbn [bind]. destruct (updates _ _ _) as [ups|]; [|cbn [bind]; eauto]. cbn [bind].
      destruct (x_steps _ _ _ _ _ _ _) as [s1|]; [|cbn [bind]; eauto]. cbn [bind]. destruct (x_solve _ _ _ _) as [s2|]; [|cbn [bind]; eauto]. cbn [bind].
      destruct (rev (xs_log s2)) as [|th lg]; [cbn [bind]; eauto|]. cbn [bind]. destruct (stored_arrays _ _ _ _ _ _ _ _) as [vs|]; [|cbn [bind]; eauto]. cbn [bind].
      destruct (mapM _ _) as [outs|]; [|cbn [bind]; eauto]. cbn [bind].
      match goal with |- context [xlsteps _ _ _ _ _ _ _ _ _ _ _ _ _ _ ?a1 ?a2 ?a3 os] => destruct (IH a1 a2 a3 Hin Hp) as (e & ->) end. cbn [bind]. eauto.
    - unfold xbackward. destruct (q_info p k1) as [info|]; [|cbn [bind]; eauto]. destruct (set_grads _ _ _) as [v|] eqn:Ev; [|cbn [bind]; eauto]. cbn [bind].
      apply (set_grads_miss F us u Hu HN _ _ _ (HM' k1 dv1) Hp) in Ev. destruct (read_grads_miss F u (xstored xv us) Hus v Ev) as (e & ->). cbn [bind]. eauto.
  Qed.
End C71.
Print Assumptions C71_layers.
Print Assumptions C71_two_calls.
Print Assumptions C71_missing_variable.

(** ** Examples over the rationals: minimise (7/8)(y^2 + z^2) + 2 a y + 2 b z subject to 4 y <= 1 with a and b
    between -10 and 10 (b's upper bound declared twice).  theta = (2 a, 2 b); region 0: y = -4/7 theta_0;
    region 1: y = 1/4; z = -4/7 theta_1.  The laws leave out the regularisation. *)
Lemma QcO_leb_spec : forall a b : Qc, (if Qclt_le_dec b a then false else true) = true <-> Qcle a b.
Proof. intros a b. destruct (Qclt_le_dec b a) as [H|H]; split; auto; [discriminate|]. intro H2. exfalso. apply (Qclt_not_le _ _ H H2). Qed.
Lemma QcO_total : forall a b : Qc, Qcle a b \/ Qcle b a.
Proof. intros a b. destruct (Qclt_le_dec b a) as [H|H]; [right; apply Qclt_le_weak; auto|auto]. Qed.
Lemma QcO_add : forall a b c : Qc, Qcle a b -> Qcle (c + a) (c + b).
Proof. intros a b c H. apply Qcplus_le_compat; auto. apply Qcle_refl. Qed.
Lemma QcO_mul : forall a b : Qc, Qcle 0 a -> Qcle 0 b -> Qcle 0 (a * b).
Proof. intros a b Ha Hb. replace (0%Qc) with (0 * b)%Qc by ring. apply Qcmult_le_compat_r; auto. Qed.
Definition QcO : OFld :=
  mkOFld QcFld Qcle (fun a b => if Qclt_le_dec b a then false else true) QcO_leb_spec Qcle_refl Qcle_trans Qcle_antisym QcO_total QcO_add QcO_mul.

Definition xl_cons : list (ucon (of_ord QcO)) :=
  [@UVars (of_ord QcO); @UUpper (of_ord QcO) "b" [qz 15]; @ULower (of_ord QcO) "a" [qz (-10)]; @UUpper (of_ord QcO) "a" [qz 10]; @ULower (of_ord QcO) "b" [qz (-10)]; @UUpper (of_ord QcO) "b" [qz 10]].
Definition xl_b : res (list QcO * list QcO) := bounds (K := of_ord QcO) q_big (x_params l_x) xl_cons.
Definition xl_lo : list QcO := match xl_b with Ok (l, _) => l | Err _ => [] end.
Definition xl_hi : list QcO := match xl_b with Ok (_, h) => h | Err _ => [] end.
Definition xl_mask3 : list bool := [true; true; false].
Definition xl_ss : option (list (string * option (list Z))) := Some [("z", None); ("y", None)].
Definition xl_xv : xvars := match (ps <- prim_info l_red l_us;; store_vars ps xl_ss) with Ok v => v | Err _ => mkXV [] [] [] false [] end.
Definition xl_ps : list pinfo := match prim_info l_red l_us with Ok v => v | Err _ => [] end.
Definition c47 : QcO := qd (-4) 7.
Definition xl_t : table QcO := mkT (K := QcO) [0%Qc; c47; 0%Qc; c47; 0%Qc; 0%Qc;  0%Qc; c47; 0%Qc; 0%Qc; 0%Qc; qd 1 4] [0; 1] 2 2.
Definition xl_leaf (th : list QcO) : nat := if Qclt_le_dec (qd 1 4) (Qcmult c47 (nth 0 th 0%Qc)) then 1 else 0.
Definition xl_law (r : nat) (th : list QcO) : list QcO :=
  [if Nat.eqb r 0 then Qcmult c47 (nth 0 th 0%Qc) else qd 1 4; Qcmult c47 (nth 1 th 0%Qc)].
Definition xl_ctxs (k : nat) : ctx := mkCtx [2; 1] [8; 7] None.
Definition xl_run (c : nat -> ctx) (os : list (xlop QcO)) : res (list (list Q)) :=
  outs <- xlayer_session QcO (q_gen l_x) xl_lo xl_hi 2 xl_mask3 xl_xv xl_t xl_leaf l_pids l_sh l_us c (fun _ _ => qz 77) l_v0 os;;
  Ok (map (fun o : lout QcFld => match o with OVars l => map (fun a => this (a [0; 0])) l | OGrads l => map (fun a => this (a [0; 0])) l end) outs).
Definition xl_f (k : nat) (a b : Z) : xlop QcO := XLF (O := QcO) k [num2 (qz b); num0 (qz a)].
Definition xl_g (k : nat) (z y : Z) : xlop QcO := XLB (O := QcO) k [num1 (qz z); num0 (qz y)].

Lemma l_wf : wf_cvx l_x q_th0.
Proof.
  constructor.
  - repeat constructor; simpl; intuition discriminate.
  - reflexivity.
  - split; [reflexivity|]. split; [reflexivity|]. split; [reflexivity|].
    intros c Hc. simpl in Hc. destruct c as [|[|[|]]]; simpl; lia.
  - reflexivity.
  - intros i Hi. simpl in *. lia.
  - simpl. repeat constructor; simpl; intuition lia.
  - intros r c w H1 H2. simpl in H1. destruct H1 as [<-|[<-|[]]]; destruct H2 as [E|[]]; injection E as <- <-; simpl; lia.
  - reflexivity.
  - intros r c w H1 H2. simpl in H1. destruct H1 as [<-|[<-|[<-|[]]]]; simpl in H2; try contradiction; destruct H2 as [E|[]]; injection E as <- <-; simpl; lia.
  - intros rows idx ip E. simpl in E. inversion E; subst.
    split; [|split; [reflexivity|]].
    + split; [reflexivity|]. split; [reflexivity|]. split; [reflexivity|].
      intros c Hc. simpl in Hc. destruct c as [|[|]]; simpl; lia.
    + intros r c w H1 H2. simpl in H1. destruct H1 as [<-|[<-|[]]]; destruct H2 as [E2|[]]; injection E2 as <- <-; simpl; lia.
Qed.
Lemma xl_gparams : g_params (q_gen l_x) = [("a", 1); ("b", 1)].
Proof. exact (gen_params QcFld q_big l_x OSQP ex_order (q_gen l_x) (q_generate l_x l_wf)). Qed.
Lemma xl_pars : forall nm s, In (nm, s) (g_params (q_gen l_x)) -> In (nm, s) [("a", 1); ("b", 1)].
Proof. intros nm s H. rewrite xl_gparams in H. exact H. Qed.
Lemma xl_sb : Forall (simple_bound (K := of_ord QcO) (x_params l_x)) xl_cons.
Proof. unfold xl_cons. repeat (apply Forall_cons; [cbn; tauto|]). apply Forall_nil. Qed.
Lemma xl_is : bounds (K := of_ord QcO) q_big (x_params l_x) xl_cons = Ok (xl_lo, xl_hi).
Proof.
  destruct (C26_bounds_declared (of_ord QcO) (x_params l_x)) with (inf := q_big) (cs := xl_cons) as (lo & hi & E & _).
  - repeat constructor; simpl; intuition discriminate.
  - apply xl_sb.
  - unfold xl_lo, xl_hi, xl_b. rewrite E. reflexivity.
Qed.
Lemma xl_ok : xlayer_ok QcO q_big l_x q_th0 ex_order (q_gen l_x) xl_cons xl_lo xl_hi xl_mask3 l_red l_us xl_ps xl_ss xl_xv xl_t xl_leaf xl_law l_pids l_sh xl_ctxs.
Proof.
  constructor.
  - apply l_wf.
  - apply ex_order_perm.
  - apply q_generate, l_wf.
  - apply xl_is.
  - apply xl_sb.
  - intros nm s i Hin Hi. apply xl_pars in Hin. destruct Hin as [E|[E|[]]]; injection E as <- <-; replace i with 0 by lia; vm_compute; discriminate.
  - intros nm s i Hin Hi. apply xl_pars in Hin. destruct Hin as [E|[E|[]]]; injection E as <- <-; replace i with 0 by lia; split; vm_compute; discriminate.
  - vm_compute. reflexivity.
  - constructor.
    + repeat constructor; simpl; intuition discriminate.
    + intros u [<-|[<-|[]]]; reflexivity.
    + intros u [<-|[<-|[]]] E; discriminate.
  - repeat constructor; simpl; intuition discriminate.
  - repeat constructor; simpl; intuition discriminate.
  - intros u [<-|[<-|[]]]; reflexivity.
  - split; [repeat constructor; simpl; intuition discriminate|]. intros nm inds H. simpl in H. destruct H as [H|[H|[]]]; inversion H; subst.
    + exists (mkUV "z" 8 [1] false). simpl. auto.
    + exists (mkUV "y" 7 [] false). simpl. auto.
  - vm_compute. reflexivity.
  - intros u [<-|[<-|[]]]; simpl; auto.
  - vm_compute. reflexivity.
  - split; [reflexivity|]. split; [reflexivity|]. split.
    { intros h [<-|[<-|[]]]; simpl; lia. }
    split; [intros th _; unfold xl_leaf; destruct (Qclt_le_dec _ _); simpl; lia|].
    intros r th Hr Hl. split; [reflexivity|]. destruct th as [|t0 [|t1 [|]]]; try discriminate Hl.
    exists [Qcmult c47 t1; if Nat.eqb r 0 then Qcmult c47 t0 else qd 1 4]. split; [reflexivity|].
    simpl in Hr. destruct r as [|[|r]]; [| |lia].
    + assert (G : forall c : Qc, [(0 * t0 + (c * t1 + (0 * 1 + 0)))%Qc; (c * t0 + (0 * t1 + (0 * 1 + 0)))%Qc] = [(c * t1)%Qc; (c * t0)%Qc]) by (intro c; f_equal; [ring|f_equal; ring]).
      exact (f_equal Ok (G c47)).
    + assert (G : forall c d : Qc, [(0 * t0 + (c * t1 + (0 * 1 + 0)))%Qc; (0 * t0 + (0 * t1 + (d * 1 + 0)))%Qc] = [(c * t1)%Qc; d]) by (intros c d; f_equal; [ring|f_equal; ring]).
      exact (f_equal Ok (G c47 (qd 1 4))).
  - repeat constructor.
  - split; [repeat constructor; simpl; intuition discriminate|]. split; [repeat constructor; simpl; intuition discriminate|]. split; [intros i Hi; simpl in Hi |- *; tauto|].
    split; [repeat constructor; simpl; intuition discriminate|]. intros s0 [<-|[<-|[]]]; discriminate.
  - intro k. constructor; cbn [cx_pids cx_vars cx_upd xl_ctxs].
    + repeat constructor; simpl; intuition discriminate.
    + intros i Hi. simpl in Hi |- *. tauto.
    + repeat constructor; simpl; intuition discriminate.
    + intros i Hi. simpl in Hi |- *. tauto.
    + intros i Hi. simpl in Hi |- *. tauto.
    + discriminate.
Qed.
Lemma xl_holds : holds QcO l_sh l_v0 q_th0.
Proof. intros nm sh [E|[E|[]]]; injection E as <- <-; eexists; (split; [reflexivity|]); intros idx Hidx; reflexivity. Qed.
Definition xl_os : list (xlop QcO) := [xl_f 0 7 14; xl_f 1 (-7) 20; xl_g 0 2 1; xl_g 1 2 1; xl_f 0 (-1) 7; xl_g 0 0 3].
(** Region 0; region 1 with b limited to 10; gradients for the two contexts; region 0 again with the value -1. *)
Example C71_example :
  xlayer_ok QcO q_big l_x q_th0 ex_order (q_gen l_x) xl_cons xl_lo xl_hi xl_mask3 l_red l_us xl_ps xl_ss xl_xv xl_t xl_leaf xl_law l_pids l_sh xl_ctxs
  /\ holds QcO l_sh l_v0 q_th0 /\ Forall (xlop_ok QcO l_pids l_sh l_us xl_ctxs) xl_os /\ xordered QcO [] xl_os
  /\ xl_run xl_ctxs xl_os = Ok [[-80 # 7; -8]; [-80 # 7; 1 # 4]; [-16 # 7; -8 # 7]; [-16 # 7; 0]; [-8; 1 # 4]; [0; 0]]%Q.
Proof.
  split; [apply xl_ok|]. split; [apply xl_holds|]. split; [|split; [simpl; tauto|vm_compute; reflexivity]].
  assert (HF : forall k a b, xlop_ok QcO l_pids l_sh l_us xl_ctxs (xl_f k a b)) by (intros; repeat constructor).
  assert (HB : forall k a b, xlop_ok QcO l_pids l_sh l_us xl_ctxs (xl_g k a b)).
  { intros. constructor; [intros u [<-|[<-|[]]] E; try discriminate E; reflexivity|]. constructor; [intros u [<-|[<-|[]]] E; try discriminate E; reflexivity|]. constructor. }
  unfold xl_os. repeat (apply Forall_cons; [first [apply HF | apply HB]|]). apply Forall_nil.
Qed.

(** Two calls in region 0 within the bounds: a from 7 to 9, b from 1 to 2; derivatives 5 for z and 3 for y. *)
Definition xl_os2 : list (xlop QcO) := [xl_f 0 7 1; xl_g 0 5 3; xl_f 0 9 2].
Example C71_two_calls_example : let es := xlexpect QcO l_pids xl_ctxs q_th0 (fun _ => None) xl_os2 in
  exists th th', nth_error es 0 = Some (XEF 0 th) /\ nth_error es 2 = Some (XEF 0 th') /\ nth_error es 1 = Some (XEB 0 th [num1 (qz 5); num0 (qz 3)])
  /\ in_bounds QcO q_big xl_cons (q_gen l_x) th /\ in_bounds QcO q_big xl_cons (q_gen l_x) th'
  /\ region_at QcO (q_gen l_x) xl_mask3 xl_leaf th = region_at QcO (q_gen l_x) xl_mask3 xl_leaf th' /\ differ_in QcO (q_gen l_x) l_pids xl_ctxs 0 th th'
  /\ xl_run xl_ctxs xl_os2 = Ok [[-8 # 7; -8]; [-40 # 7; -24 # 7]; [-16 # 7; -72 # 7]]%Q
  /\ (5 * ((-16 # 7) - (-8 # 7)) + 3 * ((-72 # 7) - -8) == (-40 # 7) * (2 - 1) + (-24 # 7) * (9 - 7))%Q.
Proof.
  cbv zeta. eexists. eexists. split; [reflexivity|]. split; [reflexivity|]. split; [reflexivity|].
  split; [intros nm s i Hin Hi; apply xl_pars in Hin; destruct Hin as [E|[E|[]]]; injection E as <- <-; replace i with 0 by lia; split; vm_compute; discriminate|].
  split; [intros nm s i Hin Hi; apply xl_pars in Hin; destruct Hin as [E|[E|[]]]; injection E as <- <-; replace i with 0 by lia; split; vm_compute; discriminate|].
  split; [vm_compute; reflexivity|].
  split; [intros nm s i Hin Hi Hn; exfalso; apply Hn; apply xl_pars in Hin; destruct Hin as [E|[E|[]]]; injection E as <- <-; simpl; auto|].
  split; vm_compute; reflexivity.
Qed.
Definition xl_ctxy (k : nat) : ctx := mkCtx [2; 1] [7] None.
Example C71_missing_example : In (mkUV "z" 8 [1] false) l_us /\ NoDup (map uv_name l_us) /\ In "z" (map xi_name (xv_vars xl_xv)) /\ (forall k, ~ In 8 (cx_vars (xl_ctxy k)))
  /\ xl_run xl_ctxy [xl_f 0 7 1] = Ok [[-8]]%Q /\ xl_run xl_ctxy [xl_f 0 7 1; XLB (O := QcO) 0 [num0 (qz 3)]] = Err TypeError.
Proof.
  split; [right; left; reflexivity|]. split; [repeat constructor; simpl; intuition discriminate|]. split; [vm_compute; tauto|]. split; [intros k [H|[]]; discriminate|].
  split; vm_compute; reflexivity.
Qed.

(** Outside the bounds the result no longer depends on the parameter, but backward still returns the gradient of the
    law: with a = 20 or a = 30 (upper bound 10) forward returns the same y, yet the gradient of y with respect to a is -8/7. *)
Theorem C71_clamped_refuted : exists a a' r gr,
  xl_run xl_ctxs [xl_f 0 a 7; xl_g 0 0 1; xl_f 0 a' 7] = Ok [r; gr; r] /\ (10 < a < a')%Z /\ high QcO q_big xl_cons "a" 0 = qz 10 /\ nth 1 gr 0%Q = (-8 # 7)%Q.
Proof. exists 20%Z, 30%Z. eexists. eexists. split; [vm_compute; reflexivity|]. split; [lia|]. split; reflexivity. Qed.
Print Assumptions C71_clamped_refuted.
(** A context that returns only y, used after another one: its backward call also uses the derivative of z given in the
    other context's backward call, here 2. *)
Definition xl_ctxm (k : nat) : ctx := if Nat.eqb k 0 then xl_ctxs 0 else xl_ctxy 0.
Theorem C71_partial_context_refuted : exists gr,
  xl_run xl_ctxm [xl_f 0 7 14; xl_g 0 2 1; xl_f 1 7 7; XLB (O := QcO) 1 [num0 (qz 0)]] = Ok gr /\ nth 0 (last gr []) 0%Q = (-16 # 7)%Q.
Proof. eexists. split; vm_compute; reflexivity. Qed.
Print Assumptions C71_partial_context_refuted.
