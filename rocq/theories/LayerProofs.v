(** Proofs about Layer.v. *)

From Coq Require Import String Arith Bool ZArith Lia List.
From Verif Require Import Base Pus Machine Runtime RuntimeSpec RuntimeProofs Canon CanonSpec Retrieve RetrieveProofs Params ParamsProofs Explicit ExplicitVars Sparse SparseProofs Gradient GradMain GradSession GradSessionProofs GradGen GradVars PropGrad GradUser PropUser EndSpec EndProofs Layer LayerSpec.
Import ListNotations.
Open Scope string_scope.
Open Scope list_scope.
Local Open Scope nat_scope.

Lemma shape_eqb_refl : forall s, shape_eqb s s = true.
Proof. induction s as [|a s IH]; cbn; auto. rewrite Nat.eqb_refl, IH. auto. Qed.

Lemma lookup_some : forall A i (l : list (nat * A)), In i (map fst l) -> exists a, lookup i l = Some a /\ In (i, a) l.
Proof.
  induction l as [|[j a] l IH]; cbn [map fst lookup]; intros []; subst.
  - exists a. rewrite Nat.eqb_refl. cbn. auto.
  - destruct (Nat.eqb_spec i j) as [->|E]; [exists a; cbn; auto|]. destruct (IH H) as (b & E1 & E2). exists b. cbn. auto.
Qed.
Lemma assoc_none : forall A k (l : list (string * A)), ~ In k (map fst l) -> assoc k l = None.
Proof. induction l as [|[j a] l IH]; cbn [map fst assoc]; auto. intro H. destruct (String.eqb_spec k j); [exfalso; apply H; left; auto|]. apply IH. intro; apply H; right; auto. Qed.
Lemma combine_fst : forall A B (a : list A) (b : list B), length a = length b -> map fst (combine a b) = a.
Proof. induction a as [|x a IH]; intros [|y b] H; cbn in *; try discriminate; auto. f_equal. apply IH. lia. Qed.
Lemma Forall2_len : forall A B (R : A -> B -> Prop) a b, Forall2 R a b -> length a = length b.
Proof. induction 1; cbn; auto. Qed.

Lemma nodup_inj : forall A B (f : A -> B) l a b, NoDup (map f l) -> In a l -> In b l -> f a = f b -> a = b.
Proof.
  intros A B f l a b. induction l as [|c l IH]; intros HN Ha Hb E; [destruct Ha|]. cbn [map] in HN. apply NoDup_cons_iff in HN. destruct HN as [H1 H2].
  destruct Ha as [->|Ha], Hb as [->|Hb]; auto.
  - exfalso. apply H1. rewrite E. apply in_map. auto.
  - exfalso. apply H1. rewrite <- E. apply in_map. auto.
Qed.
Lemma nodup_map_inj : forall A B (f : A -> B) l, NoDup l -> (forall a b, In a l -> In b l -> f a = f b -> a = b) -> NoDup (map f l).
Proof.
  induction l as [|a l IH]; intros HN Hi; cbn [map]; constructor; apply NoDup_cons_iff in HN.
  - intro H. apply in_map_iff in H. destruct H as (b & E & Hb). apply (proj1 HN). rewrite (Hi a b); auto; cbn; auto.
  - apply IH; [tauto|]. intros; apply Hi; cbn; auto.
Qed.
Lemma find_first : forall A (f : A -> bool) l a, In a l -> f a = true -> (forall b, In b l -> f b = true -> b = a) -> List.find f l = Some a.
Proof.
  induction l as [|b l IH]; intros a Ha Hf Hu; [destruct Ha|]. cbn [List.find]. destruct (f b) eqn:E.
  - f_equal. apply Hu; cbn; auto.
  - destruct Ha as [->|Ha]; [congruence|]. apply IH; auto. intros; apply Hu; cbn; auto.
Qed.

Section Proofs.
  Variable F : Fld.
  Variables (pids : list (nat * string)) (shapes : list (string * list nat)) (us : list uvar).
  Hypothesis HP : params_ok pids shapes.
  Hypothesis HN : NoDup (map uv_name us).
  Hypothesis HI : NoDup (map uv_id us).
  Notation pname := (pname pids).
  Notation var_by_id := (var_by_id us).

  Lemma pname_known : forall i, In i (map fst pids) -> lookup i pids = Some (pname i) /\ In (i, pname i) pids.
  Proof. intros i Hi. destruct (lookup_some _ i pids Hi) as (nm & E & H). unfold LayerSpec.pname. rewrite E. auto. Qed.
  Lemma pname_inj : forall i j, In i (map fst pids) -> In j (map fst pids) -> pname i = pname j -> i = j.
  Proof.
    intros i j Hi Hj E. destruct (pname_known i Hi) as [_ H1]. destruct (pname_known j Hj) as [_ H2].
    assert ((i, pname i) = (j, pname j)) by (apply (nodup_inj _ _ snd pids); auto; apply HP). congruence.
  Qed.
  Lemma pname_shape : forall i, In i (map fst pids) -> exists sh, assoc (pname i) shapes = Some sh /\ In (pname i, sh) shapes.
  Proof.
    intros i Hi. destruct (pname_known i Hi) as [_ H]. assert (H1 : In (pname i) (map fst shapes)) by (apply HP; apply (in_map snd) in H; auto).
    apply in_map_iff in H1. destruct H1 as ([nm sh] & E & H1). cbn [fst] in E. subst nm. exists sh. split; auto.
    destruct HP as (_ & _ & _ & HS & _). clear -HS H1. induction shapes as [|[n s] l IH]; [destruct H1|]. cbn [assoc map fst] in *. apply NoDup_cons_iff in HS. destruct HS as [S1 S2].
    destruct (String.eqb_spec (pname i) n) as [E|E].
    - destruct H1 as [H1|H1]; [congruence|]. exfalso. apply S1. rewrite <- E. apply (in_map fst) in H1. auto.
    - destruct H1 as [H1|H1]; [congruence|]. auto.
  Qed.

  Lemma set_params_ok : forall ids (vals : list (varr F)) v, NoDup ids -> incl ids (map fst pids) ->
    Forall2 (fun i a => assoc (pname i) shapes = Some (fst a)) ids vals ->
    exists v', set_params pids shapes (combine ids vals) v = Ok v'
      /\ forall nm, v' nm = match assoc nm (combine (map pname ids) vals) with Some a => Some (snd a) | None => v nm end.
  Proof.
    intros ids vals v Hd Hk H. revert v. induction H as [|i a ids vals Ha H IH]; intro v; [exists v; auto|].
    apply NoDup_cons_iff in Hd. destruct Hd as [Hd1 Hd2].
    assert (Hi : In i (map fst pids)) by (apply Hk; left; auto). destruct (pname_known i Hi) as [E1 _].
    cbn [combine set_params]. rewrite E1. cbn [key bind]. rewrite Ha. cbn [key bind]. rewrite shape_eqb_refl.
    destruct (IH Hd2 (fun j Hj => Hk j (or_intror Hj)) (sset (pname i) (snd a) v)) as (v' & E & Hv). exists v'. split; [exact E|].
    intro nm. rewrite Hv. cbn [map combine assoc]. destruct (String.eqb_spec nm (pname i)) as [->|Ne].
    - rewrite assoc_none; [unfold sset; rewrite String.eqb_refl; auto|]. rewrite combine_fst by (rewrite map_length; apply (Forall2_len _ _ _ _ _ H)).
      intro Hin. apply in_map_iff in Hin. destruct Hin as (j & E2 & Hj). apply Hd1. replace i with j; auto. apply pname_inj; auto. apply Hk. right. auto.
    - destruct (assoc nm _); auto. unfold sset. destruct (String.eqb_spec nm (pname i)); congruence.
  Qed.

  Lemma var_known : forall i, In i (map uv_id us) -> exists u, In u us /\ uv_id u = i /\ var_by_id i = Ok u.
  Proof.
    intros i Hi. apply in_map_iff in Hi. destruct Hi as (u & <- & Hu). exists u. split; auto. split; auto. unfold Layer.var_by_id.
    rewrite (find_first _ _ us u Hu (Nat.eqb_refl _)); [reflexivity|]. intros b Hb E. apply Nat.eqb_eq in E. apply (nodup_inj _ _ uv_id us); auto.
  Qed.
  Lemma set_grads_ok : forall ids (dv : list (varr F)) v, NoDup ids -> incl ids (map uv_id us) -> length ids = length dv ->
    exists v', set_grads us (combine ids dv) v = Ok v'
      /\ forall u, In u us -> v' (uv_name u) = match lookup (uv_id u) (combine ids dv) with Some a => Some a | None => v (uv_name u) end.
  Proof.
    induction ids as [|i ids IH]; intros [|a dv] v Hd Hk Hl; cbn [length] in Hl; try discriminate; [exists v; auto|].
    apply NoDup_cons_iff in Hd. destruct Hd as [Hd1 Hd2]. destruct (var_known i (Hk i (or_introl eq_refl))) as (w & Hw & Ew & E1).
    cbn [combine set_grads]. rewrite E1. cbn [bind].
    destruct (IH dv (sset (uv_name w) a v) Hd2 (fun j Hj => Hk j (or_intror Hj)) ltac:(lia)) as (v' & E & Hv). exists v'. split; [exact E|].
    intros u Hu. rewrite (Hv u Hu). cbn [lookup]. destruct (Nat.eqb_spec (uv_id u) i) as [E2|Ne].
    - assert (u = w) by (apply (nodup_inj _ _ uv_id us); auto; congruence). subst w.
      destruct (lookup (uv_id u) (combine ids dv)) eqn:EL.
      + exfalso. apply Hd1. rewrite <- E2. clear -EL. revert dv EL. induction ids as [|j ids IH]; intros [|b dv] EL; cbn [combine lookup] in EL; try discriminate.
        destruct (Nat.eqb_spec (uv_id u) j); [left; auto|right; eauto].
      + unfold sset. rewrite String.eqb_refl. auto.
    - destruct (lookup (uv_id u) (combine ids dv)); auto. unfold sset. destruct (String.eqb_spec (uv_name u) (uv_name w)) as [E3|]; auto.
      exfalso. apply Ne. rewrite <- Ew. f_equal. apply (nodup_inj _ _ uv_name us); auto.
  Qed.

  (** The values of all parameters. *)
  Definition holds (v : string -> option (list nat -> F)) (th : pvals F) : Prop :=
    forall nm sh, In (nm, sh) shapes -> exists a, v nm = Some a /\ forall idx, in_shape sh idx -> th nm (fpos sh idx) = a idx.

  Lemma holds_after : forall v th c (vals : list (varr F)), ctx_ok pids shapes us c -> holds v th -> Forall2 (fun i a => assoc (pname i) shapes = Some (fst a)) (cx_pids c) vals ->
    exists v', set_params pids shapes (combine (cx_pids c) vals) v = Ok v' /\ holds v' (after pids th c vals).
  Proof.
    intros v th c vals HC Hh HF. destruct (set_params_ok (cx_pids c) vals v (co_pids _ _ _ _ HC) (co_known _ _ _ _ HC) HF) as (v' & E & Hv). exists v'. split; [exact E|].
    intros nm sh Hin. rewrite Hv. unfold after. destruct (assoc nm (combine (map pname (cx_pids c)) vals)) as [[sh' a]|] eqn:EA.
    - cbn [snd]. exists a. split; auto. intros idx Hidx. assert (sh' = sh).
      { clear Hv E v'. revert EA. pose proof (co_known _ _ _ _ HC) as Hk. revert Hk. induction HF as [|i b ids vals Hb HF IH]; intros Hk EA; cbn [map combine assoc] in EA; [discriminate|].
        destruct (String.eqb_spec nm (pname i)) as [->|Ne].
        - injection EA as ->. cbn [fst] in Hb. destruct (pname_shape i (Hk i (or_introl eq_refl))) as (s2 & E2 & H2). rewrite Hb in E2. injection E2 as <-.
          assert (E3 : (pname i, sh') = (pname i, sh)) by (apply (nodup_inj _ _ fst shapes); auto; apply HP). congruence.
        - apply IH; auto. intros j Hj. apply Hk. right. auto. }
      subst sh'. rewrite (nth_fidx _ _ Hidx). auto.
    - apply Hh. auto.
  Qed.

  Definition upd_names (c : ctx) : list string := match cx_upd c with None => map fst shapes | Some l => l end.
  Definition ups_of (c : ctx) (th : pvals F) : list (string * nat * F) :=
    flat_map (fun s => if mem_str (fst s) (upd_names c) then map (fun i => (fst s, i, th (fst s) i)) (seq 0 (fsize (snd s))) else []) shapes.

  Lemma updates_ok : forall c v th, ctx_ok pids shapes us c -> holds v th -> updates shapes c v = Ok (ups_of c th).
  Proof.
    intros c v th HC Hh. unfold updates. fold (upd_names c).
    assert (E : forallb (fun nm => mem_str nm (map fst shapes)) (upd_names c) = true).
    { apply forallb_forall. intros nm Hnm. apply mem_str_In. unfold upd_names in Hnm. destruct (cx_upd c) as [l|] eqn:El; auto. apply (proj1 (co_upd _ _ _ _ HC l El)). auto. }
    rewrite E. clear E.
    assert (E : mapM (fun s => l <- field (mkUP (fst s) (snd s) PPlain) (v (fst s));; Ok (fst s, l)) shapes = Ok (map (fun s => (fst s, map (th (fst s)) (seq 0 (fsize (snd s))))) shapes)).
    { assert (G : forall l, incl l shapes -> mapM (fun s => l <- field (mkUP (fst s) (snd s) PPlain) (v (fst s));; Ok (fst s, l)) l = Ok (map (fun s => (fst s, map (th (fst s)) (seq 0 (fsize (snd s))))) l)).
      { induction l as [|[nm sh] l IH]; intro Hi; cbn [mapM map]; auto. cbn [fst snd]. destruct (Hh nm sh (Hi _ (or_introl eq_refl))) as (a & Ea & Ha). rewrite Ea.
        destruct (field_ok F (mkUP nm sh PPlain) a) as (l1 & E1 & H1).
        - exact I.
        - unfold up_red. cbn [up_attr up_shape]. apply (proj2 (proj2 (proj2 (proj2 HP))) (nm, sh)). apply Hi. left. auto.
        - unfold lone. unfold up_red. cbn [up_attr up_shape]. tauto.
        - rewrite E1. cbn [bind]. rewrite IH by (intros s Hs; apply Hi; right; auto). cbn [bind]. do 3 f_equal. unfold cvx_entries in H1. cbn [up_attr up_shape] in H1. destruct H1 as [L1 H1].
          apply nth_ext with (d := n0) (d' := th nm 0); [rewrite map_length, seq_length; auto|]. intros i Hlt. rewrite map_nth, seq_nth by lia. cbn [plus].
          rewrite L1 in Hlt. assert (Hidx : In i (map (fpos sh) (fidx sh))) by (rewrite map_fpos; apply in_seq; lia). apply in_map_iff in Hidx. destruct Hidx as (idx & Ei & Hidx).
          apply fidx_in in Hidx. subst i. rewrite (Ha idx Hidx). apply nth_error_nth. apply H1. auto. }
      apply G. intros s Hs. auto. }
    rewrite E. cbn [bind]. f_equal. unfold ups_of. clear. induction shapes as [|s l IH]; cbn [map flat_map]; auto. rewrite IH. f_equal. cbn [fst snd]. destruct (mem_str _ _); auto.
    rewrite map_length, seq_length. generalize 0. induction (fsize (snd s)) as [|n IHn]; intro a; cbn [seq map combine]; auto. rewrite IHn. reflexivity.
  Qed.

  (** The effect of the updates: every entry of every parameter is the current one. *)
  Lemma set_vals_ups : forall l (th : pvals F) nm i, set_vals th (map (fun e => (fst (fst e), snd (fst e), snd e)) l) nm i = fold_left (fun v e => if String.eqb nm (fst (fst e)) && Nat.eqb i (snd (fst e)) then snd e else v) l (th nm i).
  Proof.
    intros l. unfold set_vals. induction l as [|[[n1 i1] v1] l IH]; intros th nm i; cbn [map fold_left fst snd]; auto. rewrite IH. unfold set_val. reflexivity.
  Qed.
  Lemma set_vals_same : forall ups (th th' : pvals F) nm i, (forall n1 i1 v, In (n1, i1, v) ups -> v = th' n1 i1) ->
    (In (nm, i, th' nm i) ups \/ th nm i = th' nm i) -> set_vals th ups nm i = th' nm i.
  Proof.
    intros ups. unfold set_vals. induction ups as [|[[n1 i1] v1] ups IH]; intros th th' nm i Hv Hor; cbn [fold_left].
    - destruct Hor as [[]|H]; auto.
    - apply IH; [intros; apply Hv; right; auto|]. unfold set_val.
      destruct (String.eqb_spec nm n1) as [->|Ne]; cbn [andb].
      + destruct (Nat.eqb_spec i i1) as [->|Ni]; [right; apply Hv; left; auto|]. destruct Hor as [[E|H]|H]; auto. exfalso. apply Ni. congruence.
      + destruct Hor as [[E|H]|H]; auto. exfalso. apply Ne. congruence.
  Qed.
  Lemma in_ups : forall c (th : pvals F) nm i v, In (nm, i, v) (ups_of c th) <-> exists sh, In (nm, sh) shapes /\ In nm (upd_names c) /\ i < fsize sh /\ v = th nm i.
  Proof.
    intros c th nm i v. unfold ups_of. rewrite in_flat_map. split.
    - intros ([n1 sh] & Hs & H). cbn [fst snd] in H. destruct (mem_str n1 (upd_names c)) eqn:Em; [|destruct H]. apply in_map_iff in H. destruct H as (j & E & Hj). injection E as -> -> <-.
      apply in_seq in Hj. apply mem_str_In in Em. exists sh. repeat split; auto. lia.
    - intros (sh & Hs & Hu & Hi & ->). exists (nm, sh). split; auto. cbn [fst snd]. apply mem_str_In in Hu. rewrite Hu. apply in_map_iff. exists i. split; auto. apply in_seq. lia.
  Qed.
  Lemma set_after : forall c (th : pvals F) vals, ctx_ok pids shapes us c -> Forall2 (fun i a => assoc (pname i) shapes = Some (fst a)) (cx_pids c) vals ->
    forall nm i, set_vals th (ups_of c (after pids th c vals)) nm i = after pids th c vals nm i.
  Proof.
    intros c th vals HC HF nm i. apply set_vals_same.
    - intros n1 i1 v H. apply in_ups in H. destruct H as (_ & _ & _ & _ & E). exact E.
    - assert (HA : exists o, assoc nm (combine (map pname (cx_pids c)) vals) = o /\ after pids th c vals nm i = match o with Some (sh, a) => match nth_error (fidx sh) i with Some idx => a idx | None => th nm i end | None => th nm i end) by (eexists; split; reflexivity).
      destruct HA as ([[sh a]|] & EA & HA); [|right; auto].
      destruct (nth_error (fidx sh) i) as [idx|] eqn:EI; [|right; auto].
      left. apply in_ups.
      assert (Hk := co_known _ _ _ _ HC).
      assert (G : exists j, In j (cx_pids c) /\ nm = pname j /\ assoc (pname j) shapes = Some sh).
      { clear EI HA. revert Hk EA. clear HC. induction HF as [|j b ids vals Hb HF IH]; intros Hk EA; cbn [map combine assoc] in EA; [discriminate|].
        destruct (String.eqb_spec nm (pname j)) as [->|Ne]; [injection EA as ->; exists j; cbn; auto|]. destruct IH as (j' & H1 & H2); auto; [intros z Hz; apply Hk; right; auto|]. exists j'. cbn; auto. }
      destruct G as (j & Hj & -> & Ej). destruct (pname_shape j (Hk j Hj)) as (s2 & E2 & H2). rewrite Ej in E2. injection E2 as <-. exists sh. split; auto. split.
      + unfold upd_names. destruct (cx_upd c) as [l|] eqn:El; [apply (proj2 (co_upd _ _ _ _ HC l El)); apply in_map; auto|]. apply (in_map fst) in H2. auto.
      + split; auto. rewrite <- fidx_length. apply nth_error_Some. congruence.
  Qed.
End Proofs.

(** ** Sessions *)

Section Sim.
  Variable F : Fld.
  Variables (big : F) (x : cvx F) (g : genc F) (sqr : F -> res F) (eps half : F) (below above : F -> bool).
  Variable qfactor : csc F -> csc F -> res (list nat * list nat * list F * list F * list F).
  Variable qsolve : csc F -> list F -> list F -> res (list F).
  Variable scr : nat -> pid -> list F -> list F.
  Variables (pids : list (nat * string)) (shapes : list (string * list nat)) (red : list (nat * nat)) (us : list uvar) (ps : list pinfo).
  Variable ctxs : nat -> ctx.
  Variable cells : string -> nat -> F.
  Hypothesis HP : params_ok pids shapes.
  Hypothesis HV : vars_ok red us.
  Hypothesis HR : NoDup (map fst red).
  Hypothesis HI : NoDup (map uv_id us).
  Hypothesis HS : forall u, In u us -> uv_sym u = false.
  Hypothesis Hps : prim_info red us = Ok ps.
  Hypothesis Hn : x_n x = list_sum (map snd red).
  Hypothesis HC : forall k, ctx_ok pids shapes us (ctxs k).
  Notation pname := (pname pids).
  Notation py_run := (py_run F big x g sqr eps half below above qfactor qsolve scr).
  Notation lsteps := (lsteps F big x g sqr eps half below above qfactor qsolve scr pids shapes us ps ctxs cells).

  (** The calls as calls of cpg_solve and cpg_gradient. *)
  Fixpoint uops (th : pvals F) (own : nat -> option (pvals F * list F * list F)) (os : list (lop F)) : list (uop F) :=
    match os with
    | [] => []
    | LForward k vals sx sy :: t =>
        let th' := after pids th (ctxs k) vals in USolve (ups_of F shapes (ctxs k) th') sx sy :: uops th' (nset k (th', sx, sy) own) t
    | LBackward k dv :: t =>
        match own k with
        | Some (_, sx, sy) => UGrad (vg_of us (ctxs k) dv) (Some (sx, sy)) :: uops th own t
        | None => uops th own t
        end
    end.

  Notation vars_right := (vars_right (F := F) us ctxs red).
  Notation grads_right := (grads_right (F := F) pids shapes ctxs).
  Inductive outs_of : list (lexp F) -> list (list (string * (list nat -> F))) -> list (lout F) -> Prop :=
  | oo_nil : outs_of [] [] []
  | oo_vars : forall k sx es gs vs outs, vars_right k sx vs -> outs_of es gs outs -> outs_of (XVars k sx :: es) gs (OVars vs :: outs)
  | oo_grads : forall k tho sx sy th dv es pg gs l outs, grads_right k pg l -> outs_of es gs outs ->
      outs_of (XGrads k tho sx sy th dv :: es) (pg :: gs) (OGrads l :: outs).

  Lemma info_names : map pi_name ps = map uv_name us.
  Proof.
    pose proof Hps as H. unfold prim_info in H. apply mapM_Forall2 in H. clear -H. induction H as [|u p us' ps' Hu H IH]; cbn [map]; auto. rewrite IH. f_equal.
    destruct (key _) as [o|]; [|discriminate]. cbn [bind] in Hu. destruct (if uv_sym u then _ else _) as [idx|]; [|discriminate]. cbn [bind] in Hu. injection Hu as <-. auto.
  Qed.
  Lemma to_py_ext : forall (v1 v2 : string -> varr F) use, (forall u, In u us -> v1 (uv_name u) = v2 (uv_name u)) -> to_py ps (UGrad v1 use) = to_py ps (UGrad v2 use).
  Proof.
    intros v1 v2 use H.
    assert (H1 : forall p, In p ps -> v1 (pi_name p) = v2 (pi_name p)).
    { intros p Hp. apply (in_map pi_name) in Hp. rewrite info_names in Hp. apply in_map_iff in Hp. destruct Hp as (u & E & Hu). rewrite <- E. auto. }
    cbn [to_py]. rewrite (mapM_ext _ _ (vd_in v1) (vd_in v2)); [|intros p Hp; unfold vd_in; rewrite H1; auto].
    assert (E : vd_writes ps (vd_flat v1) = vd_writes ps (vd_flat v2)).
    { unfold vd_writes. clear -H1. induction ps as [|p l IH]; cbn [flat_map]; auto. rewrite IH by (intros; apply H1; right; auto). f_equal. unfold vd_write, vd_flat. rewrite (H1 p (or_introl eq_refl)). auto. }
    rewrite E. reflexivity.
  Qed.

  Lemma total_sum : forall l, total l = list_sum (map snd l).
  Proof. induction l as [|e l IH]; cbn; auto. Qed.

  (** cpg_solve produces no gradient, cpg_gradient one. *)
  Notation csteps := (csteps F (x_n x) (x_n x + (x_neq x + x_nineq x)) sqr eps half below above qfactor qsolve g scr (x_neq x)
    (pr_ip (proc big x OSQP pP)) (pr_idx (proc big x OSQP pP)) (pr_ip (proc big x OSQP pA)) (pr_idx (proc big x OSQP pA))).
  Lemma silent : forall os s s1 o, Forall (fun c : cop F => c <> CGrad) os -> csteps s os = Ok (s1, o) -> o = [].
  Proof.
    induction os as [|c os IH]; intros s s1 o HF E; cbn [GradSession.csteps] in E; [injection E as _ <-; auto|]. apply Forall_cons_iff in HF. destruct HF as [H1 H2].
    destruct (cstep _ _ _ _ _ _ _ _ _ _ _ _ _ _ _ _ _ s c) as [[s2 o2]|] eqn:E2; [|discriminate]. cbn [bind] in E. destruct (csteps s2 os) as [[s3 o3]|] eqn:E3; [|discriminate]. cbn [bind] in E.
    injection E as <- <-. rewrite (IH _ _ _ H2 E3), app_nil_r. destruct c; cbn [cstep] in E2; try congruence.
    - destruct (do_update _ _ _ _ _); [|discriminate]. cbn [bind] in E2. congruence.
    - destruct (do_solve _ _ _); [|discriminate]. cbn [bind] in E2. congruence.
    - destruct (update_d _ _ _ _ _); [|discriminate]. cbn [bind] in E2. congruence.
  Qed.
  Lemma solve_outs : forall s ups sx sy s1 o, py_run s [PSolve ups sx sy] = Ok (s1, o) -> o = [].
  Proof.
    intros s ups sx sy s1 o E. unfold Layer.py_run, pysteps in E. cbn [flat_map py_ops] in E. rewrite app_nil_r in E. apply silent in E; auto.
    apply Forall_app. split; [apply Forall_map; apply Forall_forall; intros [[nm i] v] _; discriminate|]. repeat constructor; discriminate.
  Qed.
  Lemma grad_outs : forall s ds use s1 o, py_run s [PGrad ds use] = Ok (s1, o) -> exists dp, o = [dp].
  Proof.
    intros s ds use s1 o E. unfold Layer.py_run, pysteps in E. cbn [flat_map py_ops] in E. rewrite app_nil_r, app_assoc in E. rewrite csteps_app in E.
    match type of E with context [csteps s ?a] => destruct (csteps s a) as [[s2 o2]|] eqn:E2; [|discriminate] end. cbn [bind] in E. apply silent in E2.
    - subst o2. cbn [GradSession.csteps cstep] in E. destruct (gradient _ _ _ _ _ _ _ _ _ _ _ _ _ _ _ _) as [[dp g']|]; [|discriminate]. cbn [bind app] in E. injection E as _ <-. eauto.
    - apply Forall_app. split; [destruct use as [[a b]|]; repeat constructor; discriminate|]. apply Forall_map. apply Forall_forall. intros [k v] _. discriminate.
  Qed.
  Lemma py_run_cons : forall s o os s' r, py_run s (o :: os) = Ok (s', r) -> exists s1 r1 r2, py_run s [o] = Ok (s1, r1) /\ py_run s1 os = Ok (s', r2) /\ r = r1 ++ r2.
  Proof.
    intros s o os s' r E. unfold Layer.py_run in *. change (o :: os) with ([o] ++ os) in E. rewrite pysteps_app in E.
    destruct (pysteps _ _ _ _ _ _ _ _ _ _ _ _ _ _ _ _ _ s [o]) as [[s1 r1]|]; [|discriminate]. cbn [bind] in E.
    destruct (pysteps _ _ _ _ _ _ _ _ _ _ _ _ _ _ _ _ _ s1 os) as [[s2 r2]|] eqn:E2; [|discriminate]. cbn [bind] in E. injection E as <- <-. exists s1, r1, r2. auto.
  Qed.

  Lemma grad_out_names : forall ps0 (dp : list F) pg, grad_out ps0 shapes dp = Ok pg -> map fst pg = map fst shapes.
  Proof.
    intros ps0 dp pg E. unfold grad_out in E. destruct (pdelta _ _) as [pd|]; [|discriminate]. cbn [bind] in E. apply mapM_Forall2 in E. clear -E.
    induction E as [|s r l l' Hr E IH]; cbn [map]; auto. rewrite IH. f_equal. destruct (assoc _ _); [|discriminate]. cbn [bind] in Hr. destruct (reshapeF _ _ _); [|discriminate]. cbn [bind] in Hr. injection Hr as <-. auto.
  Qed.

  Lemma vars_out : forall k (sx : list F), length sx = x_n x -> exists rs vs,
    primal_results n0 OSQP ps (mkRS cells (fun nm => if String.eqb nm "x" then sx else [])) = Ok rs
    /\ mapM (fun i => u <- var_by_id us i;; key (assoc (uv_name u) rs)) (cx_vars (ctxs k)) = Ok vs /\ vars_right k sx vs.
  Proof.
    intros k sx Hl. assert (Hl2 : length sx = total red) by (rewrite total_sum, <- Hn; auto).
    destruct (RetrieveProofs.primal_ok F n0 OSQP red us (fun i => cut red i sx) HV (cut_length F red sx HR Hl2) (mkRS cells (fun nm => if String.eqb nm "x" then sx else []))) as (ps' & rs & E1 & E2 & HF).
    { cbn [r_vecs String.eqb]. symmetry. apply cut_concat; auto. }
    rewrite Hps in E1. injection E1 as <-. exists rs.
    destruct (mapM_ok _ _ (fun i => u <- var_by_id us i;; key (assoc (uv_name u) rs))
      (fun i a => exists u, In u us /\ uv_id u = i /\ forall idx, in_shape (uv_shape u) idx -> a idx = nth (fpos (uv_shape u) idx) (cut red i sx) n0) (cx_vars (ctxs k))) as (vs & Ev & Hv); [|exists vs; auto].
    intros i Hi. destruct (var_known us HI i (co_known_vars _ _ _ _ (HC k) i Hi)) as (u & Hu & Ei & E). rewrite E. cbn [bind].
    assert (HN := vo_names _ _ HV). clear -HN HF Hu Ei HS. 
    assert (G : exists a, assoc (uv_name u) rs = Some a /\ var_value n0 u (cut red (uv_id u) sx) a).
    { revert HS. induction HF as [|w [nm a] us' rs [E1 E2] HF IH]; intro HS; [destruct Hu|]. cbn [fst snd] in *. subst nm. cbn [map assoc] in *. apply NoDup_cons_iff in HN. destruct HN as [N1 N2].
      destruct (String.eqb_spec (uv_name u) (uv_name w)) as [E|E].
      - destruct Hu as [->|Hu]; [eauto|]. exfalso. apply N1. rewrite <- E. apply in_map. auto.
      - destruct Hu as [->|Hu]; [congruence|]. apply IH; auto. intros; apply HS; right; auto. }
    destruct G as (a & Ea & Ha). rewrite Ea. cbn [key]. exists a. split; auto. exists u. split; auto. split; auto. unfold var_value in Ha. rewrite (HS u Hu) in Ha. subst i. exact Ha.
  Qed.

  Lemma grads_outs : forall k dp pg, grad_out (x_params x) shapes dp = Ok pg ->
    exists l, mapM (fun i => nm <- key (lookup i pids);; key (assoc nm pg)) (cx_pids (ctxs k)) = Ok l /\ grads_right k pg l.
  Proof.
    intros k dp pg E. apply mapM_ok. intros i Hi. assert (Hk := co_known _ _ _ _ (HC k) i Hi). destruct (pname_known pids i Hk) as [E1 H1]. rewrite E1. cbn [key bind].
    destruct (pname_shape pids shapes HP i Hk) as (sh & _ & Hsh). assert (Hin : In (pname i) (map fst pg)) by (rewrite (grad_out_names _ _ _ E); apply (in_map fst) in Hsh; auto).
    assert (G : exists a, assoc (pname i) pg = Some a).
    { clear -Hin. induction pg as [|[nm a] pg IH]; [destruct Hin|]. cbn [assoc]. destruct (String.eqb_spec (pname i) nm); eauto. destruct Hin as [E|Hin]; [cbn [fst] in E; congruence|]. auto. }
    destruct G as (a & Ea). rewrite Ea. cbn [key]. exists a. split; auto. exists (pname i), sh. split; auto. split; auto. intros idx _. unfold stored. rewrite Ea. auto.
  Qed.

  Lemma grads_in : forall k (dv : list (varr F)) v0, length (cx_vars (ctxs k)) = length dv -> exists v l,
    set_grads us (combine (cx_vars (ctxs k)) dv) v0 = Ok v /\ read_grads us v = Ok l
    /\ forall u, In u us -> match assoc (uv_name u) l with Some a => a | None => ([], fun _ => n0) end = vg_of us (ctxs k) dv (uv_name u).
  Proof.
    intros k dv v0 Hl. assert (HN := vo_names _ _ HV).
    destruct (set_grads_ok F us HN HI (cx_vars (ctxs k)) dv v0 (co_vars _ _ _ _ (HC k)) (co_known_vars _ _ _ _ (HC k)) Hl) as (v & E & Hv). exists v.
    assert (Hlk : forall u, In u us -> exists a, lookup (uv_id u) (combine (cx_vars (ctxs k)) dv) = Some a).
    { intros u Hu. destruct (lookup_some _ (uv_id u) (combine (cx_vars (ctxs k)) dv)) as (a & E1 & _); [|eauto]. rewrite combine_fst by auto. apply (co_all _ _ _ _ (HC k)). apply in_map. auto. }
    assert (G : forall l, incl l us -> exists r, mapM (fun u => match v (uv_name u) with Some a => Ok (uv_name u, a) | None => Err (if Nat.eqb (fsize (uv_shape u)) 1 then TypeError else AttributeError) end) l = Ok r
      /\ forall u, In u l -> In (uv_name u) (map fst r) /\ forall a, In (uv_name u, a) r -> lookup (uv_id u) (combine (cx_vars (ctxs k)) dv) = Some a).
    { induction l as [|u l IH]; intro Hi; cbn [mapM]; [exists []; split; auto; intros u []|]. destruct IH as (r & Er & Hr); [intros w Hw; apply Hi; right; auto|].
      assert (Hu := Hi u (or_introl eq_refl)). destruct (Hlk u Hu) as (a & Ea). rewrite (Hv u Hu), Ea. cbn [bind]. rewrite Er. cbn [bind]. eexists. split; [reflexivity|].
      intros w [<-|Hw].
      - split; [left; auto|]. intros b [Eb|Hb]; [congruence|].
        destruct (mapM_Forall2 _ _ (fun u => match v (uv_name u) with Some a => Ok (uv_name u, a) | None => Err (if Nat.eqb (fsize (uv_shape u)) 1 then TypeError else AttributeError) end) l r) as [M _].
        specialize (M Er). clear -M Hb Hv Ea Hu. assert (Hw : v (uv_name u) = Some b).
        { induction M as [|w p l r Hp M IH]; [destruct Hb|]. destruct Hb as [->|Hb]; [|auto]. destruct (v (uv_name w)) eqn:Ew; [|discriminate]. injection Hp as E1 E2. congruence. }
        rewrite (Hv u Hu), Ea in Hw. congruence.
      - destruct (Hr w Hw) as [H1 H2]. split; [right; auto|]. intros b [Eb|Hb]; [|auto]. injection Eb as E1 <-.
        assert (u = w) by (apply (nodup_inj _ _ uv_name us); auto; apply Hi; right; auto). subst w. exact Ea. }
    destruct (G us (fun u Hu => Hu)) as (r & Er & Hr). exists r. split; auto. split; [exact Er|]. intros u Hu. destruct (Hr u Hu) as [H1 H2].
    assert (Ea : exists a, assoc (uv_name u) r = Some a /\ In (uv_name u, a) r).
    { clear -H1. induction r as [|[nm a] r IH]; [destruct H1|]. cbn [assoc]. destruct (String.eqb_spec (uv_name u) nm) as [->|E]; [exists a; cbn; auto|]. destruct H1 as [H1|H1]; [cbn [fst] in H1; congruence|].
      destruct (IH H1) as (b & E1 & E2). exists b. cbn. auto. }
    destruct Ea as (a & Ea & Hin). rewrite Ea. apply H2 in Hin. unfold vg_of.
    rewrite (find_first _ _ us u Hu (String.eqb_refl _)); [rewrite Hin; auto|]. intros b Hb Eb. apply String.eqb_eq in Eb. apply (nodup_inj _ _ uv_name us); auto.
  Qed.

  Lemma sim : forall os th own done s p s' pos dps gs,
    holds F shapes (o_val p) th -> (forall k t sx sy, own k = Some (t, sx, sy) -> o_info p k = Some (sx, sy)) ->
    ordered done os -> (forall k, In k done -> own k <> None) -> Forall (lop_ok F pids shapes us ctxs x g below) os ->
    mapM (to_py ps) (uops th own os) = Ok pos -> py_run s pos = Ok (s', dps) -> mapM (grad_out (x_params x) shapes) dps = Ok gs ->
    exists p' outs, lsteps s p os = Ok (s', p', outs) /\ outs_of (lexpect pids ctxs th own os) gs outs.
  Proof.
    induction os as [|o os IH]; intros th own done s p s' pos dps gs Hh Hinf Hord Hown HO Epos Erun Egs.
    - cbn in Epos. injection Epos as <-. cbn in Erun. injection Erun as <- <-. cbn in Egs. injection Egs as <-. exists p, []. split; [reflexivity|constructor].
    - apply Forall_cons_iff in HO. destruct HO as [Ho HO]. destruct o as [k vals sx sy|k dv]; cbn [uops lexpect ordered] in *.
      + destruct Ho as [HF HV2]. destruct (holds_after F pids shapes us HP (o_val p) th (ctxs k) vals (HC k) Hh HF) as (v' & Ev & Hv').
        cbn [mapM to_py bind] in Epos. destruct (mapM (to_py ps) _) as [pos'|] eqn:Epos'; [|discriminate]. cbn [bind] in Epos. injection Epos as <-.
        apply py_run_cons in Erun. destruct Erun as (s1 & r1 & r2 & E1 & E2 & ->). pose proof (solve_outs _ _ _ _ _ _ E1). subst r1. cbn [app] in Egs.
        destruct HV2 as [_ (Lx & _)]. destruct (vars_out k sx Lx) as (rs & vs & Ers & Evs & Hvs).
        set (p1 := mkP v' (o_grad p) (nset k (sx, sy) (o_info p))).
        destruct (IH (after pids th (ctxs k) vals) (nset k (after pids th (ctxs k) vals, sx, sy) own) (k :: done) s1 p1 s' pos' r2 gs) as (p2 & outs & El & Hout); auto.
        { intros k' t sx' sy'. unfold p1. cbn [o_info]. unfold nset. destruct (Nat.eqb k' k); [congruence|apply Hinf]. }
        { intros k' Hk'. unfold nset. destruct (Nat.eqb_spec k' k) as [->|Ne]; [discriminate|]. apply Hown. destruct Hk'; congruence. }
        exists p2, (OVars vs :: outs). split; [|constructor; auto].
        cbn [Layer.lsteps lstep]. unfold forward. rewrite Ev. cbn [bind]. rewrite (updates_ok F pids shapes us HP (ctxs k) v' _ (HC k) Hv'). cbn [bind].
        rewrite E1. cbn [bind]. rewrite Ers. cbn [bind]. rewrite Evs. cbn [bind]. fold p1. rewrite El. cbn [bind]. reflexivity.
      + destruct Hord as [Hk Hord]. destruct (own k) as [[[tho sx] sy]|] eqn:Eown; [|exfalso; apply (Hown k Hk Eown)].
        cbn [mapM] in Epos. destruct (to_py ps (UGrad _ _)) as [pop|] eqn:Epop; [|discriminate]. cbn [bind] in Epos. destruct (mapM (to_py ps) _) as [pos'|] eqn:Epos'; [|discriminate]. cbn [bind] in Epos. injection Epos as <-.
        apply py_run_cons in Erun. destruct Erun as (s1 & r1 & r2 & E1 & E2 & ->).
        assert (Hdp : exists dp, r1 = [dp]).
        { pose proof Epop as H. cbn [to_py] in H. destruct (mapM _ ps); [|discriminate]. cbn [bind] in H. injection H as <-. apply (grad_outs _ _ _ _ _ E1). }
        destruct Hdp as (dp & ->). cbn [app mapM] in Egs. destruct (grad_out (x_params x) shapes dp) as [pg|] eqn:Epg; [|discriminate]. cbn [bind] in Egs.
        destruct (mapM (grad_out (x_params x) shapes) r2) as [gs'|] eqn:Egs'; [|discriminate]. cbn [bind] in Egs. injection Egs as <-.
        destruct (grads_in k dv (o_grad p) (Forall2_len _ _ _ _ _ Ho)) as (v & l & Ev & El & Hvg).
        destruct (grads_outs k dp pg Epg) as (outs1 & Eo1 & Ho1).
        destruct (IH th own done s1 (mkP (o_val p) v (o_info p)) s' pos' r2 gs') as (p2 & outs & Els & Hout); auto.
        exists p2, (OGrads outs1 :: outs). split; [|constructor; auto].
        cbn [Layer.lsteps lstep]. unfold backward. rewrite (Hinf _ _ _ _ Eown). rewrite Ev. cbn [bind]. rewrite El. cbn [bind].
        rewrite (to_py_ext _ (vg_of us (ctxs k) dv) (Some (sx, sy)) Hvg), Epop. cbn [bind]. rewrite E1. cbn [bind]. rewrite Epg. cbn [bind]. rewrite Eo1. cbn [bind]. rewrite Els. cbn [bind]. reflexivity.
  Qed.
End Sim.
