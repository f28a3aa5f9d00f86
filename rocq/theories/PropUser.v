(** Property C60: the gradient arrays stored on the user's parameters. *)

From Coq Require Import String Arith Bool ZArith Lia List Sorted Permutation QArith Qcanon Field Reals Lra.
From Verif Require Import Base Pus Machine PusCheck Runtime RuntimeSpec RuntimeProofs RuntimeMore Canon CanonSpec CanonProofs CanonMain CanonGen CanonProblem CanonMore.
From Verif Require Import Retrieve RetrieveProofs Explicit Examples Sparse SparseProofs Ldl LdlRank1 LdlProofs GradSpec LdlMain FactorProofs Gradient GradKkt Qdldl GradSolve GradKktSolve GradMain GradCall GradSession GradSessionProofs GradGen GradVars GradTotal PropExplicit PropFactor PropGrad PropTotal GradSens GradDeriv PropSens GradUser.
Import ListNotations.
Open Scope string_scope.
Open Scope list_scope.
Local Open Scope nat_scope.

(** Every parameter has as many entries in the parameter vector as its shape says. *)
Definition full_params (ps : list (string * nat)) (shapes : list (string * list nat)) : Prop :=
  Forall2 (fun p s => fst s = fst p /\ fsize (snd s) = snd p) ps shapes.
(** param_dict[nm].gradient at a multi-index (0 if nothing is stored under the name). *)
Definition stored {F : Fld} (g : list (string * (list nat -> F))) (nm : string) (idx : list nat) : F :=
  match assoc nm g with Some a => a idx | None => n0 end.
(** Sum over all parameters and their multi-indices of gradient times direction. *)
Definition param_pairing {F : Fld} (shapes : list (string * list nat)) (g : list (string * (list nat -> F))) (dth : pvals F) : F :=
  rsum (map (fun s => rsum (map (fun idx => nmul (stored g (fst s) idx) (dth (fst s) (fpos (snd s) idx))) (fidx (snd s)))) shapes).
(** Sum over all variables and their multi-indices of derivative times value; [blk i]: value of the
    variable with id i, flattened in column-major order. *)
Definition var_pairing {F : Fld} (us : list uvar) (vg : string -> varr F) (blk : nat -> list F) : F :=
  rsum (map (fun u => rsum (map (fun idx => nmul (snd (vg (uv_name u)) idx) (nth (fpos (uv_shape u) idx) (blk (uv_id u)) n0)) (fidx (uv_shape u)))) us).

Section Out.
  Variable F : Fld.
  Add Field Fusr : (fth F).

  Lemma mapM_read : forall (dp : list F) c n s, c + s + n <= length dp ->
    mapM (fun i => match nth_error dp (c + i) with Some v => Ok v | None => Err OutOfBounds end) (seq s n) = Ok (map (fun i => nth (c + i) dp n0) (seq s n)).
  Proof.
    intros dp c n. induction n as [|n IH]; intros s H; cbn [seq mapM map]; auto.
    rewrite (nth_error_nth' dp n0) by lia. cbn [bind]. rewrite IH by lia. reflexivity.
  Qed.

  Definition col (ps : list (string * nat)) (nm : string) : nat := match find_col nm (col_to_name 0 ps) with Some c => c | None => 0 end.
  Definition entries (ps : list (string * nat)) (dp : list F) (p : string * nat) : list F := map (fun i => nth (col ps (fst p) + i) dp n0) (seq 0 (snd p)).

  Lemma col_sizes : forall ps k nm sz, NoDup (map fst ps) -> nth_error ps k = Some (nm, sz) -> find_col nm (col_to_name 0 ps) = Some (col ps nm) /\ col ps nm = sizes_before ps k.
  Proof. intros ps k nm sz HN Hk. unfold col. rewrite (find_col_nth ps k nm sz 0 HN Hk). auto. Qed.
  Lemma sizes_total : forall ps, sizes_before ps (length ps) = list_sum (map snd ps).
  Proof. induction ps as [|[nm s] ps IH]; cbn; auto. Qed.
  Lemma col_bound : forall ps k nm sz, NoDup (map fst ps) -> nth_error ps k = Some (nm, sz) -> col ps nm + sz <= list_sum (map snd ps).
  Proof.
    intros ps k nm sz HN Hk. destruct (col_sizes ps k nm sz HN Hk) as [_ ->]. pose proof (sizes_before_step ps k nm sz Hk).
    assert (Hlt : S k <= length ps) by (apply nth_error_Some; congruence). pose proof (sizes_before_mono ps (S k) (length ps) Hlt). rewrite sizes_total in *. lia.
  Qed.

  Lemma pdelta_ok : forall ps (dp : list F), NoDup (map fst ps) -> list_sum (map snd ps) <= length dp ->
    pdelta ps dp = Ok (map (fun p => (fst p, entries ps dp p)) ps).
  Proof.
    intros ps dp HN HL. unfold pdelta. assert (G : forall l, incl l ps -> mapM (delta_field ps dp) l = Ok (map (fun p => (fst p, entries ps dp p)) l)).
    { induction l as [|[nm sz] l IH]; intro Hi; cbn [mapM map]; auto. assert (Hin : In (nm, sz) ps) by (apply Hi; left; auto).
      apply In_nth_error in Hin. destruct Hin as (k & Hk). destruct (col_sizes ps k nm sz HN Hk) as [E _]. pose proof (col_bound ps k nm sz HN Hk).
      unfold delta_field at 1. cbn [fst snd]. rewrite E. rewrite mapM_read by lia. cbn [bind]. rewrite IH by (intros a Ha; apply Hi; right; auto). reflexivity. }
    apply G. intros a Ha. auto.
  Qed.
  Lemma assoc_entries : forall ps0 ps (dp : list F) nm sz, NoDup (map fst ps) -> In (nm, sz) ps ->
    assoc nm (map (fun p => (fst p, entries ps0 dp p)) ps) = Some (entries ps0 dp (nm, sz)).
  Proof.
    intros ps0 ps dp nm sz. induction ps as [|[n2 s2] ps IH]; intros HN Hin; [destruct Hin|]. cbn [map assoc fst] in *. apply NoDup_cons_iff in HN. destruct HN as [HN1 HN2].
    destruct (String.eqb_spec nm n2) as [->|E].
    - destruct Hin as [E|Hin]; [injection E as ->; auto|]. exfalso. apply HN1. apply (in_map fst) in Hin. auto.
    - destruct Hin as [E1|Hin]; [congruence|]. apply IH; auto.
  Qed.

  (** Shapes as they should be: every parameter receives its entries. *)
  Lemma grad_out_ok : forall ps shapes (dp : list F), NoDup (map fst ps) -> list_sum (map snd ps) <= length dp -> full_params ps shapes ->
    exists g, grad_out ps shapes dp = Ok g /\ map fst g = map fst ps
      /\ forall nm sh idx, In (nm, sh) shapes -> in_shape sh idx -> stored g nm idx = nth (col ps nm + fpos sh idx) dp n0.
  Proof.
    intros ps shapes dp HN HL HP. unfold grad_out. rewrite pdelta_ok by auto. cbn [bind].
    set (pd := map (fun p => (fst p, entries ps dp p)) ps).
    assert (HE : forall p, In p ps -> assoc (fst p) pd = Some (entries ps dp p)) by (intros [nm sz] Hp; apply assoc_entries; auto).
    assert (G : forall l sh, (forall p, In p l -> In p ps) -> NoDup (map fst l) -> full_params l sh ->
      exists g, mapM (fun s => match assoc (fst s) pd with Some l => a <- reshapeF n0 (snd s) l;; Ok (fst s, a) | None => Err AttributeError end) sh = Ok g
        /\ map fst g = map fst l /\ forall nm s idx, In (nm, s) sh -> in_shape s idx -> stored g nm idx = nth (col ps nm + fpos s idx) dp n0).
    { intros l sh Hin HN' HF. induction HF as [|[nm sz] [nm' s] l sh [E1 E2] HF IH]; cbn [fst snd] in *.
      - exists []. repeat split. intros nm s idx [].
      - subst nm' sz. cbn [map fst] in HN'. apply NoDup_cons_iff in HN'. destruct HN' as [HN1 HN2].
        destruct IH as (g & E & Eg & Hg); [intros p Hp; apply Hin; right; auto|auto|]. cbn [mapM fst]. pose proof (HE _ (Hin _ (or_introl eq_refl))) as HE0. cbn [fst] in HE0. rewrite HE0.
        unfold reshapeF at 1. unfold entries at 1. rewrite map_length, seq_length. cbn [snd fst]. rewrite Nat.eqb_refl. cbn [bind]. rewrite E. cbn [bind].
        eexists. split; [reflexivity|]. cbn [map fst]. split; [f_equal; exact Eg|]. intros nm2 s2 idx H Hidx. unfold stored. cbn [assoc].
        destruct (String.eqb_spec nm2 nm) as [->|Ne].
        + destruct H as [H|H].
          * injection H as <-. pose proof (fpos_lt _ _ Hidx) as Hlt. unfold entries. cbn [fst snd]. rewrite nth_indep with (d' := nth (col ps nm + 0) dp n0) by (rewrite map_length, seq_length; auto).
            rewrite (map_nth (fun i => nth (col ps nm + i) dp n0)). rewrite seq_nth by auto. reflexivity.
          * exfalso. apply HN1. replace (map fst l) with (map fst sh). { apply (in_map fst) in H. exact H. }
            clear -HF. induction HF as [|p q l sh [E _] HF IH]; cbn [map]; auto. rewrite E, IH. auto.
        + destruct H as [H|H]; [congruence|]. apply Hg; auto. }
    apply G; auto.
  Qed.

  (** The array cpg_dp against a direction. *)
  Lemma dir_split : forall ps (dp : list F) dth o (c : string -> nat), (forall k nm sz, nth_error ps k = Some (nm, sz) -> c nm = o + sizes_before ps k) ->
    rsum (map (fun k => nmul (nth (o + k) dp n0) (nth k (dir F ps dth) n0)) (seq 0 (length (dir F ps dth))))
    = rsum (map (fun p => rsum (map (fun i => nmul (nth (c (fst p) + i) dp n0) (dth (fst p) i)) (seq 0 (snd p)))) ps).
  Proof.
    intros ps dp dth. induction ps as [|[nm sz] ps IH]; intros o c Hc.
    - cbn. unfold rsum. cbn. ring.
    - unfold dir. cbn [flat_map fst snd]. rewrite <- app_assoc, app_length, map_length, seq_length.
      change (flat_map (fun ns => map (dth (fst ns)) (seq 0 (snd ns))) ps ++ [n0]) with (dir F ps dth).
      rewrite seq_app, map_app, rsum_app. cbn [map fst snd]. change (rsum (?a :: ?l)) with (nadd a (rsum l)). f_equal.
      + apply rsum_ext. intros i Hi. apply in_seq in Hi. rewrite app_nth1 by (rewrite map_length, seq_length; lia). rewrite (Hc 0 nm sz eq_refl). cbn [sizes_before].
        f_equal; [f_equal; lia|]. rewrite nth_indep with (d' := dth nm 0) by (rewrite map_length, seq_length; lia). rewrite (map_nth (dth nm)). rewrite seq_nth by lia. reflexivity.
      + etransitivity; [|apply (IH (o + sz) c)].
        * replace (seq (0 + sz) (length (dir F ps dth))) with (map (fun i => i + sz) (seq 0 (length (dir F ps dth)))) by (rewrite seq_shift'; reflexivity).
          rewrite map_map. apply rsum_ext. intros k Hk. apply in_seq in Hk. rewrite app_nth2 by (rewrite map_length, seq_length; lia). rewrite map_length, seq_length.
          f_equal; f_equal; lia.
        * intros k nm2 sz2 Hk. rewrite (Hc (S k) nm2 sz2 Hk). cbn [sizes_before]. lia.
  Qed.

  Lemma pairing_ok : forall ps shapes (dp : list F) g dth, NoDup (map fst ps) -> full_params ps shapes -> length dp = length (dir F ps dth) ->
    grad_out ps shapes dp = Ok g -> ip (length dp) dp (dir F ps dth) = param_pairing shapes g dth.
  Proof.
    intros ps shapes dp g dth HN HP HL Hg.
    assert (HS : list_sum (map snd ps) <= length dp).
    { rewrite HL. unfold dir. rewrite app_length. clear. induction ps as [|[nm s] ps IH]; cbn [flat_map map list_sum fold_right snd fst app]; [lia|]. rewrite app_length, map_length, seq_length. unfold list_sum in *. lia. }
    destruct (grad_out_ok ps shapes dp HN HS HP) as (g' & E & _ & H). rewrite Hg in E. injection E as <-.
    unfold ip. rewrite HL. etransitivity; [apply (dir_split ps dp dth 0 (col ps)); intros k nm sz Hk; apply (col_sizes ps k nm sz HN Hk)|].
    unfold param_pairing. clear -HP H. revert H. generalize (col ps) as c. intros c H. induction HP as [|[nm sz] [nm' s] ps' shapes [E1 E2] HP IH]; cbn [map fst snd] in *; auto. subst.
    change (rsum (?a :: ?l)) with (nadd a (rsum l)). f_equal; [|apply IH; intros; apply H; [right|]; auto].
    rewrite <- map_fpos, map_map. apply rsum_ext. intros idx Hidx. f_equal. symmetry. apply H; [left; auto|]. apply fidx_in. auto.
  Qed.

  (** The derivatives written for the variables. *)
  Lemma var_pairing_ok : forall red us ps (blk : nat -> list F) (vg : string -> varr F) x,
    vars_ok red us -> NoDup (map fst red) -> NoDup (map uv_id us) -> (forall u, In u us -> uv_sym u = false) ->
    (forall i z, In (i, z) red -> length (blk i) = z) -> x = concat (map (fun e => blk (fst e)) red) ->
    prim_info red us = Ok ps -> (forall u, In u us -> fst (vg (uv_name u)) = uv_shape u) ->
    ip (length x) (writes (length x) (vd_writes ps (vd_flat vg))) x = var_pairing us vg blk.
  Proof.
    intros red us ps blk vg x HV HR HU HS HB Hx Hp Hsh. rewrite (proj2 (dx_adjoint F red us ps blk (vd_flat vg) x HV HR HU HS HB Hx Hp)).
    unfold var_pairing. f_equal. apply map_ext_in. intros u Hu. rewrite <- map_fpos, map_map. apply rsum_ext. intros idx Hidx. apply fidx_in in Hidx. f_equal.
    unfold vd_flat. rewrite (Hsh u Hu). unfold flattenF. pose proof (nth_fidx _ _ Hidx) as Hn. apply nth_error_nth. rewrite nth_error_map, Hn. reflexivity.
  Qed.
End Out.

(** The gradient calls of a history: parameter values, solution and derivatives that the user expects
    each of them to refer to. *)
Fixpoint calls {F : Fld} (th : pvals F) (sx sy : list F) (os : list (uop F)) : list (pvals F * list F * list F * (string -> varr F)) :=
  match os with
  | [] => []
  | USolve ups sx' sy' :: t => calls (set_vals th ups) sx' sy' t
  | UGrad vg None :: t => (th, sx, sy, vg) :: calls th sx sy t
  | UGrad vg (Some (sx', sy')) :: t => (th, sx', sy', vg) :: calls th sx' sy' t
  end.
(** Supported calls; gradients have the shapes of their variables. *)
Definition user_ok (F : Fld) (x : cvx F) (g : genc F) (below : F -> bool) (us : list uvar) (o : uop F) : Prop :=
  match o with
  | USolve ups sx sy => py_ok F x g below (PSolve ups sx sy)
  | UGrad vg use => (forall u, In u us -> fst (vg (uv_name u)) = uv_shape u) /\ py_ok F x g below (PGrad [] use)
  end.

Section In.
  Variable F : Fld.
  Variables (x : cvx F) (g : genc F) (below : F -> bool) (red : list (nat * nat)) (us : list uvar) (ps : list pinfo).
  Hypothesis HV : vars_ok red us.
  Hypothesis HR : NoDup (map fst red).
  Hypothesis HU : NoDup (map uv_id us).
  Hypothesis HS : forall u, In u us -> uv_sym u = false.
  Hypothesis Hp : prim_info red us = Ok ps.
  Hypothesis Hn : x_n x = list_sum (map snd red).

  Lemma in_ok : forall vg, (forall u, In u us -> fst (vg (uv_name u)) = uv_shape u) -> exists ts, mapM (vd_in (F := F) vg) ps = Ok ts.
  Proof.
    intros vg Hsh. pose proof Hp as H. unfold prim_info in H. apply mapM_Forall2 in H. clear HV HU HS Hp. revert Hsh. induction H as [|u p us' ps' Hu H IH]; intro Hsh; cbn [mapM]; eauto.
    destruct IH as (ts & E); [intros u' Hu'; apply Hsh; right; auto|].
    assert (EP : pi_name p = uv_name u /\ pi_size p = fsize (uv_shape u)).
    { destruct (key _) as [o|]; [|discriminate]. cbn [bind] in Hu. destruct (if uv_sym u then _ else _) as [idx|]; [|discriminate]. cbn [bind] in Hu. injection Hu as <-. auto. }
    destruct EP as [E1 E2]. unfold vd_in at 1. rewrite E1, E2, (Hsh u (or_introl eq_refl)), Nat.eqb_refl. cbn [bind]. rewrite E. cbn [bind]. eauto.
  Qed.

  Definition zblk (i : nat) : list F := match lookup i red with Some z => repeat n0 z | None => [] end.
  Lemma lookup_nodup : forall i z, In (i, z) red -> lookup i red = Some z.
  Proof.
    clear -HR. induction red as [|[j w] l IH]; intros i z Hin; [destruct Hin|]. cbn [lookup]. cbn [map fst] in HR. apply NoDup_cons_iff in HR. destruct HR as [H1 H2].
    destruct (Nat.eqb_spec i j) as [->|Ne].
    - destruct Hin as [E|Hin]; [congruence|]. exfalso. apply H1. apply (in_map fst) in Hin. auto.
    - destruct Hin as [E|Hin]; [congruence|]. apply IH; auto.
  Qed.
  Lemma blocks_length : forall blk : nat -> list F, (forall i z, In (i, z) red -> length (blk i) = z) -> length (concat (map (fun e => blk (fst e)) red)) = x_n x.
  Proof.
    intros blk HB. rewrite Hn. clear -HB. induction red as [|[i z] l IH]; cbn [map concat fst snd]; auto. rewrite app_length. rewrite (HB i z) by (left; auto).
    cbn [list_sum fold_right]. unfold list_sum in IH. rewrite IH; auto. intros; apply HB; right; auto.
  Qed.
  Lemma zblk_ok : forall i z, In (i, z) red -> length (zblk i) = z.
  Proof. intros i z H. unfold zblk. rewrite (lookup_nodup i z H). apply repeat_length. Qed.

  Lemma py_of_user : forall os, Forall (user_ok F x g below us) os -> exists pos, mapM (to_py ps) os = Ok pos /\ Forall (py_ok F x g below) pos
    /\ forall th sx sy, expect (x_n x) th sx sy pos = map (fun '(th, sx, sy, vg) => (th, sx, sy, writes (x_n x) (vd_writes ps (vd_flat vg)))) (calls th sx sy os).
  Proof.
    intros os HO. induction HO as [|o os Ho HO IH]; [exists []; repeat split; constructor|]. destruct IH as (pos & E & HP & HE). cbn [mapM]. destruct o as [ups sx' sy'|vg use]; cbn [to_py].
    - exists (PSolve ups sx' sy' :: pos). rewrite E. split; auto. split; [constructor; auto|]. intros th sx sy. cbn [expect calls]. apply HE.
    - destruct Ho as [Hsh Hu]. destruct (in_ok vg Hsh) as (ts & Ets). rewrite Ets. cbn [bind]. rewrite E. cbn [bind].
      exists (PGrad (vd_writes ps (vd_flat vg)) use :: pos). split; auto. split.
      + constructor; auto. split; [|exact (proj2 Hu)]. apply Forall_forall. intros [k v] Hk.
        rewrite <- (blocks_length zblk zblk_ok). apply (proj1 (dx_adjoint F red us ps zblk (vd_flat vg) _ HV HR HU HS zblk_ok eq_refl Hp) k v Hk).
      + intros th sx sy. destruct use as [[sx1 sy1]|]; cbn [expect calls map]; rewrite HE; reflexivity.
  Qed.
End In.

(** A gradient call with parameter values [th], solution (sx, sy) and derivatives [vg], and the
    arrays [g] it stores on the parameters: along every direction of the parameters and every
    differentiable family of strictly complementary optimal points starting at the solution, the
    derivative of the sum over all variable entries of (derivative * value) is the sum over all
    parameter entries of (gradient * direction), up to eps^4 times a fixed quantity. *)
Definition user_derivative (x : cvx RFld) (eps : RFld) (below above : RFld -> bool) (red : list (nat * nat)) (us : list uvar) (shapes : list (string * list nat))
    (e : pvals RFld * list RFld * list RFld * (string -> varr RFld)) (g : list (string * (list nat -> RFld))) : Prop :=
  let '(th, sx, sy, vg) := e in
  let n := x_n x in
  let m := (x_neq x + x_nineq x)%nat in
  let v := flat (x_params x) th in
  map fst g = map fst (x_params x) /\
  exists dx, length dx = n
  /\ (forall blk, (forall i z, In (i, z) red -> length (blk i) = z) -> ip n dx (concat (map (fun e => blk (fst e)) red)) = var_pairing us vg blk)
  /\ forall (dth : pvals RFld) (blk : RFld -> nat -> list RFld) (ys : RFld -> nat -> RFld) (xd yd : nat -> RFld),
  let zs := fun t j => nth j (concat (map (fun e => blk t (fst e)) red)) n0 in
  (forall t i z, In (i, z) red -> length (blk t i) = z) ->
  diagonal RFld x v -> diagonal RFld x (dir RFld (x_params x) dth) ->
  family x th dth zs ys xd yd -> strict x th dth zs ys ->
  (forall j, j < n -> nth j sx n0 = zs 0%R j) -> (forall i, i < m -> nth i sy n0 = ys 0%R i) ->
  (forall i, i < m -> below (nth i sy n0) = true \/ above (nth i sy n0) = true <-> nth i sy n0 <> n0) ->
  exists s, powers RFld x (masked (fun k => Nat.ltb k n || active_at RFld below above sy (k - n)) (kkt_symm RFld x eps v)) (dx ++ repeat n0 m) 3 s
    /\ derivable_pt_lim (fun t => var_pairing us vg (blk t)) 0
         (param_pairing shapes g dth + eps * (eps * (eps * eps)) * rsum (map (fun p => nmul (nmul (sgn RFld x p) (nth p s n0)) (joint RFld x xd yd p)) (seq 0 (n + m))))%R.

Theorem C60_user_gradients :
  forall (big : RFld) (x : cvx RFld) (th0 : pvals RFld) (order : list string -> list string) (g : genc RFld)
         (sqr : RFld -> res RFld) (eps : RFld) (below above : RFld -> bool)
         (qfactor : csc RFld -> csc RFld -> res (list nat * list nat * list RFld * list RFld * list RFld))
         (qsolve : csc RFld -> list RFld -> list RFld -> res (list RFld)) (scr : nat -> pid -> list RFld -> list RFld)
         (red : list (nat * nat)) (us : list uvar) (shapes : list (string * list nat)),
  let n := x_n x in
  let m := (x_neq x + x_nineq x)%nat in
  let prP := proc big x OSQP pP in
  wf_cvx x th0 -> layout x -> (forall l, Permutation l (order l)) -> generate big x OSQP order = Ok g ->
  (forall z s, sqr z = Ok s -> nmul s s = z) -> (forall z e, sqr z = Err e -> e = Arith) -> (forall z, r_pos z -> exists s, sqr z = Ok s) ->
  factor_contract RFld n (n + m) qfactor -> solve_contract RFld (n + m) qsolve ->
  below n0 = false -> r_pos eps -> no_zero RFld n eps (matP RFld (pr_ip prP) (pr_idx prP) (g_baked g pP)) ->
  vars_ok red us -> NoDup (map fst red) -> NoDup (map uv_id us) -> (forall u, In u us -> uv_sym u = false) -> n = list_sum (map snd red) ->
  full_params (x_params x) shapes ->
  forall os, Forall (user_ok RFld x g below us) os ->
  Forall (fun '(th, _, _, _) => convex_at RFld r_pos x (flat (x_params x) th)) (calls th0 (repeat n0 n) (repeat n0 m) os) ->
  exists s gs, user_session RFld big x g sqr eps (/ 2)%R below above qfactor qsolve scr red us shapes os = Ok (s, gs)
    /\ Forall2 (user_derivative x eps below above red us shapes) (calls th0 (repeat n0 n) (repeat n0 m) os) gs.
Proof.
  intros big x th0 order g sqr eps below above qfactor qsolve scr red us shapes n m prP W Y Hord Hg S1 S2 S3 QF QS B0 Ep NZ HV HR HU HS Hn HP os HO HC.
  destruct (prim_info_ok RFld n0 red us (zblk RFld red) HV (zblk_ok RFld red HR)) as (ps & Eps & _).
  destruct (py_of_user RFld x g below red us ps HV HR HU HS Eps Hn os HO) as (pos & E1 & HPos & HE). specialize (HE th0 (repeat n0 n) (repeat n0 m)). fold n in HE.
  assert (He : eps <> 0%R) by (unfold r_pos in Ep; cbn in Ep; lra).
  destruct (C57_gradients_never_break_down RFld r_pos big x th0 order g sqr eps (/ 2)%R below above qfactor qsolve scr r_ordered W Y Hord Hg S1 S2 S3 QF QS B0 Ep NZ pos HPos) as (s & outs & E & _).
  { fold n m. rewrite HE. apply Forall_map. eapply Forall_impl; [|exact HC]. intros [[[th sx] sy] vg] H. exact H. }
  pose proof (C58_gradients_are_derivatives big x th0 order g sqr eps below above qfactor qsolve scr W Y Hord Hg S1 S2 QF QS B0 He NZ pos s outs HPos E) as HD.
  fold n m in HD. rewrite HE in HD. unfold user_session. rewrite Eps. cbn [bind]. rewrite E1. cbn [bind]. rewrite E. cbn [bind].
  assert (G : forall cs, Forall2 (derivative_of x eps below above) (map (fun '(th, sx, sy, vg) => (th, sx, sy, writes n (vd_writes ps (vd_flat vg)))) cs) outs ->
    (forall th sx sy vg, In (th, sx, sy, vg) cs -> forall u, In u us -> fst (vg (uv_name u)) = uv_shape u) ->
    exists gs, mapM (grad_out (x_params x) shapes) outs = Ok gs /\ Forall2 (user_derivative x eps below above red us shapes) cs gs).
  { clear -HV HR HU HS Hn HP W Eps. intro cs. revert outs. induction cs as [|[[[th sx] sy] vg] cs IH]; intros outs HD Hsh; cbn [map] in HD; inversion HD as [|e0 dp es0 outs' H1 H2]; subst.
    - exists []. split; auto.
    - destruct (IH outs' H2) as (gs & E & HG); [intros th1 sx1 sy1 vg1 Hin; apply (Hsh th1 sx1 sy1 vg1); right; auto|]. cbn [mapM]. destruct H1 as [HL HDer].
      assert (HS' : list_sum (map snd (x_params x)) <= length dp).
      { rewrite HL. unfold flat. rewrite app_length. clear. induction (x_params x) as [|[nm sz] l IH]; cbn [flat_map map list_sum fold_right snd fst app]; [lia|]. rewrite app_length, map_length, seq_length. unfold list_sum in *. lia. }
      destruct (grad_out_ok RFld (x_params x) shapes dp (wx_names _ _ _ W) HS' HP) as (g1 & Eg & Hfst & _). rewrite Eg. cbn [bind]. rewrite E. cbn [bind].
      eexists. split; [reflexivity|]. constructor; auto. split; [exact Hfst|].
      assert (HVP : forall blk, (forall i z, In (i, z) red -> length (blk i) = z) ->
        ip n (writes n (vd_writes ps (vd_flat vg))) (concat (map (fun e => blk (fst e)) red)) = var_pairing us vg blk).
      { intros blk HB. pose proof (blocks_length RFld x red Hn blk HB) as Hlen. fold n in Hlen. rewrite <- Hlen.
        apply (var_pairing_ok RFld red us ps blk vg _ HV HR HU HS HB eq_refl Eps). apply (Hsh th sx sy vg (or_introl eq_refl)). }
      exists (writes n (vd_writes ps (vd_flat vg))). split.
      { apply (expect_dx RFld n [PGrad (vd_writes ps (vd_flat vg)) None] th sx sy (th, sx, sy, _)). left. reflexivity. }
      split; [exact HVP|]. intros dth blk ys xd yd zs HB DP DD HF HSt Hsx Hsy Hact.
      destruct (HDer dth zs ys xd yd DP DD HF HSt Hsx Hsy Hact) as (s0 & Hs & HDe). exists s0. split; [exact Hs|].
      rewrite <- (pairing_ok RFld (x_params x) shapes dp g1 dth (wx_names _ _ _ W) HP ltac:(rewrite HL; symmetry; apply dir_length) Eg). rewrite HL.
      eapply D_ext; [|exact HDe]. intro t. rewrite <- (HVP (blk t) (HB t)). reflexivity. }
  destruct (G (calls th0 (repeat n0 n) (repeat n0 m) os) HD) as (gs & Egs & HG); [|rewrite Egs; cbn [bind]; eauto].
  clear -HO. generalize th0 (repeat (@n0 RFld) n) (repeat (@n0 RFld) m). induction HO as [|o os Ho HO IH]; intros th1 sx1 sy1 th sx sy vg Hin; [destruct Hin|].
  destruct o as [ups sx' sy'|vg' [[sx' sy']|]]; cbn [calls] in Hin.
  - apply (IH _ _ _ _ _ _ _ Hin).
  - destruct Hin as [E|Hin]; [|apply (IH _ _ _ _ _ _ _ Hin)]. injection E as _ _ _ <-. apply (proj1 Ho).
  - destruct Hin as [E|Hin]; [|apply (IH _ _ _ _ _ _ _ Hin)]. injection E as _ _ _ <-. apply (proj1 Ho).
Qed.
Print Assumptions C60_user_gradients.

(** Entry by entry, over any field: parameter number k starts after the entries of the parameters
    before it, and within it the entries are in column-major order. *)
Theorem C60_entries : forall (F : Fld) (ps : list (string * nat)) (shapes : list (string * list nat)) (dp : list F),
  NoDup (map fst ps) -> list_sum (map snd ps) <= length dp -> full_params ps shapes ->
  exists g, grad_out ps shapes dp = Ok g /\ map fst g = map fst ps
    /\ forall k nm sh idx, nth_error shapes k = Some (nm, sh) -> in_shape sh idx ->
       nth_error dp (list_sum (map snd (firstn k ps)) + fpos sh idx) = Some (stored g nm idx).
Proof.
  intros F ps shapes dp HN HL HP. destruct (grad_out_ok F ps shapes dp HN HL HP) as (g & E & H1 & H2). exists g. split; auto. split; auto.
  intros k nm sh idx Hk Hidx.
  assert (Hk2 : nth_error ps k = Some (nm, fsize sh)).
  { clear -Hk HP. revert k Hk. induction HP as [|[n1 s1] [n2 s2] ps shapes [E1 E2] HP IH]; intros k Hk; [destruct k; discriminate|]. cbn [fst snd] in *. destruct k; cbn [nth_error] in *; [|auto]. injection Hk as <- <-. congruence. }
  destruct (col_sizes ps k nm _ HN Hk2) as [_ Ec]. pose proof (col_bound ps k nm _ HN Hk2) as Hb. pose proof (fpos_lt _ _ Hidx).
  replace (list_sum (map snd (firstn k ps))) with (col ps nm).
  - rewrite (nth_error_nth' dp n0) by lia. f_equal. symmetry. apply H2; auto. apply nth_error_In in Hk. auto.
  - rewrite Ec. clear. revert k. induction ps as [|[n1 s1] ps IH]; intro k; [destruct k; reflexivity|]. destruct k; cbn [sizes_before firstn map snd list_sum fold_right]; [reflexivity|]. rewrite IH. reflexivity.
Qed.
Print Assumptions C60_entries.
Definition mp_ps : list (string * nat) := [("b", 1); ("M", 6)].
Definition mp_sh : list (string * list nat) := [("b", []); ("M", [2; 3])].
Definition mp_dp : list QcFld := map qz [9; 11; 21; 12; 22; 13; 23; 0]%Z.
Example C60_entries_example : NoDup (map fst mp_ps) /\ list_sum (map snd mp_ps) <= length mp_dp /\ full_params mp_ps mp_sh
  /\ match grad_out mp_ps mp_sh mp_dp with
     | Ok g => map (fun i => map (fun j => this (stored g "M" [i; j])) [0; 1; 2]) [0; 1] = [[11; 12; 13]; [21; 22; 23]]%Q /\ this (stored g "b" []) = 9%Q
     | Err _ => False
     end.
Proof.
  split; [repeat constructor; simpl; intuition discriminate|]. split; [vm_compute; lia|]. split; [repeat constructor|]. vm_compute. auto.
Qed.

(** A parameter with fewer entries in the parameter vector than in its shape (diagonal or sparse
    parameters): every gradient call raises ValueError, whatever was computed. *)
Theorem C60_reduced_parameters : forall (F : Fld) (ps : list (string * nat)) (shapes : list (string * list nat)) (dp : list F) nm sz sh,
  NoDup (map fst ps) -> list_sum (map snd ps) <= length dp -> map fst shapes = map fst ps ->
  In ((nm, sz), (nm, sh)) (combine ps shapes) -> fsize sh <> sz -> grad_out ps shapes dp = Err ValueError.
Proof.
  intros F ps shapes dp nm sz sh HN HL HF Hin Hne. unfold grad_out. rewrite pdelta_ok by auto. cbn [bind].
  assert (HE : forall p, In p ps -> assoc (fst p) (map (fun p => (fst p, entries F ps dp p)) ps) = Some (entries F ps dp p)) by (intros [n1 s1] Hp; apply assoc_entries; auto).
  revert HE. generalize (map (fun p => (fst p, entries F ps dp p)) ps) as pd. intros pd HE.
  assert (G : forall l s, (forall p, In p l -> In p ps) -> map fst s = map fst l -> In ((nm, sz), (nm, sh)) (combine l s) ->
    mapM (fun s => match assoc (fst s) pd with Some l => a <- reshapeF n0 (snd s) l;; Ok (fst s, a) | None => Err AttributeError end) s = Err ValueError).
  { induction l as [|[n1 s1] l IH]; intros [|[n2 s2] s] Hi Hf H; cbn [combine In map fst] in *; try contradiction; try discriminate. injection Hf as -> Hf.
    cbn [mapM fst snd]. pose proof (HE _ (Hi _ (or_introl eq_refl))) as HE0. cbn [fst] in HE0. rewrite HE0.
    unfold reshapeF at 1. unfold entries at 1. rewrite map_length, seq_length. cbn [snd]. destruct (Nat.eqb_spec s1 (fsize s2)) as [E|E]; [|reflexivity].
    cbn [bind]. destruct H as [H|H]; [inversion H; subst; congruence|]. rewrite IH; auto. }
  apply (G ps shapes); auto.
Qed.
Print Assumptions C60_reduced_parameters.
Example C60_reduced_example : let ps := [("b", 1); ("D", 3)] in let sh := [("b", []); ("D", [3; 3])] in
  NoDup (map fst ps) /\ map fst sh = map fst ps /\ In (("D", 3), ("D", [3; 3])) (combine ps sh) /\ fsize [3; 3] <> 3
  /\ grad_out ps sh (map qz [1; 2; 3; 4; 0]%Z) = Err ValueError.
Proof. cbv zeta. split; [repeat constructor; simpl; intuition discriminate|]. split; auto. split; [cbn; auto|]. split; [discriminate|]. reflexivity. Qed.

(** A gradient of another size than its variable is refused before anything is computed. *)
Theorem C60_wrong_size : forall (F : Fld) ps (vg : string -> varr F) use p, In p ps -> fsize (fst (vg (pi_name p))) <> pi_size p ->
  to_py ps (UGrad vg use) = Err TypeError.
Proof.
  intros F ps vg use p Hin Hne. cbn [to_py]. replace (mapM (vd_in vg) ps) with (@Err (list unit) TypeError); auto.
  induction ps as [|q ps IH]; [destruct Hin|]. cbn [mapM]. unfold vd_in at 1. destruct (Nat.eqb_spec (fsize (fst (vg (pi_name q)))) (pi_size q)) as [E|E]; auto.
  cbn [bind]. destruct Hin as [->|Hin]; [congruence|]. rewrite <- IH; auto.
Qed.
Print Assumptions C60_wrong_size.
Example C60_wrong_size_example : to_py [mkPI "t" 0 [0] 1 [] false; mkPI "X" 1 [1; 2; 3; 4] 4 [2; 2] false]
  (UGrad (fun nm => (if String.eqb nm "X" then [3] else [], fun _ => qz 1)) None) = Err TypeError.
Proof. reflexivity. Qed.

(** ** Example: the problem of C58_example with a variable of shape (1,), a parameter of shape (1, 1) and
    one without dimensions. *)
Definition u_us : list uvar := [mkUV "z" 7 [1] false].
Definition u_red : list (nat * nat) := [(7, 1)].
Definition u_sh : list (string * list nat) := [("a", [1; 1]); ("b", [])].
Definition u_vg (nm : string) : varr RFld := ([1], fun _ => 1%R).
Definition u_hist : list (uop RFld) := [USolve (F := RFld) [("b", 0, (-2)%R)] [(- / 2)%R] [(5 / 4)%R]; UGrad u_vg None].
Example C60_example : exists s g,
  user_session RFld r_big s_x s_gen r_sqrt (/ 1000000)%R (/ 2)%R r_below r_above (qfactor_ref RFld 2) (qsolve_ref RFld 2) (fun _ _ d => d) u_red u_us u_sh u_hist = Ok (s, [g])
  /\ user_derivative s_x (/ 1000000)%R r_below r_above u_red u_us u_sh (s_th, [(- / 2)%R], [(5 / 4)%R], u_vg) g
  /\ family s_x s_th s_dth s_zs s_ys (fun _ => (/ 4)%R) (fun _ => (- (5 / 8))%R) /\ strict s_x s_th s_dth s_zs s_ys.
Proof.
  assert (S1 : forall z s, r_sqrt z = Ok s -> nmul s s = z).
  { intros z s. unfold r_sqrt. destruct (Rlt_dec z 0) as [Hz|Hz]; [discriminate|]. intro E. injection E as <-. cbn. apply sqrt_sqrt. cbn in Hz. lra. }
  assert (S2 : forall z e, r_sqrt z = Err e -> e = Arith).
  { intros z e. unfold r_sqrt. destruct (Rlt_dec z 0); [|discriminate]. intro E. injection E as <-. reflexivity. }
  assert (S3 : forall z, r_pos z -> exists s, r_sqrt z = Ok s).
  { intros z Hz. unfold r_sqrt, r_pos in *. destruct (Rlt_dec z 0) as [H1|H1]; [exfalso; cbn in *; lra|eauto]. }
  assert (B0 : r_below n0 = false) by (unfold r_below; cbn; destruct (Rlt_dec 0 (- / 1000000)) as [H1|H1]; auto; exfalso; lra).
  destruct (C60_user_gradients r_big s_x r_th0 ex_order s_gen r_sqrt (/ 1000000)%R r_below r_above (qfactor_ref RFld 2) (qsolve_ref RFld 2) (fun _ _ d => d) u_red u_us u_sh
    s_wf s_layout ex_order_perm s_generate S1 S2 S3 (qfactor_ref_ok RFld 1 2) (qsolve_ref_ok RFld 2) B0) with (os := u_hist) as (s & gs & E & HD).
  - unfold r_pos. cbn. lra.
  - apply s_nz.
  - constructor.
    + repeat constructor; simpl; intuition discriminate.
    + intros u [<-|[]]. reflexivity.
    + intros u [<-|[]] E; discriminate.
  - repeat constructor; simpl; intuition discriminate.
  - repeat constructor; simpl; intuition discriminate.
  - intros u [<-|[]]. reflexivity.
  - reflexivity.
  - repeat constructor.
  - pose proof s_hist_ok as H. unfold s_hist in H. apply Forall_cons_iff in H. destruct H as [H1 _]. constructor; [exact H1|]. constructor; [|constructor].
    split; [intros u [<-|[]]; reflexivity|]. split; [constructor|exact I].
  - apply Forall_forall. intros [[[th sx] sy] vg] _. apply s_convex.
  - cbn [calls u_hist] in HD. inversion HD as [|e g es gs' H1 H2 E1 E2]; subst. inversion H2; subst. exists s, g. split; [exact E|]. split; [exact H1|]. split; [apply s_family|apply s_strict].
Qed.
Print Assumptions C60_example.
