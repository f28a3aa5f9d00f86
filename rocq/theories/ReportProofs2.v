(** Proofs for C74: the whole of one call, status texts, parameter columns. *)

From Coq Require Import String Ascii Arith Bool ZArith QArith Lia List FinFun.
From Verif Require Import Base Pus Machine Runtime Retrieve RetrieveProofs Wrapper Literals LiteralsProofs Report ReportSpec ReportProofs.
Import ListNotations.
Open Scope list_scope.
Open Scope nat_scope.

(** ** Dictionaries with numbers as keys *)

Definition addkey (ks : list nat) (c : nat) : list nat := if mem_nat c ks then ks else ks ++ [c].

Lemma idict_set_map : forall A (f : nat -> A) c ks,
    idict_set c (f c) (map (fun k => (k, f k)) ks) = map (fun k => (k, f k)) (addkey ks c).
Proof.
  intros A f c ks. unfold addkey. induction ks as [|k t IH]; simpl; auto.
  destruct (Nat.eqb c k) eqn:E; simpl.
  - apply Nat.eqb_eq in E. subst. auto.
  - rewrite IH. unfold mem_nat. destruct (existsb (Nat.eqb c) t); auto.
Qed.

Lemma idict_fold : forall A (f : nat -> A) l ks,
    fold_left (fun d kv => idict_set (fst kv) (snd kv) d) (map (fun c => (c, f c)) l) (map (fun k => (k, f k)) ks)
    = map (fun k => (k, f k)) (fold_left addkey l ks).
Proof. induction l as [|c t IH]; simpl; intros; auto. rewrite idict_set_map. apply IH. Qed.

Lemma mem_nat_In : forall i l, mem_nat i l = true <-> In i l.
Proof.
  intros. unfold mem_nat. rewrite existsb_exists. split.
  - intros (x & H & E). apply Nat.eqb_eq in E. subst. auto.
  - intro. exists i. split; auto. apply Nat.eqb_refl.
Qed.

Lemma filter_twice : forall A (p q : A -> bool) l, filter p (filter q l) = filter (fun x => q x && p x) l.
Proof. induction l; simpl; auto. destruct (q a); simpl; rewrite IHl; auto. Qed.

Lemma addkey_firsts : forall l ks, fold_left addkey l ks = ks ++ filter (fun c => negb (mem_nat c ks)) (firsts l).
Proof.
  induction l as [|c t IH]; simpl; intro ks. { rewrite app_nil_r. auto. }
  rewrite IH. unfold addkey. destruct (mem_nat c ks) eqn:E; simpl.
  - f_equal. rewrite filter_twice. apply filter_ext_in. intros x _.
    destruct (Nat.eqb x c) eqn:Ex; simpl; auto. apply Nat.eqb_eq in Ex. subst. rewrite E. auto.
  - rewrite <- app_assoc. simpl. f_equal. f_equal. rewrite filter_twice. apply filter_ext. intro x.
    unfold mem_nat. rewrite existsb_app. simpl. rewrite orb_false_r, negb_orb, andb_comm. auto.
Qed.

Lemma idict_firsts : forall A (f : nat -> A) l, idict_of (map (fun c => (c, f c)) l) = map (fun c => (c, f c)) (firsts l).
Proof.
  intros. unfold idict_of. etransitivity; [exact (idict_fold A f l [])|]. rewrite addkey_firsts. simpl. f_equal.
  induction (firsts l); simpl; congruence.
Qed.

Lemma firsts_in : forall l x, In x (firsts l) <-> In x l.
Proof.
  induction l as [|y t IH]; simpl; intro x; [tauto|]. rewrite filter_In, IH.
  destruct (Nat.eqb x y) eqn:E; simpl.
  - apply Nat.eqb_eq in E. subst. tauto.
  - apply Nat.eqb_neq in E. split; [intros [H|[H _]]; auto|intros [H|H]; auto].
Qed.

Lemma filter_len : forall A (p : A -> bool) l, length (filter p l) <= length l.
Proof. induction l; simpl; auto. destruct (p a); simpl; lia. Qed.

Lemma firsts_len : forall l, length (firsts l) <= length l.
Proof. induction l as [|y t IH]; simpl; auto. pose proof (filter_len _ (fun z => negb (Nat.eqb z y)) (firsts t)). lia. Qed.

Lemma firsts_nodup : forall l, NoDup l -> firsts l = l.
Proof.
  induction l as [|y t IH]; simpl; intro H; auto. inversion H; subst. rewrite IH by auto. f_equal.
  rewrite (filter_ext_in _ (fun _ => true)).
  - clear. induction t; simpl; congruence.
  - intros x Hx. destruct (Nat.eqb x y) eqn:E; auto. apply Nat.eqb_eq in E. subst. tauto.
Qed.

(** ** Objective and status *)

Lemma report_obj_reported : forall v, reported v (report_obj v).
Proof.
  intros [q| | |]; simpl; try (apply rep_other; intros; discriminate).
  destruct (Qeq_bool q e30) eqn:E1. { apply rep_inf. apply Qeq_bool_eq in E1. exact E1. }
  destruct (Qeq_bool q (- e30)) eqn:E2. { apply rep_ninf. apply Qeq_bool_eq in E2. exact E2. }
  apply rep_fin; intro X; [apply Qeq_bool_neq in E1|apply Qeq_bool_neq in E2]; contradiction.
Qed.

(** ** One call *)

Lemma combine_fst_eq : forall A B (l : list A) (l' : list B), length l = length l' -> map fst (combine l l') = l.
Proof. induction l as [|a t IH]; intros [|b t'] H; try discriminate; simpl; auto. f_equal. apply IH. simpl in H. lia. Qed.

Section Store.
  Variable K : Type.
  Variable k0 : K.
  Variable s : solver.
  Variable name : string.
  Variables (red : list (nat * nat)) (us : list uvar) (blk : nat -> list K).
  Variables (eqs neqs m : list (nat * nat)) (rest : list (list (nat * nat))) (dl : nat -> list K) (csh : nat -> list nat).
  Variable cons : list nat.
  Variable st : rstate K.
  Variables (i : cinfo) (dt : fnum) (o : pobj K).

  Hypothesis HS : sizes_ok red us.
  Hypothesis HB : forall i z, In (i, z) red -> length (blk i) = z.
  Hypothesis Hx : r_vecs st "x"%string = concat (map (fun e => blk (fst e)) red).
  Hypothesis HN : NoDup (map fst (eqs ++ neqs)).
  Hypothesis HM : map fst m = firsts cons.
  Hypothesis HC : forall u, In u (map fst m) -> exists c, chase rest u = Ok c /\ In c (map fst (eqs ++ neqs)).
  Hypothesis HL : forall i z, In (i, z) (eqs ++ neqs) -> length (dl i) = z.
  Hypothesis HG : good_split s eqs neqs.
  Hypothesis HD : duals_in K s eqs neqs dl (r_vecs st).
  Hypothesis HT : match int_docu s with Some _ => exists z, ci_status i = SNum z | None => exists t, ci_status i = SText t end.

  Let up := mkU (map (fun u => (uv_name u, uv_id u)) us) cons.

  Lemma info_one : forall u, In u us -> exists p, prim_info red [u] = Ok [p].
  Proof.
    intros u Hu. destruct HS as (_ & H2 & H3). unfold prim_info. cbn [mapM].
    assert (E : exists off, lookup (uv_id u) (var_offsets 0 red) = Some off).
    { apply lookup_some. rewrite fst_offsets. specialize (H2 u Hu). apply lookup_in in H2.
      apply in_map_iff. exists (uv_id u, packed_size u). auto. }
    destruct E as (off & ->). cbn [key bind]. destruct (uv_sym u) eqn:Es.
    - destruct (H3 u Hu Es) as (n & ->). cbn [bind]. eauto.
    - cbn [bind]. eauto.
  Qed.

  Lemma info_exists : exists ps, prim_info red us = Ok ps.
  Proof.
    assert (G : forall l, (forall u, In u l -> In u us) -> exists ps, Forall2 (fun u p => prim_info red [u] = Ok [p]) l ps).
    { induction l as [|u t IH]; intro Hl; [exists []; constructor|].
      destruct IH as (ps & HF); [intros; apply Hl; right; auto|].
      destruct (info_one u) as (p & E); [apply Hl; left; auto|]. exists (p :: ps). constructor; auto. }
    destruct (G us) as (ps & HF); auto. exists ps. apply prim_info_unstep. auto.
  Qed.

  Lemma nodup_map_in : forall A B (f : A -> B) l x y, NoDup (map f l) -> In x l -> In y l -> f x = f y -> x = y.
  Proof.
    induction l as [|a t IH]; simpl; intros x y H Hx' Hy E; [tauto|]. inversion H; subst.
    destruct Hx' as [->|Hx'], Hy as [->|Hy]; auto.
    - exfalso. apply H2. rewrite E. apply in_map. auto.
    - exfalso. apply H2. rewrite <- E. apply in_map. auto.
  Qed.

  Lemma lasts_nodup_ids : NoDup (map uv_id (lasts us)).
  Proof.
    destruct HS as (H1 & _). pose proof (lasts_nodup us) as HNm.
    assert (Hin : forall u, In u (lasts us) -> In u us) by apply lasts_incl.
    induction (lasts us) as [|a t IH]; simpl; [constructor|]. inversion HNm; subst.
    constructor; [|apply IH; auto; intros; apply Hin; right; auto].
    intro X. apply in_map_iff in X. destruct X as (b & E & Hb).
    assert (b = a). { apply (nodup_map_in _ _ uv_id us); auto; apply Hin; [right|left]; auto. }
    subst. apply H2. apply in_map. auto.
  Qed.

  Lemma store_ok : exists ps cs ds r o' v tx sol,
      prim_info red us = Ok ps
      /\ mapM (chase rest) (map fst m) = Ok cs
      /\ dual_info (dual_split s) (dual_vec0 s) (dual_vec1 s) eqs neqs (m :: rest) = Ok ds
      /\ results s ps ds st i = Ok r
      /\ store (tmpl_of s name ps csh cs ds) up r dt o = (o', Ok (RValue (Some v)))
      /\ length cs = length (firsts cons)
      (* variables *)
      /\ (forall u, In u us -> last_named us u -> exists a, o_val o' (uv_id u) = Some a /\ value_of k0 u (blk (uv_id u)) a)
      /\ (forall u, In u us -> ~ last_named us u -> o_val o' (uv_id u) = None)
      (* constraints *)
      /\ (forall j c k, nth_error cons j = Some c -> nth_error cs j = Some k ->
            (forall j', j < j' < length (firsts cons) -> nth_error cons j' <> Some c) ->
            o_dual o' c = Some (dual_array (csh k) (dl k)))
      /\ (forall c, In c cons -> ~ In c (firstn (length (firsts cons)) cons) -> o_dual o' c = None)
      (* attributes *)
      /\ reported (ci_obj i) v /\ o_value o' = Some v
      /\ status_of (int_docu s) (ci_status i) = Ok tx /\ o_status o' = Some tx
      /\ o_sol o' = Some sol /\ so_status sol = Some tx /\ so_value sol = Some v
      /\ so_prim sol = map (fun u => (uv_id u, o_val o' (uv_id u))) us
      /\ so_dual sol = map (fun c => (c, o_dual o' c)) (firsts cons)
      /\ so_time sol = dt /\ so_iters sol = ci_iter i
      /\ so_stats sol = mkSS (ci_obj i) (Some tx) (ci_iter i) (ci_pri i) (ci_dua i) (ci_time i)
      /\ o_stats o' = Some (mkStats name dt (ci_iter i) (so_stats sol)).
  Proof.
    destruct info_exists as (ps & Ep). exists ps.
    destruct (dual_info_ok K s eqs neqs m rest dl HN HC HL HG) as (cs & ds & Ec & Ed & HF & Hn & _).
    destruct (dual_ok K s eqs neqs m rest dl HN HC HL st HG HD) as (cs' & ds' & Ec' & Ed' & Er).
    rewrite Ec in Ec'. injection Ec' as <-. rewrite Ed in Ed'. injection Ed' as <-.
    exists cs, ds.
    pose proof (named_info red us ps Ep) as EN.
    destruct (primal_ok K k0 s red (lasts us) blk (lasts_vars_ok red us HS) HB st Hx) as (ps' & rs & Ep' & Erp & HFp).
    rewrite EN in Ep'. injection Ep' as <-.
    destruct (c_prim_ok K k0 s (named ps) st rs Erp) as (ls & El & Els & Fl & _ & Fr).
    (* lengths *)
    assert (Hlc : length cs = length (firsts cons)).
    { rewrite <- HM, map_length. apply mapM_Forall2 in Ec. apply Forall2_length in Ec. rewrite map_length in Ec. auto. }
    assert (Hlds : length ds = length cs) by (symmetry; apply (Forall2_length HF)).
    set (dual := combine (map (fun d => dname (di_name d)) ds) (map dl cs)).
    set (r := mkRes ls dual i). exists r.
    assert (ER : results s ps ds st i = Ok r).
    { unfold results. rewrite El. cbn [bind]. unfold c_dual. rewrite Er. cbn [bind]. reflexivity. }
    (* data of names *)
    pose (dat := fun n => match assoc n ls with Some l => l | None => [] end).
    pose (idf := fun n => match assoc n (dict_of (u_vars up)) with Some j => j | None => 0 end).
    pose proof (named_fields red us ps Ep) as Ff.
    assert (Hnames : map pi_name (named ps) = map uv_name (lasts us)).
    { clear - Ff. induction Ff as [|u p l l' [H _] F IH]; simpl; congruence. }
    assert (Hnd : NoDup (map fst ls)) by (rewrite Els, Hnames; apply lasts_nodup).
    (* per last variable: everything *)
    assert (Hu : forall u, In u (lasts us) -> In (uv_name u, uv_shape u) (map (fun p => (pi_name p, pi_shape p)) (named ps))
               /\ idf (uv_name u) = uv_id u /\ assoc (uv_name u) (dict_of (u_vars up)) = Some (uv_id u)
               /\ exists l, assoc (uv_name u) ls = Some l /\ length l = fsize (uv_shape u)
                    /\ var_value k0 u (blk (uv_id u)) (fun idx => nth (fpos (uv_shape u) idx) l k0)).
    { intros u Hi.
      assert (Q : exists p l a, In p (named ps) /\ pi_name p = uv_name u /\ pi_shape p = uv_shape u /\ In (pi_name p, l) ls
                  /\ reshapeF k0 (pi_shape p) l = Ok a /\ var_value k0 u (blk (uv_id u)) a).
      { clear - Ff HFp Fr Els Hi. revert ls rs Els HFp Fr.
        induction Ff as [|w p us' ps' [E1 E2] F IH]; [destruct Hi|]. intros ls rs Els HFp Fr.
        destruct ls as [|[n l] ls]; [discriminate|]. simpl in Els. injection Els as En Els.
        inversion HFp as [|x y l1 l2 [A1 A2] A3]; subst. simpl in Fr. inversion Fr as [|x' y' l3 l4 B1 B2]; subst. simpl in B1.
        destruct Hi as [<-|Hi].
        - exists p, l, (snd y). split; [left; auto|]. repeat (split; auto). left; auto.
        - destruct (IH Hi ls l2 Els A3 B2) as (q & l' & a & C1 & C2 & C3 & C4 & C5 & C6).
          exists q, l', a. split; [right; auto|]. repeat (split; auto). right; auto. }
      destruct Q as (p & l & a & C1 & C2 & C3 & C4 & C5 & C6).
      split. { apply in_map_iff. exists p. rewrite C2, C3. auto. }
      pose proof (var_dict_id us u Hi) as EI. split. { unfold idf, up. simpl. rewrite EI. auto. }
      split; [exact EI|]. exists l. rewrite C2 in C4. split; [apply In_assoc; auto|].
      rewrite C3 in C5. unfold reshapeF in C5. destruct (Nat.eqb (length l) (fsize (uv_shape u))) eqn:E; [|discriminate].
      injection C5 as <-. split; [apply Nat.eqb_eq; auto|auto]. }
    assert (Hp : forall n sh, In (n, sh) (map (fun p => (pi_name p, pi_shape p)) (named ps)) ->
                 exists u, In u (lasts us) /\ n = uv_name u /\ sh = uv_shape u).
    { clear - Ff. induction Ff as [|w p l l' [E1 E2] F IH]; simpl; intros n sh H; [tauto|].
      destruct H as [H|H]. { injection H as <- <-. exists w. auto. }
      destruct (IH n sh H) as (u & H1 & H2). exists u. auto. }
    assert (Hids : map (fun x => idf (fst x)) (map (fun p => (pi_name p, pi_shape p)) (named ps)) = map uv_id (lasts us)).
    { rewrite map_map. simpl. rewrite <- (map_map pi_name idf), Hnames, map_map. apply map_ext_in. intros u Hi. apply (Hu u Hi). }
    destruct (save_vars_ok K up ls (map (fun p => (pi_name p, pi_shape p)) (named ps)) (clear up o) idf dat) as
        (o1 & F0 & F1 & F2 & F3 & F4 & F5 & F6 & F7).
    { intros n sh H. destruct (Hp n sh H) as (u & H1 & -> & ->). destruct (Hu u H1) as (_ & A2 & A3 & l & A4 & A5 & _).
      unfold dat. rewrite A4, A2. auto. }
    { rewrite Hids. apply lasts_nodup_ids. }
    (* duals *)
    pose (con := fun j => nth j cons 0).
    pose (av := fun j => dual_array (csh (nth j cs 0)) (dl (nth j cs 0))).
    assert (Hdn : NoDup (map (fun d => dname (di_name d)) ds)).
    { rewrite <- (map_map di_name dname), Hn. apply Injective_map_NoDup. intros a b; apply dname_inj. apply seq_NoDup. }
    assert (Hsh : length (dual_shapes csh cs ds) = length (firsts cons)).
    { unfold dual_shapes. rewrite map_length, combine_length. lia. }
    destruct (save_duals_ok K up dual (dual_shapes csh cs ds) 0 o1 con av) as (o2 & G0 & G1 & G2 & G3 & G4 & G5 & G6 & G7).
    { intros j n sh Hj. cbn [Nat.add].
      assert (Hlt : j < length cs). { rewrite Hlc, <- Hsh. apply nth_error_Some. congruence. }
      destruct (nth_error cs j) as [c|] eqn:Ecj; [|apply nth_error_None in Ecj; lia].
      destruct (Forall2_nth _ _ _ _ _ j c HF Ecj) as (d & Edj & Hpl).
      split. { unfold con, up. simpl. apply nth_error_nth'. pose proof (firsts_len cons). lia. }
      unfold dual_shapes in Hj. rewrite nth_error_map in Hj.
      assert (Ecomb : nth_error (combine cs ds) j = Some (c, d)).
      { clear - Ecj Edj. revert ds j Ecj Edj. induction cs as [|a t IH]; intros [|b t'] [|j] H1 H2; try discriminate; simpl in *.
        - congruence.
        - auto. }
      rewrite Ecomb in Hj. simpl in Hj. injection Hj as <- <-.
      assert (Hlen : length (dl c) = di_size d) by (destruct Hpl; auto).
      exists (dl c). split.
      - apply In_assoc. { unfold dual. rewrite combine_fst_eq by (rewrite !map_length; lia). auto. }
        unfold dual. clear - Ecj Edj. revert ds j Ecj Edj.
        induction cs as [|a t IH]; intros [|b t'] [|j] H1 H2; try discriminate; simpl in *.
        + left. congruence.
        + right. eapply IH; eauto.
      - unfold av. rewrite (nth_error_nth _ _ 0 Ecj). unfold dual_array, np_array. rewrite Hlen.
        destruct (Nat.eqb (fsize (csh c)) (di_size d)) eqn:Esz.
        + apply Nat.eqb_eq in Esz. destruct (csh c) as [|h t] eqn:Esh.
          * simpl in *. rewrite <- Esz. simpl. auto.
          * unfold shaped_dual, np_reshape.
            destruct (Nat.eqb (di_size d) 1); cbn [snd]; rewrite Hlen, Esz, Nat.eqb_refl; auto.
        + simpl. destruct (dl c) as [|a [|b t]]; simpl in Hlen; rewrite <- Hlen; auto. }
    (* report *)
    destruct (status_of (int_docu s) (ci_status i)) as [tx|e] eqn:Est.
    2:{ exfalso. destruct (int_docu s), HT as (z & E); rewrite E in Est; discriminate. }
    set (t := tmpl_of s name ps csh cs ds).
    assert (EST : store t up r dt o = report t up i dt o2).
    { unfold store. cbn [rs_prim r t tmpl_of t_vars t_expl t_duals rs_dual rs_info]. rewrite F0. cbn [Nat.eqb]. rewrite G0. reflexivity. }
    set (v := report_obj (ci_obj i)).
    unfold report in EST. change (t_docu t) with (int_docu s) in EST. rewrite Est in EST.
    match type of EST with _ = (?a, _) => set (o' := a) in EST end.
    exists o', v, tx. eexists.
    split; [exact Ep|]. split; [exact Ec|]. split; [exact Ed|]. split; [exact ER|]. split; [exact EST|]. split; [exact Hlc|].
    split; [|split; [|split; [|split]]].
    - intros u Hi Hl. apply lasts_in in Hl. destruct (Hu u Hl) as (A1 & A2 & A3 & l & A4 & A5 & A6).
      exists (uv_shape u, l). unfold o'. cbn [o_val]. rewrite G1. specialize (F6 _ _ A1). rewrite A2 in F6. rewrite F6.
      unfold dat. rewrite A4. split; auto. split; auto.
    - intros u Hi Hl. unfold o'. cbn [o_val]. rewrite G1, F7.
      + simpl. rewrite map_map. simpl. destruct (mem_nat (uv_id u) (map uv_id us)) eqn:E; auto.
        exfalso. assert (X : mem_nat (uv_id u) (map uv_id us) = true) by (apply mem_nat_In, in_map; auto). congruence.
      + rewrite Hids. intro X. apply in_map_iff in X. destruct X as (w & E & Hw).
        assert (w = u). { destruct HS as (H1 & _). apply (nodup_map_in _ _ uv_id us); auto. apply lasts_incl; auto. }
        subst w. apply Hl, lasts_in. auto.
    - intros j c k Hj Hk Hl. unfold o'. cbn [o_dual].
      assert (Hlt : j < length cs) by (apply nth_error_Some; congruence).
      specialize (G6 j). cbn [Nat.add] in G6. rewrite Hsh in G6. unfold con, av in G6.
      rewrite (nth_error_nth _ _ 0 Hj), (nth_error_nth _ _ 0 Hk) in G6. apply G6; [lia|].
      intros j' Hj' E. apply (Hl j' Hj'). rewrite <- E. apply nth_error_nth'. pose proof (firsts_len cons). lia.
    - intros c Hc Hnc. unfold o'. cbn [o_dual]. rewrite G7.
      + rewrite F1. simpl. rewrite (proj2 (mem_nat_In _ _) Hc). auto.
      + intros j Hj E. rewrite Hsh in Hj. apply Hnc. cbn [Nat.add] in E. unfold con in E. subst c.
        pose proof (firsts_len cons). rewrite <- (firstn_skipn (length (firsts cons)) cons) at 1. rewrite app_nth1 by (rewrite firstn_length; lia).
        apply nth_In. rewrite firstn_length. lia.
    - split; [apply report_obj_reported|]. split; [reflexivity|]. split; [reflexivity|]. split; [reflexivity|]. split; [reflexivity|].
      split; [reflexivity|]. split; [reflexivity|]. split; [|split; [|split; [|split; [|split]]]]; try reflexivity.
      + cbn [so_prim]. unfold o'. cbn [o_val]. unfold up. cbn [u_vars]. rewrite map_map. cbn [snd].
        rewrite <- (map_map uv_id (fun j => (j, o_val o2 j))), idict_firsts, firsts_nodup by (destruct HS; auto).
        rewrite map_map. reflexivity.
      + cbn [so_dual]. unfold o'. cbn [o_dual]. unfold up. cbn [u_cons]. apply idict_firsts.
  Qed.
End Store.
