(** Proofs for C74: status texts, sequences of calls, explicit mode, parameter names. *)

From Coq Require Import String Ascii Arith Bool ZArith QArith Lia List.
From Verif Require Import Base Pus Machine Runtime Retrieve RetrieveProofs Wrapper Literals LiteralsProofs Report ReportSpec ReportProofs ReportProofs2.
Import ListNotations.
Open Scope list_scope.
Open Scope nat_scope.

(** ** Status texts *)

Fixpoint has_space (t : string) : bool :=
  match t with EmptyString => false | String c r => Ascii.eqb c " "%char || has_space r end.
Lemma has_space_app : forall a b, has_space (a ++ b)%string = has_space a || has_space b.
Proof. induction a; simpl; intros; auto. rewrite IHa, orb_assoc. auto. Qed.

Lemma status_not_cvxpy : forall d z t, status_of (Some d) (SNum z) = Ok (SText t) -> ~ In t cvxpy_status.
Proof.
  intros d z t H. simpl in H. injection H as <-. intro X.
  assert (G : forall x, In x cvxpy_status -> has_space x = false).
  { intros x Hx. simpl in Hx. repeat (destruct Hx as [<-|Hx]; [reflexivity|]). destruct Hx. }
  apply G in X. rewrite has_space_app in X. rewrite orb_false_iff in X. destruct X as [_ X]. simpl in X. discriminate.
Qed.

(** ** What a call leaves does not depend on the object it is given *)

Section Indep.
  Variable K : Type.

  Definition same (u : uprob) (o1 o2 : pobj K) : Prop :=
    (forall x, In x (u_vars u) -> o_val o1 (snd x) = o_val o2 (snd x))
    /\ (forall c, In c (u_cons u) -> o_dual o1 c = o_dual o2 c)
    /\ o_value o1 = o_value o2 /\ o_status o1 = o_status o2 /\ o_sol o1 = o_sol o2.

  Lemma clear_same : forall u o1 o2, same u (clear u o1) (clear u o2).
  Proof.
    intros u o1 o2. unfold same, clear. cbn. split; [|split; auto].
    - intros x Hx. rewrite (proj2 (mem_nat_In (snd x) (map snd (u_vars u)))); auto. apply in_map. auto.
    - intros c Hc. rewrite (proj2 (mem_nat_In c (u_cons u))); auto.
  Qed.

  Lemma set_val_same : forall u o1 o2 i a, same u o1 o2 -> same u (set_val o1 i a) (set_val o2 i a).
  Proof.
    intros u o1 o2 i a (H1 & H2 & H3). split; [|split; auto]. intros x Hx. simpl. destruct (Nat.eqb (snd x) i); auto.
  Qed.
  Lemma set_dual_same : forall u o1 o2 i a, same u o1 o2 -> same u (set_dual o1 i a) (set_dual o2 i a).
  Proof.
    intros u o1 o2 i a (H1 & H2 & H3). split; [auto|split; auto]. intros x Hx. simpl. destruct (Nat.eqb x i); auto.
  Qed.

  Lemma save_vars_same : forall u prim l o1 o2, same u o1 o2 ->
      same u (fst (save_vars u prim l o1)) (fst (save_vars u prim l o2))
      /\ snd (save_vars u prim l o1) = snd (save_vars u prim l o2).
  Proof.
    induction l as [|[n sh] t IH]; simpl; intros o1 o2 H; auto.
    destruct (assoc n (dict_of (u_vars u))); simpl; auto. destruct (assoc n prim); simpl; auto.
    destruct (np_reshape sh (np_array l)); simpl; auto. apply IH. apply set_val_same. auto.
  Qed.
  Lemma save_duals_same : forall u dual l k o1 o2, same u o1 o2 ->
      same u (fst (save_duals u dual k l o1)) (fst (save_duals u dual k l o2))
      /\ snd (save_duals u dual k l o1) = snd (save_duals u dual k l o2).
  Proof.
    induction l as [|[n sh] t IH]; simpl; intros k o1 o2 H; auto.
    destruct (nth_error (u_cons u) k); simpl; auto. destruct (assoc n dual); simpl; auto.
    destruct (shaped_dual sh (np_array l)); simpl; auto. apply IH. apply set_dual_same. auto.
  Qed.

  Lemma store_same : forall t u (r : cres K) dt o1 o2,
      same u (fst (store t u r dt o1)) (fst (store t u r dt o2))
      /\ snd (store t u r dt o1) = snd (store t u r dt o2).
  Proof.
    intros t u r dt o1 o2. unfold store.
    pose proof (save_vars_same u (rs_prim r) (t_vars t) _ _ (clear_same u o1 o2)) as [S1 E1].
    destruct (save_vars u (rs_prim r) (t_vars t) (clear u o1)) as [p1 e1], (save_vars u (rs_prim r) (t_vars t) (clear u o2)) as [p2 e2].
    simpl in S1, E1. subst e2. destruct e1; [simpl; auto|].
    assert (G : exists q1 q2 e, (if Nat.eqb (t_expl t) 1 then (p1, None) else save_duals u (rs_dual r) 0 (t_duals t) p1) = (q1, e)
                /\ (if Nat.eqb (t_expl t) 1 then (p2, None) else save_duals u (rs_dual r) 0 (t_duals t) p2) = (q2, e) /\ same u q1 q2).
    { destruct (Nat.eqb (t_expl t) 1). { eexists _, _, _. eauto. }
      pose proof (save_duals_same u (rs_dual r) (t_duals t) 0 _ _ S1) as [S2 E2].
      destruct (save_duals u (rs_dual r) 0 (t_duals t) p1) as [q1 f1], (save_duals u (rs_dual r) 0 (t_duals t) p2) as [q2 f2].
      simpl in S2, E2. subst f2. eexists _, _, _. eauto. }
    destruct G as (q1 & q2 & e & -> & -> & S2). destruct e; [simpl; auto|].
    destruct (t_expl t); [|simpl; auto]. unfold report. destruct (status_of (t_docu t) (ci_status (rs_info r))); [|simpl; auto].
    destruct S2 as (A1 & A2 & A3 & A4 & A5). cbn. split; auto. unfold same. cbn. split; [auto|]. split; [auto|].
    split; auto. split; auto. do 2 f_equal.
    - f_equal. apply map_ext_in. intros x Hx. rewrite (A1 x Hx). auto.
    - f_equal. apply map_ext_in. intros c Hc. rewrite (A2 c Hc). auto.
  Qed.
End Indep.
Arguments same {K}.

(** ** Sequences of calls *)

Section Sessions.
  Variable N : Num.
  Variable g : genc N.
  Variable scr : nat -> pid -> list (car N) -> list (car N).
  Variable sv : Type.
  Variable enabled : list string.
  Variable translation : list (string * string).
  Variable dflt : string -> sv.
  Variable converts : string -> sv -> bool.
  Variable K : Type.
  Variable t : tmpl.
  Variable u : uprob.
  Variable out : wst N sv -> cres K * fnum.
  Notation solve := (py_solve N g scr sv enabled translation dflt converts).
  Notation call := (call N g scr sv enabled translation dflt converts K t u out).
  Notation calls := (calls N g scr sv enabled translation dflt converts K t u out).
  Notation session := (session N g scr sv enabled translation dflt converts).

  Lemma call_state : forall w o c, fst (fst (call w o c)) = fst (solve w c).
  Proof.
    intros w o c. unfold Report.call. destruct (solve w c) as [w' [e|]]; auto.
    destruct (store t u (fst (out w')) (snd (out w')) o). auto.
  Qed.

  Lemma calls_state : forall cs w o, fst (fst (calls w o cs)) = fst (session w cs).
  Proof.
    induction cs as [|c rest IH]; intros w o; auto. cbn [Report.calls Wrapper.session].
    pose proof (call_state w o c) as H. destruct (call w o c) as [[w1 o1] r]. simpl in H.
    destruct (solve w c) as [w1' e]. simpl in H. subst w1'.
    specialize (IH w1 o1). destruct (calls w1 o1 rest) as [[w2 o2] rs]. simpl in IH.
    destruct (session w1 rest) as [w2' es]. simpl in *. auto.
  Qed.

  Lemma calls_object : forall cs w o,
      (Forall (fun e => e <> None) (snd (session w cs)) /\ snd (fst (calls w o cs)) = o)
      \/ exists a c b wc w1, cs = a ++ c :: b /\ fst (session w a) = wc /\ solve wc c = (w1, None)
           /\ Forall (fun e => e <> None) (snd (session w1 b))
           /\ same u (snd (fst (calls w o cs))) (fst (store t u (fst (out w1)) (snd (out w1)) o)).
  Proof.
    induction cs as [|c rest IH]; intros w o.
    - left. simpl. split; auto.
    - cbn [Report.calls Wrapper.session].
      unfold Report.call. destruct (solve w c) as [w1 e] eqn:Es. destruct e as [e|].
      + specialize (IH w1 o). destruct (calls w1 o rest) as [[w2 o2] rs] eqn:E2.
        destruct (session w1 rest) as [w2' es] eqn:E3. cbn [fst snd] in *.
        destruct IH as [[H1 H2]|(a & c' & b & wc & w1' & H1 & H2 & H3 & H4 & H5)].
        * left. split; auto. constructor; [discriminate|auto].
        * right. exists (c :: a), c', b, wc, w1'. split; [subst; auto|]. split; [|auto].
          cbn [Wrapper.session]. rewrite Es. destruct (session w1 a) eqn:E4. simpl in *. auto.
      + destruct (store t u (fst (out w1)) (snd (out w1)) o) as [o1 r1] eqn:Est.
        specialize (IH w1 o1). destruct (calls w1 o1 rest) as [[w2 o2] rs] eqn:E2.
        destruct (session w1 rest) as [w2' es] eqn:E3. cbn [fst snd] in *. right.
        destruct IH as [[H1 H2]|(a & c' & b & wc & w1' & H1 & H2 & H3 & H4 & H5)].
        * exists [], c, rest, w, w1. split; auto. split; auto. split; auto. rewrite E3. split; auto.
          rewrite H2, Est. simpl. unfold same. repeat split; auto.
        * exists (c :: a), c', b, wc, w1'. split; [subst; auto|].
          split. { cbn [Wrapper.session]. rewrite Es. destruct (session w1 a) eqn:E4. simpl in *. auto. }
          split; auto. split; auto.
          destruct (store_same K t u (fst (out w1')) (snd (out w1')) o1 o) as [(A1 & A2 & A3 & A4 & A5) _].
          destruct H5 as (B1 & B2 & B3 & B4 & B5). unfold same.
          split; [intros; rewrite B1, A1; auto|]. split; [intros; rewrite B2, A2; auto|]. split; [congruence|]. split; congruence.
  Qed.

  (** ** Entries no call writes *)

  Lemma put_other : forall A (l : list A) k v l' q, put l k v = Ok l' -> q <> k -> nth_error l' q = nth_error l q.
  Proof.
    intros A l k v l' q H Hq. unfold put in H. destruct (Nat.ltb k (length l)); [|discriminate]. injection H as <-.
    revert k q Hq. induction l as [|a r IH]; intros [|k] [|q] Hq; simpl; auto; try congruence.
  Qed.

  Lemma find_col_le : forall n ps cum c z, find_col n (col_to_name cum ps) = Some c -> assoc n ps = Some z ->
      c + z <= cum + total ps.
  Proof.
    unfold total. induction ps as [|[n' z'] r IH]; simpl; intros cum c z H1 H2; [discriminate|].
    destruct (String.eqb n n'). { injection H1 as <-. injection H2 as <-. lia. }
    specialize (IH _ _ _ H1 H2). lia.
  Qed.

  Variable q : nat.
  Hypothesis Hq : total (g_params g) <= q.
  Hypothesis Hk : NoDup (map fst (g_params g)).

  Definition op_in (x : op N) : Prop :=
    match x with OUpd n i _ => exists z, assoc n (g_params g) = Some z /\ i < z | OSolve => True end.

  Lemma step_other : forall x s s', op_in x -> step g scr s x = Ok s' -> nth_error (r_vec s') q = nth_error (r_vec s) q.
  Proof.
    intros [n i v|] s s' Hx H; simpl in H.
    - unfold do_update in H. destruct Hx as (z & Hz & Hi). unfold base_col in H.
      destruct (find_col n (col_to_name 0 (g_params g))) as [c|] eqn:Ec; [|discriminate].
      destruct (put (r_vec s) (i + c) v) as [vec|] eqn:Ep; [|discriminate]. cbn [bind] in H. injection H as <-. simpl.
      apply (put_other _ _ _ _ _ _ Ep). pose proof (find_col_le _ _ _ _ _ Ec Hz). lia.
    - unfold do_solve in H. destruct (canon_blocks g (r_vec s) (r_flag s) (m_can (r_m s)) (solver_pids (g_solver g))); [|discriminate].
      cbn [bind] in H. destruct (run (g_block g) (r_flag s) (r_ini s)) as [acts ini]. injection H as <-. auto.
  Qed.

  Lemma steps_other : forall xs s s', Forall op_in xs -> steps g scr s xs = Ok s' -> nth_error (r_vec s') q = nth_error (r_vec s) q.
  Proof.
    induction xs as [|x r IH]; simpl; intros s s' HF H. { injection H as <-. auto. }
    inversion HF; subst. destruct (step g scr s x) as [s1|] eqn:E; [|discriminate]. cbn [bind] in H.
    rewrite (IH _ _ H3 H). apply (step_other x); auto.
  Qed.

  Lemma set_par_fits : forall c ps pars, set_par N sv c ps = Ok pars ->
      forall n l, In (n, l) pars -> In (n, length l) ps.
  Proof.
    induction ps as [|[n z] r IH]; cbn [set_par]; intros pars H n' l Hi. { injection H as <-. destruct Hi. }
    destruct (c_vals c n) as [l0|]; [|discriminate]. cbn [bind] in H.
    destruct (Nat.eqb (length l0) z) eqn:E; [|discriminate].
    destruct (set_par N sv c r) as [ps'|]; [|discriminate]. cbn [bind] in H. injection H as <-.
    destruct Hi as [X|Hi]; [injection X as <- <-; left; apply Nat.eqb_eq in E; subst; auto|right; eapply IH; eauto].
  Qed.

  Lemma upd_ops_in : forall fl pars, (forall n l, In (n, l) pars -> In (n, length l) (g_params g)) ->
      Forall op_in (upd_ops N fl pars).
  Proof.
    intros fl pars H. apply Forall_forall. intros x Hx. unfold upd_ops in Hx. apply in_flat_map in Hx.
    destruct Hx as ([n l] & Hi & Hx). simpl in Hx. destruct (fl n); [|destruct Hx]. apply in_map_iff in Hx.
    destruct Hx as ([j v] & <- & Hj). simpl. exists (length l). split.
    - apply In_assoc; auto.
    - apply in_combine_l in Hj. apply in_seq in Hj. lia.
  Qed.

  Lemma solve_other : forall w c, nth_error (r_vec (w_rst (fst (solve w c)))) q = nth_error (r_vec (w_rst w)) q.
  Proof.
    intros w c. unfold py_solve. destruct (forallb _ _); auto.
    destruct (set_kw sv enabled translation converts (reset N g sv enabled dflt (w_set w)) (c_kw c)) as [s1 e]. destruct e; auto.
    destruct (set_par N sv c (g_params g)) as [pars|] eqn:Ep; auto.
    destruct (steps g scr (w_rst w) (upd_ops N _ pars)) as [r1|] eqn:E1; auto.
    assert (H1 : nth_error (r_vec r1) q = nth_error (r_vec (w_rst w)) q).
    { eapply steps_other; [|exact E1]. apply upd_ops_in. eapply set_par_fits; eauto. }
    destruct (do_solve g scr r1) as [r2|] eqn:E2; auto. simpl. rewrite <- H1. apply (step_other OSolve); simpl; auto.
  Qed.

  Lemma session_other : forall cs w, nth_error (r_vec (w_rst (fst (session w cs)))) q = nth_error (r_vec (w_rst w)) q.
  Proof.
    induction cs as [|c rest IH]; intro w; auto. cbn [Wrapper.session].
    pose proof (solve_other w c) as H. destruct (solve w c) as [w1 e]. specialize (IH w1).
    destruct (session w1 rest) as [w2 es]. simpl in *. congruence.
  Qed.
End Sessions.

(** ** Parameter dictionaries *)

Lemma col_distinct : forall params cum k n z, NoDup (map fst params) -> nth_error params k = Some (n, z) ->
    find_col n (col_to_name cum params) = Some (cum + starts_at params k).
Proof.
  unfold starts_at. induction params as [|[n' z'] r IH]; intros cum k n z H Hk; [destruct k; discriminate|].
  inversion H; subst. destruct k as [|k]; simpl in *.
  - injection Hk as <- <-. rewrite String.eqb_refl. f_equal. lia.
  - destruct (String.eqb n n') eqn:E.
    + apply String.eqb_eq in E. subst. exfalso. apply H2. apply nth_error_In in Hk. apply in_map_iff. exists (n', z). auto.
    + rewrite (IH (cum + z') k n z H3 Hk). f_equal. lia.
Qed.

Definition pos (d : list (string * nat)) : Prop := Forall (fun x => 0 < snd x) d.

Lemma set_total : forall k v d, total (dict_set k v d) <= total d + v /\ (In k (map fst d) -> pos d -> total (dict_set k v d) < total d + v).
Proof.
  unfold total. induction d as [|[k' w] r IH]; simpl.
  - split; [lia|tauto].
  - destruct IH as [I1 I2]. destruct (String.eqb k k') eqn:E; simpl.
    + split; [lia|]. intros _ H. inversion H; subst. simpl in *. lia.
    + split; [lia|]. intros [X|X] H; [subst; rewrite String.eqb_refl in E; discriminate|].
      inversion H; subst. specialize (I2 X H3). lia.
Qed.

Lemma set_pos : forall k v d, 0 < v -> pos d -> pos (dict_set k v d).
Proof.
  unfold pos. induction d as [|[k' w] r IH]; simpl; intros Hv H; [repeat constructor; auto|].
  inversion H; subst. destruct (String.eqb k k'); constructor; auto.
Qed.

Lemma total_cons : forall x d, total (x :: d) = snd x + total d.
Proof. reflexivity. Qed.

Lemma fold_total : forall l d, total (fold_left dput l d) <= total d + total l.
Proof.
  induction l as [|[k v] r IH]; intro d; [simpl; unfold total; simpl; lia|]. cbn [fold_left]. rewrite total_cons. cbn [snd].
  specialize (IH (dput d (k, v))). assert (H : total (dput d (k, v)) <= total d + v) by (apply (set_total k v d)). lia.
Qed.

Lemma fold_strict : forall l d, pos d -> pos l -> ~ NoDup (map fst (d ++ l)) -> NoDup (map fst d) ->
    total (fold_left dput l d) < total d + total l.
Proof.
  induction l as [|[k v] r IH]; intros d Hd Hl Hn HN. { exfalso. apply Hn. rewrite app_nil_r. auto. }
  cbn [fold_left]. rewrite total_cons. cbn [snd]. inversion Hl; subst. simpl in H1.
  destruct (in_dec string_dec k (map fst d)) as [Hi|Hi].
  - destruct (set_total k v d) as [_ H]. specialize (H Hi Hd). pose proof (fold_total r (dput d (k, v))) as X.
    assert (Y : total (dput d (k, v)) < total d + v) by exact H. lia.
  - assert (E : dput d (k, v) = d ++ [(k, v)]) by (unfold dput; simpl; apply dict_set_new; auto).
    rewrite E. assert (X : total (fold_left dput r (d ++ [(k, v)])) < total (d ++ [(k, v)]) + total r).
    { apply IH; auto.
      - unfold pos. apply Forall_app. split; auto.
      - rewrite <- app_assoc. auto.
      - rewrite <- E. unfold dput. simpl. apply dict_set_nodup. auto. }
    unfold total in X at 2. rewrite map_app, list_sum_app in X. simpl in X. unfold total in *. lia.
Qed.

Lemma usp_total : forall params, pos params -> ~ NoDup (map fst params) -> total (usp params) < total params.
Proof. intros params H1 H2. apply (fold_strict params []); auto; constructor. Qed.
