(** C76: update functions of the generated C code called with any index. *)

From Coq Require Import String Arith Bool Lia ZArith List Permutation.
From Verif Require Import Base Pus Machine PusParse PusCheck PusLift Runtime RuntimeSpec RuntimeProofs RuntimeMore
     Canon CanonSpec CanonGen Explicit ExplicitProofs Stray StraySpec StrayProofs Examples.
Import ListNotations.
Open Scope string_scope.
Open Scope list_scope.

(** What C01-C03 assume of the solver library: ECOS may write into blocks of a size other than 1, Clarabel
    leaves the data it is given. *)
Definition library_ok {N : Num} (g : genc N) (scr : nat -> pid -> list (car N) -> list (car N)) : Prop :=
  (g_solver g = ECOS -> forall p, In p (owned ECOS) -> length (g_rows g p) <> 1)
  /\ (keeps (g_solver g) = true -> forall n p d, scr n p d = d).

(** With an index the parameter has, a call does what C01-C05 speak of. *)
Theorem C76_in_range :
  forall (N : Num) (g : genc N) scr os (s : rst N), Forall (in_range (g_params g)) os ->
  z_steps g scr s os = steps g scr s (map (plain (g_params g)) os)
  /\ Forall (valid_op (g_params g)) (map (plain (g_params g)) os).
Proof.
  intros N g scr os. induction os as [|o os IH]; intros s H; inversion H as [|? ? Ho Hos]; subst; [split; constructor|].
  split.
  - cbn [z_steps steps map]. destruct o as [n idx v|].
    + cbn [z_step]. rewrite (in_range_same N g s n idx v Ho). cbn [plain step].
      destruct (do_update _ _ _ _ _) as [s'|e]; cbn [bind]; auto. apply IH; auto.
    + cbn [z_step plain step]. destruct (do_solve g scr s) as [s'|e]; cbn [bind]; auto. apply IH; auto.
  - cbn [map]. constructor; [|apply (IH s); auto]. destruct o as [n idx v|]; [|exact I].
    destruct Ho as [Hn R]. cbn [plain valid_op]. exists (size_of (g_params g) n). split; [apply size_in; auto|].
    destruct (Nat.eqb (size_of (g_params g) n) 1) eqn:E; [apply Nat.eqb_eq in E; lia|].
    apply Nat.eqb_neq in E. destruct R as [R|R]; [contradiction|lia].
Qed.
Print Assumptions C76_in_range.

(** An entry outside the array stops the call; every other call of an existing function runs. *)
Theorem C76_outside :
  forall (N : Num) (g : genc N) (th0 : pvals N), wf_gen g th0 ->
  forall scr os s, library_ok g scr -> Forall (inside (g_params g)) os ->
  z_steps g scr (init_state g) os = Ok s ->
  forall n idx v, In n (map fst (g_params g)) ->
  ((place (g_params g) n idx < 0 \/ Z.of_nat (total (g_params g)) < place (g_params g) n idx)%Z ->
     z_step g scr s (ZUpd n idx v) = Err OutOfBounds)
  /\ ((0 <= place (g_params g) n idx <= Z.of_nat (total (g_params g)))%Z ->
     exists s', z_step g scr s (ZUpd n idx v) = Ok s').
Proof.
  intros N g th0 W scr os s [He Hk] Hi E n idx v Hn.
  destruct (z_run_ok N g th0 W scr He Hk os Hi) as (s1 & E1 & _ & L & _). rewrite E in E1. inversion E1; subst s1.
  cbn [z_step]. unfold z_update. rewrite subscript_place by auto. unfold zput. split.
  - intros [H|H].
    + replace (place (g_params g) n idx <? 0)%Z with true by (symmetry; apply Z.ltb_lt; auto). reflexivity.
    + replace (place (g_params g) n idx <? 0)%Z with false by (symmetry; apply Z.ltb_ge; lia).
      unfold put. replace (Nat.ltb _ _) with false; [reflexivity|]. symmetry. apply Nat.ltb_ge. rewrite L. lia.
  - intros H. replace (place (g_params g) n idx <? 0)%Z with false by (symmetry; apply Z.ltb_ge; lia).
    unfold put. replace (Nat.ltb _ _) with true; [eexists; reflexivity|]. symmetry. apply Nat.ltb_lt. rewrite L. lia.
Qed.
Print Assumptions C76_outside.

(** Inside the array, the entry is one of the parameter itself, one of another parameter, or the constant 1
    behind all parameters. *)
Theorem C76_where :
  forall (N : Num) (g : genc N), NoDup (map fst (g_params g)) ->
  forall n idx (v : car N), In n (map fst (g_params g)) ->
  (0 <= place (g_params g) n idx <= Z.of_nat (total (g_params g)))%Z ->
  in_range (g_params g) (ZUpd n idx v)
  \/ place (g_params g) n idx = Z.of_nat (total (g_params g))
  \/ exists q j, q <> n /\ In (q, size_of (g_params g) q) (g_params g) /\ j < size_of (g_params g) q
       /\ forall th : pvals N, upd (flat (g_params g) th) (Z.to_nat (place (g_params g) n idx)) v
                               = flat (g_params g) (set_val th q j v).
Proof.
  intros N g ND n idx v Hn [R1 R2].
  destruct (Z.eq_dec (place (g_params g) n idx) (Z.of_nat (total (g_params g)))) as [E|E]; [auto|].
  destruct (place_owner (g_params g) (Z.to_nat (place (g_params g) n idx)) ND) as (q & j & Hq & Hj & Hk); [lia|].
  destruct (string_dec q n) as [En|En].
  - left. subst q. split; auto. unfold place in *. destruct (Nat.eqb (size_of (g_params g) n) 1) eqn:E1.
    + left. apply Nat.eqb_eq. auto.
    + right. lia.
  - right; right. exists q, j. split; auto. split; [apply size_in; auto|]. split; auto. intro th.
    assert (Hb : base_col g q = Some (offset (g_params g) q)) by (unfold base_col; rewrite find_col_offset by auto; reflexivity).
    destruct (flat_set N g th q _ j v _ ND (size_in _ _ Hq) Hj Hb) as [F _]. rewrite F. f_equal. lia.
Qed.
Print Assumptions C76_where.

(** Every call inside the array: each block of each solve is the map of that block at the array of the last
    solve before which a function naming the block was called. *)
Theorem C76_exact :
  forall (N : Num) (g : genc N) (th0 : pvals N), wf_gen g th0 ->
  forall scr os, library_ok g scr -> Forall (inside (g_params g)) os ->
  exists s', z_steps g scr (init_state g) os = Ok s'
    /\ r_vec s' = array (g_params g) (g_vec0 g) os
    /\ forall p, In p (owned (g_solver g)) -> map (fun e => e_data e p) (r_log s')
         = map (data_for g p) (seen (g_params g) (fun n => mem_pid p (g_outd g n)) (g_vec0 g) true (g_vec0 g) os).
Proof.
  intros N g th0 W scr os [He Hk] Hi. destruct (z_run_ok N g th0 W scr He Hk os Hi) as (s' & E & V1 & _ & D & _).
  exists s'. auto.
Qed.
Print Assumptions C76_exact.

(** If each function called names all blocks that read the entry it writes, every solve works on the array of
    that moment. *)
Theorem C76_covered :
  forall (N : Num) (g : genc N) (th0 : pvals N), wf_gen g th0 ->
  forall scr os, library_ok g scr -> Forall (inside (g_params g)) os -> Forall (covers g) os ->
  exists s', z_steps g scr (init_state g) os = Ok s'
    /\ forall p, In p (owned (g_solver g)) ->
         map (fun e => e_data e p) (r_log s') = map (data_for g p) (arrays (g_params g) (g_vec0 g) os).
Proof.
  intros N g th0 W scr os L Hi Hc. destruct (C76_exact N g th0 W scr os L Hi) as (s' & E & _ & D). exists s'. split; auto.
  intros p Hp. rewrite (D p Hp). apply seen_fresh; auto; discriminate.
Qed.
Print Assumptions C76_covered.

(** Calls in range are covered. *)
Theorem C76_in_range_covered :
  forall (N : Num) (g : genc N) (th0 : pvals N), wf_gen g th0 ->
  forall o, in_range (g_params g) o -> inside (g_params g) o /\ covers g o.
Proof.
  intros N g th0 W [n idx v|] H; [|split; exact I]. destruct H as [Hn R].
  pose proof (offset_total (g_params g) n Hn) as T.
  assert (P : (Z.of_nat (offset (g_params g) n) <= place (g_params g) n idx
               < Z.of_nat (offset (g_params g) n + size_of (g_params g) n))%Z).
  { unfold place. destruct (Nat.eqb (size_of (g_params g) n) 1) eqn:E; [apply Nat.eqb_eq in E; lia|].
    apply Nat.eqb_neq in E. destruct R as [R|R]; [contradiction|lia]. }
  split; [split; auto; lia|]. cbn [covers]. intros p r c w Hp Hr Hc E.
  destruct (mem_pid p (g_outd g n)) eqn:M; [apply mem_pid_In; auto|]. exfalso.
  assert (Hno : ~ In p (g_outd g n)) by (intro Q; apply mem_pid_In in Q; congruence).
  assert (Hb : base_col g n = Some (offset (g_params g) n)) by (unfold base_col; rewrite find_col_offset by auto; reflexivity).
  apply (w_deps _ _ _ W p n _ _ Hp (size_in _ _ Hn) Hb Hno r c w Hr Hc). lia.
Qed.
Print Assumptions C76_in_range_covered.

(** A value written over the constant stays there: no later call in range puts the 1 back. *)
Theorem C76_constant_lost :
  forall (N : Num) (g : genc N) (th0 : pvals N), wf_gen g th0 ->
  forall scr os n idx v os', library_ok g scr -> Forall (inside (g_params g)) os -> In n (map fst (g_params g)) ->
  place (g_params g) n idx = Z.of_nat (total (g_params g)) -> Forall (in_range (g_params g)) os' ->
  exists s', z_steps g scr (init_state g) (os ++ ZUpd n idx v :: os') = Ok s'
    /\ nth (total (g_params g)) (r_vec s') n0 = v
    /\ Forall (fun a => nth (total (g_params g)) a n0 = v)
              (arrays (g_params g) (array (g_params g) (g_vec0 g) (os ++ [ZUpd n idx v])) os').
Proof.
  intros N g th0 W scr os n idx v os' L Hi Hn Hp Ho.
  assert (Hi' : Forall (inside (g_params g)) (os ++ ZUpd n idx v :: os')).
  { apply Forall_app. split; auto. constructor; [split; auto; lia|].
    eapply Forall_impl; [|exact Ho]. intros o H. apply (C76_in_range_covered N g th0 W o H). }
  destruct (C76_exact N g th0 W scr _ L Hi') as (s' & E & V1 & _). exists s'. split; auto. rewrite V1.
  assert (LL : forall o (a : list (car N)), length (array (g_params g) a o) = length a).
  { induction o as [|[m i w|] o IH]; intro a; cbn [array]; auto. rewrite IH. apply upd_length. }
  assert (A : forall o o' (a : list (car N)), array (g_params g) a (o ++ o') = array (g_params g) (array (g_params g) a o) o').
  { induction o as [|[m i w|] o IH]; intros o' a; cbn [array app]; auto. }
  assert (Z0 : nth (total (g_params g)) (array (g_params g) (g_vec0 g) (os ++ [ZUpd n idx v])) n0 = v).
  { rewrite A. cbn [array]. rewrite Hp, Nat2Z.id. apply nth_upd_eq. rewrite LL, (vec0_length N g th0 W). lia. }
  assert (Keep : forall m i w (a : list (car N)), in_range (g_params g) (ZUpd m i w) -> nth (total (g_params g)) a n0 = v ->
                 nth (total (g_params g)) (upd a (Z.to_nat (place (g_params g) m i)) w) n0 = v).
  { intros m i w a [Hm R] Ha. rewrite nth_upd_neq; auto. pose proof (offset_total (g_params g) m Hm) as T.
    unfold place. destruct (Nat.eqb (size_of (g_params g) m) 1) eqn:E1; [apply Nat.eqb_eq in E1; lia|].
    apply Nat.eqb_neq in E1. destruct R as [R|R]; [contradiction|lia]. }
  replace (os ++ ZUpd n idx v :: os') with ((os ++ [ZUpd n idx v]) ++ os') by (rewrite <- app_assoc; reflexivity).
  rewrite A. revert Z0. generalize (array (g_params g) (g_vec0 g) (os ++ [ZUpd n idx v])). clear - Ho Keep.
  induction Ho as [|o os' Ho Hos IH]; intros a Ha; cbn [array arrays].
  - split; [exact Ha|constructor].
  - destruct o as [m i w|].
    + apply IH. apply Keep; auto.
    + destruct (IH a Ha) as [I1 I2]. split; [exact I1|constructor; auto].
Qed.
Print Assumptions C76_constant_lost.

(** ** Explicit mode *)

(** The value stored lies between the two bounds of the entry written, whichever parameter owns it. *)
Theorem C76_explicit_limits :
  forall (K : ORing) (g : genc K) (lower upper : list K) s n idx v s', In n (map fst (g_params g)) ->
  (forall k, k < length lower -> ole (nth k lower n0) (nth k upper n0)) ->
  zx_update g lower upper s n idx v = Ok s' ->
  let k := Z.to_nat (place (g_params g) n idx) in
  (0 <= place (g_params g) n idx)%Z /\ k < length (xs_vec s) /\ k < length lower /\ k < length upper
  /\ ole (nth k lower n0) (nth k (xs_vec s') n0) /\ ole (nth k (xs_vec s') n0) (nth k upper n0)
  /\ (ole (nth k lower n0) v -> ole v (nth k upper n0) -> nth k (xs_vec s') n0 = v)
  /\ forall j, j <> k -> nth j (xs_vec s') n0 = nth j (xs_vec s) n0.
Proof.
  intros K g lower upper s n idx v s' Hn Hb E k. unfold zx_update in E. rewrite (subscript_place K g) in E by auto.
  unfold zget, zput in E. destruct (place (g_params g) n idx <? 0)%Z eqn:E0; [discriminate|]. apply Z.ltb_ge in E0.
  fold k in E. unfold get in E. destruct (nth_error lower k) as [lo|] eqn:E1; [|discriminate].
  destruct (nth_error upper k) as [hi|] eqn:E2; [|discriminate]. cbn [bind] in E.
  unfold put in E. destruct (Nat.ltb k (length (xs_vec s))) eqn:E3; [|discriminate]. apply Nat.ltb_lt in E3.
  cbn [bind] in E. inversion E; subst s'. cbn [xs_vec].
  assert (L1 : k < length lower) by (apply nth_error_Some; congruence).
  assert (L2 : k < length upper) by (apply nth_error_Some; congruence).
  assert (F1 : nth k lower n0 = lo) by (apply nth_error_nth with (d := n0) in E1; auto).
  assert (F2 : nth k upper n0 = hi) by (apply nth_error_nth with (d := n0) in E2; auto).
  specialize (Hb k L1). rewrite F1, F2 in *. rewrite nth_upd_eq by auto.
  destruct (clamp_ok K lo hi v Hb) as (A1 & A2 & A3 & _). repeat split; auto.
  intros j Hj. apply nth_upd_neq. auto.
Qed.
Print Assumptions C76_explicit_limits.

(** The constant has both bounds 1 (pdaqp.py 272) and cannot be overwritten. *)
Theorem C76_explicit_constant :
  forall (K : ORing) (big : K) (g : genc K) cs, NoDup (map fst (g_params g)) ->
  Forall (simple_bound (g_params g)) cs ->
  exists lo hi, bounds big (g_params g) cs = Ok (lo, hi)
    /\ forall s n idx v, In n (map fst (g_params g)) -> place (g_params g) n idx = Z.of_nat (total (g_params g)) ->
         length (xs_vec s) = S (total (g_params g)) -> nth (total (g_params g)) (xs_vec s) n0 = n1 ->
         exists s', zx_update g lo hi s n idx v = Ok s' /\ xs_vec s' = xs_vec s.
Proof.
  intros K big g cs ND Hc.
  destruct (bounds_ok K (g_params g) ND big cs Hc) as (lo & hi & E & L1 & L2 & T1 & T2 & _). exists lo, hi. split; auto.
  assert (Et : list_sum (map snd (g_params g)) = total (g_params g)).
  { generalize (g_params g) as l. induction l as [|[m t] l IH]; cbn [map snd list_sum total fold_right]; auto. }
  rewrite Et in *.
  intros s n idx v Hn Hp Hl H1. unfold zx_update. rewrite (subscript_place K g) by auto. rewrite Hp. unfold zget, zput.
  replace (Z.of_nat (total (g_params g)) <? 0)%Z with false by (symmetry; apply Z.ltb_ge; lia). rewrite Nat2Z.id.
  rewrite (get_ok _ lo _ n0) by lia. rewrite (get_ok _ hi _ n0) by lia. cbn [bind].
  rewrite put_ok by lia. cbn [bind]. eexists. split; [reflexivity|]. cbn [xs_vec]. rewrite T1, T2.
  destruct (clamp_ok K n1 n1 v (ole_refl K n1)) as (A1 & A2 & _).
  rewrite (ole_antisym K _ _ A2 A1). apply nth_ext_len with (d := n0); [apply upd_length|].
  intros k Hk. destruct (Nat.eq_dec k (total (g_params g))) as [->|D].
  - rewrite nth_upd_eq; auto. lia.
  - apply nth_upd_neq. auto.
Qed.
Print Assumptions C76_explicit_constant.

(** ** Examples and counterexamples: p has two entries, q one; the array is [3; 4; 5; 1]. *)

Definition zu : string -> Z -> Z -> zop ZRing := @ZUpd ZRing.
Definition data_log (s : solver) (l : list pid) (os : list (zop ZRing)) : list (list (list Z)) :=
  match z_steps (ex_gen s) (fun _ _ d => d) (init_state (ex_gen s)) os with
  | Ok s' => map (fun e => map (e_data e) l) (r_log s')
  | Err _ => []
  end.

Lemma ex_gen_params : forall s, g_params (ex_gen s) = [("p", 2); ("q", 1)].
Proof. intros [|[]| |[]|[]|[]]; vm_compute; reflexivity. Qed.

Lemma ex_library : forall s, library_ok (ex_gen s) (fun _ _ d => d).
Proof.
  intro s. split; [|intros; reflexivity]. intros E. destruct (ex_wf_gen s) as [_ Es]. rewrite E in Es. subst s.
  apply ex_ecos_sizes.
Qed.

(** p[0] = 9 and p[1] = 7 in range; q has size 1 and takes no index. *)
Example C76_in_range_example :
  Forall (in_range (g_params (ex_gen OSQP))) [ZSolve; zu "p" 0 9; zu "p" 1 7; zu "q" 55 (-2); ZSolve]%Z
  /\ data_log OSQP [pA; pq; pu] [ZSolve; zu "p" 0 9; zu "p" 1 7; zu "q" 55 (-2); ZSolve]%Z
     = [[[1; -3; 2; -1]; [5; 1]; [-5; 0; 0; 4]]; [[1; -9; 2; -1]; [-2; 1]; [2; 0; 0; 7]]]%Z.
Proof.
  rewrite ex_gen_params. split; [|vm_compute; reflexivity].
  repeat apply Forall_cons; try exact I; try apply Forall_nil; (split; [cbn; tauto|cbn; lia]).
Qed.

(** p[-1] and p[4] lie outside; p[2] is q; p[3] is the constant. *)
Example C76_where_example :
  wf_gen (ex_gen OSQP) ex_th0
  /\ place (g_params (ex_gen OSQP)) "p" (-1) = (-1)%Z /\ place (g_params (ex_gen OSQP)) "p" 4 = 4%Z
  /\ place (g_params (ex_gen OSQP)) "p" 2 = 2%Z /\ place (g_params (ex_gen OSQP)) "p" 3 = Z.of_nat (total (g_params (ex_gen OSQP)))
  /\ z_step (ex_gen OSQP) (fun _ _ d => d) (init_state (ex_gen OSQP)) (zu "p" (-1) 8%Z) = Err OutOfBounds
  /\ z_step (ex_gen OSQP) (fun _ _ d => d) (init_state (ex_gen OSQP)) (zu "p" 4 8%Z) = Err OutOfBounds
  /\ (match z_step (ex_gen OSQP) (fun _ _ d => d) (init_state (ex_gen OSQP)) (zu "p" 2 8%Z) with
      | Ok s => r_vec s | Err _ => [] end) = [3; 4; 8; 1]%Z.
Proof. split; [apply ex_wf_gen|]. repeat split; vm_compute; reflexivity. Qed.

(** Entry q written through p: u, which p names, is computed from the new value, while the linear cost q,
    which p does not name, keeps the old one until the function of q is called. *)
Theorem C76_stale_refuted :
  exists (g : genc ZRing) th0 os, wf_gen g th0 /\ library_ok g (fun _ _ d => d) /\ Forall (inside (g_params g)) os
    /\ ~ Forall (covers g) os
    /\ forall s', z_steps g (fun _ _ d => d) (init_state g) os = Ok s' ->
         map (fun e => e_data e pq) (r_log s') <> map (data_for g pq) (arrays (g_params g) (g_vec0 g) os)
         /\ map (fun e => e_data e pu) (r_log s') = map (data_for g pu) (arrays (g_params g) (g_vec0 g) os).
Proof.
  exists (ex_gen OSQP), ex_th0, [ZSolve; zu "p" 2 9; ZSolve]%Z.
  split; [apply ex_wf_gen|]. split; [apply ex_library|].
  assert (Hi : Forall (inside (g_params (ex_gen OSQP))) [ZSolve; zu "p" 2 9; ZSolve]%Z).
  { rewrite ex_gen_params. repeat apply Forall_cons; try exact I; try apply Forall_nil. split; [cbn; tauto|cbn; lia]. }
  split; [exact Hi|].
  assert (R : exists s', z_steps (ex_gen OSQP) (fun _ _ d => d) (init_state (ex_gen OSQP)) [ZSolve; zu "p" 2 9; ZSolve]%Z = Ok s'
    /\ map (fun e => e_data e pq) (r_log s') = [[5; 1]; [5; 1]]%Z
    /\ map (fun e => e_data e pu) (r_log s') = [[-5; 0; 0; 4]; [-9; 0; 0; 4]]%Z).
  { destruct (C76_exact ZRing (ex_gen OSQP) ex_th0 (proj1 (ex_wf_gen OSQP)) (fun _ _ d => d) _ (ex_library OSQP) Hi) as (s1 & E1 & _).
    exists s1. split; [exact E1|].
    assert (D : data_log OSQP [pq; pu] [ZSolve; zu "p" 2 9; ZSolve]%Z
                = [[[5; 1]; [-5; 0; 0; 4]]; [[5; 1]; [-9; 0; 0; 4]]]%Z) by (vm_compute; reflexivity).
    unfold data_log in D. rewrite E1 in D.
    split; [apply (f_equal (map (fun l => nth 0 l []))) in D|apply (f_equal (map (fun l => nth 1 l []))) in D];
      rewrite map_map in D; exact D. }
  assert (A : map (data_for (ex_gen OSQP) pq) (arrays (g_params (ex_gen OSQP)) (g_vec0 (ex_gen OSQP)) [ZSolve; zu "p" 2 9; ZSolve]%Z)
              = [[5; 1]; [9; 1]]%Z) by (vm_compute; reflexivity).
  split.
  - intro Hc. destruct (C76_covered ZRing (ex_gen OSQP) ex_th0 (proj1 (ex_wf_gen OSQP)) (fun _ _ d => d) _ (ex_library OSQP) Hi Hc)
      as (s1 & E1 & D1).
    destruct R as (s2 & E2 & D2 & _). rewrite E1 in E2. inversion E2; subst s2.
    assert (Hp : In pq (owned (g_solver (ex_gen OSQP)))) by (vm_compute; auto).
    rewrite (D1 pq Hp), A in D2. apply (f_equal (fun l => nth 0 (nth 1 l []) 0%Z)) in D2. vm_compute in D2. discriminate D2.
  - intros s' E. destruct R as (s2 & E2 & D2 & D3). rewrite E in E2. inversion E2; subst s2. split.
    + rewrite D2, A. intro Q. apply (f_equal (fun l => nth 0 (nth 1 l []) 0%Z)) in Q. vm_compute in Q. discriminate Q.
    + rewrite D3. vm_compute. reflexivity.
Qed.
Print Assumptions C76_stale_refuted.

(** The call that repairs it, and one that happens to be covered (no solve in between). *)
Example C76_covered_example :
  data_log OSQP [pq; pu] [ZSolve; zu "p" 2 9; ZSolve; zu "q" 0 9; ZSolve]%Z
  = [[[5; 1]; [-5; 0; 0; 4]]; [[5; 1]; [-9; 0; 0; 4]]; [[9; 1]; [-9; 0; 0; 4]]]%Z
  /\ Forall (covers (ex_gen OSQP)) [zu "p" 0 9; zu "p" 1 7; zu "q" 55 (-2); ZSolve]%Z
  /\ Forall (inside (g_params (ex_gen OSQP))) [zu "p" 0 9; zu "p" 1 7; zu "q" 55 (-2); ZSolve]%Z.
Proof.
  split; [vm_compute; reflexivity|].
  assert (H : Forall (in_range (g_params (ex_gen OSQP))) [zu "p" 0 9; zu "p" 1 7; zu "q" 55 (-2); ZSolve]%Z).
  { rewrite ex_gen_params. repeat apply Forall_cons; try exact I; try apply Forall_nil; (split; [cbn; tauto|cbn; lia]). }
  split; (eapply Forall_impl; [|exact H]); intros o Ho;
    apply (C76_in_range_covered ZRing (ex_gen OSQP) ex_th0 (proj1 (ex_wf_gen OSQP)) o Ho).
Qed.

(** p[3] = 100 replaces the constant; writing every parameter again with its value does not help: the data
    of the last solve belong to no values of the parameters. *)
Theorem C76_constant_refuted :
  exists (g : genc ZRing) th0 n idx v os', wf_gen g th0 /\ library_ok g (fun _ _ d => d)
    /\ In n (map fst (g_params g)) /\ place (g_params g) n idx = Z.of_nat (total (g_params g))
    /\ Forall (in_range (g_params g)) os'
    /\ (forall m i, In m (map fst (g_params g)) -> i < size_of (g_params g) m -> In (ZUpd m (Z.of_nat i) (th0 m i)) os')
    /\ exists s', z_steps g (fun _ _ d => d) (init_state g) (ZUpd n idx v :: os' ++ [ZSolve]) = Ok s'
       /\ forall th, map (fun e => e_data e pA) (r_log s') <> [canon_spec g th pA].
Proof.
  exists (ex_gen OSQP), ex_th0, "p", 3%Z, 100%Z, [zu "p" 0 3; zu "p" 1 4; zu "q" 0 5]%Z.
  split; [apply ex_wf_gen|]. split; [apply ex_library|]. rewrite ex_gen_params.
  split; [cbn; tauto|]. split; [reflexivity|]. split.
  { repeat apply Forall_cons; try apply Forall_nil; (split; [cbn; tauto|cbn; lia]). }
  split.
  { intros m i [<-|[<-|[]]] Hi; cbn in Hi.
    - destruct i as [|[|]]; [left; reflexivity|right; left; reflexivity|lia].
    - destruct i as [|]; [right; right; left; reflexivity|lia]. }
  assert (Hi : Forall (inside (g_params (ex_gen OSQP))) [zu "p" 3 100; zu "p" 0 3; zu "p" 1 4; zu "q" 0 5; ZSolve]%Z).
  { rewrite ex_gen_params. repeat apply Forall_cons; try exact I; try apply Forall_nil; (split; [cbn; tauto|cbn; lia]). }
  destruct (C76_exact ZRing (ex_gen OSQP) ex_th0 (proj1 (ex_wf_gen OSQP)) (fun _ _ d => d) _ (ex_library OSQP) Hi) as (s1 & E1 & _).
  exists s1. split; [exact E1|]. intros th H.
  assert (D : data_log OSQP [pA] [zu "p" 3 100; zu "p" 0 3; zu "p" 1 4; zu "q" 0 5; ZSolve]%Z
              = [[[100; -3; 200; -100]]]%Z) by (vm_compute; reflexivity).
  unfold data_log in D. rewrite E1 in D. apply (f_equal (map (fun l => nth 0 l []))) in D.
  rewrite map_map in D. change (map (fun e => e_data e pA) (r_log s1) = [[100; -3; 200; -100]]%Z) in D. rewrite H in D.
  apply (f_equal (fun l => nth 0 (nth 0 l []) 0%Z)) in D. cbn [nth] in D.
  assert (C : nth 0 (canon_spec (ex_gen OSQP) th pA) 0%Z = 1%Z) by (vm_compute; reflexivity).
  pose proof (eq_trans (eq_sym C) D) as Q. vm_compute in Q. discriminate Q.
Qed.
Print Assumptions C76_constant_refuted.

(** Explicit mode with p <= [6; 7]: p[1] = 50 is stored as 7, p[2] = 50 goes to q, which has no bound, and
    p[3] = 50 leaves the constant. *)
Definition xgen : genc ZORing := ex_gen OSQP.
Definition xcs : list (ucon ZORing) := [UVars; UUpper "p" ([6; 7]%Z : list ZORing)].
Example C76_explicit_example :
  NoDup (map fst (g_params xgen)) /\ Forall (simple_bound (g_params xgen)) xcs
  /\ bounds (1000%Z : ZORing) (g_params xgen) xcs = Ok ([-1000; -1000; -1000; 1]%Z, [6; 7; 1000; 1]%Z)
  /\ (match zx_update xgen [-1000; -1000; -1000; 1]%Z [6; 7; 1000; 1]%Z (x_init xgen) "p" 1 (50%Z : ZORing) with
      | Ok s => xs_vec s | Err _ => [] end) = [3; 7; 5; 1]%Z
  /\ (match zx_update xgen [-1000; -1000; -1000; 1]%Z [6; 7; 1000; 1]%Z (x_init xgen) "p" 2 (50%Z : ZORing) with
      | Ok s => xs_vec s | Err _ => [] end) = [3; 4; 50; 1]%Z
  /\ (match zx_update xgen [-1000; -1000; -1000; 1]%Z [6; 7; 1000; 1]%Z (x_init xgen) "p" 3 (50%Z : ZORing) with
      | Ok s => xs_vec s | Err _ => [] end) = [3; 4; 5; 1]%Z.
Proof.
  split. { unfold xgen. rewrite ex_gen_params. repeat constructor; cbn; intuition discriminate. }
  split. { unfold xgen. rewrite ex_gen_params. repeat apply Forall_cons; cbn; auto. }
  repeat split; vm_compute; reflexivity.
Qed.
