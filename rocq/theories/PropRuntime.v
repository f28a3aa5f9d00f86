(** Properties of the generated C code at run time: C01-C05, C08-C11, C46, C50, C51. *)

From Coq Require Import String Arith Bool Lia List Permutation ZArith.
From Verif Require Import Base Pus Machine PusParse PusCheck PusLift Runtime RuntimeSpec RuntimeProofs
     PusMore RuntimeMore Wrapper WrapperProofs Canon CanonSpec CanonGen Examples.
Import ListNotations.
Open Scope string_scope.
Open Scope list_scope.

(** ** C01-C03: the data of every solve *)

(** "The data of a solve belong to parameter values [th]": every block the solver owns is
    the affine map of that block at [th] (or the generated constant). *)
Definition solve_data_of {N : Num} (g : genc N) (e : entry N) (th : pvals N) : Prop :=
  forall p, In p (owned (g_solver g)) -> e_data e p = canon_spec g th p.

(** C01.  [scr] is what the solver may do to its own working copies between calls. *)
Theorem C01_solve_uses_current_data :
  forall (N : Num) (g : genc N) (th0 : pvals N), wf_gen g th0 ->
  g_solver g <> ECOS -> (forall lp, g_solver g <> CLARABEL lp) ->
  forall scr os, Forall (valid_op (g_params g)) os ->
  exists s', steps g scr (init_state g) os = Ok s'
             /\ Forall2 (solve_data_of g) (r_log s') (solve_vals th0 os).
Proof.
  intros N g th0 W He Hc scr os Hv.
  destruct (run_ok N g th0 W scr) with (os := os) as (s' & log & E1 & <- & E3); [| |exact Hv|].
  - intro E. destruct (He E).
  - destruct (g_solver g) eqn:Es; simpl; intro Hk; try discriminate. exfalso. eapply Hc. reflexivity.
  - exists s'. split; auto. eapply Forall2_impl; [|exact E3]. intros e th H. exact (proj1 H).
Qed.
Print Assumptions C01_solve_uses_current_data.

(** The generator produces such code for every problem CVXPY hands over. *)
Theorem C01_generated_code_qualifies :
  forall (K : Ring) (big : K) (x : cvx K) (th0 : pvals K), wf_cvx x th0 ->
  forall s order, (forall l, Permutation l (order l)) ->
  exists g, generate big x s order = Ok g /\ wf_gen g th0 /\ g_solver g = s.
Proof. exact generate_wf. Qed.
Print Assumptions C01_generated_code_qualifies.

(** The hypotheses are met by a concrete generated program; the history changes both
    parameters between solves, and the data change accordingly. *)
Example C01_example :
  wf_gen (ex_gen OSQP) ex_th0 /\ Forall (valid_op (g_params (ex_gen OSQP))) ex_hist
  /\ (match steps (ex_gen OSQP) (fun _ _ d => d) (init_state (ex_gen OSQP)) ex_hist with
      | Ok s => map (fun e => (e_data e pA, e_data e pl, e_data e pu)) (r_log s)
      | Err _ => []
      end)
     = [([1; -3; 2; -1], [-5; 0; -1000000; -1000000], [-5; 0; 0; 4]);
        ([1; -3; 2; -1], [-5; 0; -1000000; -1000000], [-5; 0; 0; 7]);
        ([1; -9; 2; -1], [2; 0; -1000000; -1000000], [2; 0; 0; 7]);
        ([1; -9; 2; -1], [2; 0; -1000000; -1000000], [2; 0; 0; 7])]%Z.
Proof.
  split; [apply ex_wf_gen|]. split; [apply ex_hist_valid|]. vm_compute. reflexivity.
Qed.

(** C02: Clarabel reads the copied arrays at every solve. *)
Theorem C02_clarabel_reads_current_data :
  forall (N : Num) (g : genc N) (th0 : pvals N) lp, wf_gen g th0 -> g_solver g = CLARABEL lp ->
  forall scr os, (forall n p d, scr n p d = d) -> Forall (valid_op (g_params g)) os ->
  exists s', steps g scr (init_state g) os = Ok s'
             /\ Forall2 (solve_data_of g) (r_log s') (solve_vals th0 os).
Proof.
  intros N g th0 lp W Hs scr os Hk Hv.
  destruct (run_ok N g th0 W scr) with (os := os) as (s' & log & E1 & <- & E3); [|auto|exact Hv|].
  - intro E; congruence.
  - exists s'. split; auto. eapply Forall2_impl; [|exact E3]. intros e th H. exact (proj1 H).
Qed.
Print Assumptions C02_clarabel_reads_current_data.

Example C02_example : forall lp,
  wf_gen (ex_gen (CLARABEL lp)) ex_th0 /\ g_solver (ex_gen (CLARABEL lp)) = CLARABEL lp
  /\ (match steps (ex_gen (CLARABEL lp)) (fun _ _ d => d) (init_state (ex_gen (CLARABEL lp))) ex_hist with
      | Ok s => map (fun e => (e_data e pA, e_data e pb)) (r_log s)
      | Err _ => []
      end)
     = [([-1; -3; -2; -1], [5; 0; 0; 4]); ([-1; -3; -2; -1], [5; 0; 0; 7]);
        ([-1; -9; -2; -1], [-2; 0; 0; 7]); ([-1; -9; -2; -1], [-2; 0; 0; 7])]%Z.
Proof.
  intro lp. split; [apply ex_wf_gen|]. split; [apply ex_wf_gen|].
  destruct lp; vm_compute; reflexivity.
Qed.

(** C03: ECOS may write anything ([scr]) into the arrays it is given. *)
Theorem C03_ecos_data_survive_overwriting :
  forall (N : Num) (g : genc N) (th0 : pvals N), wf_gen g th0 -> g_solver g = ECOS ->
  (forall p, In p (owned ECOS) -> length (g_rows g p) <> 1) ->
  forall scr os, Forall (valid_op (g_params g)) os ->
  exists s', steps g scr (init_state g) os = Ok s'
             /\ Forall2 (solve_data_of g) (r_log s') (solve_vals th0 os).
Proof.
  intros N g th0 W Hs H1 scr os Hv.
  destruct (run_ok N g th0 W scr) with (os := os) as (s' & log & E1 & <- & E3); [auto| |exact Hv|].
  - rewrite Hs. simpl. discriminate.
  - exists s'. split; auto. eapply Forall2_impl; [|exact E3]. intros e th H. exact (proj1 H).
Qed.
Print Assumptions C03_ecos_data_survive_overwriting.

(** ECOS adds 1 to every number it is given. *)
Definition ecos_scr : nat -> pid -> list ZRing -> list ZRing := fun _ _ d => map (fun z => (z + 1)%Z) d.

Example C03_example :
  wf_gen (ex_gen ECOS) ex_th0 /\ (forall p, In p (owned ECOS) -> length (g_rows (ex_gen ECOS) p) <> 1)
  /\ (match steps (ex_gen ECOS) ecos_scr (init_state (ex_gen ECOS)) ex_hist with
      | Ok s => map (fun e => (e_data e pc, e_data e pA, e_data e pb, e_data e pG, e_data e ph)) (r_log s)
      | Err _ => []
      end)
     = [([5; 1], [-1; -2], [5; 0], [-3; -1], [0; 4]);
        ([5; 1], [-1; -2], [5; 0], [-3; -1], [0; 7]);
        ([-2; 1], [-1; -2], [-2; 0], [-9; -1], [0; 7]);
        ([-2; 1], [-1; -2], [-2; 0], [-9; -1], [0; 7])]%Z.
Proof.
  split; [apply ex_wf_gen|]. split; [apply ex_ecos_sizes|]. vm_compute. reflexivity.
Qed.

(** Two variables, one parameter: minimise x0 + x1 subject to p x0 + 3 x1 = -5 (one
    equality row with constant right-hand side) and x >= 0, x + 1 >= 0.  Right-hand side b
    has one entry. *)
Definition one_b : cvx ZRing :=
  mkCvx ZRing [("p", 1)] [2; 1]%Z 2 1 2 None
        [[(1, 1%Z)]; [(1, 1%Z)]; []]
        [[(0, 1%Z)]; [(1, 1%Z)]; [(1, 3%Z)]; [(1, 1%Z)]; [(1, 5%Z)]; [(1, 1%Z)]]
        [0; 1; 0; 2; 0; 2] [0; 2; 4; 6] false.

Lemma one_b_wf : wf_cvx one_b (fun _ _ => 2%Z).
Proof.
  constructor.
  - repeat constructor; simpl; intuition discriminate.
  - reflexivity.
  - split; [reflexivity|]. split; [reflexivity|]. split; [reflexivity|].
    intros c Hc. simpl in Hc. destruct c as [|[|[|]]]; simpl; lia.
  - reflexivity.
  - intros i Hi. simpl in *. lia.
  - simpl. repeat constructor; simpl; intuition lia.
  - intros r c w H1 H2. simpl in H1. fin; simpl in H2; fin.
  - reflexivity.
  - intros r c w H1 H2. simpl in H1. fin; simpl in H2; fin.
  - intros rows idx ip E. discriminate.
Qed.

Definition one_b_gen : genc ZRing :=
  match generate (K := ZRing) ex_big one_b ECOS ex_order with Ok g => g | Err _ => ex_gen ECOS end.

(** The proviso is needed: the right-hand side 5 of the equality never changes, yet the
    second solve sees 7. *)
Theorem C03_single_entry_refuted :
  exists (g : genc ZRing) th0 scr os, wf_gen g th0 /\ g_solver g = ECOS
    /\ Forall (valid_op (g_params g)) os
    /\ exists s' e th, steps g scr (init_state g) os = Ok s'
       /\ nth_error (r_log s') 1 = Some e /\ nth_error (solve_vals th0 os) 1 = Some th
       /\ e_data e pb = [7%Z] /\ canon_spec g th pb = [5%Z].
Proof.
  destruct (generate_wf ZRing ex_big one_b _ one_b_wf ECOS ex_order ex_order_perm) as (g & E & Wg & Eg).
  exists one_b_gen, (fun _ _ => 2%Z), ecos_scr, [OSolve; zupd "p" 0 7%Z; OSolve].
  assert (Eq : one_b_gen = g) by (unfold one_b_gen; rewrite E; reflexivity).
  split; [rewrite Eq; exact Wg|]. split; [rewrite Eq; exact Eg|]. split.
  - repeat constructor. simpl. exists 1. split; [vm_compute; auto|lia].
  - destruct (on_ok_true (steps one_b_gen ecos_scr (init_state one_b_gen) [OSolve; zupd "p" 0 7%Z; OSolve])
                (fun s => match nth_error (r_log s) 1 with
                          | Some e => match e_data e pb with [z] => Z.eqb z 7 | _ => false end
                          | None => false end)) as (s' & Es & Ht); [vm_compute; reflexivity|].
    destruct (nth_error (r_log s') 1) as [e|] eqn:Ee; [|discriminate].
    exists s', e, (set_val (N := ZRing) (fun _ _ => 2%Z) "p" 0 7%Z).
    split; auto. split; auto. split; [reflexivity|]. split; [|vm_compute; reflexivity].
    destruct (e_data e pb) as [|z [|]]; try discriminate. apply Z.eqb_eq in Ht. subst z. reflexivity.
Qed.
Print Assumptions C03_single_entry_refuted.

(** ** C04: the flat parameter vector *)

Theorem C04_update_writes_one_entry :
  forall (N : Num) (g : genc N) th (s : rst N) name sz i v,
  NoDup (map fst (g_params g)) -> In (name, sz) (g_params g) -> i < sz ->
  length (r_vec s) = length (flat (N := N) (g_params g) th) ->
  exists s' c, do_update g s name i v = Ok s' /\ base_col g name = Some c
    /\ length (r_vec s') = length (r_vec s)
    /\ nth (c + i) (r_vec s') n0 = v
    /\ forall k, k <> c + i -> nth k (r_vec s') n0 = nth k (r_vec s) n0.
Proof. exact update_local. Qed.
Print Assumptions C04_update_writes_one_entry.

(** That entry is the one CVXPY's flat vector has for entry [i] of the parameter. *)
Theorem C04_entry_belongs_to_parameter :
  forall (N : Num) (g : genc N) (th : pvals N) name s i c d,
  NoDup (map fst (g_params g)) -> In (name, s) (g_params g) -> i < s -> base_col g name = Some c ->
  nth (c + i) (flat (g_params g) th) d = th name i.
Proof. exact slice_value. Qed.
Print Assumptions C04_entry_belongs_to_parameter.

(** Consecutive slices: parameter number [k] starts after all earlier ones. *)
Theorem C04_slices_consecutive :
  forall (N : Num) (g : genc N) k name s, NoDup (map fst (g_params g)) ->
  nth_error (g_params g) k = Some (name, s) ->
  base_col g name = Some (list_sum (map snd (firstn k (g_params g)))).
Proof.
  intros N g k name s ND H. unfold base_col.
  replace (list_sum (map snd (firstn k (g_params g)))) with (0 + sizes_before (g_params g) k).
  - apply (find_col_nth _ _ _ s); auto.
  - clear. simpl. revert k. induction (g_params g) as [|[n s] l IH]; intros [|k]; simpl; auto;
      rewrite <- IH; reflexivity.
Qed.
Print Assumptions C04_slices_consecutive.

Theorem C04_slices_disjoint :
  forall (N : Num) (g : genc N) n n' s s' c c', NoDup (map fst (g_params g)) -> n <> n' ->
  In (n, s) (g_params g) -> In (n', s') (g_params g) ->
  base_col g n = Some c -> base_col g n' = Some c' -> c + s <= c' \/ c' + s' <= c.
Proof. intros N g. exact (slices_disjoint (g_params g)). Qed.
Print Assumptions C04_slices_disjoint.

Theorem C04_slices_cover :
  forall (N : Num) (g : genc N) (th : pvals N) k, NoDup (map fst (g_params g)) ->
  k < length (flat (g_params g) th) - 1 ->
  exists n s c, In (n, s) (g_params g) /\ base_col g n = Some c /\ c <= k < c + s.
Proof. intros N g. exact (slices_cover N (g_params g)). Qed.
Print Assumptions C04_slices_cover.

(** After any history the vector is the flat vector of the values written last; its last
    entry is 1. *)
Theorem C04_vector_after_history :
  forall (N : Num) (g : genc N), NoDup (map fst (g_params g)) ->
  forall scr os th s s', r_vec s = flat (g_params g) th -> Forall (valid_op (g_params g)) os ->
  steps g scr s os = Ok s' ->
  r_vec s' = flat (g_params g) (final_vals th os)
  /\ nth (length (r_vec s') - 1) (r_vec s') n0 = n1.
Proof.
  intros N g ND scr os th s s' H Hv E.
  pose proof (vec_history N g ND scr os th s s' H Hv E) as HV. split; auto.
  rewrite HV. apply flat_trailing.
Qed.
Print Assumptions C04_vector_after_history.

Example C04_example :
  NoDup (map fst ex_params) /\ base_col (ex_gen OSQP) "q" = Some 2
  /\ (match steps (ex_gen OSQP) (fun _ _ d => d) (init_state (ex_gen OSQP)) ex_hist with
      | Ok s => r_vec s | Err _ => [] end) = [9; 7; -2; 1]%Z.
Proof.
  split; [repeat constructor; simpl; intuition discriminate|]. vm_compute. auto.
Qed.

(** ** C05: updated_params *)

Section C05.
  Variable N : Num.
  Variable g : genc N.
  Variable th0 : pvals N.
  Variable scr : nat -> pid -> list N -> list N.
  Variable sv : Type.
  Variable enabled : list string.
  Variable translation : list (string * string).
  Variable dflt : string -> sv.
  Variable converts : string -> sv -> bool.

  Definition with_all (c : pcall N sv) : pcall N sv := mkCall None (c_kw c) (c_vals c).

  (** Two solves got the same data. *)
  Definition same_data (e e' : entry N) : Prop :=
    (forall p, In p (owned (g_solver g)) -> e_data e p = e_data e' p) /\ e_d e = e_d e'.

  (** A session in which each call names at least the parameters that changed since the
      previous call (since code generation for the first) gives every solve the same data
      as the same session with updated_params=None. *)
  Theorem C05_updated_params_sufficient :
    wf_gen g th0 ->
    (g_solver g = ECOS -> forall p, In p (owned ECOS) -> length (g_rows g p) <> 1) ->
    (keeps (g_solver g) = true -> forall n p d, scr n p d = d) ->
    forall cs, Forall (call_ok N g sv enabled translation dflt converts) cs ->
    all_cover N g sv th0 cs ->
    let run := session N g scr sv enabled translation dflt converts (w_init N g sv dflt) in
    snd (run cs) = map (fun _ => None) cs
    /\ snd (run (map with_all cs)) = map (fun _ => None) cs
    /\ Forall2 same_data (r_log (w_rst (fst (run cs)))) (r_log (w_rst (fst (run (map with_all cs))))).
  Proof.
    intros W He Hk cs Hok Hc run.
    assert (I : Inv N g scr th0 (w_rst (w_init N g sv dflt))) by (apply inv_init; auto).
    destruct (session_data N g scr sv enabled translation dflt converts th0 W He Hk cs _ th0 I Hok Hc)
      as (w1 & l1 & E1 & L1 & F1).
    assert (Hok' : Forall (call_ok N g sv enabled translation dflt converts) (map with_all cs)).
    { apply Forall_map. eapply Forall_impl; [|exact Hok]. intros c (_ & H2 & H3).
      split; [intros p Hp; exact Hp|split; [exact H2|exact H3]]. }
    destruct (session_data N g scr sv enabled translation dflt converts th0 W He Hk
                (map with_all cs) _ th0 I Hok') as (w2 & l2 & E2 & L2 & F2).
    { apply all_cover_none. intros c Hin. apply in_map_iff in Hin. destruct Hin as (c0 & <- & _). reflexivity. }
    unfold run. rewrite E1, E2. simpl. split; auto. split; [apply map_map|].
    rewrite L1, L2. simpl. clear - F1 F2. revert l2 F2. induction F1 as [|e c l1 cs H F IH]; intros l2 F2.
    - simpl in F2. inversion F2. constructor.
    - simpl in F2. inversion F2 as [|e' ? l2' ? H' F']; subst. constructor; auto.
      destruct H as [A1 A2], H' as [B1 B2]. split.
      + intros p Hp. rewrite A1, B1 by auto. reflexivity.
      + rewrite A2, B2. reflexivity.
  Qed.
End C05.
Print Assumptions C05_updated_params_sufficient.

(** A session whose calls change one parameter each and say so. *)
Definition call_p (p q : list Z) (upd : option (list string)) : pcall ZRing nat :=
  @mkCall ZRing nat upd [] (fun n => if String.eqb n "p" then Ok p else if String.eqb n "q" then Ok q else Err AttributeError).
Definition ex_session : list (pcall ZRing nat) :=
  [call_p [3; 4]%Z [5]%Z (Some []); call_p [3; 8]%Z [5]%Z (Some ["p"]); call_p [3; 8]%Z [6]%Z (Some ["q"])].

Example C05_example :
  Forall (call_ok ZRing (ex_gen OSQP) nat [] [] (fun _ => 0) (fun _ _ => true)) ex_session
  /\ all_cover ZRing (ex_gen OSQP) nat ex_th0 ex_session
  /\ map (fun e => (e_data e pq, e_data e pu))
       (r_log (w_rst (fst (session ZRing (ex_gen OSQP) (fun _ _ d => d) nat [] [] (fun _ => 0)
                                   (fun _ _ => true) (w_init ZRing (ex_gen OSQP) nat (fun _ => 0)) ex_session))))
     = [([5; 1], [-5; 0; 0; 4]); ([5; 1], [-5; 0; 0; 8]); ([6; 1], [-6; 0; 0; 8])]%Z.
Proof.
  assert (E : g_params (ex_gen OSQP) = ex_params) by (vm_compute; reflexivity).
  assert (HV : forall p q u, length p = 2 -> length q = 1 ->
             vals_ok ZRing (ex_gen OSQP) nat (call_p p q u)).
  { intros p q u Hp Hq n s. rewrite E. simpl. intros [H|[H|[]]]; inversion H; subst; simpl; eauto. }
  split; [|split].
  - repeat apply Forall_cons; try apply Forall_nil;
      (split; [intros n Hn; rewrite E; simpl in *; tauto|split; [reflexivity|apply HV; reflexivity]]).
  - repeat split; intros n s Hin Hn i Hi; rewrite E in Hin; simpl in Hin, Hn;
      destruct Hin as [H|[H|[]]]; inversion H; subst; try (exfalso; tauto);
      destruct i as [|[|]]; try lia; vm_compute; reflexivity.
  - vm_compute. reflexivity.
Qed.

(** ** C08: the emitted canonicalization loops *)

Theorem C08_loops_compute_product :
  forall (N : Num) (rows : list (row N)) (vec blk : list N),
  (forall r c v, In r rows -> In (c, v) r -> c < length vec) -> length rows <= length blk ->
  canonicalize (csr_of rows) vec blk = Ok (map (dot vec) rows ++ skipn (length rows) blk).
Proof. exact canonicalize_ok. Qed.
Print Assumptions C08_loops_compute_product.

Theorem C08_arrays_encode_rows :
  forall (N : Num) (rows : list (row N)), let m := csr_of rows in
  c_n m = length rows /\ length (c_p m) = S (length rows) /\ nth 0 (c_p m) 0 = 0
  /\ nth (length rows) (c_p m) 0 = length (c_x m) /\ length (c_i m) = length (c_x m)
  /\ forall k, k < length rows ->
       nth k (c_p m) 0 <= nth (S k) (c_p m) 0
       /\ firstn (nth (S k) (c_p m) 0 - nth k (c_p m) 0) (skipn (nth k (c_p m) 0) (combine (c_i m) (c_x m)))
          = nth k rows [].
Proof. exact csr_encodes. Qed.
Print Assumptions C08_arrays_encode_rows.

(** A map with an empty row and a block that is longer than the map (like l in QP form). *)
Example C08_example :
  canonicalize (N := ZRing) (csr_of (V := Z) [[(0, 2%Z); (2, 1%Z)]; []; [(1, 3%Z)]]) [4; 5; 1]%Z [7; 7; 7; 8]%Z
  = Ok [9; 0; 15; 8]%Z.
Proof. vm_compute. reflexivity. Qed.

(** ** C09: the emitted update code *)

(** For every solver, change pattern and set iteration order the generator emits a token
    stream with exactly one parse (well bracketed), and the code it stands for, whatever
    the flags and the workspace, hands every outdated changing block to the solver. *)
Theorem C09_update_code_pushes_everything :
  forall s chg top never order, chg_wf s chg ->
  analyze_pus (solver_pus s) chg = Ok (top, never) -> Permutation top order ->
  exists t' toks b,
    gen_update (solver_pus s) (solver_quad s) chg order = Ok (t', toks)
    /\ parse_all toks = Some b /\ Parses toks b
    /\ forall D (size : pid -> nat) (baked : pid -> D) scr (m : mst D) fl ini,
         upd_pre s size scr m ->
         (ini = false -> solver_init0 s = false
                         /\ forall p, In p (owned s) -> changing chg p = true -> fl p = true) ->
         let m' := exec_all size (owned s) baked scr m (fst (run b fl ini) ++ solver_solve_acts s) in
         forall p, In p (owned s) -> changing chg p = true -> fl p = true -> m_sol m' p = m_can m p.
Proof.
  intros s chg top never order Hw Ha Hp.
  destruct (update_code_ok s chg top never order Hw Ha Hp) as (t' & toks & b & E1 & E2 & E3 & H).
  exists t', toks, b. split; auto. split; auto. split; auto.
  intros D size baked scr m fl ini U I. specialize (H D size baked scr m fl ini U I).
  destruct (run b fl ini) as [acts ini']. simpl in *. apply H.
Qed.
Print Assumptions C09_update_code_pushes_everything.

(** The analysis never fails, and the order does not matter for the resulting data. *)
Theorem C09_analysis_succeeds : forall s chg, chg_wf s chg ->
  exists top never, analyze_pus (solver_pus s) chg = Ok (top, never).
Proof. exact analyze_ok. Qed.
Print Assumptions C09_analysis_succeeds.

Theorem C09_order_irrelevant :
  forall s chg top never o1 o2 t1 k1 b1 t2 k2 b2, chg_wf s chg ->
  analyze_pus (solver_pus s) chg = Ok (top, never) -> Permutation top o1 -> Permutation top o2 ->
  gen_update (solver_pus s) (solver_quad s) chg o1 = Ok (t1, k1) -> Parses k1 b1 ->
  gen_update (solver_pus s) (solver_quad s) chg o2 = Ok (t2, k2) -> Parses k2 b2 ->
  forall D (size : pid -> nat) (baked : pid -> D) scr (m : mst D) fl ini, upd_pre s size scr m ->
  (ini = false -> solver_init0 s = false
                  /\ forall p, In p (owned s) -> changing chg p = true -> fl p = true) ->
  (forall p, In p (owned s) -> changing chg p = false -> m_can m p = baked p) ->
  (ini = true -> forall p, In p (owned s) -> (changing chg p && fl p)%bool = false ->
                 (if keeps s then view_cnd m p else m_sol m p) = m_can m p) ->
  let data b := m_sol (exec_all size (owned s) baked scr m (fst (run b fl ini) ++ solver_solve_acts s)) in
  forall p, In p (owned s) -> data b1 p = data b2 p.
Proof.
  intros s chg top never o1 o2 t1 k1 b1 t2 k2 b2 Hw Ha P1 P2 G1 R1 G2 R2 D size baked scr m fl ini U I HB HS data p Hp.
  assert (forall o t k b, Permutation top o -> gen_update (solver_pus s) (solver_quad s) chg o = Ok (t, k) ->
            Parses k b -> data b p = m_can m p) as HH.
  { intros o t k b Po Go Ro.
    destruct (update_code_ok s chg top never o Hw Ha Po) as (t' & toks & b' & E1 & E2 & E3 & H).
    rewrite Go in E1. injection E1 as <- <-. assert (b = b') by (eapply Parses_det; eauto). subst b'.
    specialize (H D size baked scr m fl ini U I). unfold data.
    destruct (run b fl ini) as [acts ini']. simpl in *. destruct H as (_ & _ & _ & _ & H).
    apply (H HB HS p Hp). }
  rewrite (HH o1 t1 k1 b1 P1 G1 R1), (HH o2 t2 k2 b2 P2 G2 R2). reflexivity.
Qed.
Print Assumptions C09_order_irrelevant.

(** Only l and A of OSQP's blocks depend on parameters; q, u and P do not. *)
Definition chg_lA : changes := fun p => match p with
  | pl | pA => Some true | pP | pq | pu | pd => Some false | _ => None end.
Example C09_example : chg_wf OSQP chg_lA
  /\ match analyze_pus (solver_pus OSQP) chg_lA with
     | Ok (top, never) =>
       match gen_update (solver_pus OSQP) (solver_quad OSQP) chg_lA (rev top) with
       | Ok (_, toks) => match parse_all toks with
                         | Some b => fst (run b (fun p => mem_pid p [pl; pA]) true)
                         | None => []
                         end
       | Err _ => []
       end
     | Err _ => []
     end = [APush Canon [pl]; APush Canon [pA]].
Proof. split; [intros []; vm_compute; intuition discriminate|vm_compute; reflexivity]. Qed.

(** ** C10: OSQP rejects vector updates with crossing bounds *)

(** [vsteps] runs a history against an OSQP that refuses any update call after which some
    lower bound would exceed its upper bound ([valid] is any test of a pair of bound
    vectors), and collects the data held at each solve. *)
Theorem C10_bounds_survive_validation :
  forall (N : Num) (g : genc N) valid scr th0, wf_gen g th0 -> g_solver g = OSQP ->
  forall os log, Forall (valid_op (g_params g)) os ->
  Forall (fun th => valid (canon_spec g th pl) (canon_spec g th pu) = true) (solve_vals th0 os) ->
  vsteps g valid scr (init_state g) (g_baked g) os log ->
  Forall2 (fun d th => forall p, In p (owned OSQP) -> d p = canon_spec g th p) log (solve_vals th0 os).
Proof.
  intros N g valid scr th0 W Hs os log Hv Hval H.
  eapply (vsteps_ok N g valid scr th0 W Hs os th0 (init_state g)); eauto.
  - apply inv_init; auto; intro; [congruence|]. rewrite Hs in *. discriminate.
  - simpl. rewrite Hs. reflexivity.
Qed.
Print Assumptions C10_bounds_survive_validation.

(** One call of the solver's update code, for every combination of flags: from any state
    in which blocks that are not outdated are current. *)
Theorem C10_update_call :
  forall chg b, chg_wf OSQP chg -> is_code OSQP chg b ->
  forall D (valid : D -> D -> bool) can sol fl sol',
  valid (can pl) (can pu) = true ->
  (forall p, In p (owned OSQP) -> (changing chg p && fl p)%bool = false -> sol p = can p) ->
  vexec D valid can sol (fst (run b fl true)) sol' ->
  forall p, In p (owned OSQP) -> sol' p = can p.
Proof. exact bounds_survive. Qed.
Print Assumptions C10_update_call.

(** Moving both bounds at once from [0,1] to [5,6]: pushing l alone would be rejected. *)
Definition zvalid (l u : list Z) : bool := forallb (fun ab => Z.leb (fst ab) (snd ab)) (combine l u).
Definition chg_lu : changes := fun p => match p with
  | pl | pu => Some true | pP | pA | pq | pd => Some false | _ => None end.
Example C10_example :
  chg_wf OSQP chg_lu /\ zvalid [5]%Z [6]%Z = true /\ zvalid [5]%Z [1]%Z = false
  /\ exists top never t toks b,
       analyze_pus (solver_pus OSQP) chg_lu = Ok (top, never)
       /\ gen_update (solver_pus OSQP) (solver_quad OSQP) chg_lu top = Ok (t, toks)
       /\ parse_all toks = Some b
       /\ fst (run b (fun p => mem_pid p [pl; pu]) true) = [APush Canon [pl; pu]].
Proof.
  split; [intros []; vm_compute; intuition discriminate|]. split; [reflexivity|]. split; [reflexivity|].
  destruct (analyze_pus (solver_pus OSQP) chg_lu) as [[top never]|] eqn:E; [|vm_compute in E; discriminate].
  destruct (gen_update (solver_pus OSQP) (solver_quad OSQP) chg_lu top) as [[t toks]|] eqn:E2.
  2: { vm_compute in E. injection E as <- <-. vm_compute in E2. discriminate. }
  destruct (parse_all toks) as [b|] eqn:E3.
  2: { vm_compute in E. injection E as <- <-. vm_compute in E2. injection E2 as <- <-. vm_compute in E3. discriminate. }
  exists top, never, t, toks, b. repeat split; auto.
  vm_compute in E. injection E as <- <-. vm_compute in E2. injection E2 as <- <-.
  vm_compute in E3. injection E3 as <-. vm_compute. reflexivity.
Qed.

(** ** C11: idle solves *)

(** When a solve without intervening updates sends nothing to the solver: always for OSQP,
    QOCO, QOCOGEN; for Clarabel QPs; for SCS and ECOS exactly if the blocks that share a
    condition change together. *)
Definition quiet (s : solver) (changes_ : pid -> bool) : Prop :=
  match s with
  | OSQP | QOCO _ | QOCOGEN _ => True
  | CLARABEL lp => lp = false
  | SCS lp => lp = true \/ changes_ pP = changes_ pA
  | ECOS => changes_ pA = changes_ pb /\ changes_ pA = changes_ pG
  end.

Theorem C11_idle_solve_sends_nothing :
  forall (N : Num) (g : genc N) th0, wf_gen g th0 ->
  forall scr, (g_solver g = ECOS -> forall p, In p (owned ECOS) -> length (g_rows g p) <> 1) ->
  (keeps (g_solver g) = true -> forall n p d, scr n p d = d) ->
  forall os s', Forall (valid_op (g_params g)) os ->
  steps g scr (init_state g) (os ++ [OSolve]) = Ok s' ->
  (fst (run (g_block g) (r_flag s') (r_ini s')) = [] <-> quiet (g_solver g) (chg_get (g_chg g))).
Proof.
  intros N g th0 W scr He Hk os s' Hv E.
  rewrite (idle_history N g th0 W scr He Hk os s' Hv E). unfold idle_ok, quiet.
  destruct (g_solver g) as [|[]| |[]|[]|[]]; simpl; try (split; auto; fail); try (split; congruence).
  - rewrite eqb_true_iff. split; [auto|intros [?|?]; [discriminate|auto]].
  - rewrite andb_true_iff, !eqb_true_iff. reflexivity.
Qed.
Print Assumptions C11_idle_solve_sends_nothing.

(** The example problem without the parameter in the quadratic term: for SCS the matrix A
    changes and P does not. *)
Definition constP (neq nineq : nat) (hasP : bool) : cvx ZRing :=
  let x := ex_x neq nineq hasP in
  mkCvx ZRing (x_params x) (x_flat x) (x_n x) (x_neq x) (x_nineq x)
        (if hasP then Some ([[(3, 2%Z)]; [(3, 1%Z)]], [0; 1], [0; 1; 2]) else None)
        (x_q x) (x_A x) (x_Ai x) (x_Ap x) (x_max x).

(** Re-initialisation on an idle solve, SCS: P is constant, A changes, the workspace is
    rebuilt at every solve. *)
Theorem C11_scs_idle_refuted :
  exists (x : cvx ZRing) g s', wf_cvx x ex_th0
    /\ generate (K := ZRing) ex_big x (SCS false) ex_order = Ok g
    /\ chg_get (g_chg g) pP = false /\ chg_get (g_chg g) pA = true
    /\ steps g (fun _ _ d => d) (init_state g) [OSolve; OSolve; OSolve] = Ok s'
    /\ existsb sets_init (fst (run (g_block g) (r_flag s') (r_ini s'))) = true.
Proof.
  set (x := constP 4 0 true).
  destruct (on_ok_true (generate (K := ZRing) ex_big x (SCS false) ex_order)
     (fun g => negb (chg_get (g_chg g) pP) && chg_get (g_chg g) pA
               && on_ok (steps g (fun _ _ d => d) (init_state g) [OSolve; OSolve; OSolve])
                        (fun s => existsb sets_init (fst (run (g_block g) (r_flag s) (r_ini s))))))
    as (g & E & H); [vm_compute; reflexivity|].
  apply andb_true_iff in H. destruct H as [H H3]. apply andb_true_iff in H. destruct H as [H1 H2].
  apply on_ok_true in H3. destruct H3 as (s' & Es & H3).
  exists x, g, s'. split.
  { constructor; try apply (ex_wf_x 4 0 true eq_refl). intros rows idx ip E1. simpl in E1. inversion E1; subst.
    split; [|split; [reflexivity|]].
    - split; [reflexivity|]. split; [reflexivity|]. split; [reflexivity|].
      intros c Hc. simpl in Hc. destruct c as [|[|]]; simpl; lia.
    - intros r c w H4 H5. simpl in H4. fin; simpl in H5; fin. }
  split; auto. split; [apply negb_true_iff; auto|]. split; [auto|]. split; [auto|]. exact H3.
Qed.
Print Assumptions C11_scs_idle_refuted.

(** ECOS: A is constant, G changes; every solve re-sends G and h (first branch), though
    no parameter changed. *)
Theorem C11_ecos_idle_refuted :
  exists s', steps (ex_gen ECOS) (fun _ _ d => d) (init_state (ex_gen ECOS)) [OSolve; OSolve; OSolve] = Ok s'
    /\ chg_get (g_chg (ex_gen ECOS)) pA = false /\ chg_get (g_chg (ex_gen ECOS)) pG = true
    /\ fst (run (g_block (ex_gen ECOS)) (r_flag s') (r_ini s')) <> [].
Proof.
  destruct (on_ok_true (steps (ex_gen ECOS) (fun _ _ d => d) (init_state (ex_gen ECOS)) [OSolve; OSolve; OSolve])
     (fun s => match fst (run (g_block (ex_gen ECOS)) (r_flag s) (r_ini s)) with [] => false | _ => true end))
    as (s' & Es & H); [vm_compute; reflexivity|].
  exists s'. split; auto. split; [vm_compute; reflexivity|]. split; [vm_compute; reflexivity|].
  intro E. rewrite E in H. discriminate.
Qed.
Print Assumptions C11_ecos_idle_refuted.

Example C11_example : quiet OSQP (chg_get (g_chg (ex_gen OSQP))) /\ quiet (SCS false) (chg_get (g_chg (ex_gen (SCS false)))).
Proof. split; [exact I|]. right. vm_compute. reflexivity. Qed.
