(** C62: the generated C example program. *)

From Coq Require Import String Arith Bool ZArith QArith Lia List.
From Verif Require Import Base Pus Machine PusCheck PusLift Runtime RuntimeSpec RuntimeProofs RuntimeMore Retrieve RetrieveProofs
  Explicit ExplicitVars Literals LiteralsProofs CExample CExampleProofs Examples PropRuntime.
Import ListNotations.
Open Scope string_scope.
Open Scope list_scope.

(** The program is written unless some parameter has no entries. *)
Theorem C62_written : forall (V : Type) (fmt : V -> string) (x : exin V) e,
  example fmt x = Err e <-> e = IndexError /\ exists n, In (n, []) (e_params x).
Proof. intros. apply example_fails. Qed.
Print Assumptions C62_written.

(** It type-checks against the generated headers exactly if there is no gradient code, or the
    prefix is empty and no variable is a scalar (or there are no variables at all). *)
Theorem C62_type_checks : forall (V : Type) (fmt : V -> string) (rd : string -> option V) (x : exin V) prog,
  NoDup (map fst (e_vars x)) -> NoDup (map fst (e_duals x)) ->
  NoDup (map fst (e_params x) ++ (if e_grad x then map (fun v => ("d" ++ fst v)%string) (e_vars x) else [])) ->
  (forall n l v, In (n, l) (e_params x) -> In v l -> rd (fmt v) <> None) ->
  example fmt x = Ok prog ->
  forallb (check rd x) prog = true
  <-> (e_grad x = true -> forall v, In v (e_vars x) -> e_prefix x = "" /\ snd v <> 1%nat).
Proof. intros V fmt rd x prog H1 H2 H3 HR E. apply (example_checks V fmt rd x (conj H1 (conj H2 H3)) HR prog E). Qed.
Print Assumptions C62_type_checks.

(** The literals of numbers are C literals. *)
Theorem C62_literals : forall q : Q, read_dec (fmt20 q) <> None.
Proof. intro q. destruct (read_fmt20 q) as (r & E & _). congruence. Qed.
Print Assumptions C62_literals.

(** Running it: the update calls rewrite the first entry of each parameter with the value it had
    at generation time, so the solve gets the data of the generation-time parameters.  [x] takes
    its parameter values from [th0]; their literals must read back exactly (C48). *)
Definition ex_values {N : Num} (ps : list (string * nat)) (th0 : pvals N) : list (string * list (car N)) :=
  map (fun p => (fst p, map (th0 (fst p)) (seq 0 (snd p)))) ps.
Definition ex_ops {N : Num} (cs : list (string * nat * car N)) : list (op N) :=
  map (fun c => OUpd (fst (fst c)) (snd (fst c)) (snd c)) cs ++ [OSolve].

Lemma firsts_values : forall (N : Num) ps (th0 : pvals N), (forall n, ~ In (n, 0%nat) ps) ->
  firsts (ex_values ps th0) = map (fun p => (fst p, 0%nat, th0 (fst p) 0%nat)) ps.
Proof.
  induction ps as [|[n s] ps IH]; intros th0 H; [reflexivity|]. cbn [ex_values map fst snd firsts flat_map].
  destruct s as [|s]; [exfalso; apply (H n); left; reflexivity|]. cbn [seq map app]. f_equal.
  apply IH. intros m Hm. apply (H m). right. exact Hm.
Qed.

Lemma same_vals : forall (N : Num) ps (th0 th : pvals N), (forall n i, th n i = th0 n i) ->
  exists th', solve_vals th (map (fun p : string * nat => OUpd (fst p) 0 (th0 (fst p) 0%nat)) ps ++ [OSolve]) = [th'] /\ forall n i, th' n i = th0 n i.
Proof.
  induction ps as [|[m s] ps IH]; intros th0 th H; cbn [map app solve_vals fst snd].
  - exists th. auto.
  - apply IH. intros n i. unfold set_val. destruct (String.eqb_spec n m) as [->|]; cbn [andb]; auto.
    destruct (Nat.eqb_spec i 0) as [->|]; auto.
Qed.

Theorem C62_first_solve : forall (N : Num) (fmt : car N -> string) (rd : string -> option (car N)) (g : genc N) (th0 : pvals N)
  (x : exin (car N)) prog scr,
  wf_gen g th0 ->
  (g_solver g = ECOS -> forall p, In p (owned ECOS) -> length (g_rows g p) <> 1%nat) ->
  (forall lp, g_solver g = CLARABEL lp -> forall n p d, scr n p d = d) ->
  e_params x = ex_values (g_params g) th0 ->
  (forall n s, In (n, s) (g_params g) -> rd (fmt (th0 n 0%nat)) = Some (th0 n 0%nat)) ->
  example fmt x = Ok prog ->
  exists s' e, steps g scr (init_state g) (ex_ops (calls rd x prog)) = Ok s' /\ r_log s' = [e]
    /\ forall p, In p (owned (g_solver g)) -> e_data e p = canon_spec g th0 p.
Proof.
  intros N fmt rd g th0 x prog scr W He Hc Hx HR E.
  assert (Z : forall n, ~ In (n, 0%nat) (g_params g)).
  { intros n Hn. assert (X : example fmt x = Err IndexError); [|congruence]. apply example_fails. split; auto.
    exists n. rewrite Hx. apply in_map_iff. exists (n, 0%nat). auto. }
  assert (ND : NoDup (map fst (e_params x))).
  { rewrite Hx. unfold ex_values. rewrite map_map. cbn [fst]. apply (w_names _ _ _ W). }
  assert (C : calls rd x prog = map (fun p => (fst p, 0%nat, th0 (fst p) 0%nat)) (g_params g)).
  { rewrite (example_calls _ fmt rd x prog ND); auto.
    - rewrite Hx. apply firsts_values, Z.
    - intros n v l H. rewrite Hx in H. apply in_map_iff in H as ([m s] & Em & Hm). cbn [fst snd] in Em.
      injection Em as -> Ev. destruct s; [discriminate|]. cbn [seq map] in Ev. injection Ev as <- _. eapply HR. exact Hm. }
  set (os := map (fun p : string * nat => OUpd (fst p) 0 (th0 (fst p) 0%nat)) (g_params g) ++ [OSolve]).
  assert (Eo : ex_ops (calls rd x prog) = os).
  { unfold ex_ops, os. rewrite C, map_map. reflexivity. }
  assert (HV : Forall (valid_op (g_params g)) os).
  { apply Forall_app. split; [|repeat constructor]. apply Forall_forall. intros o Ho. apply in_map_iff in Ho as ([n s] & <- & Hn).
    cbn. exists s. split; auto. destruct s; [|lia]. destruct (Z n Hn). }
  assert (R : exists s', steps g scr (init_state g) os = Ok s' /\ Forall2 (solve_data_of g) (r_log s') (solve_vals th0 os)).
  { destruct (g_solver g) eqn:Es.
    - apply C01_solve_uses_current_data; auto; rewrite Es; discriminate.
    - apply C01_solve_uses_current_data; auto; rewrite Es; discriminate.
    - apply C03_ecos_data_survive_overwriting; auto.
    - eapply C02_clarabel_reads_current_data; eauto.
    - apply C01_solve_uses_current_data; auto; rewrite Es; discriminate.
    - apply C01_solve_uses_current_data; auto; rewrite Es; discriminate. }
  destruct R as (s' & Es & F). destruct (same_vals N (g_params g) th0 th0 (fun n i => eq_refl)) as (th' & Ev & Hth).
  fold os in Ev. rewrite Ev in F. inversion F as [|e t l' l'' He' F' E1 E2]; subst. inversion F'; subst.
  exists s', e. rewrite Eo. split; auto. split; auto. intros p Hp. rewrite (He' p Hp). unfold canon_spec.
  destruct (chg_get (g_chg g) p); auto. now rewrite (flat_ext N (g_params g) th' th0 Hth).
Qed.
Print Assumptions C62_first_solve.

(** The struct members after cpg_solve: the retrieval functions have run (see Retrieve.v). *)
Definition ex_world {V : Type} (s : solver) (ps : list pinfo) (ds : list dinfo) (st : rstate V) (obj : V)
  (delta : string -> nat -> res V) : res (world V) :=
  p <- (if ret_prim s ps then exec (prim_fields s ps) (prim_arrays s ps) st (retrieve_prim s ps) else Ok st);;
  d <- (if ret_dual s ds then exec (dual_fields s ds) (dual_arrays s ds) st (retrieve_dual s ds) else Ok st);;
  Ok (mkWd (prim_fields s ps) (prim_arrays s ps) p (dual_fields s ds) (dual_arrays s ds) d obj delta).

(** Without gradient code, the program prints the objective value and, entry by entry in
    column-major order, what the Python wrapper stores in the variables and dual variables
    (C19 and C21 say what these are). *)
Theorem C62_prints : forall (V : Type) (k0 : V) (fmt : V -> string) (x : exin V) prog s ps ds st obj delta rs ls,
  e_grad x = false -> e_expl x = 0%nat ->
  e_vars x = map (fun p => (pi_name p, pi_size p)) ps ->
  e_duals x = map (fun d => (dname (di_name d), di_size d)) ds ->
  example fmt x = Ok prog -> primal_results k0 s ps st = Ok rs -> dual_results s ds st = Ok ls ->
  exists w, ex_world s ps ds st obj delta = Ok w
    /\ outputs w prog = Ok ([("obj", None, obj)]
         ++ concat (map (fun pr => lines (pi_name (fst pr)) (pi_size (fst pr)) (flattenF (pi_shape (fst pr)) (snd (snd pr)))) (combine ps rs))
         ++ concat (map (fun dl => lines (dname (di_name (fst dl))) (di_size (fst dl)) (snd dl)) (combine ds ls))).
Proof.
  intros V k0 fmt x prog s ps ds st obj delta rs ls Hg H0 Hv Hd E Hp Hl. unfold ex_world.
  unfold primal_results in Hp. unfold dual_results in Hl.
  destruct (if ret_prim s ps then exec (prim_fields s ps) (prim_arrays s ps) st (retrieve_prim s ps) else Ok st) as [p|]; [|discriminate].
  destruct (if ret_dual s ds then exec (dual_fields s ds) (dual_arrays s ds) st (retrieve_dual s ds) else Ok st) as [d|]; [|discriminate].
  cbn [bind] in Hp, Hl |- *. eexists. split; [reflexivity|].
  apply mapM_Forall2 in Hp. apply mapM_Forall2 in Hl.
  pose (pl := map (fun pr : pinfo * (string * (list nat -> V)) => flattenF (pi_shape (fst pr)) (snd (snd pr))) (combine ps rs)).
  rewrite (example_outputs V fmt x _ prog pl ls Hg E).
  - rewrite H0. cbn [Nat.eqb]. cbn [w_obj]. f_equal. f_equal. f_equal.
    + unfold all_lines. f_equal. rewrite Hv. unfold pl. clear. revert rs. induction ps as [|q ps IH]; intros [|r rs]; cbn [map combine fst snd]; try reflexivity.
      f_equal. apply IH.
    + unfold all_lines. f_equal. rewrite Hd. clear. revert ls. induction ds as [|q ds IH]; intros [|l ls]; cbn [map combine fst snd]; try reflexivity.
      f_equal. apply IH.
  - cbn [w_fs w_ar w_st]. rewrite Hv. unfold pl. clear - Hp. revert Hp. generalize (prim_fields s ps) as fs, (prim_arrays s ps) as ar. intros fs ar Hp. induction Hp as [|q r ps' rs' Eq Hq IH]; cbn [map combine fst snd]; constructor.
    + cbn [fst snd]. destruct (read_field fs ar p (pi_name q) (pi_size q)) as [l|]; [|discriminate].
      cbn [bind] in Eq. destruct (reshapeF k0 (pi_shape q) l) as [a|] eqn:Er; [|discriminate]. cbn [bind] in Eq. injection Eq as <-.
      cbn [fst snd]. now rewrite (flatten_reshape _ _ _ _ _ Er).
    + exact IH.
  - intros _. cbn [w_dfs w_dar w_dst]. rewrite Hd. clear - Hl. revert Hl. generalize (dual_fields s ds) as fs, (dual_arrays s ds) as ar. intros fs ar Hl. induction Hl; cbn [map]; constructor; auto.
Qed.
Print Assumptions C62_prints.

(** With gradient code the same lines are printed, followed by the entries of the parameters'
    gradients, CPG_Delta. *)
Theorem C62_gradient_prints : forall (V : Type) (fmt : V -> string) (x : exin V) prog w (dv : string -> nat -> V),
  e_grad x = true -> example fmt x = Ok prog ->
  (forall n l i, In (n, l) (e_params x) -> (i < length l)%nat -> w_delta w n i = Ok (dv n i)) ->
  exists prog0, example fmt (mkEx (e_prefix x) false (e_expl x) (e_params x) (e_vars x) (e_duals x)) = Ok prog0
    /\ forall out0, outputs w prog0 = Ok out0 ->
       outputs w prog = Ok (out0 ++ concat (map (fun p => lines ("d" ++ fst p) (length (snd p)) (map (dv (fst p)) (seq 0 (length (snd p))))) (e_params x))).
Proof.
  intros V fmt [pf gr ex ps vs ds] prog w dv Hg E HD. cbn [e_prefix e_grad e_expl e_params e_vars e_duals] in *. subst gr.
  unfold example in *. cbn [e_prefix e_grad e_expl e_params e_vars e_duals] in *.
  change (upd_call fmt (mkEx pf false ex ps vs ds)) with (upd_call fmt (mkEx pf true ex ps vs ds)).
  destruct (mapM (upd_call fmt (mkEx pf true ex ps vs ds)) ps) as [ups|]; [|discriminate]. cbn [bind] in E |- *.
  eexists. split; [reflexivity|]. intros out0 E0.
  match type of E with Ok ?a = Ok _ => assert (Ep : prog = a) by congruence end. rewrite Ep. clear Ep E.
  rewrite app_nil_r in E0.
  match type of E0 with outputs w ?a = _ => set (P0 := a) in * end.
  match goal with |- outputs w (ups ++ ?b ++ ?c ++ ?d ++ ?e ++ ?u ++ ?v ++ ?z) = _ => replace (ups ++ b ++ c ++ d ++ e ++ u ++ v ++ z) with ((P0 ++ u ++ v) ++ z) by (unfold P0; rewrite <- !app_assoc; reflexivity) end.
  apply outputs_app.
  - rewrite <- (app_nil_r out0). apply outputs_app; [exact E0|].
    apply outputs_calls. intros c Hc. apply in_app_iff in Hc as [Hc|[<-|[]]]; [|eauto]. apply in_map_iff in Hc as (v & <- & _). unfold upd_d. destruct (Nat.eqb (snd v) 1); eauto.
  - unfold outputs. assert (X : mapM (output w) (map (show_d (mkEx pf true ex ps vs ds)) ps)
      = Ok (map (fun p => lines ("d" ++ fst p) (length (snd p)) (map (dv (fst p)) (seq 0 (length (snd p))))) ps)); [|rewrite X; reflexivity].
    clear - HD. induction ps as [|[n l] ps IH]; [reflexivity|]. cbn [map mapM]. assert (X : output w (show_d (mkEx pf true ex ((n, l) :: ps) vs ds) (n, l))
      = Ok (lines ("d" ++ n) (length l) (map (dv n) (seq 0 (length l))))).
    { unfold show_d, lines. cbn [fst snd]. pose proof (fun i => HD n l i (or_introl eq_refl)) as H. destruct (Nat.eqb_spec (length l) 1) as [El|El].
      - cbn [output eval index bind]. rewrite H by lia. cbn [bind]. rewrite El. reflexivity.
      - cbn [output].
        set (k := length l) in *. pose proof (mapM_lines V ("d" ++ n) (map (dv n) (seq 0 k)) (fun i => eval w i (EIdx (EDot (EGlob (pf ++ "CPG_Delta")) n) EI)) 0) as M.
        rewrite map_length, seq_length in M. rewrite map_length, seq_length. apply M. intros i v Hi. cbn [Nat.add eval index bind].
        assert (Li : (i < k)%nat) by (assert (X : nth_error (map (dv n) (seq 0 k)) i <> None) by congruence; apply nth_error_Some in X; now rewrite map_length, seq_length in X).
        rewrite H by exact Li. rewrite nth_error_map in Hi. rewrite (nth_error_nth' _ 0%nat) in Hi by (rewrite seq_length; exact Li). rewrite seq_nth in Hi by exact Li. cbn in Hi. congruence. }
    rewrite X. cbn [bind fst snd].
    change (show_d (mkEx pf true ex ((n, l) :: ps) vs ds)) with (show_d (mkEx pf true ex ps vs ds)). rewrite IH by (intros; eapply HD; [right|]; eauto). reflexivity.
Qed.
Print Assumptions C62_gradient_prints.

(** ** Where it goes wrong *)

(** Gradient code and a scalar variable: a float is subscripted. *)
Definition zfmt (z : Z) : string := fmt20 (z # 1).
Definition zrd (s : string) : option Z := match read_dec s with Some q => Some (Qnum q / Zpos (Qden q))%Z | None => None end.
Definition c62 (prefix : string) (grad : bool) (expl : nat) (vars : list (string * nat)) : exin Z :=
  mkEx prefix grad expl [("p", [3; 4]%Z); ("c", [-5]%Z)] vars [("d0", 2%nat); ("d1", 1%nat)].
Definition c62_ok (x : exin Z) : bool := match example zfmt x with Ok prog => forallb (check zrd x) prog | Err _ => false end.

Theorem C62_scalar_refuted : exists x : exin Z,
  names_ok Z x /\ e_grad x = true /\ e_prefix x = "" /\ exists prog, example zfmt x = Ok prog /\ forallb (check zrd x) prog = false.
Proof.
  exists (c62 "" true 0 [("t", 1%nat); ("y", 2%nat)]). split; [|split; [reflexivity|split; [reflexivity|]]].
  - repeat split; cbn; repeat constructor; cbn; intuition discriminate.
  - eexists. split; [vm_compute; reflexivity|]. vm_compute. reflexivity.
Qed.
Print Assumptions C62_scalar_refuted.

(** Gradient code and a prefix: CPG_Result is not declared. *)
Theorem C62_prefix_refuted : exists x : exin Z,
  names_ok Z x /\ e_grad x = true /\ (forall v, In v (e_vars x) -> snd v <> 1%nat)
  /\ exists prog, example zfmt x = Ok prog /\ forallb (check zrd x) prog = false.
Proof.
  exists (c62 "my_" true 0 [("y", 2%nat)]). split; [|split; [reflexivity|split; [cbn; intros v [<-|[]]; discriminate|]]].
  - repeat split; cbn; repeat constructor; cbn; intuition discriminate.
  - eexists. split; [vm_compute; reflexivity|]. vm_compute. reflexivity.
Qed.
Print Assumptions C62_prefix_refuted.

(** Explicit mode with some entries of a variable stored: the Python module reads the stored
    entries only, the example reads beyond the end of sol_x. *)
Definition c62_xv : res (xvars) :=
  vs <- prim_info [(1, 3); (2, 2)]%nat [Retrieve.mkUV "a" 1 [3%nat] false; Retrieve.mkUV "b" 2 [2%nat] false];;
  store_vars vs (Some [("a", None); ("b", Some [1; 0]%Z)]).
Definition c62_xv1 : res (xvars) :=
  vs <- prim_info [(1, 3); (2, 4)]%nat [Retrieve.mkUV "a" 1 [3%nat] false; Retrieve.mkUV "b" 2 [4%nat] false];;
  store_vars vs (Some [("a", None); ("b", Some [0; 3]%Z)]).
Definition xworld (xv : xvars) (o : list Z) : world Z :=
  mkWd (xfields (xv_vars xv)) (xarrays (xv_vars xv)) (mkRS (fun _ _ => 0%Z) (fun _ => sol_x 0%Z (solx_len 7 xv) o)) [] []
       (mkRS (fun _ _ => 0%Z) (fun _ => [])) 0%Z (fun _ _ => Err TypeError).
Definition xexample (xv : xvars) : exin Z :=
  mkEx "" false 1 [("p", [3; 4]%Z)] (map (fun v => (xi_name v, xi_size v)) (xv_vars xv)) [].

Theorem C62_explicit_refuted :
  (exists xv o vals prog, c62_xv1 = Ok xv /\ table_out [1; 2; 3; 10; 11; 12; 13]%Z (xv_out xv) = Ok o
     /\ x_primal 0%Z 7 xv (fun _ _ => 0%Z) o = Ok vals /\ vals = [("a", [1; 2; 3]); ("b", [10; 0; 0; 13])]%Z
     /\ example zfmt (xexample xv) = Ok prog /\ outputs (xworld xv o) prog = Err OutOfBounds)
  /\ (exists xv o vals prog out, c62_xv = Ok xv /\ table_out [1; 2; 3; 10; 11]%Z (xv_out xv) = Ok o
     /\ x_primal 0%Z 5 xv (fun _ _ => 0%Z) o = Ok vals /\ vals = [("a", [1; 2; 3]); ("b", [10; 11])]%Z
     /\ example zfmt (xexample xv) = Ok prog /\ outputs (xworld xv o) prog = Ok out
     /\ skipn 3 out = [("b", Some 0%nat, 11%Z); ("b", Some 1%nat, 10%Z)]).
Proof.
  split.
  - do 4 eexists. repeat (split; [vm_compute; reflexivity|]). vm_compute. reflexivity.
  - do 5 eexists. repeat (split; [vm_compute; reflexivity|]). vm_compute. reflexivity.
Qed.
Print Assumptions C62_explicit_refuted.

(** ** Examples *)

(** Programs that type-check: without gradient code; with it, without prefix and scalars. *)
Example C62_example : c62_ok (c62 "my_" false 0 [("t", 1%nat); ("y", 2%nat)]) = true
  /\ c62_ok (c62 "" true 0 [("y", 2%nat)]) = true /\ c62_ok (c62 "q_" false 1 [("y", 2%nat)]) = true
  /\ names_ok Z (c62 "my_" false 0 [("t", 1%nat); ("y", 2%nat)])
  /\ example zfmt (c62 "my_" false 0 [("t", 1%nat)])
     = Ok [SCall "my_cpg_update_p" [ENum 0; ELit "3.00000000000000000000"]; SCall "my_cpg_update_c" [ELit "-5.00000000000000000000"];
           SCall "my_cpg_solve" []; SPrint "obj" (EArrow (EDot (EGlob "my_CPG_Result") "info") "obj_val");
           SPrint "t" (EArrow (EDot (EGlob "my_CPG_Result") "prim") "t");
           SFor "d0" 2 (EIdx (EArrow (EDot (EGlob "my_CPG_Result") "dual") "d0") EI);
           SPrint "d1" (EArrow (EDot (EGlob "my_CPG_Result") "dual") "d1")]
  /\ example zfmt (mkEx "" false 0 [("p", [])] [] []) = Err IndexError.
Proof.
  repeat (split; [vm_compute; reflexivity|]). split; [repeat split; cbn; repeat constructor; cbn; intuition discriminate|].
  split; vm_compute; reflexivity.
Qed.

(** The running example: the hypotheses of C62_first_solve are met for every solver. *)
Definition c62_run (s : solver) : exin Z := mkEx "" false 0 (ex_values (N := ZRing) (g_params (ex_gen s)) ex_th0) [("v", 3%nat)] [].
Example C62_run_example : forall s, wf_gen (ex_gen s) ex_th0
  /\ (g_solver (ex_gen s) = ECOS -> forall p, In p (owned ECOS) -> length (g_rows (ex_gen s) p) <> 1%nat)
  /\ e_params (c62_run s) = ex_values (N := ZRing) (g_params (ex_gen s)) ex_th0
  /\ (exists prog, example zfmt (c62_run s) = Ok prog)
  /\ (g_params (ex_gen s)) <> []
  /\ forall n k, In (n, k) (g_params (ex_gen s)) -> zrd (zfmt (ex_th0 n 0%nat)) = Some (ex_th0 n 0%nat).
Proof.
  intro s. destruct (ex_wf_gen s) as (W & Es). split; [exact W|]. split.
  { rewrite Es. intros ->. apply ex_ecos_sizes. }
  split; [reflexivity|].
  assert (Ep : g_params (ex_gen s) = [("p", 2%nat); ("q", 1%nat)]) by (destruct s as [|[]| |[]|[]|[]]; vm_compute; reflexivity).
  unfold c62_run. rewrite Ep. split; [eexists; vm_compute; reflexivity|]. split; [discriminate|].
  intros n k [E|[E|[]]]; injection E as <- <-; vm_compute; reflexivity.
Qed.

(** Printed values: a matrix and a scalar, a vector of multipliers. *)
Definition c62_ps : list pinfo :=
  match prim_info [(9, 2); (3, 1); (1, 4)]%nat [Retrieve.mkUV "M" 1 [2; 2]%nat false; Retrieve.mkUV "t" 3 [] false] with Ok l => l | Err _ => [] end.
Definition c62_ds : list dinfo := [mkDI 0 "y" 1 2].
Definition c62_st : rstate Z := mkRS (fun _ _ => 7%Z) (fun v => if String.eqb v "x" then [91; 92; 31; 11; 12; 13; 14]%Z else [0; 5; 6]%Z).
Definition c62_x : exin Z :=
  mkEx "" false 0 [("p", [3; 4]%Z)] (map (fun p => (pi_name p, pi_size p)) c62_ps) (map (fun d => (dname (di_name d), di_size d)) c62_ds).
Example C62_prints_example : forall s, In s [OSQP; ECOS] ->
  exists prog rs ls w, example zfmt c62_x = Ok prog /\ primal_results 0%Z s c62_ps c62_st = Ok rs /\ dual_results s c62_ds c62_st = Ok ls
    /\ ex_world s c62_ps c62_ds c62_st 42%Z (fun _ _ => Err TypeError) = Ok w
    /\ outputs w prog = Ok [("obj", None, 42); ("M", Some 0%nat, 11); ("M", Some 1%nat, 12); ("M", Some 2%nat, 13); ("M", Some 3%nat, 14);
                            ("t", None, 31); ("d0", Some 0%nat, 5); ("d0", Some 1%nat, 6)]%Z.
Proof.
  intros s [<-|[<-|[]]]; do 4 eexists; repeat (split; [vm_compute; reflexivity|]); vm_compute; reflexivity.
Qed.

(** With gradient code: a matrix parameter and a scalar one. *)
Definition c62_gx : exin Z := mkEx "" true 0 [("p", [3; 4]%Z); ("q", [9]%Z)] [("M", 4%nat)] [].
Definition c62_gw : world Z :=
  mkWd [("M", FOwn)] [("M", 4%nat)] (mkRS (fun _ i => Z.of_nat i) (fun _ => [])) [] [] (mkRS (fun _ _ => 0%Z) (fun _ => [])) 42%Z (fun n i => if String.eqb n "p" then Ok (Z.of_nat (70 + i)) else Ok 80%Z).
Example C62_gradient_example : exists prog, example zfmt c62_gx = Ok prog /\ forallb (check zrd c62_gx) prog = true
  /\ outputs c62_gw prog = Ok [("obj", None, 42); ("M", Some 0%nat, 0); ("M", Some 1%nat, 1); ("M", Some 2%nat, 2); ("M", Some 3%nat, 3);
                               ("dp", Some 0%nat, 70); ("dp", Some 1%nat, 71); ("dq", None, 80)]%Z.
Proof. eexists. split; [vm_compute; reflexivity|]. split; vm_compute; reflexivity. Qed.
