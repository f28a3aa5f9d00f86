(** Properties of what a call leaves in the problem object: C74. *)

From Coq Require Import String Arith Bool ZArith QArith Lia List.
From Verif Require Import Base Pus Machine Runtime Retrieve RetrieveProofs Wrapper Literals Report ReportSpec
     ReportProofs ReportProofs2 ReportProofs3 PropRetrieve.
Import ListNotations.
Open Scope string_scope.
Open Scope list_scope.
Open Scope nat_scope.

(** ** One call of a non-explicit program

    A generation and the solver's answer: variables [us] (names may repeat), reduced variables
    [red], canonical constraints, constraint id maps [cx_m :: cx_rest], the user's constraints
    [cx_cons] (a constraint may be listed twice), solver vectors, info. *)
Record ctx (K : Type) := mkCx
  { cx_s : solver; cx_name : string;
    cx_red : list (nat * nat); cx_us : list uvar; cx_blk : nat -> list K;
    cx_eqs : list (nat * nat); cx_neqs : list (nat * nat); cx_m : list (nat * nat); cx_rest : list (list (nat * nat));
    cx_dl : nat -> list K; cx_csh : nat -> list nat; cx_cons : list nat;
    cx_st : rstate K; cx_info : cinfo }.
Arguments mkCx {K}. Arguments cx_s {K}. Arguments cx_name {K}. Arguments cx_red {K}. Arguments cx_us {K}. Arguments cx_blk {K}.
Arguments cx_eqs {K}. Arguments cx_neqs {K}. Arguments cx_m {K}. Arguments cx_rest {K}. Arguments cx_dl {K}. Arguments cx_csh {K}.
Arguments cx_cons {K}. Arguments cx_st {K}. Arguments cx_info {K}.

(** Solvers that report a number as status. *)
Definition numeric (s : solver) : Prop := match s with OSQP | SCS _ => False | _ => True end.

(** What CVXPY and the solver provide (as in C19 and C21, without distinct names): the keys of
    the first constraint map are the user's constraints, each once. *)
Record good {K} (x : ctx K) : Prop := mkGood
  { gd_sizes : sizes_ok (cx_red x) (cx_us x);
    gd_blk : forall i z, In (i, z) (cx_red x) -> length (cx_blk x i) = z;
    gd_x : r_vecs (cx_st x) "x" = concat (map (fun e => cx_blk x (fst e)) (cx_red x));
    gd_ids : NoDup (map fst (cx_eqs x ++ cx_neqs x));
    gd_keys : map fst (cx_m x) = firsts (cx_cons x);
    gd_maps : forall u, In u (map fst (cx_m x)) -> exists c, chase (cx_rest x) u = Ok c /\ In c (map fst (cx_eqs x ++ cx_neqs x));
    gd_dl : forall i z, In (i, z) (cx_eqs x ++ cx_neqs x) -> length (cx_dl x i) = z;
    gd_split : split_api (cx_s x) -> cx_neqs x <> [] \/ cx_eqs x ++ cx_neqs x = [];
    gd_ans : answered (cx_s x) (cx_eqs x) (cx_neqs x) (cx_dl x) (r_vecs (cx_st x));
    gd_num : numeric (cx_s x) -> exists z, ci_status (cx_info x) = SNum z;
    gd_txt : ~ numeric (cx_s x) -> exists t, ci_status (cx_info x) = SText t }.

Definition problem {K} (x : ctx K) : uprob := mkU (map (fun u => (uv_name u, uv_id u)) (cx_us x)) (cx_cons x).

(** After the solver has answered, the Python code turns object [o] into [o'] and returns [r]. *)
Definition leaves {K} (x : ctx K) (dt : fnum) (o o' : pobj K) (r : ret) : Prop :=
  exists ps cs ds rs, prim_info (cx_red x) (cx_us x) = Ok ps
    /\ mapM (chase (cx_rest x)) (map fst (cx_m x)) = Ok cs
    /\ dual_info (dual_split (cx_s x)) (dual_vec0 (cx_s x)) (dual_vec1 (cx_s x)) (cx_eqs x) (cx_neqs x) (cx_m x :: cx_rest x) = Ok ds
    /\ results (cx_s x) ps ds (cx_st x) (cx_info x) = Ok rs
    /\ store (tmpl_of (cx_s x) (cx_name x) ps (cx_csh x) cs ds) (problem x) rs dt o = (o', Ok r).

Lemma int_docu_numeric : forall s, match int_docu s with Some _ => numeric s | None => ~ numeric s end.
Proof. intros [|?| |?|?|?]; simpl; auto. Qed.

Lemma store_good : forall K (k0 : K) (x : ctx K) dt o, good x ->
  exists o' v tx sol, leaves x dt o o' (RValue (Some v))
      /\ (forall cs, mapM (chase (cx_rest x)) (map fst (cx_m x)) = Ok cs ->
           length cs = length (firsts (cx_cons x))
           /\ forall j c k, nth_error (cx_cons x) j = Some c -> nth_error cs j = Some k ->
               (forall j', j < j' < length (firsts (cx_cons x)) -> nth_error (cx_cons x) j' <> Some c) ->
               o_dual o' c = Some (dual_array (cx_csh x k) (cx_dl x k)))
      /\ (forall u, In u (cx_us x) -> last_named (cx_us x) u ->
            exists a, o_val o' (uv_id u) = Some a /\ value_of k0 u (cx_blk x (uv_id u)) a)
      /\ (forall u, In u (cx_us x) -> ~ last_named (cx_us x) u -> o_val o' (uv_id u) = None)
      /\ (forall c, In c (cx_cons x) -> ~ In c (firstn (length (firsts (cx_cons x))) (cx_cons x)) -> o_dual o' c = None)
      /\ reported (ci_obj (cx_info x)) v /\ o_value o' = Some v
      /\ status_of (int_docu (cx_s x)) (ci_status (cx_info x)) = Ok tx /\ o_status o' = Some tx
      /\ o_sol o' = Some sol /\ so_status sol = Some tx /\ so_value sol = Some v
      /\ so_prim sol = map (fun u => (uv_id u, o_val o' (uv_id u))) (cx_us x)
      /\ so_dual sol = map (fun c => (c, o_dual o' c)) (firsts (cx_cons x))
      /\ so_time sol = dt /\ so_iters sol = ci_iter (cx_info x)
      /\ so_stats sol = mkSS (ci_obj (cx_info x)) (Some tx) (ci_iter (cx_info x)) (ci_pri (cx_info x)) (ci_dua (cx_info x)) (ci_time (cx_info x))
      /\ o_stats o' = Some (mkStats (cx_name x) dt (ci_iter (cx_info x)) (so_stats sol)).
Proof.
  intros K k0 x dt o [G1 G2 G3 G4 G5 G6 G7 G8 G9 G10 G11].
  destruct (store_ok K k0 (cx_s x) (cx_name x) (cx_red x) (cx_us x) (cx_blk x) (cx_eqs x) (cx_neqs x) (cx_m x) (cx_rest x) (cx_dl x)
              (cx_csh x) (cx_cons x) (cx_st x) (cx_info x) dt o) as
      (ps & cs & ds & r & o' & v & tx & sol & H1 & H2 & H3 & H4 & H5 & H6 & H7 & H8 & H9 & H10 & HR); auto.
  - intro E. apply G8, split_iff, E.
  - apply answered_in. auto.
  - pose proof (int_docu_numeric (cx_s x)) as X. destruct (int_docu (cx_s x)); auto.
  - exists o', v, tx, sol. split. { exists ps, cs, ds, r. auto. }
    split. { intros cs' E. rewrite H2 in E. injection E as <-. auto. }
    auto.
Qed.

Lemma leaves_fun : forall K (x : ctx K) dt o o1 r1 o2 r2, leaves x dt o o1 r1 -> leaves x dt o o2 r2 -> o1 = o2 /\ r1 = r2.
Proof.
  intros K x dt o o1 r1 o2 r2 (p1 & c1 & d1 & s1 & A1 & A2 & A3 & A4 & A5) (p2 & c2 & d2 & s2 & B1 & B2 & B3 & B4 & B5).
  rewrite A1 in B1. injection B1 as <-. rewrite A2 in B2. injection B2 as <-. rewrite A3 in B3. injection B3 as <-.
  rewrite A4 in B4. injection B4 as <-. rewrite A5 in B5. injection B5 as <- <-. auto.
Qed.

(** Once the solver has answered, storing its answer never raises, and the method returns the
    problem's value. *)
Theorem C74_storing_succeeds :
  forall (K : Type) (k0 : K) (x : ctx K) dt o, good x ->
  exists o' v, leaves x dt o o' (RValue (Some v)) /\ o_value o' = Some v.
Proof. intros K k0 x dt o G. destruct (store_good K k0 x dt o G) as (o' & v & tx & sol & H & H0 & H1 & H2 & H3 & H4 & H5 & _). eauto. Qed.
Print Assumptions C74_storing_succeeds.

(** Whatever the status, the last variable of every name gets its own entries of the solution;
    any other variable of that name gets none. *)
Theorem C74_variables :
  forall (K : Type) (k0 : K) (x : ctx K) dt o o' r, good x -> leaves x dt o o' r ->
  forall u, In u (cx_us x) ->
  (last_named (cx_us x) u -> exists a, o_val o' (uv_id u) = Some a /\ value_of k0 u (cx_blk x (uv_id u)) a)
  /\ (~ last_named (cx_us x) u -> o_val o' (uv_id u) = None).
Proof.
  intros K k0 x dt o o' r G HL u Hu. destruct (store_good K k0 x dt o G) as (o1 & v & tx & sol & H & H0 & H1 & H2 & _).
  destruct (leaves_fun _ _ _ _ _ _ _ _ HL H) as [-> _]. auto.
Qed.
Print Assumptions C74_variables.

(** With distinct names every variable gets its entries. *)
Theorem C74_distinct_names :
  forall (K : Type) (k0 : K) (x : ctx K) dt o o' r, good x -> leaves x dt o o' r -> NoDup (map uv_name (cx_us x)) ->
  forall u, In u (cx_us x) -> exists a, o_val o' (uv_id u) = Some a /\ value_of k0 u (cx_blk x (uv_id u)) a.
Proof.
  intros K k0 x dt o o' r G HL HN u Hu. apply (C74_variables K k0 x dt o o' r G HL u Hu).
  apply in_split in Hu. destruct Hu as (a & b & E). exists a, b. split; auto.
  rewrite E, map_app in HN. simpl in HN. apply NoDup_remove_2 in HN. intro X. apply HN. apply in_or_app. auto.
Qed.
Print Assumptions C74_distinct_names.

(** If no constraint is listed twice, every constraint gets its own dual vector, in the shape of
    its canonical constraint where the sizes agree. *)
Theorem C74_duals :
  forall (K : Type) (k0 : K) (x : ctx K) dt o o' r, good x -> leaves x dt o o' r -> NoDup (cx_cons x) ->
  forall c, In c (cx_cons x) ->
  exists k, chase (cx_rest x) c = Ok k /\ o_dual o' c = Some (dual_array (cx_csh x k) (cx_dl x k)).
Proof.
  intros K k0 x dt o o' r G HL HN c Hc. destruct (store_good K k0 x dt o G) as (o1 & v & tx & sol & H & H0 & _).
  destruct (leaves_fun _ _ _ _ _ _ _ _ HL H) as [-> _].
  destruct H as (ps & cs & ds & rs & _ & E2 & _). destruct (H0 cs E2) as [Hlen Hd].
  pose proof (gd_keys x G) as Hk. rewrite (firsts_nodup _ HN) in *. rewrite Hk in E2.
  apply In_nth_error in Hc. destruct Hc as (j & Hj).
  apply mapM_Forall2 in E2. destruct (Forall2_nth _ _ _ _ _ j c E2 Hj) as (k & Ek & Ec).
  exists k. split; auto. apply (Hd j); auto. intros j' Hj' E.
  rewrite NoDup_nth_error in HN. assert (j = j'). { apply HN; [lia|congruence]. } lia.
Qed.
Print Assumptions C74_duals.

(** In general the i-th dual vector (of the i-th distinct constraint) goes to the i-th listed
    constraint: a constraint that is listed after a repetition gets the vector of another one,
    or none. *)
Theorem C74_repeated_constraints :
  forall (K : Type) (k0 : K) (x : ctx K) dt o o' r, good x -> leaves x dt o o' r ->
  let n := length (firsts (cx_cons x)) in
  (forall j c d k, nth_error (cx_cons x) j = Some c -> nth_error (firsts (cx_cons x)) j = Some d -> chase (cx_rest x) d = Ok k ->
     (forall j', j < j' < n -> nth_error (cx_cons x) j' <> Some c) ->
     o_dual o' c = Some (dual_array (cx_csh x k) (cx_dl x k)))
  /\ (forall c, In c (cx_cons x) -> ~ In c (firstn n (cx_cons x)) -> o_dual o' c = None).
Proof.
  intros K k0 x dt o o' r G HL n. destruct (store_good K k0 x dt o G) as (o1 & v & tx & sol & H & H0 & _ & _ & H3 & _).
  destruct (leaves_fun _ _ _ _ _ _ _ _ HL H) as [-> _]. split; auto.
  destruct H as (ps & cs & ds & rs & _ & E2 & _). destruct (H0 cs E2) as [Hlen Hd].
  intros j c d k Hj Hf Hk Hl. apply (Hd j c k); auto. rewrite (gd_keys x G) in E2. apply mapM_Forall2 in E2.
  destruct (Forall2_nth _ _ _ _ _ j d E2 Hf) as (k' & Ek & Ec). congruence.
Qed.
Print Assumptions C74_repeated_constraints.

(** Value, status, solution object and statistics agree with each other and with what the module
    reported; the solution object repeats what variables and constraints hold. *)
Theorem C74_attributes :
  forall (K : Type) (k0 : K) (x : ctx K) dt o o' r, good x -> leaves x dt o o' r ->
  exists v tx sol, r = RValue (Some v) /\ reported (ci_obj (cx_info x)) v /\ o_value o' = Some v
  /\ o_status o' = Some tx /\ (~ numeric (cx_s x) -> tx = ci_status (cx_info x))
  /\ (numeric (cx_s x) -> exists z t, ci_status (cx_info x) = SNum z /\ tx = SText t
        /\ (exists d, int_docu (cx_s x) = Some d /\ t = (fmt_int z ++ " (for description visit " ++ d ++ ")")%string)
        /\ ~ In t cvxpy_status)
  /\ o_sol o' = Some sol /\ so_status sol = o_status o' /\ so_value sol = o_value o'
  /\ so_prim sol = map (fun u => (uv_id u, o_val o' (uv_id u))) (cx_us x)
  /\ so_dual sol = map (fun c => (c, o_dual o' c)) (firsts (cx_cons x))
  /\ so_time sol = dt /\ so_iters sol = ci_iter (cx_info x)
  /\ so_stats sol = mkSS (ci_obj (cx_info x)) (Some tx) (ci_iter (cx_info x)) (ci_pri (cx_info x)) (ci_dua (cx_info x)) (ci_time (cx_info x))
  /\ o_stats o' = Some (mkStats (cx_name x) dt (ci_iter (cx_info x)) (so_stats sol)).
Proof.
  intros K k0 x dt o o' r G HL.
  destruct (store_good K k0 x dt o G) as (o1 & v & tx & sol & H & _ & _ & _ & _ & A1 & A2 & A3 & A4 & A5 & A6 & A7 & A8 & A9 & A10 & A11 & A12 & A13).
  destruct (leaves_fun _ _ _ _ _ _ _ _ HL H) as [-> ->].
  exists v, tx, sol. split; [reflexivity|]. split; [exact A1|]. split; [exact A2|]. split; [exact A4|].
  pose proof (int_docu_numeric (cx_s x)) as X. split; [|split].
  - intro Hn. destruct (int_docu (cx_s x)) eqn:E; [contradiction|]. simpl in A3. injection A3 as <-. auto.
  - intro Hn. destruct (gd_num x G Hn) as (z & Ez). rewrite Ez in A3. destruct (int_docu (cx_s x)) as [d|]; [|contradiction].
    assert (B := A3). simpl in B. injection B as <-. eexists z, _. split; auto. split; [reflexivity|]. split; [eauto|].
    eapply status_not_cvxpy. exact A3.
  - repeat (split; [congruence||auto|]). auto.
Qed.
Print Assumptions C74_attributes.

(** Two variables called x: after an accepted call the first one has no value. *)
Definition c74_us := [mkUV "x" 1 [2] false; mkUV "y" 2 [] false; mkUV "x" 3 [2; 2] true].
Definition c74_blk (i : nat) : list Z := match i with 1 => [11; 12]%Z | 2 => [20]%Z | 3 => [31; 32; 33]%Z | _ => [] end.
Definition c74_dl (c : nat) : list Z := match c with 70 => [70; 71]%Z | 80 => [80]%Z | _ => [90; 91]%Z end.
Definition c74_x (s : solver) (cons : list nat) (i : cinfo) : ctx Z :=
  mkCx s "S" [(2, 1); (3, 3); (1, 2)] c74_us c74_blk [(70, 2)] [(80, 1); (90, 2)]
       (map (fun c => (c, c)) (firsts cons)) [[(7, 70); (8, 80); (9, 90)]] c74_dl (fun c => if Nat.eqb c 90 then [3] else if Nat.eqb c 70 then [2; 1] else [])
       cons
       (mkRS (fun _ _ => 0%Z)
             (fun v => if String.eqb v "x" then [20; 31; 32; 33; 11; 12]
                       else if match solver_api s with OneVec _ => true | _ => false end then [70; 71; 80; 90; 91]
                       else if String.eqb v "y" then [70; 71] else [80; 90; 91])%Z) i.
Definition c74_info (st : sval) : cinfo := mkCI (Fin e30) 17%Z st (Fin 0) (Fin 0) (Fin 1).

Lemma c74_good : forall s cons st, (forall c, In c cons -> In c [7; 8; 9]) ->
  (numeric s -> exists z, st = SNum z) -> (~ numeric s -> exists t, st = SText t) -> good (c74_x s cons (c74_info st)).
Proof.
  intros s cons st Hc H1 H2. constructor; cbn [c74_x cx_s cx_red cx_us cx_blk cx_eqs cx_neqs cx_m cx_rest cx_dl cx_cons cx_st cx_info r_vecs ci_status c74_info]; auto.
  - split; [|split].
    + simpl. repeat (constructor; [simpl; intuition discriminate|]). constructor.
    + intros u [<-|[<-|[<-|[]]]]; reflexivity.
    + intros u [<-|[<-|[<-|[]]]] E; try discriminate. exists 2. reflexivity.
  - intros j z H. simpl in H. intuition; match goal with H : (_, _) = (_, _) |- _ => injection H as <- <- end; reflexivity.
  - simpl. repeat (constructor; [simpl; intuition discriminate|]). constructor.
  - rewrite map_map. apply map_id.
  - intros u Hu. rewrite map_map in Hu. cbn [fst] in Hu. rewrite map_id in Hu. apply firsts_in, Hc in Hu.
    destruct Hu as [<-|[<-|[<-|[]]]]; eexists; (split; [reflexivity|simpl; auto]).
  - intros j z H. simpl in H. intuition; match goal with H : (_, _) = (_, _) |- _ => injection H as <- <- end; reflexivity.
  - intros _. left. discriminate.
  - destruct s; unfold answered; simpl; auto.
Qed.

Definition c74_none : pobj Z := mkO (fun _ => Some ([], [5%Z])) (fun _ => Some ([], [6%Z])) None None None None.

Theorem C74_same_name_refuted :
  exists (x : ctx Z) (u : uvar), good x /\ In u (cx_us x)
  /\ forall dt o, exists o' v, leaves x dt o o' (RValue v) /\ o_val o' (uv_id u) = None.
Proof.
  exists (c74_x OSQP [7; 8; 9] (c74_info (SText "solved"))), (mkUV "x" 1 [2] false).
  assert (G : good (c74_x OSQP [7; 8; 9] (c74_info (SText "solved")))).
  { apply c74_good; auto. - intros []. - eauto. }
  split; auto. split; [left; auto|]. intros dt o.
  destruct (C74_storing_succeeds Z 0%Z _ dt o G) as (o' & v & H & _). exists o', (Some v). split; auto.
  apply (C74_variables Z 0%Z _ dt o o' _ G H (mkUV "x" 1 [2] false)); [left; auto|].
  intros (a & b & E & Hn). cbn [cx_us c74_x] in E. unfold c74_us in E.
  destruct a as [|a1 [|a2 [|a3 [|a4 a]]]]; injection E; intros; subst; try discriminate. apply Hn. right. left. auto.
Qed.
Print Assumptions C74_same_name_refuted.

(** Constraint 8 is listed after a repetition of constraint 7: it has no dual value, and
    constraint 7 has the one of constraint 8. *)
Theorem C74_repeated_constraint_refuted :
  exists (x : ctx Z) (c d k kd : nat), good x /\ In c (cx_cons x) /\ In d (cx_cons x) /\ c <> d
  /\ chase (cx_rest x) c = Ok k /\ chase (cx_rest x) d = Ok kd /\ cx_dl x k <> cx_dl x kd
  /\ forall dt o, exists o' v, leaves x dt o o' (RValue v) /\ o_dual o' d = None
       /\ o_dual o' c = Some (dual_array (cx_csh x kd) (cx_dl x kd)).
Proof.
  exists (c74_x OSQP [7; 7; 8] (c74_info (SText "solved"))), 7, 8, 70, 80.
  assert (G : good (c74_x OSQP [7; 7; 8] (c74_info (SText "solved")))).
  { apply c74_good. - simpl. intros c Hc. tauto. - intros []. - eauto. }
  split; auto. split; [left; auto|]. split; [right; right; left; auto|]. split; [discriminate|].
  split; [reflexivity|]. split; [reflexivity|]. split; [discriminate|]. intros dt o.
  destruct (C74_storing_succeeds Z 0%Z _ dt o G) as (o' & v & H & _). exists o', (Some v). split; auto.
  destruct (C74_repeated_constraints Z 0%Z _ dt o o' _ G H) as [A B]. split.
  - apply B; [right; right; left; auto|]. cbn. intuition discriminate.
  - apply (A 1 7 8 80); auto. cbn. intros j' Hj. lia.
Qed.
Print Assumptions C74_repeated_constraint_refuted.

(** Distinct constraints with ECOS: duals in shape, a numeric status, an infinite value. *)
Example C74_example : good (c74_x ECOS [9; 7; 8] (c74_info (SNum (-2)))) /\ NoDup (cx_cons (c74_x ECOS [9; 7; 8] (c74_info (SNum (-2)))))
  /\ exists o' v, leaves (c74_x ECOS [9; 7; 8] (c74_info (SNum (-2)))) (Fin 3) c74_none o' (RValue (Some v))
  /\ v = PInf /\ o_val o' 3 = Some ([2; 2], [31; 32; 32; 33]%Z) /\ o_val o' 2 = Some ([], [20%Z]) /\ o_val o' 1 = None
  /\ o_dual o' 9 = Some ([2], [90; 91]%Z) /\ o_dual o' 7 = Some ([2; 1], [70; 71]%Z) /\ o_dual o' 8 = Some ([], [80%Z])
  /\ o_status o' = Some (SText "-2 (for description visit https://github.com/embotech/ecos/wiki/Usage-from-C)").
Proof.
  split. { apply c74_good. - simpl. intros; tauto. - eauto. - intro X. exfalso. apply X. exact I. }
  split. { simpl. repeat (constructor; [simpl; intuition discriminate|]). constructor. }
  unfold leaves. eexists _, _. split.
  { eexists _, _, _, _. split; [vm_compute; reflexivity|]. split; [vm_compute; reflexivity|]. split; [vm_compute; reflexivity|].
    split; [vm_compute; reflexivity|]. vm_compute. reflexivity. }
  repeat split.
Qed.

(** ** Sequences of calls *)

(** Rejected calls (unknown parameter, unknown setting, values that do not fit) leave the object
    as it was; after any sequence of calls variables, duals, value, status and solution are those
    the last accepted call leaves on any object. *)
Theorem C74_calls :
  forall (N : Num) (g : genc N) scr (sv : Type) enabled translation (dflt : string -> sv) converts (K : Type)
         (t : tmpl) (u : uprob) (out : wst N sv -> cres K * fnum) (cs : list (pcall N sv)) w o,
  let solve := py_solve N g scr sv enabled translation dflt converts in
  let session := session N g scr sv enabled translation dflt converts in
  let after := snd (fst (calls N g scr sv enabled translation dflt converts K t u out w o cs)) in
  (Forall (fun e => e <> None) (snd (session w cs)) /\ after = o)
  \/ exists before c rejected w1, cs = before ++ c :: rejected /\ solve (fst (session w before)) c = (w1, None)
       /\ Forall (fun e => e <> None) (snd (session w1 rejected))
       /\ forall o0, let o1 := fst (store t u (fst (out w1)) (snd (out w1)) o0) in
          (forall x, In x (u_vars u) -> o_val after (snd x) = o_val o1 (snd x))
          /\ (forall c, In c (u_cons u) -> o_dual after c = o_dual o1 c)
          /\ o_value after = o_value o1 /\ o_status after = o_status o1 /\ o_sol after = o_sol o1.
Proof.
  intros. destruct (calls_object N g scr sv enabled translation dflt converts K t u out cs w o)
    as [H|(a & c & b & wc & w1 & H1 & H2 & H3 & H4 & H5)]; [left; exact H|right].
  exists a, c, b, w1. split; auto. split. { unfold session. rewrite H2. exact H3. } split; [exact H4|]. intros o0 o1.
  destruct (store_same K t u (fst (out w1)) (snd (out w1)) o o0) as [(A1 & A2 & A3 & A4 & A5) _].
  destruct H5 as (B1 & B2 & B3 & B4 & B5).
  split; [intros x Hx; unfold after; rewrite B1, A1; auto|]. split; [intros c' Hc; unfold after; rewrite B2, A2; auto|].
  unfold after, o1. split; [congruence|]. split; congruence.
Qed.
Print Assumptions C74_calls.

(** ** Explicit mode *)

(** A call returns the time and leaves value, status and solution empty (the statistics stay
    those of an earlier call); without the dual option all dual values are empty; keyword
    arguments are not looked at. *)
Theorem C74_explicit :
  forall (K : Type) (t : tmpl) (u : uprob) (r : cres K) dt o o' v, t_expl t <> 0 ->
  store t u r dt o = (o', Ok v) ->
  v = RTime (ci_time (rs_info r)) /\ o_value o' = None /\ o_status o' = None /\ o_sol o' = None /\ o_stats o' = o_stats o
  /\ (t_expl t = 1 -> forall c, In c (u_cons u) -> o_dual o' c = None).
Proof.
  intros K t u r dt o o' v He H. unfold store in H.
  assert (V : forall l p q e, save_vars u (rs_prim r) l p = (q, e) ->
     o_dual q = o_dual p /\ o_value q = o_value p /\ o_status q = o_status p /\ o_sol q = o_sol p /\ o_stats q = o_stats p).
  { induction l as [|[n sh] l IH]; cbn [save_vars]; intros p q e E. { injection E as <- <-. auto. }
    destruct (assoc n (dict_of (u_vars u))); [|injection E as <- <-; auto].
    destruct (assoc n (rs_prim r)); [|injection E as <- <-; auto].
    destruct (np_reshape sh (np_array l0)); [|injection E as <- <-; auto]. apply IH in E. exact E. }
  assert (D : forall l k p q e, save_duals u (rs_dual r) k l p = (q, e) ->
     o_value q = o_value p /\ o_status q = o_status p /\ o_sol q = o_sol p /\ o_stats q = o_stats p).
  { induction l as [|[n sh] l IH]; cbn [save_duals]; intros k p q e E. { injection E as <- <-. auto. }
    destruct (nth_error (u_cons u) k); [|injection E as <- <-; auto].
    destruct (assoc n (rs_dual r)); [|injection E as <- <-; auto].
    destruct (shaped_dual sh (np_array l0)); [|injection E as <- <-; auto]. apply IH in E. exact E. }
  destruct (save_vars u (rs_prim r) (t_vars t) (clear u o)) as [o1 e1] eqn:E1. apply V in E1. destruct E1 as (V1 & V2 & V3 & V4 & V5).
  destruct e1; [discriminate|].
  destruct (Nat.eqb (t_expl t) 1) eqn:Ex.
  - destruct (t_expl t); [congruence|]. injection H as <- <-. split; auto. rewrite V2, V3, V4, V5. repeat (split; auto).
    intros _ c Hc. rewrite V1. simpl. rewrite (proj2 (mem_nat_In _ _) Hc). auto.
  - destruct (save_duals u (rs_dual r) 0 (t_duals t) o1) as [o2 e2] eqn:E2. apply D in E2. destruct E2 as (D2 & D3 & D4 & D5).
    destruct e2; [discriminate|]. destruct (t_expl t); [congruence|]. injection H as <- <-. split; auto.
    rewrite D2, D3, D4, D5, V2, V3, V4, V5. repeat (split; auto). intro X. rewrite X in Ex. discriminate.
Qed.
Print Assumptions C74_explicit.

Theorem C74_explicit_ignores_settings :
  forall (N : Num) (sv K E : Type) ps t u run (e : E) (o : pobj K) (c c' : pcall N sv),
  c_upd c = c_upd c' -> c_vals c = c_vals c' ->
  expl_call N sv K E ps t u run e o c = expl_call N sv K E ps t u run e o c'.
Proof.
  intros N sv K E ps t u run e o c c' H1 H2. unfold expl_call. rewrite H1.
  assert (X : set_par N sv c ps = set_par N sv c' ps).
  { induction ps as [|[n z] r IH]; cbn [set_par]; auto. rewrite H2, IH. auto. }
  rewrite X. reflexivity.
Qed.
Print Assumptions C74_explicit_ignores_settings.
(** An explicit call is rejected exactly if a name is unknown or a value is missing or has the wrong number of entries, and then
    changes nothing; otherwise the program runs once, with the parameters as given and the names the user passed (all, if none). *)
Theorem C74_explicit_call :
  forall (N : Num) (sv K E : Type) ps t u run (e : E) (o : pobj K) (c : pcall N sv),
  let upd := match c_upd c with None => map fst ps | Some l => l end in
  let call := expl_call N sv K E ps t u run e o c in
  ((exists n, In n upd /\ ~ In n (map fst ps)) -> call = (e, o, Err AttributeError))
  /\ ((forall n, In n upd -> In n (map fst ps)) -> forall x, set_par N sv c ps = Err x -> call = (e, o, Err x))
  /\ ((forall n, In n upd -> In n (map fst ps)) -> forall pars, set_par N sv c ps = Ok pars ->
       Forall2 (fun q w => fst w = fst q /\ c_vals c (fst q) = Ok (snd w) /\ length (snd w) = snd q) ps pars
       /\ fst (fst call) = fst (fst (run e upd pars))
       /\ (snd (fst call), snd call) = store t u (snd (fst (run e upd pars))) (snd (run e upd pars)) o).
Proof.
  intros N sv K E ps t u run e o c upd call. unfold call, expl_call. fold upd.
  assert (A : (forall n, In n upd -> In n (map fst ps)) -> forallb (fun p => mem_str p (map fst ps)) upd = true).
  { intro H. apply forallb_forall. intros n I. apply mem_str_In. auto. }
  split; [|split].
  - intros (n & I & J). destruct (forallb _ upd) eqn:F; [|reflexivity]. rewrite forallb_forall in F. specialize (F n I). apply mem_str_In in F. contradiction.
  - intros H x X. rewrite (A H), X. reflexivity.
  - intros H pars X. rewrite (A H), X. split.
    + clear -X. revert pars X. induction ps as [|[n z] r IH]; cbn [set_par]; intros pars X; [injection X as <-; constructor|].
      destruct (c_vals c n) as [l|y] eqn:V; cbn [bind] in X; [|discriminate]. destruct (Nat.eqb_spec (length l) z) as [L|L]; [|discriminate].
      destruct (set_par N sv c r) as [rest|y] eqn:R; cbn [bind] in X; [|discriminate]. injection X as <-. constructor; auto.
    + destruct (run e upd pars) as ((e', r), dt). destruct (store t u r dt o) as (o', v) eqn:S. cbn. now rewrite S.
Qed.
Print Assumptions C74_explicit_call.

Example C74_explicit_example :
  let t := mkT [("x", [2])] [("d0", None)] 1 None "PDAQP" in let u := mkU [("x", 4)] [7] in
  let i := c74_info (SNum 1) in
  exists o', store t u (mkRes [("x", [1; 2]%Z)] [] i) (Fin 3) c74_none = (o', Ok (RTime (Fin 1)))
    /\ o_val o' 4 = Some ([2], [1; 2]%Z) /\ o_dual o' 7 = None /\ o_value o' = None.
Proof. eexists. repeat split. Qed.

(** ** Parameter names *)

(** With distinct names the generated update functions of a parameter write from the column
    where CVXPY's parameter vector has it. *)
Theorem C74_parameter_columns :
  forall (N : Num) (g : genc N) (params : list (string * nat)), NoDup (map fst params) -> g_params g = usp params ->
  forall k n z, nth_error params k = Some (n, z) -> base_col g n = Some (starts_at params k).
Proof.
  intros N g params HN Hg k n z Hk. unfold base_col. rewrite Hg. unfold usp. rewrite (dict_distinct _ _ HN).
  apply (col_distinct params 0 k n z HN Hk).
Qed.
Print Assumptions C74_parameter_columns.

(** If two parameters share a name, the last entry of the parameter vector (it belongs to the
    last parameter) keeps the value it had, whatever the calls. *)
Theorem C74_same_parameter_name :
  forall (N : Num) (g : genc N) scr (sv : Type) enabled translation (dflt : string -> sv) converts (params : list (string * nat)),
  ~ NoDup (map fst params) -> Forall (fun p => 0 < snd p) params -> g_params g = usp params ->
  forall (cs : list (pcall N sv)) w,
  nth_error (r_vec (w_rst (fst (session N g scr sv enabled translation dflt converts w cs)))) (total params - 1)
  = nth_error (r_vec (w_rst w)) (total params - 1).
Proof.
  intros N g scr sv enabled translation dflt converts params HN HP Hg cs w.
  pose proof (usp_total params HP HN) as Ht. apply session_other.
  - rewrite Hg. lia.
  - rewrite Hg. apply dict_nodup.
Qed.
Print Assumptions C74_same_parameter_name.

(** p (2 entries), q, and another p (2 entries), at generation [1; 2], 3, [4; 5]; the call finds
    [40; 50] under the name p: these values go to the first p, the second keeps its old ones. *)
Definition c74_params := [("p", 2); ("q", 1); ("p", 2)].
Definition c74_g : genc ZRing :=
  mkG ZRing OSQP (usp c74_params) [1; 2; 3; 4; 5; 1]%Z (fun _ => []) (fun _ => None) (fun _ => []) (fun _ => []) false false UNil.
Definition c74_call : pcall ZRing nat :=
  mkCall (N := ZRing) None [] (fun n => if String.eqb n "p" then Ok [40; 50]%Z else if String.eqb n "q" then Ok [30%Z] else Err KeyError).
Theorem C74_same_parameter_name_refuted :
  exists (g : genc ZRing) (params : list (string * nat)) (c : pcall ZRing nat) w',
  g_params g = usp params /\ Forall (fun p => 0 < snd p) params
  /\ py_solve ZRing g (fun _ _ d => d) nat [] [] (fun _ => 0) (fun _ _ => true) (w_init ZRing g nat (fun _ => 0)) c = (w', None)
  /\ nth_error params 2 = Some ("p", 2) /\ c_vals c "p" = Ok [40; 50]%Z /\ starts_at params 2 = 3
  /\ r_vec (w_rst w') = [40; 50; 30; 4; 5; 1]%Z.
Proof.
  exists c74_g, c74_params, c74_call. eexists. split; [reflexivity|]. split; [repeat constructor|].
  split; [cbv; reflexivity|]. repeat split.
Qed.
Print Assumptions C74_same_parameter_name_refuted.

Example C74_parameter_example :
  ~ NoDup (map fst c74_params) /\ Forall (fun p => 0 < snd p) c74_params /\ g_params c74_g = usp c74_params
  /\ NoDup (map fst [("p", 2); ("q", 1)]) /\ starts_at [("p", 2); ("q", 1)] 1 = 2.
Proof.
  split. { intro H. inversion H as [|a b Hn _]; subst. apply Hn. simpl. auto. }
  split; [repeat constructor|]. split; [reflexivity|]. split; [|reflexivity].
  simpl. repeat (constructor; [simpl; intuition discriminate|]). constructor.
Qed.
