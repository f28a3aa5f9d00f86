(** Proofs about Build.v, continued: explicit solvers, the files written by the writer, and include lines. *)

From Coq Require Import String List Bool Arith Lia.
From Verif Require Import Base Config Import ImportProofs Build BuildSpec BuildProofs.
Import ListNotations.
Open Scope string_scope.
Open Scope list_scope.

Lemma has_dir_more : forall p ds s, has_dir s p = true -> has_dir (putdirs ds s) p = true.
Proof. intros. rewrite has_dir_putdirs, H. apply orb_true_r. Qed.
Lemma has_dir_move : forall p e s, mem_str (last e "") ["pdaqp.h"; "pdaqp.c"] = true -> mem_str (last p "") ["pdaqp.h"; "pdaqp.c"] = false ->
  has_dir s p = true -> has_dir (remove (fun x => path_eqb x e) s) p = true.
Proof.
  intros p e s H1 H2 H. rewrite has_dir_remove, H. rewrite path_eqb_neq; auto. intros ->. congruence.
Qed.
Lemma in_dirs : forall r ds s, lookup (sd ++ r) (t_files (putdirs ds s)) = lookup (sd ++ r) (t_files s).
Proof. reflexivity. Qed.
Lemma solver_pdaqp : forall v c, b_if c = IPDAQP -> settled v c.
Proof.
  intros v [i g e t sp] Hi. cbn in Hi. subst i. unfold settled. cbn [solver_ops b_if b_grad]. cbn [app]. rewrite step_gen.
  match goal with |- context [run v (Makedirs ?p true :: ?l) ?s] => destruct (step_makedirs v p l s) as (d1 & -> & D1) end.
  match goal with |- context [run v (Makedirs ?p true :: ?l) ?s] => destruct (step_makedirs v p l s) as (d2 & -> & D2) end.
  apply (has_dir_more _ d2) in D1.
  set (base := putdirs d2 (putdirs d1 (add_all sd (v_gen v) (fun f => f) s0))) in *.
  assert (B : forall p, In p root_dirs -> has_dir base p = true).
  { intros p Hp. unfold base. apply has_dir_more, has_dir_more. cbn [root_dirs In] in Hp.
    repeat (destruct Hp as [<-|Hp]; [first [apply has_dir_add_ups; reflexivity | apply has_dir_add_old; reflexivity]|]). destruct Hp. }
  assert (L : forall r, lookup (sd ++ r) (t_files base) = if mem_path r (v_gen v) then Some (Vendor r) else None).
  { intro r. unfold base. rewrite !in_dirs, in_gen. reflexivity. }
  assert (O : forall p, strip sd p = None -> lookup p (t_files base) = None).
  { intros p H. unfold base. outside H. reflexivity. }
  clearbody base.
  rewrite step_move by exact D1. rewrite L. decide_mem.
  rewrite step_move by (apply has_dir_move; auto). look. rewrite L. small. decide_mem.
  assert (D : forall p, In p root_dirs -> has_dir (remove (fun x => path_eqb x (sd ++ ["pdaqp.c"]))
             (put (sd ++ ["include"; "pdaqp.h"]) (Vendor ["pdaqp.h"]) (remove (fun x => path_eqb x (sd ++ ["pdaqp.h"])) base))) p = true).
  { intros p Hp. specialize (B p Hp). cbn [root_dirs In] in Hp.
    repeat (destruct Hp as [<-|Hp]; [apply has_dir_move; auto; rewrite has_dir_put; apply has_dir_move; auto|]). destruct Hp. }
  assert (I : forall r, (if path_eqb r ["src"; "pdaqp.c"] then Some (Vendor ["pdaqp.c"]) else
        if path_eqb r ["pdaqp.c"] then None else if path_eqb r ["include"; "pdaqp.h"] then Some (Vendor ["pdaqp.h"])
        else if path_eqb r ["pdaqp.h"] then None else if mem_path r (v_gen v) then Some (Vendor r) else None)
      = at_path [(["pdaqp.h"], None); (["pdaqp.c"], None); (["include"; "pdaqp.h"], Some (Vendor ["pdaqp.h"]));
                 (["src"; "pdaqp.c"], Some (Vendor ["pdaqp.c"]))] (from_gen (v_gen v) r) r).
  { intro r. unfold from_gen. cbn [at_path]. destruct r as [|? [|? [|? ?]]]; small; rewrite ?andb_false_r, ?andb_true_r; names; reflexivity. }
  destruct g; cbn [app].
  - edit. edit. rewrite step_write by (rewrite !has_dir_put; apply D; cbn; tauto).
    left. eexists. split; [reflexivity|]. split; [split|].
    + apply Forall_forall. intros p Hp. rewrite !has_dir_put. apply D, Hp.
    + intros p H. outside H. apply O, H.
    + intro r. look. rewrite L, I. unfold source, edits. cbn [b_if b_grad at_path]. unfold from_gen.
      destruct r as [|? [|? [|? ?]]]; small; rewrite ?andb_false_r, ?andb_true_r; names; try reflexivity;
      match goal with |- context [mem_path ?a ?b] => destruct (mem_path a b); reflexivity end.
    + unfold complete_solver. cbn [b_if]. auto using mem_true.
  - rewrite step_write by (rewrite !has_dir_put; apply D; cbn; tauto).
    left. eexists. split; [reflexivity|]. split; [split|].
    + apply Forall_forall. intros p Hp. rewrite !has_dir_put. apply D, Hp.
    + intros p H. outside H. apply O, H.
    + intro r. look. rewrite L, I. unfold source, edits. cbn [b_if b_grad at_path]. unfold from_gen.
      destruct r as [|? [|? [|? ?]]]; small; rewrite ?andb_false_r, ?andb_true_r; names; try reflexivity;
      match goal with |- context [mem_path ?a ?b] => destruct (mem_path a b); reflexivity end.
    + unfold complete_solver. cbn [b_if]. auto using mem_true.
Qed.

Theorem solver_settled : forall v c, settled v c.
Proof.
  intros v c. destruct (b_if c) eqn:E;
    [apply solver_osqp | apply solver_scs | apply solver_ecos | apply solver_clarabel | apply solver_qoco | apply solver_qocogen | apply solver_pdaqp]; exact E.
Qed.

(** ** After the second copy of OSQP *)

Definition two_ops (v : vendor) (c : bcfg) : list op := if b_two c then osqp_ops od (v_osqp v) else [].
Definition osqp_stage (v : vendor) (r : path) : option content :=
  edited (from_osqp (v_osqp v) r)
    (at_path [(["workspace.h"], ["extern sol_x sol_y"]); (["CMakeLists.txt"], ["cut add_library"])] [] r).
Record state2_ok (v : vendor) (c : bcfg) (s : tree) : Prop := {
  s2_dirs : Forall (fun p => has_dir s p = true) root_dirs;
  s2_od : b_two c = true -> has_dir s od = true;
  s2_out : forall p, strip sd p = None -> (b_two c = true -> strip od p = None) -> lookup p (t_files s) = root_file c p;
  s2_in : forall r, lookup (sd ++ r) (t_files s) = edited (source v c r) (edits c r);
  s2_two : b_two c = true -> forall r, lookup (od ++ r) (t_files s) = osqp_stage v r }.

Lemma root_file_od : forall c r, root_file c (od ++ r) = None.
Proof. intros c r. unfold root_file. destruct (b_if c); reflexivity. Qed.
Lemma od_put : forall r e c s, lookup (od ++ r) (t_files (put (od ++ e) c s)) = if path_eqb r e then Some c else lookup (od ++ r) (t_files s).
Proof. reflexivity. Qed.
Lemma od_gen : forall r l s, lookup (od ++ r) (t_files (add_all od l (fun f => f) s)) = if mem_path r l then Some (Vendor r) else lookup (od ++ r) (t_files s).
Proof. intros. rewrite lookup_add_all. replace (strip od (od ++ r)) with (Some r) by reflexivity. reflexivity. Qed.
Lemma other_put : forall p e c s, strip od p = None -> lookup p (t_files (put (od ++ e) c s)) = lookup p (t_files s).
Proof. intros p e c s H. rewrite lookup_put, path_eqb_neq; auto. intros ->. exact (strip_None _ _ H e eq_refl). Qed.
Lemma other_gen : forall p l o s, strip od p = None -> lookup p (t_files (add_all od l o s)) = lookup p (t_files s).
Proof. intros p l o s H. rewrite lookup_add_all. now rewrite H. Qed.

Lemma two_settled : forall v c s, state_ok v c s ->
  (exists t, run v (two_ops v c) s = inr t /\ state2_ok v c t /\ (b_two c = true -> complete_osqp v (v_osqp v)))
  \/ (run v (two_ops v c) s = inl NotFound /\ ~ (b_two c = true -> complete_osqp v (v_osqp v))).
Proof.
  intros v c s [SD SO SI]. unfold two_ops. destruct (b_two c) eqn:T.
  2: { left. exists s. split; [reflexivity|]. split; [|discriminate]. split; auto; rewrite T; discriminate. }
  assert (E0 : forall r, lookup (od ++ r) (t_files s) = None).
  { intro r. rewrite SO by reflexivity. apply root_file_od. }
  unfold osqp_ops. rewrite step_gen.
  rewrite step_file by (apply has_dir_add_ups; reflexivity).
  destruct (mem_path ["LICENSE"] (v_repo v "osqp-python")) eqn:M1.
  2: { right. split; [reflexivity|]. intro X. destruct (X eq_refl) as (X1 & _). exact (mem_false _ _ M1 X1). }
  rewrite step_edit, od_put, od_gen, E0. small.
  destruct (mem_path ["workspace.h"] (v_osqp v)) eqn:M2.
  2: { right. split; [reflexivity|]. intro X. destruct (X eq_refl) as (_ & X1 & _). exact (mem_false _ _ M2 X1). }
  rewrite step_edit, !od_put, od_gen, E0. small.
  destruct (mem_path ["CMakeLists.txt"] (v_osqp v)) eqn:M3.
  2: { right. split; [reflexivity|]. intro X. destruct (X eq_refl) as (_ & _ & X1). exact (mem_false _ _ M3 X1). }
  left. eexists. split; [reflexivity|]. split; [split|].
  - eapply Forall_impl; [|exact SD]. intros p Hp. rewrite !has_dir_put. now apply has_dir_add_old.
  - intros _. rewrite !has_dir_put. now apply has_dir_add_ups.
  - intros p H1 H2. rewrite !other_put, other_gen by auto. auto.
  - intro r. assert (X : strip od (sd ++ r) = None) by reflexivity. rewrite !other_put, other_gen by exact X. auto.
  - intros _ r. rewrite !od_put, od_gen, E0. unfold osqp_stage, from_osqp, from_gen. cbn [at_path].
    destruct r as [|? [|? ?]]; small; rewrite ?andb_false_r, ?andb_true_r; names; rewrite ?M2, ?M3; try reflexivity;
    match goal with |- context [mem_path ?a ?b] => destruct (mem_path a b); reflexivity end.
  - intros _. unfold complete_osqp, in_repo. auto using mem_true.
Qed.

(** ** The writer *)

Definition unwrite (o : op) : list (path * string) := match o with Write p w => [(p, w)] | _ => [] end.
Definition rewrite_op (e : path * string) : op := Write (fst e) (snd e).
Definition ws (c : bcfg) : list (path * string) :=
  flat_map unwrite (top_ops ++ workspace_ops ++ solve_ops ++ (if b_grad c then gradient_ops c else []) ++ rest_ops).
Lemma write_ops_ws : forall c, write_ops c = map rewrite_op (ws c) ++ cmake_ops c ++ [Write ["README.html"] "README.html.jinja2"].
Proof. intro c. unfold write_ops, ws, gradient_ops. destruct (b_grad c), (b_two c), (expl c); reflexivity. Qed.

Fixpoint puts (l : list (path * string)) (s : tree) : tree :=
  match l with [] => s | (p, w) :: l => puts l (put p (From w) s) end.
Lemma run_puts : forall v l ops s, Forall (fun e => has_dir s (parent (fst e)) = true) l ->
  run v (map rewrite_op l ++ ops) s = run v ops (puts l s).
Proof.
  induction l as [|[p w] l IH]; intros ops s H; auto. inversion H as [|x y H1 H2]; subst. change (map rewrite_op ((p, w) :: l) ++ ops) with (Write p w :: (map rewrite_op l ++ ops)).
  rewrite step_write by exact H1. rewrite IH by exact H2. reflexivity.
Qed.
Lemma has_dir_puts : forall l s p, has_dir (puts l s) p = has_dir s p.
Proof. induction l as [|[q w] l IH]; intros s p; cbn [puts]; auto. rewrite IH. reflexivity. Qed.
Lemma lookup_puts_out : forall l s p, ~ In p (map fst l) -> lookup p (t_files (puts l s)) = lookup p (t_files s).
Proof.
  induction l as [|[q w] l IH]; intros s p H; cbn [puts]; auto. cbn [map fst In] in H. rewrite IH by tauto. rewrite lookup_put, path_eqb_neq; auto.
Qed.
Lemma lookup_puts_in : forall l s p w, NoDup (map fst l) -> In (p, w) l -> lookup p (t_files (puts l s)) = Some (From w).
Proof.
  induction l as [|[q u] l IH]; intros s p w N H; [destruct H|]. cbn [map fst] in N. inversion N as [|a b N1 N2]; subst.
  cbn [puts]. destruct H as [H|H].
  - injection H as -> ->. rewrite lookup_puts_out by auto. now rewrite lookup_put, path_eqb_refl.
  - apply IH; auto.
Qed.

(** The entries written agree with the table of the specification, README.html aside. *)
Fixpoint nodupb (l : list path) : bool := match l with [] => true | p :: l => negb (mem_path p l) && nodupb l end.
Lemma nodupb_ok : forall l, nodupb l = true -> NoDup l.
Proof. induction l as [|p l IH]; intro H; constructor; cbn [nodupb] in H; apply andb_true_iff in H; destruct H as (H1 & H2); auto. apply negb_true_iff in H1. now apply mem_false. Qed.
Definition eq_entry (a b : path * string) : bool := path_eqb (fst a) (fst b) && String.eqb (snd a) (snd b).
Definition inclb (a b : list (path * string)) : bool := forallb (fun x => existsb (eq_entry x) b) a.
Lemma inclb_ok : forall a b, inclb a b = true -> List.incl a b.
Proof.
  intros a b H x Hx. unfold inclb in H. rewrite forallb_forall in H. specialize (H x Hx). apply existsb_exists in H.
  destruct H as (y & Hy & E). unfold eq_entry in E. apply andb_true_iff in E. destruct E as (E1 & E2).
  apply path_eqb_eq in E1. apply String.eqb_eq in E2. destruct x, y. cbn in *. congruence.
Qed.
Definition readme : path * string := (["README.html"], "README.html.jinja2").
Lemma tables : forall c, cfg_ok c ->
  NoDup (map fst (readme :: ws c)) /\ NoDup (map fst (expected c)) /\ List.incl (readme :: ws c) (expected c) /\ List.incl (expected c) (readme :: ws c).
Proof.
  intros [i g e t sp] (H1 & H2 & H3). cbn [b_if b_grad b_expl b_two] in *. destruct t.
  - rewrite (H2 eq_refl) in *. destruct e as [|e]; [|destruct (H1 ltac:(discriminate)) as (_ & X); discriminate X].
    repeat split; first [apply nodupb_ok; reflexivity | apply inclb_ok; reflexivity].
  - destruct g, e as [|e]; repeat split; first [apply nodupb_ok; reflexivity | apply inclb_ok; reflexivity].
Qed.

Lemma find_in : forall l p w, NoDup (map fst l) -> In (p, w) l -> List.find (fun e : path * string => path_eqb p (fst e)) l = Some (p, w).
Proof.
  induction l as [|[q u] l IH]; intros p w N H; [destruct H|]. cbn [map fst] in N. inversion N as [|a b N1 N2]; subst. cbn [find fst].
  destruct H as [H|H].
  - injection H as -> ->. now rewrite path_eqb_refl.
  - rewrite path_eqb_neq; [auto|]. intros ->. apply N1. apply in_map_iff. exists (q, w). auto.
Qed.
Lemma find_out : forall l p, ~ In p (map fst l) -> List.find (fun e : path * string => path_eqb p (fst e)) l = None.
Proof. induction l as [|[q u] l IH]; intros p H; cbn [find fst]; auto. cbn [map fst In] in H. rewrite path_eqb_neq by (intros ->; tauto). apply IH. tauto. Qed.
Lemma expected_in : forall c p w, cfg_ok c -> In (p, w) (expected c) -> expected_at c p = Some (From w).
Proof. intros c p w H X. unfold expected_at. destruct (tables c H) as (_ & N & _). now rewrite (find_in _ p w N X). Qed.
Lemma expected_out : forall c p, cfg_ok c -> ~ In p (map fst (expected c)) -> expected_at c p = root_file c p.
Proof.
  intros c p H X. unfold expected_at. rewrite find_out by auto. unfold root_file.
  destruct (b_if c); auto; rewrite path_eqb_neq; auto; intros ->; apply X; left; reflexivity.
Qed.
Lemma expected_outside : forall c p, In p (map fst (expected c)) -> strip sd p = None /\ strip od p = None.
Proof.
  intros c p H. unfold expected in H. rewrite !map_app, !in_app_iff in H.
  destruct H as [H|[H|H]].
  - cbn [map fst In] in H. repeat (destruct H as [<-|H]; [split; reflexivity|]). destruct H.
  - destruct (b_grad c); [|destruct H]. destruct (b_expl c =? 0)%nat; cbn [map fst In] in H; repeat (destruct H as [<-|H]; [split; reflexivity|]); destruct H.
  - destruct (b_two c); [|destruct H]. cbn [map fst In] in H. repeat (destruct H as [<-|H]; [split; reflexivity|]). destruct H.
Qed.

(** ** The whole generation *)

Record final_ok (v : vendor) (c : bcfg) (s : tree) : Prop := {
  f_out : forall p, strip sd p = None -> (b_two c = true -> strip od p = None) -> lookup p (t_files s) = expected_at c p;
  f_in : forall r, lookup (sd ++ r) (t_files s) = solver_file v c r;
  f_two : b_two c = true -> forall r, lookup (od ++ r) (t_files s) = osqp_file v r }.

Lemma step_append : forall v p w l s, has_dir s (parent p) = true -> run v (Append p w :: l) s =
  run v l (put p (match lookup p (t_files s) with Some c => Then c w | None => From w end) s).
Proof. intros v p w l s H. cbn [run exec]. now rewrite H. Qed.

Lemma ws_parents : forall c s, Forall (fun p => has_dir s p = true) root_dirs -> Forall (fun e => has_dir s (parent (fst e)) = true) (ws c).
Proof.
  intros c s H. rewrite Forall_forall in H.
  assert (X : forallb (fun e => mem_path (parent (fst e)) root_dirs) (ws c) = true).
  { unfold ws, gradient_ops. destruct (b_grad c), (b_two c), (expl c); reflexivity. }
  rewrite forallb_forall in X. apply Forall_forall. intros e He. apply H, mem_true, X, He.
Qed.
Lemma ws_out : forall c p, cfg_ok c -> In p (map fst (ws c)) -> strip sd p = None /\ strip od p = None.
Proof.
  intros c p H X. apply (expected_outside c). destruct (tables c H) as (_ & _ & I & _).
  apply in_map_iff in X. destruct X as (e & <- & He). apply in_map. apply I. now right.
Qed.

Lemma writer_ok : forall v c s, cfg_ok c -> state2_ok v c s -> (b_two c = true -> complete_osqp v (v_osqp v)) -> exists t, run v (write_ops c) s = inr t /\ final_ok v c t.
Proof.
  intros v c s HC [SD SOD SO SI ST] HT. rewrite write_ops_ws, run_puts by (now apply ws_parents).
  destruct (tables c HC) as (N & NE & I1 & I2).
  set (s1 := puts (ws c) s).
  assert (D1 : forall p, has_dir s1 p = has_dir s p) by (intro p; apply has_dir_puts).
  assert (Dsd : has_dir s sd = true) by (rewrite Forall_forall in SD; apply SD; cbn; tauto).
  assert (Dr : has_dir s [] = true) by (rewrite Forall_forall in SD; apply SD; cbn; tauto).
  assert (Lsd : forall r, lookup (sd ++ r) (t_files s1) = edited (source v c r) (edits c r)).
  { intro r. unfold s1. rewrite lookup_puts_out; auto. intro X. apply ws_out in X; auto. destruct X as (X & _). discriminate X. }
  assert (Lod : b_two c = true -> forall r, lookup (od ++ r) (t_files s1) = osqp_stage v r).
  { intros T r. unfold s1. rewrite lookup_puts_out; auto. intro X. apply ws_out in X; auto. destruct X as (_ & X). discriminate X. }
  assert (Lout : forall p, strip sd p = None -> (b_two c = true -> strip od p = None) -> p <> ["README.html"] -> lookup p (t_files s1) = expected_at c p).
  { intros p H1 H2 H3. destruct (in_dec (list_eq_dec string_dec) p (map fst (ws c))) as [X|X].
    - apply in_map_iff in X. destruct X as ((q & w) & E & X). cbn in E. subst q. unfold s1. rewrite (lookup_puts_in _ _ p w); auto.
      + symmetry. apply expected_in; auto. apply I1. now right.
      + cbn [map] in N. now inversion N.
    - unfold s1. rewrite lookup_puts_out by auto. rewrite SO by auto. symmetry. apply expected_out; auto.
      intro Y. apply in_map_iff in Y. destruct Y as ((q & w) & E & Y). cbn in E. subst q. apply I2 in Y. destruct Y as [Y|Y].
      + apply H3. unfold readme in Y. congruence.
      + apply X. apply in_map_iff. exists (p, w). auto. }
  clearbody s1.
  (* the CMake files of the solvers *)
  assert (A : exists s2, run v (cmake_ops c ++ [Write ["README.html"] "README.html.jinja2"]) s1 = run v [Write ["README.html"] "README.html.jinja2"] s2
     /\ has_dir s2 [] = true
     /\ (forall p, strip sd p = None -> (b_two c = true -> strip od p = None) -> lookup p (t_files s2) = lookup p (t_files s1))
     /\ (forall r, lookup (sd ++ r) (t_files s2) = solver_file v c r)
     /\ (b_two c = true -> forall r, lookup (od ++ r) (t_files s2) = osqp_file v r)).
  { assert (A1 : exists s2, (forall l, run v ((if expl c then [] else [Append (sd ++ ["CMakeLists.txt"]) "write_canon_cmake solver"]) ++ l) s1 = run v l s2)
       /\ (forall p, has_dir s2 p = has_dir s p)
       /\ (forall p, strip sd p = None -> lookup p (t_files s2) = lookup p (t_files s1))
       /\ (forall r, lookup (sd ++ r) (t_files s2) = solver_file v c r)).
    { unfold expl, solver_file. destruct (b_expl c =? 0)%nat eqn:E; cbn [negb].
      - eexists. split; [intro l; cbn [app]; apply step_append; rewrite D1; exact Dsd|]. split; [intro p; now rewrite has_dir_put|]. split.
        + intros p Hp. now rewrite out_put.
        + intro r. rewrite in_put, !Lsd. destruct (path_eqb r ["CMakeLists.txt"]) eqn:Er; cbn [andb]; auto.
          apply path_eqb_eq in Er. subst r. unfold edited. now destruct (source v c ["CMakeLists.txt"]).
      - exists s1. split; [reflexivity|]. split; [auto|]. split; auto. intro r. rewrite andb_false_r. auto. }
    destruct A1 as (s2 & R & D2 & O2 & I3). unfold cmake_ops. rewrite <- app_assoc, R. destruct (b_two c) eqn:T.
    - destruct (HT eq_refl) as (_ & _ & M). apply mem_path_In in M. cbn [app].
      assert (L2 : forall r, lookup (od ++ r) (t_files s2) = osqp_stage v r) by (intro r; rewrite O2 by reflexivity; auto).
      rewrite step_edit, L2. replace (osqp_stage v ["CMakeLists.txt"]) with (Some (Then (Vendor ["CMakeLists.txt"]) "cut add_library"))
        by (unfold osqp_stage, from_osqp, from_gen; small; rewrite M; reflexivity).
      rewrite step_append by (change (parent (od ++ ["CMakeLists.txt"])) with od; rewrite has_dir_put, D2; auto).
      eexists. split; [reflexivity|]. split; [now rewrite !has_dir_put, D2|]. split; [|split].
      + intros p H1 H2. specialize (H2 eq_refl). now rewrite !other_put, O2 by auto.
      + intro r. assert (X : strip od (sd ++ r) = None) by reflexivity. now rewrite !other_put by exact X.
      + intros _ r. rewrite !od_put, path_eqb_refl. unfold osqp_file. destruct (path_eqb r ["CMakeLists.txt"]) eqn:Er.
        * apply path_eqb_eq in Er. subst r. unfold from_osqp, from_gen. small. rewrite M. reflexivity.
        * rewrite L2. unfold osqp_stage. cbn [at_path]. now rewrite Er.
    - cbn [app]. exists s2. split; [reflexivity|]. rewrite D2. repeat split; auto. discriminate. }
  destruct A as (s2 & R & D2 & O2 & I3 & T3). rewrite R, step_write by exact D2. cbn [run]. eexists. split; [reflexivity|]. split.
  - intros p H1 H2. rewrite lookup_put. destruct (path_eqb p ["README.html"]) eqn:E.
    + apply path_eqb_eq in E. subst p. symmetry. apply expected_in; auto. apply I1. now left.
    + rewrite O2 by auto. apply Lout; auto. intros ->. discriminate E.
  - intro r. rewrite lookup_put. rewrite path_eqb_neq by discriminate. apply I3.
  - intros T r. rewrite lookup_put. rewrite path_eqb_neq by discriminate. now apply T3.
Qed.

Theorem generates : forall v c, cfg_ok c ->
  (exists t, generate_files v c = inr t /\ final_ok v c t /\ complete v c)
  \/ (generate_files v c = inl NotFound /\ ~ complete v c).
Proof.
  intros v c H. unfold generate_files, vendor_ops, complete. rewrite run_folders, <- app_assoc, run_app.
  destruct (solver_settled v c) as [(s & -> & S & C1) | (-> & C1)]; [|right; split; [reflexivity|tauto]].
  rewrite run_app. fold (two_ops v c).
  destruct (two_settled v c s S) as [(t & -> & T & C2) | (-> & C2)]; [|right; split; [reflexivity|tauto]].
  left. destruct (writer_ok v c t H T C2) as (u & R & U). exists u. auto.
Qed.

Corollary generates_complete : forall v c, cfg_ok c -> complete v c -> exists t, generate_files v c = inr t /\ final_ok v c t.
Proof. intros v c H C. destruct (generates v c H) as [(t & X & Y & _) | (_ & X)]; [eauto|tauto]. Qed.
