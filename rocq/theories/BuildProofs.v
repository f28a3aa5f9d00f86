(** Proofs about Build.v: file operations, and the state after each part of a generation. *)

From Coq Require Import String List Bool Arith Lia.
From Verif Require Import Base Config Import ImportProofs Build BuildSpec.
Import ListNotations.
Open Scope string_scope.
Open Scope list_scope.

(** ** Paths *)

Lemma mem_path_In : forall p l, mem_path p l = true <-> In p l.
Proof.
  intros. unfold mem_path. rewrite existsb_exists. split.
  - intros (x & H & E). apply path_eqb_eq in E. now subst.
  - intro H. exists p. split; auto. apply path_eqb_refl.
Qed.
Lemma mem_path_app : forall p a b, mem_path p (a ++ b) = mem_path p a || mem_path p b.
Proof. intros. unfold mem_path. apply existsb_app. Qed.
Lemma mem_path_ex : forall p l, In p l -> mem_path p l = true.
Proof. intros. now apply mem_path_In. Qed.

Lemma strip_app : forall d p r, strip d p = Some r <-> p = d ++ r.
Proof.
  induction d as [|x d IH]; intros p r; cbn [strip app].
  - split; [now intros [= ->]|now intros ->].
  - destruct p as [|y p]; [split; discriminate|]. destruct (String.eqb y x) eqn:E.
    + apply String.eqb_eq in E. subst y. rewrite IH. split; [now intros ->|now intros [= ->]].
    + apply String.eqb_neq in E. split; [discriminate|intros [= -> ->]; congruence].
Qed.
Lemma strip_None : forall d p, strip d p = None -> forall r, p <> d ++ r.
Proof. intros d p H r ->. assert (X : strip d (d ++ r) = Some r) by (now apply strip_app). congruence. Qed.
Lemma strip_below : forall d p, below d p = match strip d p with Some _ => true | None => false end.
Proof. induction d as [|x d IH]; intros [|y p]; cbn [strip below]; auto. rewrite (String.eqb_sym x y). destruct (String.eqb y x); cbn [andb]; auto. Qed.

Lemma sub_In : forall d l r, In r (sub d l) <-> In (d ++ r) l /\ r <> [].
Proof.
  induction l as [|p l IH]; intro r; cbn [sub In].
  - tauto.
  - destruct (strip d p) as [[|x t]|] eqn:E.
    + apply strip_app in E. rewrite app_nil_r in E. subst p. rewrite IH. split; [tauto|]. intros ([H|H] & N); [|tauto].
      exfalso. apply N. rewrite <- (app_nil_r d) in H at 1. now apply app_inv_head in H.
    + apply strip_app in E. subst p. cbn [In]. rewrite IH. split.
      * intros [<-|(H & N)]; [split; [auto|discriminate]|auto].
      * intros ([H|H] & N); auto. apply app_inv_head in H. auto.
    + rewrite IH. split; [tauto|]. intros ([H|H] & N); [|tauto]. exfalso. exact (strip_None _ _ E _ H).
Qed.

(** ** One operation *)

Lemma lookup_put : forall p q c s, lookup p (t_files (put q c s)) = if path_eqb p q then Some c else lookup p (t_files s).
Proof. reflexivity. Qed.
Lemma lookup_app : forall p a b, lookup p (a ++ b) = match lookup p a with Some c => Some c | None => lookup p b end.
Proof. induction a as [|[q c] a IH]; intro b; cbn [lookup app]; auto. destruct (path_eqb p q); auto. Qed.
Lemma lookup_add_all : forall p d l o s, lookup p (t_files (add_all d l o s)) =
  match strip d p with
  | Some r => if mem_path r l then Some (Vendor (o r)) else lookup p (t_files s)
  | None => lookup p (t_files s)
  end.
Proof.
  intros. unfold add_all. cbn [t_files]. rewrite lookup_app.
  replace (lookup p (map (fun f => (d ++ f, Vendor (o f))) l))
    with (match strip d p with Some r => if mem_path r l then Some (Vendor (o r)) else None | None => None end).
  { destruct (strip d p) as [r|]; auto. destruct (mem_path r l); auto. }
  induction l as [|f l IH]; cbn [map lookup mem_path existsb]; [now destruct (strip d p)|].
  rewrite <- IH. destruct (strip d p) as [r|] eqn:E.
  - apply strip_app in E. subst p. destruct (path_eqb r f) eqn:E2.
    + apply path_eqb_eq in E2. subst f. now rewrite path_eqb_refl.
    + rewrite (path_eqb_neq (d ++ r)); [reflexivity|]. intro X. apply app_inv_head in X. subst. now rewrite path_eqb_refl in E2.
  - rewrite path_eqb_neq by (apply strip_None; auto). reflexivity.
Qed.
Lemma lookup_filter : forall f p l, lookup p (filter (fun e => negb (f (fst e))) l) = if f p then None else lookup p l.
Proof.
  induction l as [|[q c] l IH]; cbn [filter lookup fst]; [now destruct (f p)|].
  destruct (f q) eqn:E; cbn [negb lookup].
  - rewrite IH. destruct (f p) eqn:E2; auto. destruct (path_eqb p q) eqn:E3; auto. apply path_eqb_eq in E3. congruence.
  - rewrite IH. destruct (path_eqb p q) eqn:E3; auto. apply path_eqb_eq in E3. subst. now rewrite E.
Qed.
Lemma lookup_remove : forall f p s, lookup p (t_files (remove f s)) = if f p then None else lookup p (t_files s).
Proof. intros. unfold remove. cbn [t_files]. apply lookup_filter. Qed.

Lemma has_dir_put : forall p q c s, has_dir (put q c s) p = has_dir s p.
Proof. reflexivity. Qed.
Lemma has_dir_putdirs : forall p l s, has_dir (putdirs l s) p = mem_path p l || has_dir s p.
Proof. intros. unfold has_dir, putdirs. cbn [t_dirs]. apply mem_path_app. Qed.
Lemma has_dir_remove : forall f p s, has_dir (remove f s) p = negb (f p) && has_dir s p.
Proof.
  intros. unfold has_dir, remove. cbn [t_dirs]. induction (t_dirs s) as [|x l IH]; cbn [filter mem_path existsb]; [now rewrite andb_false_r|].
  fold (mem_path p l). destruct (f x) eqn:E; cbn [negb].
  - fold (mem_path p (filter (fun d => negb (f d)) l)) in *. rewrite IH. destruct (path_eqb p x) eqn:E2; cbn [orb]; auto. apply path_eqb_eq in E2. subst. rewrite E. auto.
  - cbn [mem_path existsb]. fold (mem_path p (filter (fun d => negb (f d)) l)). rewrite IH. destruct (path_eqb p x) eqn:E2; cbn [orb]; auto.
    apply path_eqb_eq in E2. subst. now rewrite E.
Qed.
(** Directories added with files below d are on the way to d or below d. *)
Lemma has_dir_add_all : forall p d l o s, strip d p = None -> has_dir (add_all d l o s) p = mem_path p (ups d) || has_dir s p.
Proof.
  intros p d l o s E. unfold has_dir, add_all. cbn [t_dirs]. rewrite !mem_path_app. f_equal.
  replace (mem_path p (flat_map (fun f => map (app d) (ups (parent f))) l)) with false; auto.
  symmetry. destruct (mem_path p _) eqn:M; auto. apply mem_path_In in M. apply in_flat_map in M. destruct M as (f & _ & M).
  apply in_map_iff in M. destruct M as (r & <- & _). exfalso. exact (strip_None _ _ E r eq_refl).
Qed.
Lemma has_dir_add_ups : forall p d l o s, mem_path p (ups d) = true -> has_dir (add_all d l o s) p = true.
Proof. intros. unfold has_dir, add_all. cbn [t_dirs]. rewrite mem_path_app, H. auto. Qed.
Lemma has_dir_add_old : forall p d l o s, has_dir s p = true -> has_dir (add_all d l o s) p = true.
Proof. intros p d l o s H. unfold has_dir, add_all. cbn [t_dirs]. rewrite !mem_path_app. unfold has_dir in H. rewrite H. now rewrite !orb_true_r. Qed.

Lemma run_app : forall v a b s, run v (a ++ b) s = match run v a s with inr t => run v b t | inl e => inl e end.
Proof. induction a as [|o a IH]; intros b s; cbn [run app]; auto. destruct (exec v o s); auto. Qed.

(** ** After _setup_folder *)

Definition s0 : tree := Eval vm_compute in match run (mkVendor (fun _ => []) [] []) folders fresh with inr s => s | inl _ => fresh end.
Lemma run_folders : forall v l, run v (folders ++ l) fresh = run v l s0.
Proof. intros. rewrite run_app. reflexivity. Qed.

(** ** After the code of the solver *)

Definition root_dirs : list path := [[]; cd; src; inc; ["cpp"; "src"]; ["cpp"; "include"]; sd].
Definition root_file (c : bcfg) (p : path) : option content :=
  match b_if c with
  | IECOS => if path_eqb p ["COPYING"] then Some (Vendor ["COPYING"]) else None
  | IQOCO | IQOCOGEN => if path_eqb p ["LICENSE"] then Some (Vendor ["LICENSE"]) else None
  | _ => None
  end.
Record state_ok (v : vendor) (c : bcfg) (s : tree) : Prop := {
  so_dirs : Forall (fun p => has_dir s p = true) root_dirs;
  so_out : forall p, strip sd p = None -> lookup p (t_files s) = root_file c p;
  so_in : forall r, lookup (sd ++ r) (t_files s) = edited (source v c r) (edits c r) }.

Lemma mem_false : forall p l, mem_path p l = false -> ~ In p l.
Proof. intros p l H X. apply mem_path_In in X. congruence. Qed.
Lemma sub_nil : forall d x p l, sub [d] l = [] -> ~ In (d :: x :: p) l.
Proof. intros d x p l E X. assert (Y : In (x :: p) (sub [d] l)) by (apply sub_In; split; [exact X|discriminate]). rewrite E in Y. destruct Y. Qed.
Lemma mem_sub : forall d x p l, mem_path (x :: p) (sub [d] l) = mem_path (d :: x :: p) l.
Proof.
  intros. destruct (mem_path (d :: x :: p) l) eqn:E.
  - apply mem_path_In. apply sub_In. split; [now apply mem_path_In in E|discriminate].
  - destruct (mem_path _ (sub _ _)) eqn:E2; auto. apply mem_path_In, sub_In in E2. destruct E2 as (X & _). apply mem_false in E. now exfalso.
Qed.
Lemma mem_sub_nil : forall d l, mem_path [] (sub [d] l) = false.
Proof. intros. destruct (mem_path [] (sub [d] l)) eqn:E; auto. apply mem_path_In, sub_In in E. now destruct E. Qed.

Definition nonempty (l : list path) : bool := match l with [] => false | _ => true end.
Lemma step_tree : forall v r d l s, has_dir s (sd ++ [d]) = false ->
  run v (CopyTree r [d] (sd ++ [d]) :: l) s =
  if nonempty (sub [d] (v_repo v r))
  then run v l (add_all (sd ++ [d]) (sub [d] (v_repo v r)) (app [d]) s) else inl NotFound.
Proof. intros v r d l s H. cbn [run exec]. rewrite H. now destruct (sub [d] (v_repo v r)). Qed.
Lemma step_file : forall v r f d l s, has_dir s (parent d) = true ->
  run v (CopyFile r f d :: l) s = if mem_path f (v_repo v r) then run v l (put d (Vendor f) s) else inl NotFound.
Proof. intros v r f d l s H. cbn [run exec]. rewrite H. now destruct (mem_path f (v_repo v r)). Qed.
Lemma step_edit : forall v p w l s, run v (Edit p w :: l) s =
  match lookup p (t_files s) with Some c => run v l (put p (Then c w) s) | None => inl NotFound end.
Proof. intros. cbn [run exec]. now destruct (lookup p (t_files s)). Qed.
Lemma nonempty_false : forall d x p l, nonempty (sub [d] l) = false -> ~ In (d :: x :: p) l.
Proof. intros d x p l E. apply sub_nil. now destruct (sub [d] l). Qed.

Ltac hasdir :=
  repeat first [ rewrite has_dir_put | rewrite has_dir_add_ups by reflexivity | rewrite has_dir_add_all by reflexivity
               | rewrite has_dir_putdirs ]; vm_compute; reflexivity.

Ltac step_copy :=
  match goal with
  | |- context [run _ (CopyTree _ [_] _ :: _) _] => rewrite step_tree by hasdir
  | |- context [run _ (CopyFile _ _ _ :: _) _] => rewrite step_file by hasdir
  end.
(** A file that is missing contradicts [complete]. *)
Ltac incomplete :=
  right; split; [reflexivity|]; unfold complete_solver, complete_osqp, in_repo, some_below; cbn [b_if];
  rewrite ?Forall_cons_iff; intro X;
  repeat match goal with H : _ /\ _ |- _ => destruct H end;
  repeat match goal with H : exists _, _ |- _ => destruct H end;
  repeat match goal with E : nonempty _ = false |- _ => pose proof (fun x p => nonempty_false _ x p _ E); clear E end;
  repeat match goal with E : mem_path _ _ = false |- _ => apply mem_false in E end;
  first [contradiction | unfold not in *; solve [eauto]].
Ltac copying :=
  step_copy;
  match goal with
  | |- context [if nonempty ?l then _ else _] => destruct (nonempty l) eqn:?; [|incomplete]
  | |- context [if mem_path ?f ?l then _ else _] => destruct (mem_path f l) eqn:?; [|incomplete]
  end.
(** Lookups of names in solver_code. *)
Definition sel (k : string) (r : path) : bool := match r with d :: _ :: _ => String.eqb d k | _ => false end.
Lemma in_put : forall r e c s, lookup (sd ++ r) (t_files (put (sd ++ e) c s)) = if path_eqb r e then Some c else lookup (sd ++ r) (t_files s).
Proof. reflexivity. Qed.
Lemma in_put_root : forall r x c s, lookup (sd ++ r) (t_files (put [x] c s)) = lookup (sd ++ r) (t_files s).
Proof. intros. rewrite lookup_put, path_eqb_neq; auto. intro E. discriminate E. Qed.
Lemma in_add : forall r k l s, lookup (sd ++ r) (t_files (add_all (sd ++ [k]) (sub [k] l) (app [k]) s))
  = if sel k r && mem_path r l then Some (Vendor r) else lookup (sd ++ r) (t_files s).
Proof.
  intros. rewrite lookup_add_all. replace (strip (sd ++ [k]) (sd ++ r)) with (strip [k] r) by reflexivity.
  destruct r as [|d [|x r]]; cbn [strip sel]; auto.
  - destruct (String.eqb d k); auto. now rewrite mem_sub_nil.
  - destruct (String.eqb d k) eqn:E; auto. apply String.eqb_eq in E. subst d. rewrite mem_sub. reflexivity.
Qed.
Lemma in_gen : forall r l s, lookup (sd ++ r) (t_files (add_all sd l (fun f => f) s)) = if mem_path r l then Some (Vendor r) else lookup (sd ++ r) (t_files s).
Proof. intros. rewrite lookup_add_all. replace (strip sd (sd ++ r)) with (Some r) by reflexivity. reflexivity. Qed.
Lemma in_remove : forall r e s, lookup (sd ++ r) (t_files (remove (fun x => path_eqb x (sd ++ e)) s)) = if path_eqb r e then None else lookup (sd ++ r) (t_files s).
Proof. intros. rewrite lookup_remove. reflexivity. Qed.
Lemma in_s0 : forall r l, lookup (sd ++ r) (t_files (putdirs l s0)) = None.
Proof. reflexivity. Qed.
Lemma in_s1 : forall r, lookup (sd ++ r) (t_files s0) = None.
Proof. reflexivity. Qed.
Ltac look := repeat first [rewrite in_put | rewrite in_put_root | rewrite in_add | rewrite in_gen | rewrite in_remove | rewrite in_s0 | rewrite in_s1].
Ltac small := cbn [path_eqb sel String.eqb Ascii.eqb Bool.eqb andb orb].
Ltac known := repeat match goal with E : mem_path _ _ = true |- _ => rewrite E end.
Ltac edit := rewrite step_edit; look; small; known.

Lemma strip_deep : forall d e p, strip d p = None -> strip (d ++ e) p = None.
Proof.
  intros d e p H. destruct (strip (d ++ e) p) as [r|] eqn:E; auto. apply strip_app in E. rewrite <- app_assoc in E.
  exfalso. exact (strip_None _ _ H _ E).
Qed.
Lemma lookup_s0 : forall p, lookup p (t_files s0) = None.
Proof. reflexivity. Qed.
Lemma lookup_putdirs : forall p l s, lookup p (t_files (putdirs l s)) = lookup p (t_files s).
Proof. reflexivity. Qed.

(** Lookups of names outside solver_code. *)
Lemma out_add : forall p e l o s, strip sd p = None -> lookup p (t_files (add_all (sd ++ e) l o s)) = lookup p (t_files s).
Proof. intros p e l o s H. rewrite lookup_add_all. now rewrite strip_deep. Qed.
Lemma out_gen : forall p l o s, strip sd p = None -> lookup p (t_files (add_all sd l o s)) = lookup p (t_files s).
Proof. intros p l o s H. rewrite lookup_add_all. now rewrite H. Qed.
Lemma out_put : forall p e c s, strip sd p = None -> lookup p (t_files (put (sd ++ e) c s)) = lookup p (t_files s).
Proof. intros p e c s H. rewrite lookup_put, path_eqb_neq; auto. intros ->. exact (strip_None _ _ H e eq_refl). Qed.
Lemma out_remove : forall p e s, strip sd p = None -> lookup p (t_files (remove (fun x => path_eqb x (sd ++ e)) s)) = lookup p (t_files s).
Proof. intros p e s H. rewrite lookup_remove, path_eqb_neq; auto. intros ->. exact (strip_None _ _ H e eq_refl). Qed.
Ltac outside H :=
  repeat first [ rewrite lookup_putdirs | rewrite out_add by exact H | rewrite out_gen by exact H | rewrite out_put by exact H
               | rewrite out_remove by exact H | rewrite (lookup_put _ [_]) ].

Ltac names :=
  repeat match goal with
  | |- context [String.eqb ?d ?k] =>
      is_var d;
      destruct (String.eqb d k) eqn:?;
      [match goal with E : String.eqb d k = true |- _ => apply String.eqb_eq in E; subst d end
      |]; small
  end.

Lemma nonempty_true : forall v n d, nonempty (sub [d] (v_repo v n)) = true -> some_below v n d.
Proof.
  intros v n d H. destruct (sub [d] (v_repo v n)) as [|r l] eqn:E; [discriminate|].
  assert (X : In r (sub [d] (v_repo v n))) by (rewrite E; now left). apply sub_In in X. destruct X as (X & N).
  destruct r as [|x p]; [congruence|]. exists x, p. exact X.
Qed.
Lemma mem_true : forall p l, mem_path p l = true -> In p l.
Proof. intros. now apply mem_path_In. Qed.

Ltac inside :=
  let r := fresh "r" in intro r; look; unfold source, from_repo, from_osqp, from_gen, edits; cbn [b_if b_grad b_sdp copied at_path];
  destruct r as [|? [|? [|? ?]]]; small; rewrite ?andb_false_r, ?andb_true_r; cbn [mem_str existsb andb];
  names; rewrite ?andb_false_r, ?andb_true_r; known; try reflexivity;
  repeat match goal with |- context [mem_path ?a ?b] => destruct (mem_path a b) end; try reflexivity.
Ltac finish :=
  left; eexists; split; [reflexivity|]; split;
  [ split; [repeat constructor; hasdir | let p := fresh in let H := fresh in intros p H; outside H; try reflexivity | inside]
  | unfold complete_solver, complete_osqp, in_repo; cbn [b_if];
    rewrite ?Forall_cons_iff; repeat split; auto using nonempty_true, mem_true ].

Definition settled (v : vendor) (c : bcfg) : Prop :=
  (exists s, run v (solver_ops v c) s0 = inr s /\ state_ok v c s /\ complete_solver v c)
  \/ (run v (solver_ops v c) s0 = inl NotFound /\ ~ complete_solver v c).
Lemma start_copies : forall v l, run v (RmDir sd :: Mkdir sd :: l) s0 = run v l (putdirs [sd] s0).
Proof. reflexivity. Qed.
Ltac begin := let i := fresh in let Hi := fresh in intros v [i g e t sp] Hi; cbn in Hi; subst i; unfold settled;
  cbn [solver_ops b_if b_grad b_sdp trees copies map]; cbv [app]; fold (app (A := string)); rewrite ?start_copies.

Lemma step_gen : forall v d l ops s, run v (Codegen d l :: ops) s = run v ops (add_all d l (fun f => f) s).
Proof. reflexivity. Qed.
Lemma step_own : forall v p q l s, has_dir s (parent q) = true -> run v (CopyOwn p q :: l) s =
  match lookup p (t_files s) with Some c => run v l (put q c s) | None => inl NotFound end.
Proof. intros v p q l s H. cbn [run exec]. rewrite H. now destruct (lookup p (t_files s)). Qed.
Lemma step_write : forall v p w l s, has_dir s (parent p) = true -> run v (Write p w :: l) s = run v l (put p (From w) s).
Proof. intros v p w l s H. cbn [run exec]. now rewrite H. Qed.
Lemma step_move : forall v p q l s, has_dir s (parent q) = true -> run v (Move p q :: l) s =
  match lookup p (t_files s) with Some c => run v l (put q c (remove (fun x => path_eqb x p) s)) | None => inl NotFound end.
Proof. intros v p q l s H. cbn [run exec]. rewrite H. now destruct (lookup p (t_files s)). Qed.
(** os.makedirs with exist_ok: the files are the same, and the directory exists. *)
Lemma step_makedirs : forall v p l s, exists ds, run v (Makedirs p true :: l) s = run v l (putdirs ds s)
  /\ has_dir (putdirs ds s) p = true.
Proof.
  intros v p l s. destruct (has_dir s p) eqn:E.
  - exists []. split; [cbn [run exec]; rewrite E; now destruct s|]. rewrite has_dir_putdirs, E. apply orb_true_r.
  - exists (ups p). split; [cbn [run exec]; now rewrite E|]. rewrite has_dir_putdirs. apply orb_true_iff. left.
    apply mem_path_ex. clear E. induction p as [|x p IH]; cbn [ups]; [now left|]. right. now apply in_map.
Qed.
Ltac decide_mem := match goal with |- context [mem_path ?f ?l] => destruct (mem_path f l) eqn:?; [|incomplete] end.

Lemma solver_scs : forall v c, b_if c = ISCS -> settled v c.
Proof. begin. repeat copying. do 2 edit. finish. Qed.
Lemma solver_qoco : forall v c, b_if c = IQOCO -> settled v c.
Proof. begin. repeat copying. finish. Qed.
Lemma solver_ecos : forall v c, b_if c = IECOS -> settled v c.
Proof. begin. repeat copying. edit. decide_mem. finish. Qed.
Lemma solver_clarabel : forall v c, b_if c = ICLARABEL -> settled v c.
Proof. begin. repeat copying. edit. destruct sp; cbn [app]; [edit|]; edit; decide_mem; edit; decide_mem; finish. Qed.
Lemma solver_osqp : forall v c, b_if c = IOSQP -> settled v c.
Proof. begin. unfold osqp_ops. rewrite step_gen. copying. edit. decide_mem. edit. decide_mem. finish. Qed.
Lemma solver_qocogen : forall v c, b_if c = IQOCOGEN -> settled v c.
Proof. begin. rewrite step_gen, step_own by hasdir. look. decide_mem. finish. Qed.
