(** Abstract execution of the emitted update code, its soundness with respect to the
    machine, and the finite sweep over all tables, change patterns, orders and flags. *)

From Coq Require Import String Arith Bool Lia List Permutation.
From Verif Require Import Base Pus Machine PusParse.
Import ListNotations.

(** Where the content of a block comes from, relative to the state before the update. *)
Inductive aval := VSol | VCnd | VCur | VBak | VJunk.

Record ast := mkA { a_sol : pid -> aval; a_cnd : pid -> aval }.

Definition a_read (a : ast) (x : src) (p : pid) : aval :=
  match x with Canon => VCur | Cond => a_cnd a p | Baked => VBak end.

Definition aexec (scribbles : bool) (copied : list pid) (a : ast) (c : action) : ast :=
  match c with
  | ACopyAll => mkA (a_sol a) (fun p => if mem_pid p copied then VCur else a_cnd a p)
  | ACopy q => mkA (a_sol a) (fun p => if pid_eqb p q then VCur else a_cnd a p)
  | AInit x ps | APush x ps =>
    mkA (fun p => if mem_pid p ps then a_read a x p else a_sol a p)
        (match x with Cond => if scribbles then (fun _ => VJunk) else a_cnd a | _ => a_cnd a end)
  end.

Definition a0 : ast := mkA (fun _ => VSol) (fun _ => VCnd).

Definition is_cond (c : action) : bool :=
  match c with AInit Cond _ | APush Cond _ => true | _ => false end.

Section Sound.
  Variable D : Type.
  Variable size : pid -> nat.
  Variable copied : list pid.
  Variable baked : pid -> D.
  Variable scr : nat -> pid -> D -> D.

  Definition gval (s0 : mst D) (v : aval) (p : pid) (d : D) : Prop :=
    match v with
    | VSol => d = m_sol s0 p
    | VCnd => d = view_cnd s0 p
    | VCur => d = m_can s0 p
    | VBak => d = baked p
    | VJunk => True
    end.

  Record gamma (s0 : mst D) (a : ast) (s : mst D) : Prop :=
    { g_can : forall p, m_can s p = m_can s0 p;
      g_sol : forall p, gval s0 (a_sol a p) p (m_sol s p);
      g_cnd : forall p, gval s0 (a_cnd a p) p (view_cnd s p);
      g_sz0 : forall p, size p = 0 -> view_cnd s p = m_can s p }.

  (** [scribbles = true]: the library may overwrite its arrays, no block has one entry.
      [scribbles = false]: either the library leaves them alone or gets none of them. *)
  Definition no_alias (s : mst D) : Prop := forall p, m_alias s p = false.
  Definition scr_ok (scribbles : bool) (acts : list action) : Prop :=
    (forall p, In (ACopy p) acts -> In p copied) /\
    if scribbles then forall p, In p copied -> size p <> 1
    else (forall n p d, scr n p d = d) \/ existsb is_cond acts = false.

  Definition alias_ok (scribbles : bool) (s : mst D) : Prop :=
    if scribbles then no_alias s else forall p, m_alias s p = true -> size p = 1.

  Lemma copy_one_can : forall (s : mst D) p q, m_can (copy_one size s p) q = m_can s q.
  Proof.
    intros. unfold copy_one. destruct (size p) as [|[|]]; auto. destruct (m_alias s p); auto.
  Qed.

  Lemma copy_one_sol : forall (s : mst D) p q, m_sol (copy_one size s p) q = m_sol s q.
  Proof.
    intros. unfold copy_one. destruct (size p) as [|[|]]; auto. destruct (m_alias s p); auto.
  Qed.

  Lemma copy_one_alias_ok : forall sb s p,
      In p copied -> scr_ok sb [] -> alias_ok sb s -> alias_ok sb (copy_one size s p).
  Proof.
    intros sb s p Hp [_ Hs] Ha. unfold copy_one.
    destruct (size p) as [|[|n]] eqn:E; auto.
    - destruct sb; simpl in *.
      + exfalso. apply (Hs p Hp). exact E.
      + intros q H. simpl in H. unfold pset in H. destruct (pid_eqb q p) eqn:Eq.
        * apply pid_eqb_spec in Eq. subst. exact E.
        * auto.
    - destruct (m_alias s p) eqn:Eal; auto.
  Qed.

  Lemma copy_one_view : forall sb (s : mst D) p q,
      alias_ok sb s -> (forall r, size r = 0 -> view_cnd s r = m_can s r) ->
      view_cnd (copy_one size s p) q = if pid_eqb q p then m_can s p else view_cnd s q.
  Proof.
    intros sb s p q Ha Hz. unfold copy_one, view_cnd.
    destruct (size p) as [|[|n]] eqn:E; simpl.
    - destruct (pid_eqb q p) eqn:Eq; auto. apply pid_eqb_spec in Eq. subst.
      apply Hz in E. exact E.
    - unfold pset. destruct (pid_eqb q p) eqn:Eq; auto.
      apply pid_eqb_spec in Eq. subst. auto.
    - destruct (m_alias s p) eqn:Eal; simpl.
      + exfalso. destruct sb; simpl in Ha.
        * rewrite Ha in Eal. discriminate.
        * apply Ha in Eal. lia.
      + unfold pset. destruct (pid_eqb q p) eqn:Eq; auto.
        apply pid_eqb_spec in Eq. subst. rewrite Eal. auto.
  Qed.

  Lemma copy_one_gamma : forall sb s0 a s p,
      alias_ok sb s -> gamma s0 a s ->
      gamma s0 (mkA (a_sol a) (fun q => if pid_eqb q p then VCur else a_cnd a q)) (copy_one size s p).
  Proof.
    intros sb s0 a s p Ha [G1 G2 G3 G4]. constructor.
    - intro q. rewrite copy_one_can. auto.
    - intro q. rewrite copy_one_sol. simpl. auto.
    - intro q. rewrite (copy_one_view sb) by auto. simpl.
      destruct (pid_eqb q p) eqn:E; auto. apply pid_eqb_spec in E. subst. simpl. auto.
    - intros q Hq. rewrite (copy_one_view sb), copy_one_can by auto.
      destruct (pid_eqb q p) eqn:E; auto. apply pid_eqb_spec in E. subst. auto.
  Qed.

  Lemma copy_list_gamma : forall sb s0 ps a s,
      (forall p, In p ps -> In p copied) ->
      scr_ok sb [] -> alias_ok sb s -> gamma s0 a s ->
      gamma s0 (mkA (a_sol a) (fun q => if mem_pid q ps then VCur else a_cnd a q))
            (fold_left (copy_one size) ps s)
      /\ alias_ok sb (fold_left (copy_one size) ps s).
  Proof.
    induction ps as [|p ps IH]; intros a s Hin Hs Ha G.
    - simpl. split; auto. destruct G as [G1 G2 G3 G4]. constructor; auto.
    - simpl. destruct (IH (mkA (a_sol a) (fun q => if pid_eqb q p then VCur else a_cnd a q))
                          (copy_one size s p)) as [IH1 IH2]; auto.
      + intros; apply Hin; simpl; auto.
      + apply copy_one_alias_ok; auto. apply Hin; simpl; auto.
      + apply copy_one_gamma with sb; auto.
      + split; auto. destruct IH1 as [G1 G2 G3 G4]. constructor; auto.
        intro q. specialize (G3 q). simpl in *. unfold mem_pid in *.
        destruct (existsb (pid_eqb q) ps) eqn:E.
        * rewrite orb_true_r. exact G3.
        * rewrite orb_false_r. exact G3.
  Qed.

  Lemma gval_read : forall s0 a s x p, gamma s0 a s ->
      gval s0 (a_read a x p) p (read baked s x p).
  Proof. intros s0 a s x p [G1 G2 G3 G4]. destruct x; simpl; auto. Qed.

  Lemma aexec_sound : forall sb s0 a s c,
      scr_ok sb [c] -> alias_ok sb s -> gamma s0 a s ->
      gamma s0 (aexec sb copied a c) (exec size copied baked scr s c)
      /\ alias_ok sb (exec size copied baked scr s c).
  Proof.
    intros sb s0 a s c Hs Ha G.
    assert (Hs' : scr_ok sb []).
    { destruct Hs as [_ Hs]. destruct sb; simpl in *; unfold scr_ok; simpl; tauto. }
    destruct Hs as [Hcp Hs].
    assert (HT : forall x ps, (c = AInit x ps \/ c = APush x ps) ->
        gamma s0 (mkA (fun p => if mem_pid p ps then a_read a x p else a_sol a p)
          (match x with Cond => if sb then (fun _ => VJunk) else a_cnd a | _ => a_cnd a end))
          (transfer size baked scr s x ps) /\ alias_ok sb (transfer size baked scr s x ps)).
    { intros x ps Hc.
      assert (Hsol : forall p, gval s0 (if mem_pid p ps then a_read a x p else a_sol a p) p
                         (if mem_pid p ps then read baked s x p else m_sol s p)).
      { intro p. destruct (mem_pid p ps). apply gval_read; auto. apply (g_sol _ _ _ G). }
      destruct G as [G1 G2 G3 G4].
      unfold transfer. destruct x.
      - split; [constructor; simpl; auto|]. destruct sb; auto.
      - destruct sb; simpl in Hs, Ha.
        + (* library scribbles, nothing aliased *)
          split; [constructor|]; simpl.
          * intro p. rewrite Ha. auto.
          * exact Hsol.
          * auto.
          * intros p Hp. unfold view_cnd, scribble. simpl. rewrite Ha, Hp.
            specialize (G4 p Hp). unfold view_cnd in G4. rewrite Ha in G4. exact G4.
          * intro p. simpl. apply Ha.
        + (* library leaves the arrays alone *)
          destruct Hs as [Hid | Hn].
          2: { exfalso. destruct Hc; subst; simpl in Hn; discriminate. }
          split; [constructor|]; simpl.
          * intro p. destruct (m_alias s p); rewrite ?Hid; auto.
          * exact Hsol.
          * intro p. specialize (G3 p). unfold view_cnd in *. simpl.
            destruct (m_alias s p); rewrite ?Hid; auto.
            destruct (size p); rewrite ?Hid; auto.
          * intros p Hp. specialize (G4 p Hp). unfold view_cnd in *. simpl.
            destruct (m_alias s p); rewrite ?Hid; auto.
            rewrite Hp. auto.
          * intros p. simpl. auto.
      - split; [constructor; simpl; auto|]. destruct sb; auto. }
    destruct c as [|q|x ps|x ps]; simpl.
    - apply copy_list_gamma; auto.
    - split; [apply copy_one_gamma with sb; auto | apply copy_one_alias_ok; auto].
      apply Hcp. simpl. auto.
    - apply HT; auto.
    - apply HT; auto.
  Qed.

  Lemma aexec_all_sound : forall sb s0 acts a s,
      scr_ok sb acts -> alias_ok sb s -> gamma s0 a s ->
      gamma s0 (fold_left (aexec sb copied) acts a) (exec_all size copied baked scr s acts)
      /\ alias_ok sb (exec_all size copied baked scr s acts).
  Proof.
    induction acts as [|c acts IH]; intros a s Hs Ha G; simpl; auto.
    assert (H1 : scr_ok sb [c] /\ scr_ok sb acts).
    { destruct Hs as [Hcp Hs].
      assert (Hc1 : forall p, In (ACopy p) [c] -> In p copied).
      { intros p [Hp|[]]. apply Hcp. simpl. auto. }
      assert (Hc2 : forall p, In (ACopy p) acts -> In p copied).
      { intros p Hp. apply Hcp. simpl. auto. }
      unfold scr_ok.
      destruct sb; simpl in *; auto. destruct Hs as [H|H]; auto.
      apply orb_false_elim in H. destruct H as [Ha1 Ha2]. rewrite Ha1. simpl. auto. }
    destruct (aexec_sound sb s0 a s c (proj1 H1) Ha G) as [G' A'].
    apply IH; tauto.
  Qed.

  Lemma gamma0 : forall s, (forall p, size p = 0 -> view_cnd s p = m_can s p) -> gamma s a0 s.
  Proof. intros. constructor; simpl; auto. Qed.
End Sound.

(** ** The finite sweep *)

Definition chg_of (pids S : list pid) : changes :=
  fun p => if mem_pid p pids then Some (mem_pid p S) else None.

(** Which solvers get conditioning arrays that persist between solves and are assumed
    unmodified. *)
Definition keeps (s : solver) : bool := match s with CLARABEL _ => true | _ => false end.
Definition scribbles (s : solver) : bool := match s with ECOS => true | _ => false end.

Definition sol_ok (keep ini : bool) (S F : list pid) (a : ast) (p : pid) : bool :=
  let out := mem_pid p S && mem_pid p F in
  match a_sol a p with
  | VCur => true
  | VSol => negb out && ini && negb keep
  | VCnd => negb out && ini && keep
  | VBak => negb (mem_pid p S)
  | VJunk => false
  end.

Definition cnd_ok (keep ini : bool) (S F : list pid) (a : ast) (p : pid) : bool :=
  let out := mem_pid p S && mem_pid p F in
  negb keep ||
  match a_cnd a p with
  | VCur => true
  | VCnd => negb out && ini
  | _ => false
  end.

Definition subset_pid (S F : list pid) : bool := forallb (fun p => mem_pid p F) S.

Definition copy_in (ps : list pid) (a : action) : bool :=
  match a with ACopy p => mem_pid p ps | _ => true end.

Definition check_run (s : solver) (S F : list pid) (ini : bool) (b : ublock) : bool :=
  let S' := filter (fun p => negb (pid_eqb p pd)) S in
  let '(acts, ini') := run b (fun p => mem_pid p F) ini in
  let acts := acts ++ solver_solve_acts s in
  let a := fold_left (aexec (scribbles s) (owned s)) acts a0 in
  ((negb ini && (solver_init0 s || negb (subset_pid S' F)))
  || (forallb (fun p => sol_ok (keeps s) ini S F a p && cnd_ok (keeps s) ini S F a p) (owned s)
      && (ini' || existsb sets_init (solver_solve_acts s))
      && (scribbles s || keeps s || negb (existsb is_cond acts))))
  && forallb (copy_in (owned s)) acts.

Definition check_gen (s : solver) (S : list pid) (order : list string) : bool :=
  match gen_update (solver_pus s) (solver_quad s) (chg_of (solver_pids s) S) order with
  | Err _ => false
  | Ok (t', toks) =>
    match parse_all toks with
    | None => false
    | Some b =>
      forallb (fun p => mem_pid p (owned s)) (block_atoms b)
      && forallb (fun F => check_run s S F true b && check_run s S F false b) (subsets (owned s))
    end
  end.

(** Orders with 'init' in front; [write_update] moves it there anyway. *)
Definition orders (top : list string) : list (list string) :=
  if mem_str "init" top then map (cons "init"%string) (perms (remove_first String.eqb "init"%string top))
  else perms top.

Definition check_solver (s : solver) : bool :=
  forallb (fun S =>
    match analyze_pus (solver_pus s) (chg_of (solver_pids s) S) with
    | Err _ => false
    | Ok (top, _) => forallb (check_gen s S) (orders top)
    end) (subsets (solver_pids s)).

Lemma check_all : forall s, check_solver s = true.
Proof.
  intros [|[]| |[]|[]|[]]; vm_compute; reflexivity.
Qed.

