(** Lemmas for the identifier properties. *)

From Coq Require Import String Ascii List Bool Arith Lia.
From Verif Require Import Base Config Symbols.
Import ListNotations.
Open Scope string_scope.
Open Scope list_scope.

(** ** Strings *)

(** The rest of [s] after the leading string [h]. *)
Fixpoint strip (h s : string) : option string :=
  match h, s with
  | EmptyString, _ => Some s
  | String a h', String b s' => if Ascii.eqb a b then strip h' s' else None
  | String _ _, EmptyString => None
  end.
Definition starts (h s : string) : bool := match strip h s with Some _ => true | None => false end.

Lemma strip_app : forall h s, strip h (h ++ s)%string = Some s.
Proof. induction h as [|a h IH]; intro s; [reflexivity|]. cbn [append strip]. rewrite Ascii.eqb_refl. apply IH. Qed.
Lemma strip_Some : forall h s r, strip h s = Some r -> s = (h ++ r)%string.
Proof.
  induction h as [|a h IH]; intros s r H; [injection H as <-; reflexivity|].
  destruct s as [|b s]; cbn [strip] in H; [discriminate|].
  destruct (Ascii.eqb a b) eqn:E; [|discriminate].
  apply Ascii.eqb_eq in E; subst b. cbn [append]. f_equal. auto.
Qed.
Lemma starts_app : forall h s, starts h (h ++ s)%string = true.
Proof. intros; unfold starts; rewrite strip_app; reflexivity. Qed.
Lemma append_inj_l : forall p a b, (p ++ a)%string = (p ++ b)%string -> a = b.
Proof. induction p; intros a' b' H; cbn [append] in H; [auto|]. injection H as H; auto. Qed.
Lemma append_assoc : forall a b c, ((a ++ b) ++ c)%string = (a ++ (b ++ c))%string.
Proof. induction a as [|x a IH]; intros; cbn [append]; [auto|]. f_equal; auto. Qed.
Lemma append_length : forall a b, String.length (a ++ b) = String.length a + String.length b.
Proof. induction a as [|x a IH]; intros; cbn [append String.length]; [auto|]. rewrite IH; lia. Qed.
Lemma append_nil_r : forall a, (a ++ "")%string = a.
Proof. induction a as [|x a IH]; cbn [append]; congruence. Qed.

(** [f] occurs in [u]. *)
Fixpoint occurs (f u : string) : bool :=
  starts f u || match u with EmptyString => false | String _ t => occurs f t end.
Lemma occurs_app : forall p f b, occurs f (p ++ f ++ b)%string = true.
Proof.
  induction p as [|a p IH]; intros f b.
  - cbn [append]. destruct (f ++ b)%string eqn:E; cbn [occurs]; rewrite <- E, starts_app; reflexivity.
  - cbn [append occurs]. rewrite IH. apply orb_true_r.
Qed.
(** [f] is a suffix of [u]. *)
Fixpoint is_suffix (f u : string) : bool :=
  String.eqb f u || match u with EmptyString => false | String _ t => is_suffix f t end.
Lemma is_suffix_app : forall p f, is_suffix f (p ++ f)%string = true.
Proof.
  induction p as [|a p IH]; intro f.
  - cbn [append]. destruct f; cbn [is_suffix]; rewrite String.eqb_refl; reflexivity.
  - cbn [append is_suffix]. rewrite IH. apply orb_true_r.
Qed.

(** ** Lists *)

Inductive subseq {A} : list A -> list A -> Prop :=
| ss_nil : forall l, subseq [] l
| ss_take : forall x l l', subseq l l' -> subseq (x :: l) (x :: l')
| ss_skip : forall x l l', subseq l l' -> subseq l (x :: l').
#[export] Hint Constructors subseq : core.

Lemma subseq_refl : forall A (l : list A), subseq l l.
Proof. induction l; auto. Qed.
Lemma subseq_app : forall A (a b c d : list A), subseq a b -> subseq c d -> subseq (a ++ c) (b ++ d).
Proof.
  intros A a b c d H; revert c d; induction H; intros c d Hc; cbn [app]; auto.
  induction l; cbn [app]; auto.
Qed.
Lemma subseq_trans : forall A (b c : list A), subseq b c -> forall a, subseq a b -> subseq a c.
Proof.
  induction 1; intros a Ha.
  - inversion Ha; auto.
  - inversion Ha; subst; auto.
  - auto.
Qed.
Lemma subseq_incl : forall A (a b : list A), subseq a b -> forall x, In x a -> In x b.
Proof.
  induction 1 as [l|x0 l l' H IH|x0 l l' H IH]; intros x Hx.
  - destruct Hx.
  - destruct Hx as [<-|Hx]; [left; reflexivity|right; auto].
  - right; auto.
Qed.
Lemma subseq_NoDup : forall A (a b : list A), subseq a b -> NoDup b -> NoDup a.
Proof.
  induction 1; intro N; [constructor| |]; inversion N; subst; auto.
  constructor; auto. intro Hx. apply H2. eapply subseq_incl; eauto.
Qed.
Lemma subseq_filter : forall A (f : A -> bool) l, subseq (filter f l) l.
Proof. induction l as [|x l IH]; cbn [filter]; [auto|destruct (f x); auto]. Qed.
Lemma subseq_map : forall A B (f : A -> B) a b, subseq a b -> subseq (map f a) (map f b).
Proof. induction 1; cbn [map]; auto. Qed.
Lemma subseq_when : forall b l, subseq (when b l) l.
Proof. intros [] l; cbn [when]; [apply subseq_refl|auto]. Qed.
Lemma subseq_opt : forall b s, subseq (opt b s) [s].
Proof. intros [] s; cbn [opt]; auto. Qed.
Lemma subseq_when2 : forall b l m, subseq l m -> subseq (when b l) m.
Proof. intros [] l m H; cbn [when]; auto. Qed.
Lemma subseq_flat_map : forall A B (f : A -> list B) (g : A -> list B) l,
  (forall x, subseq (f x) (g x)) -> subseq (flat_map f l) (flat_map g l).
Proof. intros A B f g l H; induction l; cbn [flat_map]; auto. apply subseq_app; auto. Qed.
Lemma subseq_flat_map_l : forall A B (g : A -> list B) a b,
  subseq a b -> subseq (flat_map g a) (flat_map g b).
Proof.
  induction 1; cbn [flat_map]; auto.
  - apply subseq_app; [apply subseq_refl|auto].
  - change (flat_map g l) with ([] ++ flat_map g l)%list. apply subseq_app; auto.
Qed.
Lemma flat_map_map : forall A B C (f : A -> B) (g : B -> list C) l,
  flat_map g (map f l) = flat_map (fun x => g (f x)) l.
Proof. induction l; cbn [map flat_map]; congruence. Qed.

Lemma NoDup_app : forall A (a b : list A),
  NoDup a -> NoDup b -> (forall x, In x a -> In x b -> False) -> NoDup (a ++ b).
Proof.
  induction a as [|x a IH]; intros b Ha Hb H; cbn [app]; auto.
  inversion Ha; subst. constructor.
  - intro Hx. apply in_app_or in Hx. destruct Hx as [Hx|Hx]; [auto|]. apply (H x); [left; auto|auto].
  - apply IH; auto. intros z Hz1 Hz2. apply (H z); [right; auto|auto].
Qed.
Lemma NoDup_map_inj : forall A B (f : A -> B) l,
  (forall x y, f x = f y -> x = y) -> NoDup l -> NoDup (map f l).
Proof.
  intros A B f l Hf H; induction H; cbn [map]; constructor; auto.
  intro Hx. apply in_map_iff in Hx. destruct Hx as [z [Hz1 Hz2]]. apply Hf in Hz1; subst; auto.
Qed.
Fixpoint nodupb (l : list string) : bool :=
  match l with [] => true | x :: t => negb (mem_str x t) && nodupb t end.
Lemma nodupb_NoDup : forall l, nodupb l = true -> NoDup l.
Proof.
  induction l as [|x l IH]; intro H; [constructor|]. cbn [nodupb] in H.
  apply andb_true_iff in H. destruct H as [H1 H2]. constructor; auto.
  intro Hx. apply mem_str_In in Hx. rewrite Hx in H1. discriminate.
Qed.

(** ** The fixed names with every option switched on *)

(** canon_p_ids of the interfaces: _interface.py 27, clarabel.py 24, ecos.py 21, qoco.py 22
    and 196, scs.py 22. *)
Definition pids (i : iface) : list string :=
  match i with
  | IOSQP | IPDAQP => ["P"; "q"; "d"; "A"; "l"; "u"]
  | ICLARABEL => ["P"; "q"; "d"; "A"; "b"]
  | ISCS => ["P"; "c"; "d"; "A"; "b"]
  | IECOS => ["c"; "d"; "A"; "b"; "G"; "h"]
  | IQOCO | IQOCOGEN => ["P"; "c"; "d"; "A"; "b"; "G"; "h"]
  end.

Definition full (n : string) : block := mkBlock n true false.
Definition all_workspace (i : iface) : list string :=
  ["cpg_params_vec"] ++ ["cpg_params_vec_lower"; "cpg_params_vec_upper"]
  ++ flat_map (fun n => map_names (full n)) (pids i)
  ++ flat_map (fun n => canon_names true (full n)) (pids i)
  ++ ["cpg_theta"] ++ ["Canon_Params"] ++ ["Canon_Params_conditioning"] ++ ["Canon_Outdated"]
  ++ ["Canon_Outdated_Grad"] ++ ["CPG_Prim"] ++ ["CPG_Dual"] ++ ["CPG_Info"] ++ ["CPG_Result"]
  ++ (if extra_stgs i then ["Canon_Settings"] else [])
  ++ solver_names i true true ++ ["cpg_dp"; "CPG_Delta"].
Definition all_solve (i : iface) : list string :=
  flat_map (fun n => [("cpg_canonicalize_" ++ n)%string]) (pids i)
  ++ ["cpg_retrieve_prim"] ++ ["cpg_retrieve_dual"] ++ ["cpg_retrieve_info"]
  ++ (flat_map (fun n => [("cpg_copy_" ++ n)%string]) (pids i) ++ ["cpg_copy_all"])
  ++ ["cpg_solve"] ++ ["cpg_obj"] ++ ["cpg_set_solver_default_settings"].
Definition all_fixed (i : iface) : list string :=
  (all_workspace i ++ all_solve i ++ (grad_arrays ++ ["cpg_gradient"])) ++ ["scs_P"; "scs_A"].

Lemma map_names_sub : forall b, subseq (map_names b) (map_names (full (b_id b))).
Proof. intros [n [] e]; cbn [map_names b_changes when b_id full]; [apply subseq_refl|auto]. Qed.
Lemma canon_names_sub : forall inm b, subseq (canon_names inm b) (canon_names true (full (b_id b))).
Proof.
  intros inm [n c e]; unfold canon_names; cbn [b_id full].
  destruct (String.eqb n "d"); [auto|].
  apply subseq_app; [|apply subseq_when2]; unfold param_names; cbn [b_id b_empty full];
    destruct e; auto; apply subseq_refl.
Qed.

Section sub.
  Variable y : syms.
  Hypothesis Hb : subseq (map b_id (y_blocks y)) (pids (y_if y)).

  Lemma blocks_sub : forall (f : block -> list string) (g : string -> list string),
    (forall b, subseq (f b) (g (b_id b))) -> subseq (flat_map f (y_blocks y)) (flat_map g (pids (y_if y))).
  Proof.
    intros f g H. eapply subseq_trans; [apply subseq_flat_map_l, Hb|]. rewrite flat_map_map.
    apply subseq_flat_map. auto.
  Qed.
  Lemma kept_sub : forall (f : block -> list string) (g : string -> list string) h,
    (forall b, subseq (f b) (g (b_id b))) ->
    subseq (flat_map f (filter h (y_blocks y))) (flat_map g (pids (y_if y))).
  Proof.
    intros f g h H. eapply subseq_trans; [apply blocks_sub, H|].
    apply subseq_flat_map_l, subseq_filter.
  Qed.

  Lemma solver_names_sub : forall i a b, subseq (solver_names i a b) (solver_names i true true).
  Proof. intros [] [] []; cbn [solver_names opt app]; auto 25. Qed.

  Lemma workspace_sub : subseq (workspace_fixed y) (all_workspace (y_if y)).
  Proof.
    unfold workspace_fixed, all_workspace.
    repeat apply subseq_app; try apply subseq_when; try apply subseq_opt; try apply subseq_refl; auto.
    - apply blocks_sub. intro; apply map_names_sub.
    - apply kept_sub. intro; apply canon_names_sub.
    - unfold opt. destruct (extra_stgs (y_if y)); rewrite ?andb_false_r; [|auto].
      destruct (negb (explicit y)); cbn [andb]; auto.
    - apply subseq_when2, solver_names_sub.
  Qed.
  Lemma solve_sub : subseq (solve_fixed y) (all_solve (y_if y)).
  Proof.
    unfold solve_fixed, all_solve.
    repeat apply subseq_app; try apply subseq_when; try apply subseq_opt; try apply subseq_refl; auto.
    - apply blocks_sub. intro; apply subseq_opt.
    - apply subseq_when2, subseq_app; [|apply subseq_refl]. apply blocks_sub. intro; apply subseq_opt.
  Qed.
  Lemma gradient_sub : subseq (gradient_fixed y) (grad_arrays ++ ["cpg_gradient"]).
  Proof.
    unfold gradient_fixed. apply subseq_when2, subseq_app; [apply subseq_when|apply subseq_refl].
  Qed.
  Definition scs_phantoms : list string :=
    when (iface_eqb (y_if y) ISCS) (opt (has_block "P" (y_blocks y)) "scs_P" ++ ["scs_A"]).
  Definition fixed : list string := workspace_fixed y ++ solve_fixed y ++ gradient_fixed y.
  Lemma fixed_sub : subseq (fixed ++ scs_phantoms) (all_fixed (y_if y)).
  Proof.
    unfold fixed, all_fixed, scs_phantoms. apply subseq_app.
    - apply subseq_app; [apply workspace_sub|]. apply subseq_app; [apply solve_sub|apply gradient_sub].
    - apply subseq_when2. destruct (has_block "P" (y_blocks y)); cbn [opt app]; auto.
  Qed.
End sub.

Lemma all_fixed_NoDup : forall i, NoDup (all_fixed i).
Proof. intro i. apply nodupb_NoDup. destruct i; vm_compute; reflexivity. Qed.
