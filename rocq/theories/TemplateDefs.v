(** The functions cpg_solver.py defines. *)

From Coq Require Import String Ascii Arith Bool List Lia.
From Verif Require Import Base Config Template TemplateText TemplateSpec TemplateCheck TemplateCtx TemplateKinds TemplateProofs TemplateAll.
Import ListNotations.
Open Scope string_scope.
Open Scope list_scope.

(** ** Specification: lines that begin with "def " and the name after it, up to a parenthesis. *)

Fixpoint lines (t : string) : list string :=
  match t with
  | EmptyString => [""%string]
  | String c r =>
    if Ascii.eqb c nl then ""%string :: lines r
    else match lines r with l :: ls => String c l :: ls | [] => [String c ""] end
  end.
Fixpoint until_paren (t : string) : string :=
  match t with
  | EmptyString => ""
  | String c r => if Ascii.eqb c "(" then ""%string else String c (until_paren r)
  end.
Definition def_of (l : string) : list string :=
  match l with
  | String "d" (String "e" (String "f" (String " " r))) => [until_paren r]
  | _ => []
  end.
Definition defs (t : string) : list string := flat_map def_of (lines t).

(** ** Scan *)

Inductive dmode := D0 | D1 | D2 | D3 | DName (b : string) | DOther.
Record dst := mkD { d_mode : dmode; d_found : list string }.
Definition add (b : string) (c : ascii) : string := (b ++ String c "")%string.
Definition dstep (s : dst) (c : ascii) : dst :=
  let f := d_found s in
  if Ascii.eqb c nl then match d_mode s with DName b => mkD D0 (f ++ [b]) | _ => mkD D0 f end
  else match d_mode s with
       | D0 => mkD (if Ascii.eqb c "d" then D1 else DOther) f
       | D1 => mkD (if Ascii.eqb c "e" then D2 else DOther) f
       | D2 => mkD (if Ascii.eqb c "f" then D3 else DOther) f
       | D3 => mkD (if Ascii.eqb c " " then DName "" else DOther) f
       | DName b => if Ascii.eqb c "(" then mkD DOther (f ++ [b]) else mkD (DName (add b c)) f
       | DOther => s
       end.
Fixpoint drun (t : string) (s : dst) : dst := match t with EmptyString => s | String c r => drun r (dstep s c) end.
Definition dscan (t : string) (s : dst) : option dst := Some (drun t s).
Definition finish (s : dst) : list string := d_found s ++ match d_mode s with DName b => [b] | _ => [] end.

Definition contrib (m : dmode) (l : string) : list string :=
  match m with
  | D0 => def_of l
  | D1 => def_of (String "d" l)
  | D2 => def_of (String "d" (String "e" l))
  | D3 => def_of (String "d" (String "e" (String "f" l)))
  | DName b => [(b ++ until_paren l)%string]
  | DOther => []
  end.
Lemma lines_cons : forall t, exists l ls, lines t = l :: ls.
Proof. destruct t as [|c t]; cbn [lines]; [eauto|]. destruct (Ascii.eqb c nl); [eauto|]. destruct (lines t); eauto. Qed.
Lemma app_assoc_s : forall a b c, ((a ++ b) ++ c)%string = (a ++ b ++ c)%string.
Proof. induction a as [|x a IH]; intros b c; cbn; [reflexivity|now rewrite IH]. Qed.
Lemma app_nil_s : forall a, (a ++ "")%string = a.
Proof. induction a as [|x a IH]; cbn; [reflexivity|now rewrite IH]. Qed.
Lemma def_other : forall k c l, (k < 4)%nat -> c <> nth k ["d"; "e"; "f"; " "]%char c ->
  def_of (fold_right String (String c l) (firstn k ["d"; "e"; "f"; " "]%char)) = [].
Proof.
  intros k c l K N. do 4 (destruct k as [|k]; [cbn [nth] in N; cbn [firstn fold_right];
    destruct c as [[][][][][][][][]]; try reflexivity; exfalso; now apply N|]). lia.
Qed.
Lemma contrib_step : forall m c l f, Ascii.eqb c nl = false ->
  f ++ contrib m (String c l) = d_found (dstep (mkD m f) c) ++ contrib (d_mode (dstep (mkD m f) c)) l.
Proof.
  intros m c l f N. unfold dstep. rewrite N. cbn [d_mode d_found]. destruct m; cbn [d_mode d_found].
  - destruct (Ascii.eqb c "d") eqn:E; [apply Ascii.eqb_eq in E; subst; reflexivity|]. apply Ascii.eqb_neq in E.
    cbn [contrib]. f_equal. apply (def_other 0); [lia|exact E].
  - destruct (Ascii.eqb c "e") eqn:E; [apply Ascii.eqb_eq in E; subst; reflexivity|]. apply Ascii.eqb_neq in E.
    cbn [contrib]. f_equal. apply (def_other 1); [lia|exact E].
  - destruct (Ascii.eqb c "f") eqn:E; [apply Ascii.eqb_eq in E; subst; reflexivity|]. apply Ascii.eqb_neq in E.
    cbn [contrib]. f_equal. apply (def_other 2); [lia|exact E].
  - destruct (Ascii.eqb c " ") eqn:E; [apply Ascii.eqb_eq in E; subst; reflexivity|]. apply Ascii.eqb_neq in E.
    cbn [contrib]. f_equal. apply (def_other 3); [lia|exact E].
  - cbn [contrib until_paren]. destruct (Ascii.eqb c "("); cbn [d_found d_mode contrib].
    + now rewrite app_nil_s, app_nil_r.
    + unfold add. now rewrite app_assoc_s.
  - reflexivity.
Qed.
Lemma contrib_end : forall m f, d_found (mkD m f) ++ contrib m "" = finish (mkD m f).
Proof. intros [| | | |b|] f; unfold finish; cbn; try reflexivity. now rewrite app_nil_s. Qed.
Lemma drun_lines : forall t m f, finish (drun t (mkD m f)) =
  match lines t with l :: ls => f ++ contrib m l ++ flat_map def_of ls | [] => [] end.
Proof.
  induction t as [|c t IH]; intros m f; cbn [drun lines].
  - cbn [flat_map]. rewrite app_nil_r. symmetry. apply contrib_end.
  - destruct (lines_cons t) as [l [ls E]]. destruct (Ascii.eqb c nl) eqn:N.
    + rewrite E. assert (X : dstep (mkD m f) c = mkD D0 (finish (mkD m f))).
      { unfold dstep, finish. rewrite N. cbn [d_mode d_found]. destruct m; cbn; now rewrite ?app_nil_r. }
      rewrite X, IH, E. rewrite <- contrib_end. cbn [d_found contrib flat_map]. now rewrite !app_assoc.
    + rewrite E. pose proof (contrib_step m c l f N) as S. destruct (dstep (mkD m f) c) as [m' f'] eqn:D. cbn [d_found d_mode] in S.
      rewrite IH, E, !app_assoc. now rewrite <- S.
Qed.
Theorem drun_defs : forall t, finish (drun t (mkD D0 [])) = defs t.
Proof. intros t. rewrite drun_lines. unfold defs. destruct (lines_cons t) as [l [ls E]]. now rewrite E. Qed.

(** ** Instance *)

Definition dplain (t : string) : bool := forallb (fun c => negb (Ascii.eqb c nl)) (list_ascii_of_string t).
Definition dcls (n : nat) (s : dst) : bool := match d_mode s with DOther => true | _ => false end.
Definition dst_dec : forall a b : dst, {a = b} + {a <> b}.
Proof. decide equality; [apply (list_eq_dec string_dec)|]. decide equality. apply string_dec. Defined.
Definition dchk := chk dst dscan dcls (fun _ s => s) dplain dst_dec false.
Notation DP := (plain_in dst dscan dcls (fun _ s => s)).
Lemma drun_app : forall a b s, drun (a ++ b)%string s = drun b (drun a s).
Proof. induction a as [|c a IH]; intros b s; [reflexivity|]. apply IH. Qed.
Lemma d_plain : forall n t, dplain t = true -> DP n t.
Proof.
  intros n t H [m f] C. unfold dcls in C. cbn in C. destruct m; try discriminate. unfold dscan. f_equal.
  revert H. induction t as [|c t IH]; intros H; [reflexivity|]. unfold dplain in H. cbn in H. apply andb_true_iff in H. destruct H as [H1 H2].
  apply negb_true_iff in H1. cbn [drun]. unfold dstep. rewrite H1. cbn [d_mode]. now apply IH.
Qed.
Lemma dplain_app : forall a b, dplain a = true -> dplain b = true -> dplain (a ++ b)%string = true.
Proof.
  intros a b H1 H2. unfold dplain in *. induction a as [|c a IH]; [exact H2|]. cbn in *. apply andb_true_iff in H1. destruct H1 as [H1 H3].
  now rewrite H1, IH.
Qed.
Lemma dplain_joined : forall l, (forall t, In t l -> dplain t = true) -> dplain (joined l) = true.
Proof.
  induction l as [|t [|u l] IH]; intros H; [reflexivity|apply H; now left|].
  change (joined (t :: u :: l)) with (t ++ ", " ++ joined (u :: l))%string. apply dplain_app; [apply H; now left|].
  apply dplain_app; [reflexivity|]. apply IH. intros x I1. apply H. now right.
Qed.
Lemma dplain_dec : forall n, dplain (dec n) = true.
Proof. intros n. now apply dec_chars. Qed.
Lemma dplain_shape : forall s, dplain (pystr (shape_val s)) = true.
Proof.
  intros [l|]; [|reflexivity]. destruct l as [|a [|b l]]; [reflexivity|..].
  - change (dplain ("(" ++ dec a ++ ",)") = true). apply dplain_app; [reflexivity|]. apply dplain_app; [apply dplain_dec|reflexivity].
  - cbn [shape_val map pystr]. apply dplain_app; [reflexivity|]. apply dplain_app; [|reflexivity]. apply dplain_joined. intros t I1.
    assert (X : exists n, t = dec n).
    { destruct I1 as [<-|[<-|I1]]; [now exists a|now exists b|]. rewrite map_map in I1. apply in_map_iff in I1.
      destruct I1 as [n [<- _]]. now exists n. }
    destruct X as [n ->]. apply dplain_dec.
Qed.
Lemma dplain_reshape : forall s, dplain (reshape_text s) = true.
Proof.
  intros [[|a l]|]; [reflexivity| |reflexivity]. unfold reshape_text. apply dplain_app; [reflexivity|].
  apply dplain_app; [apply dplain_shape|reflexivity].
Qed.

Definition no_newline (t : string) : Prop := ~ In nl (list_ascii_of_string t).
Lemma no_newline_plain : forall t, no_newline t -> dplain t = true.
Proof.
  intros t H. unfold dplain. apply forallb_forall. intros c I1. apply negb_true_iff. apply Ascii.eqb_neq. intros ->. now apply H.
Qed.
Record one_line (c : tcfg) : Prop := mkOL {
  o_date : no_newline (t_date c); o_prefix : no_newline (t_prefix c); o_dir_py : no_newline (t_dir_py c); o_solver : no_newline (t_solver c);
  o_names : forall i, In i (t_params c) \/ In i (t_vars c) \/ In i (t_duals c) -> no_newline (i_name i);
  o_write : forall n b v, In (n, b, v) (t_write c) -> no_newline n /\ no_newline v }.
Lemma d_fine : forall c, one_line c -> fine dst dscan dcls (fun _ s => s) c.
Proof.
  intros c G. constructor.
  - apply d_plain, no_newline_plain, (o_date _ G).
  - intros s H. apply d_plain, dplain_app; [apply no_newline_plain, (o_prefix _ G)|].
    now repeat (destruct H as [->|H]; [reflexivity|]); subst.
  - apply d_plain, no_newline_plain, (o_dir_py _ G).
  - apply d_plain, no_newline_plain, (o_solver _ G).
  - intros i H. split; [apply d_plain, no_newline_plain, (o_names _ G); exact H|].
    split; apply d_plain; [apply dplain_shape|apply dplain_reshape].
  - intros n b v H. destruct (o_write _ G n b v H) as [H1 H2]. split; apply d_plain; now apply no_newline_plain.
  - apply d_plain, dplain_joined. intros t H. apply in_map_iff in H. destruct H as [i [<- H]].
    apply (dplain_app (String dq "") (i_name i ++ String dq "")%string); [reflexivity|].
    apply dplain_app; [apply no_newline_plain, (o_names _ G); auto|reflexivity].
Qed.

(** The functions, by mode. *)
Definition functions (g : bool) : list string :=
  if g then ["squeeze_scalar"; "get_param_value"; "cpg_solve_and_gradient_info"; "cpg_solve"; "cpg_gradient"; "forward"; "backward"]
  else ["squeeze_scalar"; "get_param_value"; "cpg_solve"].
Definition found_all (g : bool) (o : option dst) : bool :=
  match o with Some s => if list_eq_dec string_dec (finish s) (functions g) then true else false | None => false end.
Definition all_defs : bool :=
  forallb (fun i => forallb (fun g => forallb (fun e => found_all g (dchk (k_solver i g e) solver_t (mkD D0 []))) explicits) bools) ifaces.
Lemma use_defs : all_defs = true -> forall c, t_explicit c <= 2 ->
  found_all (t_gradient c) (dchk (k_solver (t_if c) (t_gradient c) (t_explicit c)) solver_t (mkD D0 [])) = true.
Proof.
  intros H c E. unfold all_defs in H. rewrite forallb_forall in H. specialize (H _ (in_ifaces (t_if c))).
  rewrite forallb_forall in H. specialize (H _ (in_bools (t_gradient c))). rewrite forallb_forall in H. exact (H _ (in_explicits _ E)).
Qed.
Theorem solver_functions : forall c, t_explicit c <= 2 -> one_line c ->
  exists s, render (solver_ctx c) solver_t = Done s /\ defs s = functions (t_gradient c).
Proof.
  intros c E G. assert (X : all_defs = true) by (vm_compute; reflexivity). pose proof (use_defs X c E) as U. clear X.
  pose proof (fits_abs _ _ _ _ _ _ (fits_solver _ _ _ _ c (d_fine c G))) as A.
  destruct (dchk (k_solver (t_if c) (t_gradient c) (t_explicit c)) solver_t (mkD D0 [])) as [st|] eqn:C; [|discriminate].
  unfold found_all in U. destruct (list_eq_dec string_dec (finish st) (functions (t_gradient c))) as [Q|]; [|discriminate].
  edestruct (chk_sound dst dscan dcls (fun _ s => s) dplain dst_dec) with (trims := false) (l := solver_t) as [s [R S]]; try exact C; try exact A.
  - reflexivity.
  - intros a b s. unfold dscan. now rewrite drun_app.
  - reflexivity.
  - intros t. apply d_plain.
  - intros n. apply d_plain, dplain_dec.
  - discriminate.
  - exists s. split; [exact R|]. unfold dscan in S. injection S as S. rewrite <- Q, <- drun_defs. now rewrite S.
Qed.
