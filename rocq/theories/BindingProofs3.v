(** What the functions of the Python binding do. *)

From Coq Require Import String Ascii Arith Bool Lia List.
From Verif Require Import Base Pus Machine Runtime RuntimeProofs Retrieve RetrieveProofs Config Symbols SymbolsProofs CTypes ExplicitVars CExampleProofs Binding BindingSpec BindingProofs.
Import ListNotations.
Open Scope string_scope.
Open Scope list_scope.

Lemma bind_assoc3 : forall A B C (r : res A) (f : A -> res B) (g : B -> res C),
  (b <- (a <- r;; f a);; g b) = (a <- r;; b <- f a;; g b).
Proof. intros. destruct r; reflexivity. Qed.
Lemma bind_ext3 : forall A B (r : res A) (f g : A -> res B), (forall a, f a = g a) -> (a <- r;; f a) = (a <- r;; g a).
Proof. intros. destruct r; cbn; auto. Qed.

Section Sem.
  Variable x : bin.
  Hypothesis HX : binding_ok x.
  Variable V : Type.
  Variable v0 : V.
  Variable S : Type.
  Variable L : clib V S.
  Variable clock : V.
  Notation pre s := (n_prefix x ++ s)%string.
  Notation EX := (exec x v0 L clock).
  Notation EB := (exec_body x v0 L clock).

  Lemma eb_app : forall a b st, EB (a ++ b) st = (st' <- EB a st;; EB b st').
  Proof. induction a as [|c a IH]; intros; [reflexivity|]. cbn [app exec_body]. rewrite bind_assoc3. apply bind_ext3. auto. Qed.

  Lemma ex_for : forall n b i st, EX (SFor n b) i st = loop (EX b) (seq 0 n) st.
  Proof. intros n b i [loc s]. reflexivity. Qed.
  Lemma ex_if : forall e b i loc s, EX (SIf e b) i (loc, s)
    = (v <- eval L loc s i e;; match v with VBool true => EX b i (loc, s) | VBool false => Ok (loc, s) | _ => Err TypeError end).
  Proof. reflexivity. Qed.

  Lemma ex_call : forall f l i loc s, EX (SCall f l) i (loc, s) = (vs <- mapM (eval_arg L loc s i) l;; s' <- c_call L f vs s;; Ok (loc, s')).
  Proof. reflexivity. Qed.
  Lemma ex_set : forall l r i loc s, EX (SSet l r) i (loc, s) = (v <- eval L loc s i r;; store L loc s i l v).
  Proof. reflexivity. Qed.

  (** ** Records *)

  Lemma set_mid : forall A f (v w : A) done rest, ~ In f (map fst done) ->
    set_assoc f v (done ++ (f, w) :: rest) = done ++ (f, v) :: rest.
  Proof.
    induction done as [|[g u] done IH]; intros rest H; cbn.
    - now rewrite String.eqb_refl.
    - destruct (String.eqb_spec f g) as [->|N]; [exfalso; apply H; now left|]. rewrite IH; auto. intro. apply H. now right.
  Qed.
  Lemma get_mid : forall A f (w : A) done rest, ~ In f (map fst done) -> assoc f (done ++ (f, w) :: rest) = Some w.
  Proof.
    induction done as [|[g u] done IH]; intros rest H; cbn.
    - now rewrite String.eqb_refl.
    - destruct (String.eqb_spec f g) as [->|N]; [exfalso; apply H; now left|]. apply IH. intro. apply H. now right.
  Qed.
  Lemma store_at : forall P f l done rest loc s i k a, ~ In f (map fst done) ->
    store L ((P, VRec (done ++ (f, VArr l) :: rest)) :: loc) s i (dot_at P f k) (VNum a)
    = (l' <- put l (at_ix i k) a;; Ok ((P, VRec (done ++ (f, VArr l') :: rest)) :: loc, s)).
  Proof.
    intros. unfold store, dot_at. cbn [e_root e_fld e_at assoc]. rewrite String.eqb_refl, get_mid by auto.
    apply bind_ext3. intro l'. cbn [set_assoc]. rewrite String.eqb_refl, set_mid by auto. reflexivity.
  Qed.
  Lemma store_at_bad : forall P f l done rest loc s i k w, ~ In f (map fst done) -> (forall a, w <> VNum a) ->
    store L ((P, VRec (done ++ (f, VArr l) :: rest)) :: loc) s i (dot_at P f k) w = Err TypeError.
  Proof.
    intros. unfold store, dot_at. cbn [e_root e_fld e_at assoc]. rewrite String.eqb_refl, get_mid by auto.
    destruct w; auto. now destruct (H0 v).
  Qed.
  Lemma store_whole : forall P f u done rest loc s i w, ~ In f (map fst done) ->
    store L ((P, VRec (done ++ (f, u) :: rest)) :: loc) s i (dot P f) w = Ok ((P, VRec (done ++ (f, w) :: rest)) :: loc, s).
  Proof.
    intros. unfold store, dot. cbn [e_root e_fld e_at assoc]. rewrite String.eqb_refl, get_mid by auto.
    cbn [set_assoc]. rewrite String.eqb_refl, set_mid by auto. reflexivity.
  Qed.
  Lemma put_mid : forall A (a : list A) u r w, put (a ++ u :: r) (length a) w = Ok (a ++ w :: r).
  Proof.
    intros. rewrite put_ok by (rewrite app_length; cbn; lia). f_equal.
    induction a as [|b a IH]; cbn; [reflexivity|]. now rewrite IH.
  Qed.

  (** ** Reading arrays *)

  Definition num (w : xval V) : res V := match w with VNum a => Ok a | _ => Err TypeError end.
  Definition rd_arr (g : nat -> res (xval V)) (idx : list (option nat)) : res (list V) :=
    mapM (fun o => match o with None => Ok v0 | Some j => w <- g j;; num w end) idx.
  Definition rd (o : string) (m : option string) (n : nat) (one : option nat) (idx : list (option nat)) (s : S) : res (xval V) :=
    if Nat.eqb n 1 then c_get L o m one s
    else l <- rd_arr (fun j => c_get L o m (Some j) s) idx;; Ok (VArr l).

  Lemma set_num : forall P f l done rest loc s i k r (g : res (xval V)), ~ In f (map fst done) ->
    eval L ((P, VRec (done ++ (f, VArr l) :: rest)) :: loc) s i r = g ->
    EX (SSet (dot_at P f k) r) i ((P, VRec (done ++ (f, VArr l) :: rest)) :: loc, s)
    = (a <- (w <- g;; num w);; l' <- put l (at_ix i k) a;; Ok ((P, VRec (done ++ (f, VArr l') :: rest)) :: loc, s)).
  Proof.
    intros. cbn [exec]. rewrite H0, bind_assoc3. apply bind_ext3. intro w. destruct w; cbn [num bind].
    1: now apply store_at. all: apply store_at_bad; auto; discriminate.
  Qed.

  Lemma fill_loop : forall P f done rest loc s r (g : nat -> res (xval V)), ~ In f (map fst done) ->
    (forall l k, eval L ((P, VRec (done ++ (f, VArr l) :: rest)) :: loc) s k r = g k) ->
    forall m a,
    loop (EX (SSet (dot_at P f II) r)) (seq (length a) m) ((P, VRec (done ++ (f, VArr (a ++ repeat v0 m)) :: rest)) :: loc, s)
    = (l <- mapM (fun j => w <- g j;; num w) (seq (length a) m);; Ok ((P, VRec (done ++ (f, VArr (a ++ l)) :: rest)) :: loc, s)).
  Proof.
    intros P f done rest loc s r g HF HG. induction m as [|m IH]; intro a; [reflexivity|].
    cbn [seq loop mapM repeat]. rewrite (set_num _ _ _ _ _ _ _ _ _ _ (g (length a)) HF) by apply HG.
    rewrite !bind_assoc3. apply bind_ext3. intro w. destruct (num w) as [b|e]; [|reflexivity]. cbn [bind at_ix].
    rewrite put_mid. cbn [bind].
    replace (a ++ b :: repeat v0 m) with ((a ++ [b]) ++ repeat v0 m) by (rewrite <- app_assoc; reflexivity).
    replace (Datatypes.S (length a)) with (length (a ++ [b])) by (rewrite app_length; cbn; lia).
    rewrite IH. rewrite bind_assoc3. apply bind_ext3. intro l. cbn [bind]. rewrite <- app_assoc. reflexivity.
  Qed.
  Lemma rd_all : forall g n i, mapM (fun j => w <- g j;; num w) (seq i n) = rd_arr g (map Some (seq i n)).
  Proof. unfold rd_arr. induction n as [|n IH]; intro i; [reflexivity|]. cbn [seq map mapM]. now rewrite IH. Qed.

  Lemma fill_sel : forall P f done rest loc s r (g : nat -> res (xval V)), ~ In f (map fst done) ->
    (forall l i j, eval L ((P, VRec (done ++ (f, VArr l) :: rest)) :: loc) s i (r j) = g j) ->
    forall idx a,
    EB (map (fun ik => SSet (dot_at P f (IN (fst ik))) (r (snd ik))) (stored (length a) idx))
       ((P, VRec (done ++ (f, VArr (a ++ repeat v0 (length idx))) :: rest)) :: loc, s)
    = (l <- rd_arr g idx;; Ok ((P, VRec (done ++ (f, VArr (a ++ l)) :: rest)) :: loc, s)).
  Proof.
    intros P f done rest loc s r g HF HG. induction idx as [|o idx IH]; intro a; [reflexivity|].
    unfold rd_arr. cbn [mapM length repeat stored]. fold (rd_arr g idx).
    assert (N : forall b, a ++ b :: repeat v0 (length idx) = (a ++ [b]) ++ repeat v0 (length idx)) by (intro; rewrite <- app_assoc; reflexivity).
    assert (LL : forall b, Datatypes.S (length a) = length (a ++ [b])) by (intro; rewrite app_length; cbn; lia).
    destruct o as [j|].
    - cbn [map exec_body fst snd]. rewrite (set_num _ _ _ _ _ _ _ _ _ _ (g j) HF) by apply HG.
      rewrite !bind_assoc3. apply bind_ext3. intro w. destruct (num w) as [b|e]; [|reflexivity]. cbn [bind at_ix].
      rewrite put_mid. cbn [bind]. rewrite N, (LL b), IH, bind_assoc3. apply bind_ext3. intro l. cbn [bind]. rewrite <- app_assoc. reflexivity.
    - cbn [bind]. rewrite N, (LL v0), IH, bind_assoc3. apply bind_ext3. intro l. cbn [bind]. rewrite <- app_assoc. reflexivity.
  Qed.

  Definition ini (v : string * nat) : string * xval V := (fst v, init_ty v0 (snd (hpp_field v))).
  Lemma ini_one : forall v, snd v = 1 -> ini v = (fst v, VNum v0).
  Proof. intros v H. unfold ini. rewrite hpp_cases, H. reflexivity. Qed.
  Lemma ini_arr : forall v, snd v <> 0 -> snd v <> 1 -> ini v = (fst v, VArr (repeat v0 (snd v))).
  Proof. intros v H H1. unfold ini. rewrite hpp_cases. replace (Nat.ltb 1 (snd v)) with true by (symmetry; apply Nat.ltb_lt; lia). reflexivity. Qed.

  Lemma glob : forall loc s i r f at_, assoc r loc = None ->
    eval L loc s i (Ex r f at_) = c_get L r f (option_map (at_ix i) at_) s.
  Proof. intros. unfold eval. cbn [e_root e_fld e_at]. now rewrite H. Qed.
  Lemma loc_cons : forall r P (w : xval V) loc, String.eqb r P = false -> assoc r loc = None -> assoc r ((P, w) :: loc) = None.
  Proof. intros. cbn. now rewrite H. Qed.

  Lemma copy_run : forall P r v done rest loc s, String.eqb r P = false -> assoc r loc = None ->
    ~ In (fst v) (map fst done) -> snd v <> 0 ->
    EX (copy P r v) 0 ((P, VRec (done ++ ini v :: rest)) :: loc, s)
    = (w <- rd r (Some (fst v)) (snd v) None (all_of (snd v)) s;; Ok ((P, VRec (done ++ (fst v, w) :: rest)) :: loc, s)).
  Proof.
    intros P r v done rest loc s E1 E2 HD H0. unfold copy, rd. destruct (Nat.eqb_spec (snd v) 1) as [E|E].
    - rewrite ini_one by auto. cbn [exec]. unfold dot at 1. rewrite glob by now apply loc_cons. cbn [option_map].
      apply bind_ext3. intro w. rewrite store_whole by auto. reflexivity.
    - rewrite ini_arr by auto. rewrite ex_for.
      pose proof (fill_loop P (fst v) done rest loc s (dot_at r (fst v) II) (fun j => c_get L r (Some (fst v)) (Some j) s) HD) as F.
      specialize (F (fun l k => glob _ s k r (Some (fst v)) (Some II) (loc_cons r P _ loc E1 E2)) (snd v) []).
      cbn [length app] in F. rewrite F, rd_all, bind_assoc3. reflexivity.
  Qed.

  Definition idx_of (v : string * nat) : list (option nat) := if Nat.eqb (n_explicit x) 0 then all_of (snd v) else n_idx x (fst v).
  Lemma prim_run : forall v done rest loc s, In v (n_vars x) -> assoc (pre "CPG_Prim") loc = None ->
    ~ In (fst v) (map fst done) -> snd v <> 0 ->
    EB (get_prim x v) (("CPG_Prim_cpp", VRec (done ++ ini v :: rest)) :: loc, s)
    = (w <- rd (pre "CPG_Prim") (Some (fst v)) (snd v) None (idx_of v) s;; Ok (("CPG_Prim_cpp", VRec (done ++ (fst v, w) :: rest)) :: loc, s)).
  Proof.
    intros v done rest loc s Hv E2 HD H0.
    assert (E1 : String.eqb (pre "CPG_Prim") "CPG_Prim_cpp" = false) by (apply suf_l; reflexivity).
    unfold get_prim, idx_of, expl. destruct (Nat.eqb (n_explicit x) 0) eqn:E; cbn [negb andb].
    - cbn [exec_body]. rewrite copy_run by auto. rewrite bind_assoc3. apply bind_ext3. reflexivity.
    - destruct (Nat.eqb_spec (snd v) 1) as [H1|H1]; cbn [negb].
      + cbn [exec_body]. rewrite copy_run by auto. rewrite bind_assoc3. unfold rd. rewrite H1. cbn [Nat.eqb]. apply bind_ext3. reflexivity.
      + rewrite ini_arr by auto. rewrite <- (bo_idx x HX v Hv).
        pose proof (fill_sel "CPG_Prim_cpp" (fst v) done rest loc s (fun j => dot_at (pre "CPG_Prim") (fst v) (IN j))
                      (fun j => c_get L (pre "CPG_Prim") (Some (fst v)) (Some j) s) HD) as F.
        specialize (F (fun l i j => glob _ s i (pre "CPG_Prim") (Some (fst v)) (Some (IN j)) (loc_cons _ _ _ loc E1 E2)) (n_idx x (fst v)) []).
        cbn [length app] in F. rewrite F. unfold rd. rewrite (bo_idx x HX v Hv).
        destruct (Nat.eqb_spec (snd v) 1); [contradiction|]. rewrite bind_assoc3. reflexivity.
  Qed.

  (** All members of a struct. *)
  Lemma record_run : forall P (body : string * nat -> list cst) loc s (g : string * nat -> res (xval V)) ns done,
    NoDup (map fst done ++ map fst ns) ->
    (forall v done rest, In v ns -> ~ In (fst v) (map fst done) ->
       EB (body v) ((P, VRec (done ++ ini v :: rest)) :: loc, s) = (w <- g v;; Ok ((P, VRec (done ++ (fst v, w) :: rest)) :: loc, s))) ->
    EB (flat_map body ns) ((P, VRec (done ++ map ini ns)) :: loc, s)
    = (ws <- mapM g ns;; Ok ((P, VRec (done ++ combine (map fst ns) ws)) :: loc, s)).
  Proof.
    intros P body loc s g. induction ns as [|v ns IH]; intros done ND H; [reflexivity|].
    cbn [flat_map map mapM]. rewrite eb_app.
    assert (HD : ~ In (fst v) (map fst done)).
    { cbn [map] in ND. apply NoDup_remove_2 in ND. intro Q. apply ND. apply in_app_iff. now left. }
    rewrite H by (cbn; auto). rewrite !bind_assoc3. apply bind_ext3. intro w. cbn [bind].
    replace (done ++ (fst v, w) :: map ini ns) with ((done ++ [(fst v, w)]) ++ map ini ns) by (rewrite <- app_assoc; reflexivity).
    rewrite IH.
    - rewrite bind_assoc3. apply bind_ext3. intro ws. cbn [bind combine]. rewrite <- app_assoc. reflexivity.
    - rewrite map_app, <- app_assoc. exact ND.
    - intros. apply H; auto. now right.
  Qed.
  Lemma init_rec : forall t ns, assoc t (structs x) = Some (map hpp_field ns) -> init_struct x v0 t = VRec (map ini ns).
  Proof.
    intros t ns H. unfold init_struct. rewrite H. f_equal. rewrite map_map. apply map_ext. intro v. reflexivity.
  Qed.
  Lemma decl_run : forall P t ns (body : string * nat -> list cst) loc s (g : string * nat -> res (xval V)),
    assoc t (structs x) = Some (map hpp_field ns) -> NoDup (map fst ns) ->
    (forall v done rest, In v ns -> ~ In (fst v) (map fst done) ->
       EB (body v) ((P, VRec (done ++ ini v :: rest)) :: loc, s) = (w <- g v;; Ok ((P, VRec (done ++ (fst v, w) :: rest)) :: loc, s))) ->
    EB (SDecl t P :: flat_map body ns) (loc, s)
    = (ws <- mapM g ns;; Ok ((P, VRec (combine (map fst ns) ws)) :: loc, s)).
  Proof.
    intros P t ns body loc s g H1 ND H. cbn [exec_body exec bind]. rewrite (init_rec _ ns H1).
    exact (record_run P body loc s g ns [] ND H).
  Qed.

  (** ** Calls *)

  Notation calls := (do_calls V S L).
  Lemma calls_app : forall a b s, calls (a ++ b) s = (s' <- calls a s;; calls b s').
  Proof. induction a as [|[f l] a IH]; intros; [reflexivity|]. cbn [app do_calls]. rewrite bind_assoc3. apply bind_ext3. auto. Qed.

  Lemma call_loop : forall f r loc l a s,
    (forall s k v, nth_error l k = Some v -> eval L loc s (a + k) r = Ok (VNum v)) ->
    loop (EX (SCall f [AIx II; AEx r])) (seq a (length l)) (loc, s)
    = (s' <- calls (map (fun k => (f, [CIx (fst k); CVal (VNum (snd k))])) (combine (seq a (length l)) l)) s;; Ok (loc, s')).
  Proof.
    intros f r loc. induction l as [|v l IH]; intros a s H; [reflexivity|].
    cbn [length seq loop map combine do_calls]. rewrite ex_call. cbn [mapM eval_arg]. assert (H0 : eval L loc s a r = Ok (VNum v)) by (rewrite <- (Nat.add_0_r a); now apply H).
    rewrite H0. cbn [bind mapM at_ix fst snd].
    rewrite !bind_assoc3. apply bind_ext3. intro s'. cbn [bind]. rewrite (IH (Datatypes.S a) s'); [reflexivity|].
    intros t k w Hk. rewrite Nat.add_succ_comm. now apply H.
  Qed.
  (** A member of a struct argument. *)
  Lemma arg_field : forall loc o f ns (val : string * nat -> xval V) s i at_,
    assoc o loc = Some (VRec (map (fun n => (fst n, val n)) ns)) -> NoDup (map fst ns) -> In f ns ->
    eval L loc s i (Ex o (Some (fst f)) at_)
    = match at_ with
      | None => Ok (val f)
      | Some k => match val f with
                  | VArr l => match nth_error l (at_ix i k) with Some a => Ok (VNum a) | None => Err OutOfBounds end
                  | _ => Err TypeError
                  end
      end.
  Proof.
    intros loc o f ns val s i at_ H ND HI. unfold eval. cbn [e_root e_fld e_at]. rewrite H.
    rewrite (assoc_map _ _ (fun n => (fst n, val n)) ns f (fun a => eq_refl) ND HI). reflexivity.
  Qed.

  Variable flag : string -> bool.
  Variable vals : string -> list V.

  Lemma one_or : forall A (l : list A), length l = 1 -> exists a, l = [a].
  Proof. intros A [|a [|b l]] H; try discriminate. eauto. Qed.
  Lemma not_one : forall (l : list V), length l <> 1 -> entries V l = VArr l.
  Proof. intros [|a [|b l]] H; try reflexivity. now destruct H. Qed.
  Lemma hand_more : forall f (l : list V), length l <> 1 ->
    hand_over V f l = map (fun k => (f, [CIx (fst k); CVal (VNum (snd k))])) (combine (seq 0 (length l)) l).
  Proof. intros f [|a [|b l]] H; try reflexivity. now destruct H. Qed.

  (** Handing over all entries of a member. *)
  Lemma hand_run : forall loc o f v ns s,
    assoc o loc = Some (VRec (map (fun n => (fst n, entries V (vals (fst n)))) ns)) -> NoDup (map fst ns) -> In v ns -> length (vals (fst v)) = snd v ->
    EX (if Nat.eqb (snd v) 1 then SCall f [AEx (dot o (fst v))] else SFor (snd v) (SCall f [AIx II; AEx (dot_at o (fst v) II)])) 0 (loc, s)
    = (s' <- calls (hand_over V f (vals (fst v))) s;; Ok (loc, s')).
  Proof.
    intros loc o f v ns s H ND HI HL. destruct (Nat.eqb_spec (snd v) 1) as [E|E].
    - rewrite E in HL. destruct (one_or _ _ HL) as [a Ha]. cbn [exec mapM eval_arg]. unfold dot.
      rewrite (arg_field loc o v ns (fun n => entries V (vals (fst n))) s 0 None H ND HI), Ha. cbn [entries bind hand_over do_calls].
      rewrite !bind_assoc3. apply bind_ext3. reflexivity.
    - rewrite ex_for, hand_more by congruence. rewrite <- HL. apply call_loop.
      intros t k w Hk. unfold dot_at. rewrite (arg_field loc o v ns (fun n => entries V (vals (fst n))) t _ (Some II) H ND HI).
      rewrite not_one by congruence. cbn [at_ix plus]. now rewrite Hk.
  Qed.

  Definition sargs : frame V :=
    [("CPG_Updated_cpp", VRec (map (fun n => (fst n, VBool (flag (fst n)))) (n_params x)));
     ("CPG_Params_cpp", VRec (map (fun n => (fst n, entries V (vals (fst n)))) (n_params x)))].

  Lemma upd_run : (forall p, In p (n_params x) -> length (vals (fst p)) = snd p) ->
    forall s, EB (map (upd_param x) (n_params x)) (sargs, s)
    = (s' <- calls (flat_map (fun p => if flag (fst p) then hand_over V (pre ("cpg_update_" ++ fst p)) (vals (fst p)) else []) (n_params x)) s;; Ok (sargs, s')).
  Proof.
    intros HL.
    assert (G : forall ps, (forall p, In p ps -> In p (n_params x)) -> forall s, EB (map (upd_param x) ps) (sargs, s)
      = (s' <- calls (flat_map (fun p => if flag (fst p) then hand_over V (pre ("cpg_update_" ++ fst p)) (vals (fst p)) else []) ps) s;; Ok (sargs, s'))).
    { induction ps as [|p ps IH]; intros HI s; [reflexivity|].
      cbn [map exec_body flat_map]. rewrite calls_app. unfold upd_param. rewrite ex_if. unfold dot at 1.
      rewrite (arg_field sargs "CPG_Updated_cpp" p (n_params x) (fun n => VBool (flag (fst n))) s 0 None eq_refl (bo_params x HX)) by (apply HI; now left).
      cbn [bind]. destruct (flag (fst p)).
      - rewrite (hand_run sargs "CPG_Params_cpp" _ p (n_params x) s eq_refl (bo_params x HX)) by (auto with datatypes).
        rewrite !bind_assoc3. apply bind_ext3. intro s'. cbn [bind]. apply IH. auto with datatypes.
      - cbn [do_calls bind]. apply IH. auto with datatypes. }
    apply G. auto.
  Qed.

  (** ** The result of solve *)

  Definition prim_val (s : S) : res (list (xval V)) :=
    mapM (fun v => rd (pre "CPG_Prim") (Some (fst v)) (snd v) None (idx_of v) s) (n_vars x).
  Definition dual_val (s : S) : res (list (xval V)) :=
    mapM (fun v => rd (pre "CPG_Dual") (Some (fst v)) (snd v) None (all_of (snd v)) s) (n_duals x).
  Definition inf5 := ["obj_val"; "iter"; "status"; "pri_res"; "dua_res"].
  Definition info_val (s : S) : res (xval V) :=
    fs <- (if expl x then Ok [] else ws <- mapM (fun f => c_get L (pre "CPG_Info") (Some f) None s) inf5;; Ok (combine inf5 ws));;
    gs <- (if n_gradient x
           then if expl x then w <- c_get L "pdaqp_active_region" None None s;; Ok [("region", w)]
                else a <- rd_arr (fun j => c_get L "sol_x" None (Some j) s) (all_of (n_nvar x));;
                     b <- rd_arr (fun j => c_get L "sol_y" None (Some j) s) (all_of (n_ncon x));;
                     Ok [("gradient_primal", VArr a); ("gradient_dual", VArr b)]
           else Ok []);;
    Ok (VRec (fs ++ [("time", VNum clock)] ++ gs)).

  Definition info_body : list cst :=
    [SDecl (pre "CPG_Info_cpp_t") "CPG_Info_cpp"]
    ++ when_f (negb (expl x)) (map (fun f => SSet (dot "CPG_Info_cpp" f) (dot (pre "CPG_Info") f)) inf5)
    ++ [STime (dot "CPG_Info_cpp" "time")]
    ++ when_f (n_gradient x)
         (if expl x then [SSet (dot "CPG_Info_cpp" "region") (obj "pdaqp_active_region")]
          else [SFor (n_nvar x) (SSet (dot_at "CPG_Info_cpp" "gradient_primal" II) (obj_at "sol_x" II));
                SFor (n_ncon x) (SSet (dot_at "CPG_Info_cpp" "gradient_dual" II) (obj_at "sol_y" II))]).

  Definition irec (fs : list (string * xty)) : xval V := VRec (map (fun f => (fst f, init_ty v0 (snd f))) fs).

  Lemma info5_run : forall ns loc s done rest (us : list (xval V)), assoc (pre "CPG_Info") loc = None ->
    NoDup (map fst done ++ ns) -> length us = length ns ->
    EB (map (fun f => SSet (dot "CPG_Info_cpp" f) (dot (pre "CPG_Info") f)) ns) (("CPG_Info_cpp", VRec (done ++ combine ns us ++ rest)) :: loc, s)
    = (ws <- mapM (fun f => c_get L (pre "CPG_Info") (Some f) None s) ns;; Ok (("CPG_Info_cpp", VRec (done ++ combine ns ws ++ rest)) :: loc, s)).
  Proof.
    assert (E1 : String.eqb (pre "CPG_Info") "CPG_Info_cpp" = false) by (apply suf_l; reflexivity).
    induction ns as [|f ns IH]; intros loc s done rest us H ND HL; [reflexivity|].
    destruct us as [|u us]; [discriminate|]. cbn [map exec_body mapM combine].
    assert (HD : ~ In f (map fst done)) by (apply NoDup_remove_2 in ND; intro Q; apply ND, in_app_iff; now left).
    cbn [exec]. unfold dot at 1. rewrite glob by now apply loc_cons. cbn [option_map]. rewrite !bind_assoc3. apply bind_ext3. intro w.
    cbn [app]. rewrite store_whole by auto. cbn [bind].
    replace (done ++ (f, w) :: combine ns us ++ rest) with ((done ++ [(f, w)]) ++ combine ns us ++ rest) by (rewrite <- app_assoc; reflexivity).
    rewrite IH; auto.
    - rewrite bind_assoc3. apply bind_ext3. intro ws. cbn [bind combine]. rewrite <- app_assoc. reflexivity.
    - rewrite map_app, <- app_assoc. exact ND.
  Qed.

  Lemma inf5_nodup : NoDup inf5.
  Proof. repeat constructor; cbn; intuition discriminate. Qed.
  Lemma combine_fst_le : forall A B (l : list A) (r : list B), length r = length l -> map fst (combine l r) = l.
  Proof. induction l as [|a l IH]; intros [|b r] H; try discriminate; cbn; auto. now rewrite IH by auto. Qed.
  Lemma mapM_len : forall A B (f : A -> res B) l bs, mapM f l = Ok bs -> length bs = length l.
  Proof. intros A B f l bs H. apply mapM_Forall2 in H. induction H; cbn; auto. Qed.

  Lemma info_run : forall loc s, assoc (pre "CPG_Info") loc = None ->
    (forall n, In n ["pdaqp_active_region"; "sol_x"; "sol_y"] -> assoc n loc = None) ->
    EB info_body (loc, s) = (w <- info_val s;; Ok (("CPG_Info_cpp", w) :: loc, s)).
  Proof.
    intros loc s H HN. unfold info_body. cbn [app exec_body exec bind].
    unfold init_struct. rewrite (st_info x). unfold info_fields, info_val.
    set (gf := when_f (n_gradient x) (if expl x then [("region", XNum)] else [("gradient_primal", XArr (n_nvar x)); ("gradient_dual", XArr (n_ncon x))])).
    assert (T : forall fs, ~ In "time" (map fst fs) -> (forall n, In n ["region"; "gradient_primal"; "gradient_dual"] -> ~ In n (map fst fs)) ->
      EB (STime (dot "CPG_Info_cpp" "time") :: when_f (n_gradient x)
         (if expl x then [SSet (dot "CPG_Info_cpp" "region") (obj "pdaqp_active_region")]
          else [SFor (n_nvar x) (SSet (dot_at "CPG_Info_cpp" "gradient_primal" II) (obj_at "sol_x" II));
                SFor (n_ncon x) (SSet (dot_at "CPG_Info_cpp" "gradient_dual" II) (obj_at "sol_y" II))]))
        (("CPG_Info_cpp", VRec (fs ++ ("time", VNum v0) :: map (fun f => (fst f, init_ty v0 (snd f))) gf)) :: loc, s)
      = (gs <- (if n_gradient x
           then if expl x then w <- c_get L "pdaqp_active_region" None None s;; Ok [("region", w)]
                else a <- rd_arr (fun j => c_get L "sol_x" None (Some j) s) (all_of (n_nvar x));;
                     b <- rd_arr (fun j => c_get L "sol_y" None (Some j) s) (all_of (n_ncon x));;
                     Ok [("gradient_primal", VArr a); ("gradient_dual", VArr b)]
           else Ok []);; Ok (("CPG_Info_cpp", VRec (fs ++ ("time", VNum clock) :: gs)) :: loc, s))).
    { intros fs T1 T2. cbn [exec_body exec]. rewrite store_whole by auto. cbn [bind].
      assert (T3 : forall n c, In n ["region"; "gradient_primal"; "gradient_dual"] -> ~ In n (map fst (fs ++ [("time", c : xval V)]))).
      { intros n c Hn. rewrite map_app, in_app_iff. intros [Q|[Q|[]]]; [now apply (T2 n Hn)|]. cbn in Q. subst n. cbn in Hn. intuition discriminate. }
      unfold gf. destruct (n_gradient x); [|reflexivity]. cbn [when_f]. destruct (expl x).
      - cbn [map fst snd init_ty exec_body exec]. unfold obj. rewrite glob.
        2:{ apply loc_cons; [reflexivity|]. apply HN. cbn; auto. }
        cbn [option_map]. rewrite !bind_assoc3. apply bind_ext3. intro w.
        pose proof (store_whole "CPG_Info_cpp" "region" (VNum v0) (fs ++ [("time", VNum clock)]) [] loc s 0 w (T3 _ _ (or_introl eq_refl))) as W.
        rewrite <- !app_assoc in W. cbn [app] in W. rewrite W. reflexivity.
      - cbn [map fst snd init_ty exec_body]. rewrite !ex_for.
        pose proof (fill_loop "CPG_Info_cpp" "gradient_primal" (fs ++ [("time", VNum clock)]) [("gradient_dual", VArr (repeat v0 (n_ncon x)))] loc s
                      (obj_at "sol_x" II) (fun j => c_get L "sol_x" None (Some j) s)) as F.
        specialize (F (T3 _ _ (or_intror (or_introl eq_refl)))).
        specialize (F (fun l k => glob _ s k "sol_x" None (Some II) (loc_cons "sol_x" "CPG_Info_cpp" _ loc eq_refl (HN _ (or_intror (or_introl eq_refl)))))).
        specialize (F (n_nvar x) []). cbn [length app] in F. rewrite <- !app_assoc in F. cbn [app] in F. rewrite F, rd_all.
        rewrite !bind_assoc3. apply bind_ext3. intro a. cbn [bind].
        pose proof (fill_loop "CPG_Info_cpp" "gradient_dual" (fs ++ [("time", VNum clock); ("gradient_primal", VArr a)]) [] loc s
                      (obj_at "sol_y" II) (fun j => c_get L "sol_y" None (Some j) s)) as F2.
        assert (T4 : ~ In "gradient_dual" (map fst (fs ++ [("time", VNum clock); ("gradient_primal", VArr a)]))).
        { rewrite map_app, in_app_iff. intros [Q|Q]; [apply (T2 "gradient_dual"); cbn; auto|]. cbn in Q. intuition discriminate. }
        specialize (F2 T4).
        specialize (F2 (fun l k => glob _ s k "sol_y" None (Some II) (loc_cons "sol_y" "CPG_Info_cpp" _ loc eq_refl (HN _ (or_intror (or_intror (or_introl eq_refl))))))).
        specialize (F2 (n_ncon x) []). cbn [length app] in F2. rewrite <- !app_assoc in F2. cbn [app] in F2. rewrite <- !app_assoc. cbn [app]. rewrite ex_for, F2, rd_all.
        rewrite !bind_assoc3. apply bind_ext3. intro b. cbn [bind]. rewrite <- !app_assoc. reflexivity. }
    destruct (expl x) eqn:E; cbn [negb when_f app map].
    - cbn [bind]. etransitivity; [exact (T [] (fun q => q) (fun n _ q => q))|]. rewrite !bind_assoc3. apply bind_ext3. reflexivity.
    - change (EB ((map (fun f => SSet (dot "CPG_Info_cpp" f) (dot (pre "CPG_Info") f)) inf5)
          ++ STime (dot "CPG_Info_cpp" "time") :: when_f (n_gradient x)
              [SFor (n_nvar x) (SSet (dot_at "CPG_Info_cpp" "gradient_primal" II) (obj_at "sol_x" II));
               SFor (n_ncon x) (SSet (dot_at "CPG_Info_cpp" "gradient_dual" II) (obj_at "sol_y" II))])
        (("CPG_Info_cpp", VRec ([] ++ combine inf5 [VNum v0; VNum v0; init_ty v0 (if status_int (n_if x) then XNum else XStr); VNum v0; VNum v0]
             ++ ("time", VNum v0) :: map (fun f => (fst f, init_ty v0 (snd f))) gf)) :: loc, s)
        = (w <- (fs <- (ws <- mapM (fun f => c_get L (pre "CPG_Info") (Some f) None s) inf5;; Ok (combine inf5 ws));;
                 gs <- (if n_gradient x
                   then a <- rd_arr (fun j => c_get L "sol_x" None (Some j) s) (all_of (n_nvar x));;
                        b <- rd_arr (fun j => c_get L "sol_y" None (Some j) s) (all_of (n_ncon x));;
                        Ok [("gradient_primal", VArr a); ("gradient_dual", VArr b)]
                   else Ok []);;
                 Ok (VRec (fs ++ [("time", VNum clock)] ++ gs)));; Ok (("CPG_Info_cpp", w) :: loc, s))).
      rewrite eb_app, (info5_run inf5 loc s []) by (auto using inf5_nodup). rewrite !bind_assoc3.
      destruct (mapM (fun f => c_get L (pre "CPG_Info") (Some f) None s) inf5) as [ws|e] eqn:W; [|reflexivity]. cbn [bind app].
      apply mapM_len in W. rewrite !bind_assoc3.
      pose proof (combine_fst_le _ _ inf5 ws W) as CF.
      rewrite T.
      2,3: rewrite CF. 2:{ cbn. intuition discriminate. } 2:{ intros n Hn. cbn in Hn |- *. intuition (subst; discriminate). }
      apply bind_ext3. reflexivity.
  Qed.

  Definition result_val (s : S) : res (xval V) :=
    p <- prim_val s;; d <- (if has_dual x then d <- dual_val s;; Ok [("dual", VRec (combine (map fst (n_duals x)) d))] else Ok []);;
    i <- info_val s;; Ok (VRec ([("prim", VRec (combine (map fst (n_vars x)) p))] ++ d ++ [("info", i)])).

  Hypothesis HP : forall p, In p (n_params x) -> length (vals (fst p)) = snd p.
  Hypothesis HV : forall v, In v (n_vars x) -> snd v <> 0.
  Hypothesis HD : forall v, In v (n_duals x) -> snd v <> 0.

  Theorem solve_run : forall s,
    run_solve x v0 L clock (VRec (map (fun n => (fst n, VBool (flag (fst n)))) (n_params x)))
                           (VRec (map (fun n => (fst n, entries V (vals (fst n)))) (n_params x))) s
    = (s1 <- calls (solve_calls x V flag vals) s;; r <- result_val s1;; Ok (s1, r)).
  Proof.
    intro s. unfold run_solve, call_cpp. fold sargs. unfold solve_cpp.
    rewrite eb_app, upd_run by apply HP. unfold solve_calls. rewrite calls_app, !bind_assoc3. apply bind_ext3. intro s0. cbn [bind].
    cbn [app exec_body do_calls]. rewrite ex_call. cbn [mapM bind]. rewrite !bind_assoc3. apply bind_ext3. intro s1. cbn [bind].
    unfold result_val.
    match goal with |- context [EX (SDecl ?t ?n) 0 ?st] => change (bind (EX (SDecl t n) 0 st)) with (fun k : frame V * S -> res (frame V * S) => k ((n, init_struct x v0 t) :: sargs, s1)) end.
    cbv beta. rewrite eb_app.
    pose proof (decl_run "CPG_Prim_cpp" _ (n_vars x) (get_prim x) sargs s1 _ (st_prim x) (bo_vars x HX)
                  (fun v done rest Hv Hd => prim_run v done rest sargs s1 Hv ltac:(unfold sargs; names) Hd (HV v Hv))) as DP.
    cbn [exec_body exec bind] in DP. rewrite DP. fold (prim_val s1). rewrite !bind_assoc3. apply bind_ext3. intro p. cbn [bind].
    set (f1 := ("CPG_Prim_cpp", VRec (combine (map fst (n_vars x)) p)) :: sargs).
    assert (B : forall (d : option (xval V)) f2, f2 = match d with Some w => ("CPG_Dual_cpp", w) :: f1 | None => f1 end ->
      (has_dual x = match d with Some _ => true | None => false end) ->
      ('(loc, s') <- EB (info_body ++ [SDecl (pre "CPG_Result_cpp_t") "CPG_Result_cpp"; SSet (dot "CPG_Result_cpp" "prim") (obj "CPG_Prim_cpp")]
           ++ when_f (has_dual x) [SSet (dot "CPG_Result_cpp" "dual") (obj "CPG_Dual_cpp")]
           ++ [SSet (dot "CPG_Result_cpp" "info") (obj "CPG_Info_cpp")]) (f2, s1);;
       match assoc "CPG_Result_cpp" loc with Some v => Ok (s', v) | None => Err TypeError end)
      = (i <- info_val s1;; Ok (s1, VRec ([("prim", VRec (combine (map fst (n_vars x)) p))]
           ++ match d with Some w => [("dual", w)] | None => [] end ++ [("info", i)])))).
    { intros d f2 E1 E2. rewrite eb_app, info_run.
      2:{ subst f2. destruct d; unfold f1, sargs; names. }
      2:{ intros n Hn. subst f2. unfold f1, sargs. cbn in Hn. destruct d; intuition (subst; reflexivity). }
      rewrite !bind_assoc3. apply bind_ext3. intro i. cbn [bind app exec_body]. rewrite E2.
      unfold exec at 1. cbn [bind]. unfold init_struct. rewrite (st_result x), E2.
      subst f2. destruct d as [w|]; reflexivity. }
    destruct (has_dual x) eqn:E.
    - cbn [when_f app].
      match goal with |- context [EB (SDecl ?t ?n :: map ?c (n_duals x) ++ ?tl) (f1, s1)] =>
        replace (EB (SDecl t n :: map c (n_duals x) ++ tl) (f1, s1)) with (st <- EB (SDecl t n :: flat_map (fun v => [c v]) (n_duals x)) (f1, s1);; EB tl st) end.
      2:{ rewrite <- eb_app. cbn [app]. reflexivity. }
      pose proof (decl_run "CPG_Dual_cpp" _ (n_duals x) (fun v => [copy "CPG_Dual_cpp" (pre "CPG_Dual") v]) f1 s1 
                   (fun v => rd (pre "CPG_Dual") (Some (fst v)) (snd v) None (all_of (snd v)) s1) (st_dual x E) (bo_duals x HX)) as DD.
      rewrite DD.
      2:{ intros v done rest Hv Hd. cbn [exec_body]. rewrite copy_run; auto.
          - rewrite bind_assoc3. apply bind_ext3. reflexivity.
          - apply suf_l. reflexivity.
          - unfold f1, sargs. names. }
      fold (dual_val s1). rewrite !bind_assoc3. apply bind_ext3. intro d. cbn [bind].
      specialize (B (Some (VRec (combine (map fst (n_duals x)) d))) _ eq_refl eq_refl).
      unfold info_body, inf5 in B. rewrite <- !app_assoc in B. cbn [app when_f] in B.
      etransitivity; [exact B|]. rewrite bind_assoc3. apply bind_ext3. reflexivity.
    - cbn [bind when_f app]. specialize (B None _ eq_refl eq_refl). unfold info_body, inf5 in B. rewrite <- !app_assoc in B. cbn [app when_f] in B.
      etransitivity; [exact B|]. rewrite bind_assoc3. apply bind_ext3. reflexivity.
  Qed.
End Sem.
