(** Property C68: the solve method registered by generate_code. *)

From Coq Require Import String Ascii Arith Bool Lia List.
From Verif Require Import Base Config Import ImportSpec ImportProofs.
Import ListNotations.
Open Scope string_scope.
Open Scope list_scope.

(** Any sequence of generations in one directory and one interpreter, with directory names that are unused when
    it starts: every problem gets the code of the first generation with its directory name that was
    loaded. *)
Theorem C68_first_generation_wins : forall builtin s os, here s -> Forall (stays builtin s) os ->
  exists s', run builtin s os = (s', snd (expect (fun _ => None) (s_reg s) (s_next s) os))
    /\ s_reg s' = fst (expect (fun _ => None) (s_reg s) (s_next s) os).
Proof.
  intros builtin s os Hh Ho. apply (run_ok builtin (s_cwd s) (unused builtin s)).
  - apply start_inv; auto.
  - apply Forall_forall. intros o Hin. apply (proj1 (Forall_forall _ _) Ho) in Hin. destruct o; exact Hin.
Qed.
Print Assumptions C68_first_generation_wins.

(** Hence: a problem runs its own code if its directory name was not used by an earlier generation (and
    the compilation succeeds). *)
Definition dir_of (o : op) : list string := match o with Gen _ d _ _ => [d] | Chdir _ => [] end.
Definition prob_of (o : op) : list nat := match o with Gen p _ _ _ => [p] | Chdir _ => [] end.
Definition gens (os : list op) : nat := length (flat_map dir_of os).
Lemma expect_reg : forall os loaded reg k p, ~ In p (flat_map prob_of os) -> fst (expect loaded reg k os) p = reg p.
Proof.
  induction os as [|o os IH]; intros loaded reg k p H; [reflexivity|]. destruct o as [q d w b|c]; cbn [expect flat_map prob_of app] in *.
  - assert (N : q <> p /\ ~ In p (flat_map prob_of os)) by (split; intro; apply H; [left|right]; auto). destruct N as [N1 N2].
    assert (U : forall v, upd Nat.eqb reg q v p = reg p) by (intro v; unfold upd; destruct (Nat.eqb_spec p q); auto; congruence).
    destruct w; [destruct (loaded d); [|destruct b]|]; match goal with |- context [expect ?l ?r ?k0 os] => pose proof (IH l r k0 p N2) as E; destruct (expect l r k0 os) as [r' es] end; cbn [fst] in *; rewrite E, ?U; auto.
  - pose proof (IH loaded reg k p H) as E. destruct (expect loaded reg k os). exact E.
Qed.
Lemma expect_own : forall os1 loaded reg k p d b os2, ~ In d (flat_map dir_of os1) -> loaded d = None -> ~ In p (flat_map prob_of os2) ->
  b = true -> fst (expect loaded reg k (os1 ++ Gen p d true b :: os2)) p = Some (k + gens os1, k + gens os1).
Proof.
  induction os1 as [|o os1 IH]; intros loaded reg k p d b os2 Hd Hl Hp Hb; cbn [app expect].
  - rewrite Hl, Hb. pose proof (expect_reg os2 (upd String.eqb loaded d k) (upd Nat.eqb reg p (k, k)) (S k) p Hp) as E.
    destruct (expect _ _ _ os2) as [r es]. cbn [fst] in *. rewrite E. unfold upd. rewrite Nat.eqb_refl. unfold gens. cbn. now rewrite Nat.add_0_r.
  - destruct o as [q e w c|c]; cbn [flat_map dir_of app] in Hd.
    + assert (N : e <> d /\ ~ In d (flat_map dir_of os1)) by (split; intro; apply Hd; [left|right]; auto). destruct N as [N1 N2].
      assert (G : k + gens (Gen q e w c :: os1) = S k + gens os1) by (unfold gens; cbn; lia). rewrite G.
      assert (U : upd String.eqb loaded e k d = None) by (unfold upd; destruct (String.eqb_spec d e); auto; congruence).
      destruct w; [destruct (loaded e); [|destruct c]|];
        match goal with |- context [expect ?l ?r ?k0 (os1 ++ ?t)] => pose proof (IH l r k0 p d b os2 N2) as E; destruct (expect l r k0 (os1 ++ t)) as [r' es] end; cbn [fst] in *; apply E; auto.
    + pose proof (IH loaded reg k p d b os2 Hd Hl Hp Hb) as E. destruct (expect loaded reg k (os1 ++ Gen p d true b :: os2)) as [r es]. exact E.
Qed.
Theorem C68_own_code : forall builtin s os1 p d os2, here s -> Forall (stays builtin s) (os1 ++ Gen p d true true :: os2) ->
  ~ In d (flat_map dir_of os1) -> ~ In p (flat_map prob_of os2) ->
  s_reg (fst (run builtin s (os1 ++ Gen p d true true :: os2))) p = Some (s_next s + gens os1, s_next s + gens os1).
Proof.
  intros builtin s os1 p d os2 Hh Ho Hd Hp. destruct (C68_first_generation_wins builtin s _ Hh Ho) as (s' & E & Er). rewrite E. cbn [fst]. rewrite Er. apply expect_own; auto.
Qed.
Print Assumptions C68_own_code.

(** ** Directory names *)

Section Names.
  Variable builtin : string -> bool.

  (** Importing packages keeps states sane and only adds packages. *)
  Lemma find_in_last : forall fs dirs d p, find_in fs dirs d = Some (MPkg p) -> clean d = true /\ exists q, p = q ++ [d].
  Proof.
    intros fs dirs d p. unfold find_in. destruct (clean d); [|discriminate]. intro H. split; auto. match type of H with context [find ?f dirs] => destruct (find f dirs) as [e|] end.
    - destruct (fs (e ++ [d])) as [[]|]; cbn [node_mod] in H; try discriminate. injection H as <-. eauto.
    - match type of H with context [find ?f dirs] => destruct (find f dirs) as [e|] end; [|discriminate]. injection H as <-. eauto.
  Qed.
  Lemma find_in_clean : forall fs dirs d m, find_in fs dirs d = Some m -> clean d = true /\ (forall a b, m <> MSolve a b) /\ (forall g, m <> MExt g).
  Proof.
    intros fs dirs d m. unfold find_in. destruct (clean d); [|discriminate]. intro H. split; auto. match type of H with context [find ?f dirs] => destruct (find f dirs) as [e|] end.
    - destruct (fs (e ++ [d])) as [[]|]; cbn [node_mod] in H; try discriminate; injection H as <-; split; discriminate.
    - match type of H with context [find ?f dirs] => destruct (find f dirs) as [e|] end; [|discriminate]. injection H as <-. split; discriminate.
  Qed.
  Definition calm (d : string) : Prop := builtin d = true -> clean d = true.
  Lemma import_pkg_ok : (forall d, calm d) -> forall rest pre s parent s1 r, sane s -> Forall (fun d => clean d = true) pre ->
    (forall p, parent = Some (MPkg p) -> rest = [] -> exists q, p = q ++ [last pre ""]) ->
    import_pkg builtin s pre rest parent = (s1, r) ->
    sane s1 /\ s_fs s1 = s_fs s /\ s_next s1 = s_next s
    /\ (forall k g, s_mods s1 k = Some (MExt g) -> s_mods s k = Some (MExt g))
    /\ (forall p, r = inr (MPkg p) -> Forall (fun d => clean d = true) rest /\ exists q, p = q ++ [last (pre ++ rest) ""]).
  Proof.
    intro HB. induction rest as [|d t IH]; intros pre s parent s1 r Hs Hpre Hpar E; cbn [import_pkg] in E.
    - injection E as <- <-. split; auto. split; auto. split; auto. split; auto. intros p Hp. split; [constructor|]. rewrite app_nil_r. apply Hpar; auto. destruct parent; [congruence|discriminate].
    - assert (EA : pre ++ d :: t = (pre ++ [d]) ++ t) by (rewrite <- app_assoc; reflexivity). rewrite EA.
      destruct (s_mods s (pre ++ [d])) as [m|] eqn:Em.
      + pose proof (sn_clean _ Hs _ _ Em) as Hc. apply Forall_app in Hc. destruct Hc as [_ Hc]. apply IH in E; auto.
        * destruct E as (A & B & B' & C & F). split; auto. split; auto. split; auto. split; auto. intros p Hp. destruct (F p Hp) as [F1 F2]. split; auto. constructor; auto. now inversion Hc.
        * apply Forall_app. auto.
        * intros p Hp _. injection Hp as ->. apply (sn_last _ Hs). auto.
      + set (found := match parent with None => _ | Some _ => _ end) in E. destruct found as [m|] eqn:Ef.
        * assert (Hm : clean d = true /\ (forall a b, m <> MSolve a b) /\ (forall g, m <> MExt g) /\ forall p, m = MPkg p -> exists q, p = q ++ [d]).
          { unfold found in Ef. destruct parent as [[p|a b|g|]|]; try discriminate.
            - destruct (find_in_clean _ _ _ _ Ef) as (A & B & C). split; auto. split; auto. split; auto. intros p' ->. apply (find_in_last _ _ _ _ Ef).
            - destruct (builtin d) eqn:Eb.
              + injection Ef as <-. split; [apply HB; auto|]. split; [discriminate|]. split; discriminate.
              + destruct (find_in_clean _ _ _ _ Ef) as (A & B & C). split; auto. split; auto. split; auto. intros p' ->. apply (find_in_last _ _ _ _ Ef). }
          destruct Hm as (M1 & M2 & M3 & M4).
          assert (Hs' : sane (with_mods s (setmod (pre ++ [d]) m (s_mods s)))).
          { destruct Hs as [S1 S2 S3 S4 S5 S6]. constructor; cbn [with_mods s_fs s_mods s_next]; auto.
            - intros n a b. unfold setmod. destruct (path_eqb n (pre ++ [d])); [intro X; injection X as ->; destruct (M2 a b eq_refl)|apply S3].
            - intros n g. unfold setmod. destruct (path_eqb n (pre ++ [d])); [intro X; injection X as ->; destruct (M3 g eq_refl)|apply S4].
            - intros n m'. unfold setmod. destruct (path_eqb n (pre ++ [d])) eqn:X; [|apply S5]. apply path_eqb_eq in X. subst n. intros _. apply Forall_app. auto.
            - intros n p. unfold setmod. destruct (path_eqb n (pre ++ [d])) eqn:X; [|apply S6]. apply path_eqb_eq in X. subst n. intro Y. injection Y as ->. rewrite last_last. apply M4. auto. }
          apply IH in E; auto.
          -- destruct E as (A & B & B' & C & F). split; auto. split; auto. split; auto. split.
             ++ intros k g Hk. apply C in Hk. cbn [with_mods s_mods] in Hk. unfold setmod in Hk. destruct (path_eqb k (pre ++ [d])); [injection Hk as ->; destruct (M3 g eq_refl)|auto].
             ++ intros p Hp. destruct (F p Hp) as [F1 F2]. split; auto.
          -- apply Forall_app. auto.
          -- intros p Hp _. injection Hp as ->. rewrite last_last. apply M4. auto.
        * injection E as <- <-. split; auto. split; auto. split; auto. split; auto. intros p Hp. discriminate.
  Qed.

  (** Pieces of a split text. *)
  Lemma split_last_len : forall c s, has c s = true -> String.length (last (split c s) "") < String.length s.
  Proof.
    intros c s. induction s as [|a s IH]; intro H; [discriminate|]. cbn [has split] in *. destruct (Ascii.eqb a c) eqn:Ea.
    - assert (L : String.length (last (split c s) "") <= String.length s).
      { destruct (has c s) eqn:Eh; [apply Nat.lt_le_incl, IH; auto|]. rewrite split_none by auto. cbn. auto. }
      pose proof (split_nonempty c s) as Hn. destruct (split c s) as [|h r]; [contradiction|]. cbn [last String.length] in *. lia.
    - cbn [orb] in H. specialize (IH H). destruct (split c s) as [|h [|h' r]] eqn:Es; [destruct (split_nonempty c s Es)| |].
      + cbn [last String.length] in *. lia.
      + change (last (String a h :: h' :: r) "") with (last (h' :: r) ""). change (last (h :: h' :: r) "") with (last (h' :: r) "") in IH. cbn [String.length]. lia.
  Qed.
  Lemma split_has : forall c x s, x <> c -> existsb (has x) (split c s) = has x s.
  Proof.
    intros c x s Hx. induction s as [|a s IH]; [reflexivity|]. cbn [split has]. destruct (Ascii.eqb_spec a c) as [->|Hac].
    - cbn [existsb has]. rewrite IH. destruct (Ascii.eqb_spec c x); [congruence|]. reflexivity.
    - pose proof (split_nonempty c s) as Hn. destruct (split c s) as [|h r]; [contradiction|]. cbn [existsb has] in *. rewrite <- IH. now rewrite orb_assoc.
  Qed.
  Lemma has_repl : forall a b c s, c <> a -> c <> b -> has c (repl a b s) = has c s.
  Proof.
    intros a b c s Ha Hb. induction s as [|x s IH]; [reflexivity|]. cbn [repl has]. rewrite IH. destruct (Ascii.eqb_spec x a) as [->|]; auto.
    destruct (Ascii.eqb_spec b c); [congruence|]. destruct (Ascii.eqb_spec a c); [congruence|]. reflexivity.
  Qed.
  Lemma has_repl_to : forall a b s, has a s = true -> has b (repl a b s) = true.
  Proof.
    intros a b s. induction s as [|x s IH]; intro H; [discriminate|]. cbn [repl has] in *. destruct (Ascii.eqb_spec x a) as [->|]; [now rewrite Ascii.eqb_refl|].
    cbn [orb] in H. rewrite IH by auto. apply orb_true_r.
  Qed.
  Lemma repl_len : forall a b s, String.length (repl a b s) = String.length s.
  Proof. induction s; cbn; auto. Qed.

  (** If the problem gets the text and the extension of its own generation, the directory name is an
      identifier. *)
  Theorem C68_names : (forall d, builtin d = true -> clean d = true) -> forall s p d b s', sane s ->
    generate builtin s p d true b = (s', None) -> s_reg s' p = Some (s_next s, s_next s) -> identifier d = true.
  Proof.
    intros HB s p d b s' Hs E Hr. unfold generate in E. destruct (mkdir (s_cwd s) d (rmtree (s_cwd s) d (s_fs s))) as [e|fs2] eqn:Em; [discriminate|].
    set (g := s_next s) in *. set (P := resolve (s_cwd s) d) in *. set (fs4 := put P _ (put P _ fs2)) in E.
    unfold register in E. cbn [s_fs s_cwd s_path s_mods s_reg s_next] in E.
    match type of E with context [import_solver _ ?x d] => set (s0 := x) in E end.
    (* what the files say *)
    assert (Frm : forall q n, rmtree (s_cwd s) d (s_fs s) q = Some n -> s_fs s q = Some n \/ n = NDir false None None).
    { intros q n. unfold rmtree. destruct (String.eqb d ""); [auto|]. cbv zeta. destruct (path_eqb _ q).
      - destruct (s_fs s q) as [[i a c|]|]; [|auto|discriminate]. destruct (last_dot d); [|discriminate]. intro X. injection X as <-. auto.
      - destruct (below _ q); [discriminate|auto]. }
    assert (Fmk : forall q n, fs2 q = Some n -> s_fs s q = Some n \/ n = NDir false None None).
    { assert (K : forall f : files, (forall q, f q = if path_eqb q P then Some (NDir false None None) else rmtree (s_cwd s) d (s_fs s) q) -> forall q n, f q = Some n -> s_fs s q = Some n \/ n = NDir false None None).
      { intros f Hf q n X. rewrite Hf in X. destruct (path_eqb q P); [injection X as <-; auto|apply Frm; auto]. }
      apply K. intro q. unfold mkdir in Em. destruct (String.eqb d ""); [discriminate|]. cbv zeta in Em. fold P in Em.
      assert (Z : (match P with [] => inl FileExists | _ => match removelast P, rmtree (s_cwd s) d (s_fs s) (removelast P) with
             | [], _ | _, Some (NDir _ _ _) => inr (fun q => if path_eqb q P then Some (NDir false None None) else rmtree (s_cwd s) d (s_fs s) q) | _, _ => inl FileNotFound end end) = inr fs2)
        by (destruct (rmtree (s_cwd s) d (s_fs s) P) as [[i a c|]|]; [discriminate|exact Em|exact Em]).
      destruct P as [|h t]; [discriminate|]. destruct (removelast (h :: t)) as [|h' t']; [injection Z as <-; reflexivity|].
      destruct (rmtree (s_cwd s) d (s_fs s) (h' :: t')) as [[]|]; try discriminate. injection Z as <-. reflexivity. }
    assert (Own : forall q i y e, fs4 q = Some (NDir i y e) -> (q = P /\ y = Some (g, dotted d)) \/ ((forall nm, y <> Some (g, nm)) /\ e <> Some g)).
    { intros q i y e. unfold fs4, put. destruct (path_eqb q P) eqn:Eq.
      - apply path_eqb_eq in Eq. intro X. injection X as <- <- <-. auto.
      - intro X. apply Fmk in X. destruct X as [X|X].
        + right. split; [intros nm ->; pose proof (sn_py _ Hs _ _ _ _ _ X); unfold g in *; lia|intros ->; pose proof (sn_ext _ Hs _ _ _ _ X); unfold g in *; lia].
        + injection X as -> -> ->. right. split; discriminate. }
    assert (S0 : sane s0).
    { destruct Hs as [S1 S2 S3 S4 S5 S6]. constructor; cbn [s0 s_fs s_mods s_next]; auto.
      - intros q i g' nm e X. unfold fs4, put in X. destruct (path_eqb q P); [injection X as <- <- <- <-; unfold g; lia|]. apply Fmk in X. destruct X as [X|X]; [apply S1 in X; lia|discriminate].
      - intros q i y g' X. unfold fs4, put in X. destruct (path_eqb q P); [injection X as <- <- X; destruct b; [injection X as <-; unfold g; lia|discriminate]|]. apply Fmk in X. destruct X as [X|X]; [apply S2 in X; lia|discriminate].
      - intros n a c X. apply S3 in X. lia.
      - intros n g' X. apply S4 in X. lia. }
    (* the import *)
    destruct (import_solver builtin s0 d) as [s1 [e|r]] eqn:Ei; [discriminate|]. injection E as <-. cbn [s_reg] in Hr. rewrite Nat.eqb_refl in Hr. injection Hr as ->.
    unfold import_solver in Ei. set (cs := split dot d) in *. destruct (String.eqb (hd "" cs) ""); [discriminate|].
    assert (Hold : forall a c, s_mods s0 (cs ++ ["cpg_solver"]) = Some (MSolve a c) -> a < g) by (intros a c X; exact (sn_solve _ Hs _ _ _ X)).
    destruct (s_mods s0 (cs ++ ["cpg_solver"])) as [[]|]; try discriminate.
    { injection Ei as _ -> ->. pose proof (Hold _ _ eq_refl). lia. }
    destruct (import_pkg builtin s0 [] cs None) as [sa [e|[pa| | |]]] eqn:Ea; try discriminate.
    apply (import_pkg_ok HB) in Ea; auto; [|discriminate]. destruct Ea as (Sa & Fa & Na & Xa & La). destruct (La pa eq_refl) as (Cs & qa & Epa). cbn [app] in Epa. clear La.
    destruct (s_fs sa pa) as [[i [[g' nm]|] ex|]|] eqn:Efa; try discriminate. rewrite Fa in Efa. cbn [s0 s_fs] in Efa.
    destruct (from_import builtin sa nm) as [sb [e|c]] eqn:Eb; [discriminate|]. injection Ei as _ -> ->.
    destruct (Own _ _ _ _ Efa) as [[-> En]|[X _]]; [|destruct (X nm eq_refl)]. injection En as ->.
    unfold from_import in Eb. set (cs2 := split dot (dotted d)) in *. destruct (String.eqb (hd "" cs2) ""); [discriminate|]. destruct (forallb identifier cs2) eqn:Hid; [|discriminate].
    destruct (import_pkg builtin sa [] cs2 None) as [sc [e|[pc| | |]]] eqn:Ec; try discriminate.
    apply (import_pkg_ok HB) in Ec; auto; [|discriminate]. destruct Ec as (Sc & Fc & Nc & Xc & Lc). destruct (Lc pc eq_refl) as (_ & qc & Epc). cbn [app] in Epc. clear Lc.
    assert (Hpc : pc = P).
    { assert (Ext : exists i' y', s_fs sc pc = Some (NDir i' y' (Some g))).
      { destruct (s_mods sc (cs2 ++ ["cpg_module"])) as [[| |gg|]|] eqn:Emx.
        3: { injection Eb as _ ->. apply Xc, Xa in Emx. pose proof (sn_mext _ Hs _ _ Emx). unfold g in *. lia. }
        all: destruct (s_fs sc pc) as [[i' y' [gg|]|]|]; try discriminate; injection Eb as _ ->; eauto. }
      destruct Ext as (i' & y' & X). rewrite Fc, Fa in X. cbn [s0 s_fs] in X. destruct (Own _ _ _ _ X) as [[-> _]|[_ Y]]; [auto|congruence]. }
    rewrite Hpc in Epc.
    (* no slash *)
    assert (NS : has slash d = false).
    { rewrite <- (split_has dot slash d) by discriminate. fold cs. clear -Cs. induction Cs as [|h t Hh Ht IH]; [reflexivity|]. cbn [existsb]. rewrite IH. unfold clean in Hh. destruct (has slash h); [discriminate|reflexivity]. }
    assert (EP : exists q, P = q ++ [d]).
    { unfold P, resolve. rewrite (split_none slash) by auto. unfold walk. cbn [fold_left]. destruct (String.eqb_spec d "") as [->|]; [discriminate|]. destruct (String.eqb_spec d ".") as [->|]; [discriminate|].
      destruct (String.eqb_spec d "..") as [->|]; [discriminate|]. cbn [orb]. eauto. }
    destruct EP as (q & EP).
    assert (L1 : last cs "" = d) by (rewrite EP in Epa; apply app_last_inj in Epa; destruct Epa; auto).
    assert (L2 : last cs2 "" = d) by (rewrite EP in Epc; apply app_last_inj in Epc; destruct Epc; auto).
    assert (ND : has dot d = false).
    { destruct (has dot d) eqn:X; auto. apply split_last_len in X. fold cs in X. rewrite L1 in X. lia. }
    assert (NB : has bslash d = false).
    { destruct (has bslash d) eqn:X; auto. assert (Y : has dot (dotted d) = true) by (unfold dotted; apply has_repl_to; rewrite has_repl by discriminate; exact X).
      apply split_last_len in Y. fold cs2 in Y. rewrite L2 in Y. unfold dotted in Y. rewrite !repl_len in Y. lia. }
    assert (ED : dotted d = d) by (unfold dotted; rewrite (repl_none slash) by auto; apply repl_none; auto).
    unfold cs2 in Hid. rewrite ED, (split_none dot) in Hid by auto. cbn [forallb] in Hid. now rewrite andb_true_r in Hid.
  Qed.
End Names.
Print Assumptions C68_names.

(** Generating into the current directory deletes what is in it, and then fails. *)
Theorem C68_current_directory : forall builtin s p w b i y e, s_fs s (s_cwd s) = Some (NDir i y e) ->
  exists s', generate builtin s p "." w b = (s', Some FileExists) /\ forall q, below (s_cwd s) q = true -> q <> s_cwd s -> s_fs s' q = None.
Proof.
  intros builtin s p w b i y e H. unfold generate, mkdir. cbn [String.eqb Ascii.eqb Bool.eqb].
  assert (R : resolve (s_cwd s) "." = s_cwd s) by reflexivity.
  assert (X : rmtree (s_cwd s) "." (s_fs s) (s_cwd s) = Some (NDir false None None)).
  { unfold rmtree. cbn [String.eqb Ascii.eqb Bool.eqb]. rewrite R, path_eqb_refl, H. reflexivity. }
  cbv zeta. rewrite R, X. eexists. split; [reflexivity|]. cbn [s_fs]. intros q Hq Hn. unfold rmtree. cbn [String.eqb Ascii.eqb Bool.eqb]. cbv zeta. rewrite R.
  rewrite path_eqb_neq by auto. now rewrite Hq.
Qed.
Print Assumptions C68_current_directory.

(** ** Examples and refutations *)

(** An interpreter started in /home/u, with the library directory /lib on sys.path. *)
Definition i_fs : files := fun q =>
  if path_eqb q ["home"] then Some (NDir false None None) else if path_eqb q ["home"; "u"] then Some (NDir false None None)
  else if path_eqb q ["home"; "u"; "data"] then Some (NDir false None None)
  else if path_eqb q ["lib"] then Some (NDir false None None) else if path_eqb q ["lib"; "json"] then Some (NDir true None None) else None.
Definition i_mods (n : list string) : option modl := if path_eqb n ["json"] then Some (MPkg ["lib"; "json"]) else None.
Definition i_builtin (d : string) : bool := String.eqb d "sys".
Definition i_st : st := mkSt i_fs ["home"; "u"] [["lib"]] i_mods (fun _ => None) 0.
Definition i_run (os : list op) : list (option (nat * nat)) * list (option ierr) := let (s, es) := run i_builtin i_st os in (map (s_reg s) [0; 1; 2], es).

Lemma i_unused : forall d, identifier d = true -> d <> "json" -> d <> "sys" -> unused i_builtin i_st d.
Proof.
  intros d H1 H2 H3. split; auto. split; [unfold i_builtin; apply String.eqb_neq; auto|]. cbn [i_st s_mods s_cwd s_path s_fs]. unfold i_mods.
  cbn [path_eqb]. rewrite (proj2 (String.eqb_neq _ _) H2). cbn [andb]. split; [reflexivity|]. split; [reflexivity|]. split; [reflexivity|]. intro X. discriminate X.
Qed.
Lemma i_sane : sane i_st.
Proof.
  constructor; cbn [i_st s_fs s_mods s_next].
  - intros p i g nm e. unfold i_fs. repeat (destruct (path_eqb _ _); [discriminate|]). discriminate.
  - intros p i y g. unfold i_fs. repeat (destruct (path_eqb _ _); [discriminate|]). discriminate.
  - intros n a b. unfold i_mods. destruct (path_eqb _ _); discriminate.
  - intros n g. unfold i_mods. destruct (path_eqb _ _); discriminate.
  - intros n m. unfold i_mods. destruct (path_eqb n ["json"]) eqn:E; [|discriminate]. apply path_eqb_eq in E. subst n. intros _. repeat constructor.
  - intros n p. unfold i_mods. destruct (path_eqb n ["json"]) eqn:E; [|discriminate]. apply path_eqb_eq in E. subst n. intro X. injection X as <-. exists ["lib"]. reflexivity.
Qed.
(** Two problems in two directories, one of them generated again for a third problem after a failed compilation. *)
Example C68_example : here i_st
  /\ Forall (stays i_builtin i_st) [Gen 0 "cpg_a" true true; Gen 1 "cpg_b" true false; Gen 1 "cpg_b" true true; Chdir ["home"; "u"]; Gen 2 "cpg_a" false true]
  /\ i_run [Gen 0 "cpg_a" true true; Gen 1 "cpg_b" true false; Gen 1 "cpg_b" true true; Chdir ["home"; "u"]; Gen 2 "cpg_a" false true]
     = ([Some (0, 0); Some (2, 2); None], [None; Some ImportFailed; None; None; None]).
Proof.
  split; [right; repeat eexists|]. split; [|vm_compute; reflexivity].
  repeat (apply Forall_cons; [first [reflexivity|apply i_unused; [reflexivity|discriminate|discriminate]]|]). apply Forall_nil.
Qed.
(** The default directory used twice: the second problem is solved with the code of the first one, even if its own
    code does not compile. *)
Theorem C68_same_directory_refuted : exists s os, here s /\ Forall (stays i_builtin s) os
  /\ os = [Gen 0 "cpg_code" true true; Gen 1 "cpg_code" true false] /\ snd (run i_builtin s os) = [None; None]
  /\ s_reg (fst (run i_builtin s os)) 1 = Some (0, 0).
Proof.
  exists i_st. eexists. split; [right; repeat eexists|]. split; [|split; [reflexivity|split; vm_compute; reflexivity]].
  repeat (apply Forall_cons; [apply i_unused; [reflexivity|discriminate|discriminate]|]). apply Forall_nil.
Qed.
Print Assumptions C68_same_directory_refuted.
(** After a change of directory the same name still means the old code. *)
Theorem C68_other_directory_refuted : exists s os, os = [Gen 0 "cpg_code" true true; Chdir ["home"]; Gen 1 "cpg_code" true true]
  /\ snd (run i_builtin s os) = [None; None; None] /\ s_reg (fst (run i_builtin s os)) 1 = Some (0, 0).
Proof. exists i_st. eexists. split; [reflexivity|]. split; vm_compute; reflexivity. Qed.
Print Assumptions C68_other_directory_refuted.
(** Directory names that are not identifiers: the code is written (and would compile), then the call
    fails.  The module of a subdirectory could be imported under the name its text uses. *)
Theorem C68_names_refuted :
  Forall (fun '(d, e) => snd (i_run [Gen 0 d true true]) = [Some e]
            /\ exists s', fst (run i_builtin i_st [Gen 0 d true true]) = s' /\ s_fs s' (resolve ["home"; "u"] d) <> None)
    [("data/code", ModuleNotFound); ("./code", TypeFailed); ("/home/code", ModuleNotFound); ("my-code", SyntaxFailed); ("v1.0", ModuleNotFound); ("2nd", SyntaxFailed);
     ("code/", ModuleNotFound); ("class", SyntaxFailed); ("json", ModuleNotFound)]
  /\ sane i_st.
Proof.
  split; [|exact i_sane]. repeat (apply Forall_cons; [split; [vm_compute; reflexivity|eexists; split; [reflexivity|vm_compute; discriminate]]|]). apply Forall_nil.
Qed.
Print Assumptions C68_names_refuted.
(** The hypotheses of C68_names are met by a generation that succeeds. *)
Example C68_names_example : sane i_st /\ (forall d, i_builtin d = true -> clean d = true)
  /\ exists s', generate i_builtin i_st 0 "cpg_code" true true = (s', None) /\ s_reg s' 0 = Some (s_next i_st, s_next i_st).
Proof.
  split; [exact i_sane|]. split; [intros d H; apply String.eqb_eq in H; subst d; reflexivity|]. eexists. split; [vm_compute; reflexivity|vm_compute; reflexivity].
Qed.
(** Deleting the current directory's content: the directory data disappears. *)
Example C68_dot_example : s_fs i_st ["home"; "u"; "data"] <> None
  /\ s_fs (fst (run i_builtin i_st [Gen 0 "." true true])) ["home"; "u"; "data"] = None /\ snd (i_run [Gen 0 "." true true]) = [Some FileExists].
Proof. split; [vm_compute; discriminate|]. split; vm_compute; reflexivity. Qed.
