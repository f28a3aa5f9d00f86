(** Properties of result retrieval: C19-C23. *)

From Coq Require Import String Arith Bool Lia List ZArith.
From Verif Require Import Base Pus Retrieve RetrieveProofs.
Import ListNotations.
Open Scope list_scope.

(** ** C19 *)

(** What the solver libraries answer: OSQP and SCS one vector y for all rows, Clarabel one
    vector z, ECOS and QOCO y for the equality rows and z for the rows of G. *)
Inductive api := OneVec (v : string) | TwoVecs (v_eq v_ineq : string).
Definition solver_api (s : solver) : api :=
  match s with
  | OSQP | SCS _ => OneVec "y"
  | CLARABEL _ => OneVec "z"
  | ECOS | QOCO _ | QOCOGEN _ => TwoVecs "y" "z"
  end.
Definition split_api (s : solver) : Prop := match solver_api s with OneVec _ => False | TwoVecs _ _ => True end.
Definition api_vec (s : solver) (v : string) : Prop :=
  match solver_api s with OneVec a => v = a | TwoVecs a b => v = a \/ v = b end.
(** The solver's vector(s) are the canonical duals one after the other. *)
Definition answered {K} (s : solver) (eqs neqs : list (nat * nat)) (dl : nat -> list K) (vecs : string -> list K) : Prop :=
  let all l := concat (map (fun e : nat * nat => dl (fst e)) l) in
  match solver_api s with
  | OneVec v => vecs v = all (eqs ++ neqs)
  | TwoVecs v w => vecs v = all eqs /\ vecs w = all neqs
  end.
Lemma split_iff : forall s, split_api s <-> dual_split s = true.
Proof. intros [|?| |?|?|?]; unfold split_api; simpl; intuition discriminate. Qed.
Lemma answered_in : forall (K : Type) s eqs neqs (dl : nat -> list K) vecs, answered s eqs neqs dl vecs <-> duals_in K s eqs neqs dl vecs.
Proof. intros K s eqs neqs dl vecs. unfold answered, duals_in, cat. destruct s; simpl; tauto. Qed.
Lemma api_vec_iff : forall s v, api_vec s v <-> v = dual_vec0 s \/ (dual_split s = true /\ v = dual_vec1 s).
Proof. intros [|?| |?|?|?] v; unfold api_vec; simpl; unfold dual_vec1; intuition discriminate. Qed.

(** The duals stored for the user constraints are exactly the duals of their canonical
    constraints, whatever the result cells held before. *)
Theorem C19_duals_reach_their_constraint :
  forall (K : Type) (s : solver) (eqs neqs m : list (nat * nat)) (rest : list (list (nat * nat)))
         (dl : nat -> list K) (st : rstate K),
  NoDup (map fst (eqs ++ neqs)) ->
  (forall u, In u (map fst m) -> exists c, chase rest u = Ok c /\ In c (map fst (eqs ++ neqs))) ->
  (forall i z, In (i, z) (eqs ++ neqs) -> length (dl i) = z) ->
  (split_api s -> neqs <> [] \/ eqs ++ neqs = []) ->
  answered s eqs neqs dl (r_vecs st) ->
  exists cs ds, mapM (chase rest) (map fst m) = Ok cs
    /\ dual_info (dual_split s) (dual_vec0 s) (dual_vec1 s) eqs neqs (m :: rest) = Ok ds
    /\ dual_results s ds st = Ok (map dl cs).
Proof. intros K s eqs neqs m rest dl st HN HC HL HS HD. apply answered_in in HD. eapply dual_ok; eauto. intro E. apply HS, split_iff, E. Qed.
Print Assumptions C19_duals_reach_their_constraint.

(** Slices: [i]-th user constraint with canonical constraint [c]. *)
Theorem C19_slices :
  forall (K : Type) (s : solver) (eqs neqs m : list (nat * nat)) (rest : list (list (nat * nat)))
         (dl : nat -> list K) (vecs : string -> list K),
  NoDup (map fst (eqs ++ neqs)) ->
  (forall u, In u (map fst m) -> exists c, chase rest u = Ok c /\ In c (map fst (eqs ++ neqs))) ->
  (forall i z, In (i, z) (eqs ++ neqs) -> length (dl i) = z) ->
  (split_api s -> neqs <> [] \/ eqs ++ neqs = []) ->
  answered s eqs neqs dl vecs ->
  exists cs ds, mapM (chase rest) (map fst m) = Ok cs
    /\ dual_info (dual_split s) (dual_vec0 s) (dual_vec1 s) eqs neqs (m :: rest) = Ok ds
    /\ length ds = length cs
    (* in range *)
    /\ (forall d, In d ds -> di_off d + di_size d <= length (vecs (di_vec d)))
    (* disjoint *)
    /\ (forall i j ci cj di dj, nth_error cs i = Some ci -> nth_error cs j = Some cj -> ci <> cj ->
          nth_error ds i = Some di -> nth_error ds j = Some dj -> di_vec di = di_vec dj ->
          di_off di + di_size di <= di_off dj \/ di_off dj + di_size dj <= di_off di)
    (* covering, when every canonical constraint comes from a user constraint *)
    /\ ((forall c, In c (map fst (eqs ++ neqs)) -> In c cs) ->
        forall v k, api_vec s v -> k < length (vecs v) ->
        exists d, In d ds /\ di_vec d = v /\ di_off d <= k < di_off d + di_size d).
Proof.
  intros K s eqs neqs m rest dl vecs HN HC HL HS' HD. apply answered_in in HD.
  assert (HS : dual_split s = true -> neqs <> [] \/ eqs ++ neqs = []) by (intro E; apply HS', split_iff, E).
  destruct (dual_info_ok K s eqs neqs m rest dl HN HC HL HS) as (cs & ds & E1 & E2 & HF & _ & _).
  exists cs, ds. split; auto. split; auto. split; [symmetry; eapply Forall2_length; eauto|].
  assert (Hv : dual_split s = true -> dual_vec0 s <> dual_vec1 s).
  { destruct s as [|?| |?|?|?]; simpl; intro; try discriminate. }
  assert (Hnth : forall i c d, nth_error cs i = Some c -> nth_error ds i = Some d ->
                               placed K s eqs neqs dl c (di_vec d) (di_off d) (di_size d)).
  { intros i c d Hc Hd. destruct (Forall2_nth _ _ _ _ _ i c HF Hc) as (d' & H1 & H2). congruence. }
  split; [|split].
  - intros d Hd. apply In_nth_error in Hd. destruct Hd as (i & Hi).
    destruct (nth_error cs i) as [c|] eqn:Ec.
    + apply (placed_reads K s eqs neqs dl HL vecs c); eauto.
    + apply nth_error_None in Ec. rewrite (Forall2_length HF) in Ec.
      assert (i < length ds) by (apply nth_error_Some; congruence). lia.
  - intros i j ci cj di dj Hci Hcj Hne Hdi Hdj Hvec.
    apply (placed_disjoint K s eqs neqs dl HN ci cj (di_vec di)); auto.
    + eapply Hnth; eauto.
    + rewrite Hvec. eapply Hnth; eauto.
  - intros Hall v k Hvv Hk. apply api_vec_iff in Hvv.
    destruct (placed_cover K s eqs neqs dl HN HL vecs v k HD Hvv Hk) as (c & o & z & H1 & H2 & H3).
    apply Hall in H1. apply In_nth_error in H1. destruct H1 as (i & Hi).
    destruct (Forall2_nth _ _ _ _ _ i c HF Hi) as (d & Hd & Hp).
    exists d. split; [eapply nth_error_In; eauto|].
    destruct H2 as [L2 P2], Hp as [L P]. rewrite map_app in HN. destruct (dual_split s).
    + assert (D : forall a, In a (map fst eqs) -> In a (map fst neqs) -> False).
      { clear - HN. intros a H1 H2. induction (map fst eqs) as [|b l IH]; [destruct H1|].
        inversion HN; subst. destruct H1 as [->|H1]; auto. apply H3. apply in_or_app; auto. }
      destruct P2 as [(A0 & A1 & A2 & A3)|(A0 & A1 & A2 & A3)], P as [(B0 & B1 & B2 & B3)|(B0 & B1 & B2 & B3)];
        try (exfalso; eapply D; eauto; fail).
      * rewrite A2 in B2. rewrite A3 in B3. injection B2 as B2. injection B3 as B3. split; [congruence|lia].
      * rewrite A2 in B2. rewrite A3 in B3. injection B2 as B2. injection B3 as B3. split; [congruence|lia].
    + destruct P2 as (A1 & A2 & A3), P as (B1 & B2 & B3).
      rewrite A2 in B2. rewrite A3 in B3. injection B2 as B2. injection B3 as B3. split; [congruence|lia].
Qed.
Print Assumptions C19_slices.

(** Four canonical constraints, two of them equalities; user order 7, 5, 6, 8 with one
    renaming map; ECOS (split, copied duals) and OSQP (one vector, pointers). *)
Definition c19_eqs := [(5, 2); (6, 1)].
Definition c19_neqs := [(17, 3); (8, 1)].
Definition c19_m := [(7, 7); (5, 5); (6, 6); (8, 8)].
Definition c19_rest := [[(5, 5); (6, 6); (7, 17); (8, 8)]].
Definition c19_dl (c : nat) : list Z :=
  match c with 5 => [50; 51]%Z | 6 => [60]%Z | 17 => [170; 171; 172]%Z | _ => [80]%Z end.
Definition c19_vecs (s : solver) (v : string) : list Z :=
  if match solver_api s with TwoVecs _ _ => true | _ => false end then (if String.eqb v "y" then [50; 51; 60] else [170; 171; 172; 80])%Z
  else [50; 51; 60; 170; 171; 172; 80]%Z.
Definition c19_run (s : solver) : res (list (list Z)) :=
  ds <- dual_info (dual_split s) (dual_vec0 s) (dual_vec1 s) c19_eqs c19_neqs (c19_m :: c19_rest);;
  dual_results s ds (mkRS (fun _ _ => 9%Z) (c19_vecs s)).
Example C19_example :
  c19_run ECOS = Ok [[170; 171; 172]; [50; 51]; [60]; [80]]%Z /\ c19_run OSQP = c19_run ECOS
  /\ answered ECOS c19_eqs c19_neqs c19_dl (c19_vecs ECOS)
  /\ answered OSQP c19_eqs c19_neqs c19_dl (c19_vecs OSQP)
  /\ NoDup (map fst (c19_eqs ++ c19_neqs))
  /\ (forall u, In u (map fst c19_m) -> exists c, chase c19_rest u = Ok c /\ In c (map fst (c19_eqs ++ c19_neqs)))
  /\ (forall i z, In (i, z) (c19_eqs ++ c19_neqs) -> length (c19_dl i) = z).
Proof.
  split; [vm_compute; reflexivity|]. split; [vm_compute; reflexivity|]. split; [vm_compute; auto|].
  split; [vm_compute; auto|]. split; [|split].
  - simpl. repeat (constructor; [simpl; intuition discriminate|]). constructor.
  - simpl. intros u Hu. intuition subst; eexists; (split; [vm_compute; reflexivity|simpl; auto]).
  - simpl. intros i z H. intuition; match goal with H : (_, _) = (_, _) |- _ => injection H as <- <- end; reflexivity.
Qed.

(** ** C20 *)

(** Dual bookkeeping succeeds exactly when duals are not split, or there is a
    non-equality canonical constraint, or there is no canonical constraint; otherwise it
    raises IndexError. *)
Theorem C20_dual_bookkeeping :
  forall (K : Type) (s : solver) (eqs neqs m : list (nat * nat)) (rest : list (list (nat * nat))) (dl : nat -> list K),
  NoDup (map fst (eqs ++ neqs)) ->
  (forall u, In u (map fst m) -> exists c, chase rest u = Ok c /\ In c (map fst (eqs ++ neqs))) ->
  (forall i z, In (i, z) (eqs ++ neqs) -> length (dl i) = z) ->
  ((split_api s -> neqs <> [] \/ eqs ++ neqs = []) ->
     exists ds, dual_info (dual_split s) (dual_vec0 s) (dual_vec1 s) eqs neqs (m :: rest) = Ok ds)
  /\ (split_api s -> neqs = [] -> eqs <> [] ->
     dual_info (dual_split s) (dual_vec0 s) (dual_vec1 s) eqs neqs (m :: rest) = Err IndexError).
Proof.
  intros K s eqs neqs m rest dl HN HC HL. split.
  - intro HS'. assert (HS : dual_split s = true -> neqs <> [] \/ eqs ++ neqs = []) by (intro E; apply HS', split_iff, E).
    destruct (dual_info_ok K s eqs neqs m rest dl HN HC HL HS) as (cs & ds & _ & E & _). eauto.
  - intros HS H1 H2. apply split_iff in HS. eapply dual_crash; eauto.
Qed.
Print Assumptions C20_dual_bookkeeping.

(** A problem with one equality constraint (and nothing else) cannot be generated with
    ECOS, QOCO or QOCOGEN. *)
Theorem C20_equality_only_refuted : exists s eqs m rest,
  split_api s
  /\ (forall u, In u (map fst m) -> exists c, chase rest u = Ok c /\ In c (map fst eqs))
  /\ dual_info (dual_split s) (dual_vec0 s) (dual_vec1 s) eqs [] (m :: rest) = Err IndexError.
Proof.
  exists ECOS, [(4, 3)], [(4, 4)], [[(4, 4)]]. split; [exact I|]. split; [|vm_compute; reflexivity].
  intros u [<-|[]]. exists 4. split; [reflexivity|left; reflexivity].
Qed.
Print Assumptions C20_equality_only_refuted.

Example C20_example :
  dual_info true "y" "z" [] [(4, 3)] [[(4, 4)]] = Ok [mkDI 0 "z" 0 3]
  /\ dual_info true "y" "z" [] [] [[]] = Ok [].
Proof. vm_compute. auto. Qed.

(** ** C21 *)

(** The solver's solution consists of one block [blk id] per variable of the reduced
    problem.  After a solve, whatever the result cells held before, Python stores for
    each user variable the entries of its own block: entry [idx] of a non-symmetric
    variable is block entry [fpos shape idx] (column-major), see [var_value]. *)
Theorem C21_primal_variables :
  forall (K : Type) (k0 : K) (s : solver) (red : list (nat * nat)) (us : list uvar) (blk : nat -> list K) (st : rstate K),
  vars_ok red us -> (forall i z, In (i, z) red -> length (blk i) = z) ->
  r_vecs st "x" = concat (map (fun e => blk (fst e)) red) ->
  exists ps rs, prim_info red us = Ok ps /\ primal_results k0 s ps st = Ok rs
    /\ Forall2 (fun u r => fst r = uv_name u /\ var_value k0 u (blk (uv_id u)) (snd r)) us rs.
Proof. intros K k0 s red us blk st HV HB Hx. eapply primal_ok; eauto. Qed.
Print Assumptions C21_primal_variables.

(** Entries read for different variables do not overlap. *)
Theorem C21_slices_disjoint :
  forall (red : list (nat * nat)) (us : list uvar) ps,
  vars_ok red us -> NoDup (map fst red) -> NoDup (map uv_id us) -> prim_info red us = Ok ps ->
  forall i j p q k, i <> j -> nth_error ps i = Some p -> nth_error ps j = Some q ->
  In k (pi_idx p) -> ~ In k (pi_idx q).
Proof. exact prim_disjoint. Qed.
Print Assumptions C21_slices_disjoint.

(** A matrix, a symmetric matrix and a scalar; reduced order differs from user order and
    contains an auxiliary variable. *)
Definition c21_us := [mkUV "M" 1 [2; 3] false; mkUV "S" 2 [2; 2] true; mkUV "t" 3 [] false].
Definition c21_red := [(9, 2); (3, 1); (1, 6); (2, 3)].
Definition c21_blk (i : nat) : list Z :=
  match i with 1 => [11; 12; 13; 14; 15; 16]%Z | 2 => [21; 22; 23]%Z | 3 => [31]%Z | _ => [91; 92]%Z end.
Definition c21_run (s : solver) : res (list (string * list Z)) :=
  ps <- prim_info c21_red c21_us;;
  rs <- primal_results 0%Z s ps (mkRS (fun _ _ => 7%Z) (fun _ => concat (map (fun e => c21_blk (fst e)) c21_red)));;
  Ok (map (fun '(u, r) => (fst r, flattenF (uv_shape u) (snd r))) (combine c21_us rs)).
Example C21_example :
  c21_run ECOS = Ok [("M"%string, [11; 12; 13; 14; 15; 16]); ("S"%string, [21; 22; 22; 23]); ("t"%string, [31])]%Z
  /\ c21_run OSQP = c21_run ECOS
  /\ vars_ok c21_red c21_us /\ NoDup (map fst c21_red) /\ NoDup (map uv_id c21_us)
  /\ (forall i z, In (i, z) c21_red -> length (c21_blk i) = z).
Proof.
  split; [vm_compute; reflexivity|]. split; [vm_compute; reflexivity|]. split; [|split; [|split]].
  - constructor.
    + simpl. repeat (constructor; [simpl; intuition discriminate|]). constructor.
    + simpl. intros u Hu. intuition subst; reflexivity.
    + simpl. intros u [<-|[<-|[<-|[]]]] E; try discriminate. exists 2. reflexivity.
  - simpl. repeat (constructor; [simpl; intuition discriminate|]). constructor.
  - simpl. repeat (constructor; [simpl; intuition discriminate|]). constructor.
  - simpl. intros i z H. intuition; match goal with H : (_, _) = (_, _) |- _ => injection H as <- <- end; reflexivity.
Qed.

(** ** C22 *)

(** Consequences of [var_value] for symmetric variables: the stored matrix is symmetric,
    every entry is the packed entry of its pair, and every packed entry is used.
    [upper n] lists the pairs (i,j), i<=j<n, row by row. *)
Theorem C22_symmetric_variables :
  forall (K : Type) (k0 : K) (s : solver) (red : list (nat * nat)) (us : list uvar) (blk : nat -> list K) (st : rstate K),
  vars_ok red us -> (forall i z, In (i, z) red -> length (blk i) = z) ->
  r_vecs st "x" = concat (map (fun e => blk (fst e)) red) ->
  exists ps rs, prim_info red us = Ok ps /\ primal_results k0 s ps st = Ok rs
    /\ Forall2 (fun u r => forall n, uv_sym u = true -> uv_shape u = [n; n] ->
         (forall i j, i < n -> j < n -> snd r [i; j] = snd r [j; i])
         /\ (forall i j p, i <= j < n -> nth_error (upper n) p = Some (i, j) -> snd r [i; j] = nth p (blk (uv_id u)) k0)
         /\ (forall p, p < length (blk (uv_id u)) -> exists i j, i <= j < n /\ snd r [i; j] = nth p (blk (uv_id u)) k0)) us rs.
Proof.
  intros K k0 s red us blk st HV HB Hx.
  destruct (primal_ok K k0 s red us blk HV HB st Hx) as (ps & rs & E1 & E2 & HF).
  exists ps, rs. split; auto. split; auto.
  assert (Hsz : forall u, In u us -> uv_sym u = true -> forall n, uv_shape u = [n; n] ->
                          length (blk (uv_id u)) = length (upper n)).
  { intros u Hu Hs n Hn. pose proof (vo_size _ _ HV u Hu) as Hl. apply lookup_in in Hl. apply HB in Hl.
    rewrite Hl. unfold packed_size. rewrite Hs, Hn. auto. }
  clear - HF Hsz. induction HF as [|u r us rs [_ H] HF IH]; constructor.
  - intros n Hs Hn. unfold var_value in H. rewrite Hs in H. specialize (H n Hn).
    assert (Hpair : forall i j p, i <= j < n -> nth_error (upper n) p = Some (i, j) ->
                                  snd r [i; j] = nth p (blk (uv_id u)) k0).
    { intros i j p Hij Hp. apply H; try lia. rewrite Nat.min_l, Nat.max_r by lia. auto. }
    split; [|split; auto].
    + intros i j Hi Hj. destruct (upper_pos n i j Hi Hj) as (p & Hp & _).
      rewrite (H i j p) by auto. rewrite (H j i p); auto. rewrite Nat.min_comm, Nat.max_comm. auto.
    + intros p Hp. rewrite (Hsz u (or_introl eq_refl) Hs n Hn) in Hp.
      destruct (nth_error (upper n) p) as [[i j]|] eqn:E; [|apply nth_error_None in E; lia].
      pose proof (nth_error_In _ _ E) as Hin. apply in_upper in Hin. exists i, j. auto.
  - apply IH. intros; eapply Hsz; eauto. right; auto.
Qed.
Print Assumptions C22_symmetric_variables.

(** The packed length is n(n+1)/2. *)
Theorem C22_packed_length : forall n, 2 * length (upper n) = n * (n + 1).
Proof. exact upper_length. Qed.
Print Assumptions C22_packed_length.

Example C22_example : upper 3 = [(0, 0); (0, 1); (0, 2); (1, 1); (1, 2); (2, 2)]
  /\ nonzero_cols 9 (tri_entries 3) = [0; 1; 2; 1; 3; 4; 2; 4; 5].
Proof. vm_compute. auto. Qed.

(** ** C23 *)

(** Any number of dimensions.  [in_shape]: valid multi-indices. *)
Theorem C23_reshape_after_flatten :
  forall (A : Type) (d : A) shape a, exists b,
  reshapeF d shape (flattenF shape a) = Ok b /\ forall idx, in_shape shape idx -> b idx = a idx.
Proof. exact reshape_flatten. Qed.
Print Assumptions C23_reshape_after_flatten.

Theorem C23_flatten_after_reshape :
  forall (A : Type) (d : A) shape l,
  (length l = fsize shape -> exists b, reshapeF d shape l = Ok b /\ flattenF shape b = l)
  /\ (length l <> fsize shape -> reshapeF d shape l = Err ValueError).
Proof.
  intros A d shape l. split; intro H.
  - assert (E : exists b, reshapeF d shape l = Ok b).
    { unfold reshapeF. apply Nat.eqb_eq in H. rewrite H. eauto. }
    destruct E as (b & E). exists b. split; auto. eapply flatten_reshape; eauto.
  - unfold reshapeF. apply Nat.eqb_neq in H. rewrite H. auto.
Qed.
Print Assumptions C23_flatten_after_reshape.

(** Entry (i,j) of an h x w matrix sits at position i + j*h, for every flat position
    there is exactly one entry. *)
Theorem C23_position :
  forall (A : Type) h w (a : list nat -> A) i j, i < h -> j < w ->
  nth_error (flattenF [h; w] a) (i + j * h) = Some (a [i; j])
  /\ forall i' j', i' < h -> j' < w -> i' + j' * h = i + j * h -> i' = i /\ j' = j.
Proof.
  intros A h w a i j Hi Hj. split.
  - unfold flattenF. replace (i + j * h) with (fpos [h; w] [i; j]) by (simpl; lia).
    apply map_nth_error. apply nth_fidx. repeat constructor; auto.
  - intros i' j' Hi' Hj' E. assert (j' = j) by nia. subst. split; lia.
Qed.
Print Assumptions C23_position.

Example C23_example : flattenF [2; 3] (fun idx => idx) = [[0; 0]; [1; 0]; [0; 1]; [1; 1]; [0; 2]; [1; 2]].
Proof. reflexivity. Qed.
