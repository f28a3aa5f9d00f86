(** Properties C37-C40 and C43: the sparse factor and its updates. *)

From Coq Require Import Arith Bool ZArith Lia List Sorted QArith Qcanon.
From Verif Require Import Base Machine Sparse SparseProofs Ldl LdlRank1 LdlProofs GradSpec LdlMain FactorProofs Gradient GradKkt Qdldl GradSolve MaskProofs.
Import ListNotations.
Local Open Scope nat_scope.

(** Concrete numbers for the examples. *)
Definition qz (z : Z) : QcFld := Q2Qc (inject_Z z).
Definition qd (a : Z) (b : positive) : QcFld := Q2Qc (a # b).
Definition lt_list (l : list nat) : bool := (fix go (l : list nat) := match l with a :: ((b :: _) as t) => Nat.ltb a b && go t | _ => true end) l.
Lemma lt_list_ok : forall l, lt_list l = true -> StronglySorted lt l.
Proof.
  intros l H. apply Sorted_StronglySorted; [intros x y z; lia|]. induction l as [|a l IH]; constructor.
  - apply IH. destruct l; auto. simpl in H. apply andb_prop in H. apply H.
  - destruct l as [|b l]; constructor. simpl in H. apply andb_prop in H. destruct H as [H _]. apply Nat.ltb_lt in H. auto.
Qed.
(** Decision procedures: bounded statements about concrete arrays by computation. *)
Definition allb (N : nat) (f : nat -> bool) : bool := forallb f (seq 0 N).
Lemma allb_ok : forall N f, allb N f = true -> forall k, k < N -> f k = true.
Proof. intros N f H k Hk. unfold allb in H. rewrite forallb_forall in H. apply H. apply in_seq. lia. Qed.
Definition csc_okb {K} (N : nat) (M : csc K) : bool :=
  Nat.eqb (length (c_p M)) (S N) && Nat.eqb (cptr M 0) 0 && allb N (fun j => Nat.leb (cptr M j) (cptr M (S j)))
  && Nat.eqb (c_n M) (cptr M N) && Nat.eqb (length (c_x M)) (length (c_i M)) && Nat.leb (c_n M) (length (c_i M))
  && allb N (fun j => lt_list (rows M j)).
Lemma csc_okb_ok : forall K N (M : csc K), csc_okb N M = true -> csc_ok N M.
Proof.
  intros K N M H. unfold csc_okb in H. repeat (apply andb_prop in H; destruct H as [H ?]).
  constructor.
  - apply Nat.eqb_eq; auto.
  - apply Nat.eqb_eq; auto.
  - intros j Hj. apply Nat.leb_le. apply (allb_ok N _ H4 j Hj).
  - apply Nat.eqb_eq; auto.
  - apply Nat.eqb_eq; auto.
  - apply Nat.leb_le; auto.
  - intros j Hj. apply lt_list_ok. apply (allb_ok N _ H0 j Hj).
Qed.
Definition lower_patb {K} (N : nat) (L : csc K) : bool := allb N (fun j => forallb (fun i => Nat.ltb j i && Nat.ltb i N) (rows L j)).
Lemma lower_patb_ok : forall (F : Ring) N (L : csc F), lower_patb N L = true -> lower_pat F N L.
Proof.
  intros F N L H j i Hj Hi. pose proof (allb_ok N _ H j Hj) as G. cbv beta in G. rewrite forallb_forall in G. specialize (G i Hi).
  apply andb_prop in G. rewrite !Nat.ltb_lt in G. auto.
Qed.
Definition closed_patb {K} (N : nat) (L : csc K) : bool :=
  allb N (fun j => forallb (fun i => forallb (fun k => negb (Nat.ltb i k) || existsb (Nat.eqb k) (rows L i)) (rows L j)) (rows L j)).
Lemma in_existsb : forall k l, existsb (Nat.eqb k) l = true -> In k l.
Proof. intros k l H. apply existsb_exists in H. destruct H as (x & Hx & E). apply Nat.eqb_eq in E. subst; auto. Qed.
Lemma closed_patb_ok : forall (F : Fld) N (L : csc F), closed_patb N L = true -> closed_pat F N L.
Proof.
  intros F N L H j i k Hj Hi Hk Hlt. pose proof (allb_ok N _ H j Hj) as G. cbv beta in G. rewrite forallb_forall in G. specialize (G i Hi).
  rewrite forallb_forall in G. specialize (G k Hk). apply Nat.ltb_lt in Hlt. rewrite Hlt in G. apply in_existsb. auto.
Qed.

(** ** C37 *)
(** If the modification vector is nonzero in rows p < q past the offset only where the factor
    has an entry (q, p), and the factor's pattern is closed under elimination, cpg_rank_1_update
    either stops at a division by zero or factors the modified matrix, in the same pattern and
    with columns before the offset unchanged. *)
Theorem C37_rank_one_update : forall (F : Fld) (N : nat) (sigma : F) (off : nat) (L : csc F) (D Dinv w : list F),
  off <= N -> csc_ok N L -> lower_pat F N L -> closed_pat F N L -> length D = N -> length Dinv = N -> length w = N ->
  (forall k, k < N -> (nth k Dinv n0 * nth k D n0)%num = n1) ->
  (forall p q, off <= p -> p < q -> q < N -> nth p w n0 <> n0 -> nth q w n0 <> n0 -> In q (rows L p)) ->
  match rank1 F N sigma off L D Dinv w with
  | Err e => e = Arith
  | Ok (L', D', Dinv', _) =>
      csc_ok N L' /\ (forall j, j < N -> rows L' j = rows L j)
      /\ (forall k, k < N -> (nth k Dinv' n0 * nth k D' n0)%num = n1)
      /\ (forall k, k < off -> nth k D' n0 = nth k D n0 /\ forall i, entry L' i k = entry L i k)
      /\ (forall p q, p < N -> q < N ->
           ldlt N L' D' p q = (ldlt N L D p q + (if Nat.leb off p && Nat.leb off q then sigma * nth p w n0 * nth q w n0 else n0))%num)
  end.
Proof.
  intros F N sigma off L D Dinv w H1 H2 H3 H4 H5 H6 H7 H8 H9.
  pose proof (rank1_array F N sigma off L D Dinv w H1 H2 H3 H4 H5 H6 H7 H8 H9) as H.
  destruct (rank1 F N sigma off L D Dinv w) as [[[[L' D'] Dinv'] w']|e]; cbn [run] in H; auto.
  destruct H as (A1 & A2 & _ & _ & A3 & A4 & A5). auto.
Qed.
Print Assumptions C37_rank_one_update.

(** Without the entries for the fill-in the result is wrong: no entries, w = (1, 1), sigma = 1,
    identity diagonal.  The update gives a diagonal matrix, the modified one has 1 off it. *)
Theorem C37_without_fill_in_refuted : exists (L : csc QcFld) (D Dinv w : list QcFld),
  csc_ok 2 L /\ lower_pat QcFld 2 L /\ closed_pat QcFld 2 L /\ length D = 2 /\ length Dinv = 2 /\ length w = 2
  /\ (forall k, k < 2 -> (nth k Dinv n0 * nth k D n0)%num = n1)
  /\ exists L' D' Dinv' w', rank1 QcFld 2 n1 0 L D Dinv w = Ok (L', D', Dinv', w')
  /\ ldlt 2 L' D' 1 0 <> (ldlt 2 L D 1 0 + n1 * nth 1 w n0 * nth 0 w n0)%num.
Proof.
  exists (mkCsc [0; 0; 0] [] [] 0), [qz 1; qz 1], [qz 1; qz 1], [qz 1; qz 1].
  split; [apply csc_okb_ok; reflexivity|]. split; [apply lower_patb_ok; reflexivity|]. split; [apply closed_patb_ok; reflexivity|].
  do 3 (split; [reflexivity|]). split.
  - intros k Hk. destruct k as [|[|k]]; [vm_compute; reflexivity|vm_compute; reflexivity|lia].
  - do 4 eexists. split; [vm_compute; reflexivity|]. vm_compute. discriminate.
Qed.
Print Assumptions C37_without_fill_in_refuted.

(** A 3 x 3 factor, w = (1, 2, -1), sigma = -1: no zero pivot. *)
Definition ex_L3 : csc QcFld := mkCsc [0; 2; 3; 3] [1; 2; 2] [qz 2; qz 3; qz 1] 3.
Example C37_example :
  csc_ok 3 ex_L3 /\ lower_pat QcFld 3 ex_L3 /\ closed_pat QcFld 3 ex_L3
  /\ (forall k, k < 3 -> (nth k [qd 1 2; qz (-1); qz 1] n0 * nth k [qz 2; qz (-1); qz 1] n0)%num = (n1 : QcFld))
  /\ (forall p q, 0 <= p -> p < q -> q < 3 -> In q (rows ex_L3 p))
  /\ is_ok (rank1 QcFld 3 (qz (-1)) 0 ex_L3 [qz 2; qz (-1); qz 1] [qd 1 2; qz (-1); qz 1] [qz 1; qz 2; qz (-1)]) = true.
Proof.
  split; [apply csc_okb_ok; reflexivity|]. split; [apply lower_patb_ok; reflexivity|]. split; [apply closed_patb_ok; reflexivity|].
  split; [intros k Hk; destruct k as [|[|[|k]]]; [apply Qc_is_canon; vm_compute; reflexivity|apply Qc_is_canon; vm_compute; reflexivity|apply Qc_is_canon; vm_compute; reflexivity|lia]|].
  split; [|vm_compute; reflexivity].
  intros p q _ H1 H2. destruct p as [|[|p]]; destruct q as [|[|[|q]]]; try lia; simpl; auto.
Qed.

(** ** C38 *)
(** Any proper sequence of activations and deactivations of constraints keeps the factorisation
    of K with inactive rows and columns replaced by minus identity ones; K and the pattern of L
    stay.  [good_ws]: the factor's pattern contains K's and its fill-in, and L D L^T is that
    matrix. *)
Theorem C38_activations : forall (F : Fld) (n N : nat) (sqr : F -> res F),
  n <= N -> (forall x s, sqr x = Ok s -> (s * s)%num = x) -> (forall x e, sqr x = Err e -> e = Arith) ->
  forall (ops : list (nat * bool)) (act : nat -> bool) (g : gws F),
  kkt_ws F n N g ->
  (forall k, k < N -> (nth k (gDinv g) n0 * nth k (gD g) n0)%num = n1) ->
  (forall p q, p < N -> q < N -> ldlt N (gL g) (gD g) p q = masked (part n act) (sym_entry (gK g)) p q) ->
  proper n N act ops ->
  match flips F n N sqr ops g with
  | Err e => e = Arith
  | Ok g' =>
      kkt_ws F n N g'
      /\ (forall k, k < N -> (nth k (gDinv g') n0 * nth k (gD g') n0)%num = n1)
      /\ (forall p q, p < N -> q < N -> ldlt N (gL g') (gD g') p q = masked (part n (after act ops)) (sym_entry (gK g)) p q)
      /\ (forall p q, q < N -> entry (gK g') p q = entry (gK g) p q)
      /\ (forall j, j < N -> rows (gL g') j = rows (gL g) j)
  end.
Proof.
  intros F n N sqr H1 H2 H3 ops act g H4 H5 H6 H7.
  pose proof (flips_good F n N sqr H1 H2 H3 arith ops act g (conj H4 (conj H5 H6)) (fun _ _ _ => eq_refl) H7) as H.
  destruct (flips F n N sqr ops g) as [g'|e]; cbn [run] in H; auto.
  destruct H as ((W & I & E) & (K1 & K2) & R).
  split; auto. split; auto. split; [|split; auto].
  intros p q Hp Hq. rewrite E by auto. unfold masked, sym_entry. rewrite !K2 by auto. auto.
Qed.
Print Assumptions C38_activations.

(** n = 1, N = 3: K = [[1, 2, 3], [2, -5, 0], [3, 0, -4]], factorised in full; deactivate both
    constraints, activate the first, then the second. *)
Definition ex_K3 : csc QcFld := mkCsc [0; 1; 3; 5] [0; 0; 1; 0; 2] [qz 1; qz 2; qz (-5); qz 3; qz (-4)] 5.
Definition ex_g3 (L : csc QcFld) (D Dinv : list QcFld) : gws QcFld :=
  mkGws L [true; true; true] D Dinv ex_K3 (repeat n0 3) (repeat n0 3) (repeat 0 3) (repeat n0 3) (repeat 0 3) (repeat n0 3).
Definition ex_start : gws QcFld :=
  ex_g3 (mkCsc [0; 2; 3; 3] [1; 2; 2] [qz 2; qz 3; qd 2 3] 3) [qz 1; qz (-9); qz (-9)] [qz 1; qd (-1) 9; qd (-1) 9].
Definition ex_ops : list (nat * bool) := [(0, false); (1, false); (0, true); (1, true)].
Lemma ex_start_ws : kkt_ws QcFld 1 3 ex_start.
Proof.
  constructor; try reflexivity; try (apply csc_okb_ok; reflexivity).
  - intros j Hj. destruct j as [|[|[|j]]]; [exists []|exists [0]|exists [0]|lia]; (split; [reflexivity|]); intros i Hi; simpl in Hi; intuition lia.
  - split; [exact (lower_patb_ok QcFld 3 (gL ex_start) eq_refl)|]. split; [exact (closed_patb_ok QcFld 3 (gL ex_start) eq_refl)|].
    intros j i Hj Hi Hlt. destruct j as [|[|[|j]]]; [lia| | |lia]; simpl in Hi; destruct Hi as [<-|[<-|[]]]; simpl; auto; lia.
Qed.
Example C38_example :
  kkt_ws QcFld 1 3 ex_start
  /\ (forall k, k < 3 -> (nth k (gDinv ex_start) n0 * nth k (gD ex_start) n0)%num = (n1 : QcFld))
  /\ (forall p q, p < 3 -> q < 3 -> ldlt 3 (gL ex_start) (gD ex_start) p q = masked (part 1 (fun _ => true)) (sym_entry (gK ex_start)) p q)
  /\ proper 1 3 (fun _ => true) ex_ops
  /\ is_ok (flips QcFld 1 3 qsqrt ex_ops ex_start) = true.
Proof.
  split; [exact ex_start_ws|]. split; [intros k Hk; destruct k as [|[|[|k]]]; [apply Qc_is_canon; vm_compute; reflexivity|apply Qc_is_canon; vm_compute; reflexivity|apply Qc_is_canon; vm_compute; reflexivity|lia]|].
  split; [|split; [repeat split; auto; lia|vm_compute; reflexivity]].
  intros p q Hp Hq. destruct p as [|[|[|p]]]; try lia; destruct q as [|[|[|q]]]; try lia; apply Qc_is_canon; vm_compute; reflexivity.
Qed.

(** ** C39 *)
(** insert_nonzero ([keep] = true) and insert_nonzero_and_value ([keep] = false): rows stay
    sorted and pointers consistent ([csc_ok]), exactly the requested place is added or set. *)
Theorem C39_insert : forall (F : Ring) (N : nat) (L : csc F) (row col : nat) (keep : bool) (v : F),
  csc_ok N L -> col < N -> col <= row -> (~ In row (rows L col) -> c_n L < length (c_i L)) ->
  exists L', insert N L row col keep v = Ok L' /\ csc_ok N L' /\ length (c_i L') = length (c_i L)
    /\ (forall i j, j < N -> In i (rows L' j) <-> In i (rows L j) \/ i = row /\ j = col)
    /\ (forall i j, j < N -> (i, j) <> (row, col) -> entry L' i j = entry L i j)
    /\ (keep = false \/ ~ In row (rows L col) -> entry L' row col = v)
    /\ (keep = true -> In row (rows L col) -> entry L' row col = entry L row col).
Proof. exact insert_array. Qed.
Print Assumptions C39_insert.
(** An entry above the diagonal is refused. *)
Theorem C39_insert_above : forall (F : Ring) (N : nat) (L : csc F) (row col : nat) (keep : bool) (v : F),
  row < col -> insert N L row col keep v = Ok L.
Proof. intros F N L row col keep v H. unfold insert. rewrite (proj2 (Nat.ltb_lt _ _) H). auto. Qed.
Print Assumptions C39_insert_above.
(** remove_nonzero: the entry goes exactly if it is small. *)
Theorem C39_remove : forall (F : Ring) (N : nat) (small : F -> bool) (L : csc F) (row col : nat),
  csc_ok N L -> col < N -> col <= row ->
  exists L', remove_nz small N L row col = Ok L' /\ csc_ok N L' /\ length (c_i L') = length (c_i L)
    /\ (forall i j, j < N -> (i, j) <> (row, col) -> (In i (rows L' j) <-> In i (rows L j)) /\ entry L' i j = entry L i j)
    /\ (In row (rows L' col) <-> In row (rows L col) /\ small (entry L row col) = false)
    /\ (small (entry L row col) = true -> entry L' row col = n0)
    /\ (small (entry L row col) = false -> entry L' row col = entry L row col).
Proof. exact remove_array. Qed.
Print Assumptions C39_remove.
Example C39_example :
  let L := mkCsc [0; 1; 2; 2; 2] [2; 3; 0; 0; 0; 0] [5; 7; 0; 0; 0; 0]%Z 2 : csc ZRing in
  csc_ok 4 L /\ ~ In 3 (rows L 0) /\ c_n L < length (c_i L)
  /\ insert 4 L 3 0 false 9%Z = Ok (mkCsc [0; 2; 3; 3; 3] [2; 3; 3; 0; 0; 0] [5; 9; 7; 0; 0; 0]%Z 3)
  /\ insert 4 L 2 0 true 9%Z = Ok L
  /\ remove_nz (fun x => Z.leb x 5) 4 L 2 0 = Ok (mkCsc [0; 0; 1; 1; 1] [3; 3; 0; 0; 0; 0] [7; 7; 0; 0; 0; 0]%Z 1).
Proof.
  cbv zeta. split; [apply csc_okb_ok; reflexivity|]. split; [simpl; intuition discriminate|]. split; [simpl; lia|].
  split; [|split]; reflexivity.
Qed.

(** ** C40 *)
(** Lmask has N(N-1)/2 flags (writer.py 383); the index (2N-3-col)*col/2+row-1, in C integer
    arithmetic, numbers the strictly lower triangular places from 0, one to one and onto, and
    the division has no remainder. *)
Theorem C40_mask_index : forall N : Z, (0 <= N)%Z ->
  (forall col row, (0 <= col < row)%Z -> (row < N)%Z ->
     (0 <= mask_index N col row)%Z /\ (2 * mask_index N col row < N * (N - 1))%Z
     /\ (2 * mask_index N col row = (2 * N - 3 - col) * col + 2 * row - 2)%Z)
  /\ (forall c1 r1 c2 r2, (0 <= c1 < r1)%Z -> (r1 < N)%Z -> (0 <= c2 < r2)%Z -> (r2 < N)%Z ->
        mask_index N c1 r1 = mask_index N c2 r2 -> c1 = c2 /\ r1 = r2)
  /\ (forall k, (0 <= k)%Z -> (2 * k < N * (N - 1))%Z -> exists col row, (0 <= col < row)%Z /\ (row < N)%Z /\ mask_index N col row = k).
Proof.
  intros N HN. split; [|split].
  - intros col row H1 H2. destruct (mask_range N col row) as [A B]; try lia. pose proof (mask_exact N col row ltac:(lia) ltac:(lia)) as E.
    split; [lia|]. split; [|lia]. pose proof (Z.mul_div_le (N * (N - 1)) 2 ltac:(lia)). lia.
  - intros c1 r1 c2 r2 H1 H2 H3 H4 E. apply (mask_inj N); auto; lia.
  - intros k H1 H2. destruct (mask_onto N k HN H1 H2) as (c & r & A & B & C). exists c, r. repeat split; try lia; auto.
Qed.
Print Assumptions C40_mask_index.
Example C40_example : map (fun '(c, r) => mask_index 4 c r) [(0, 1); (0, 2); (0, 3); (1, 2); (1, 3); (2, 3)]%Z = [0; 1; 2; 3; 4; 5]%Z.
Proof. reflexivity. Qed.

(** All accesses to Lmask are in bounds, and each changes the flag of its own place only.  After
    the first factorisation the entries of L are flagged; the fill-in pass flags the places where
    a column with rows [wi] (shifted by [off]) fills in, and adds those not flagged before to L,
    with value 0: the matrix itself does not change. *)
Theorem C40_first_flags : forall (F : Fld) (N : nat) (L : csc F) (mask : list bool),
  csc_ok N L -> lower_pat F N L -> 2 * length mask = N * (N - 1) ->
  exists mask', set_mask F N L mask = Ok mask' /\ length mask' = length mask
    /\ forall c r, c < r < N -> (flag N mask' c r = true <-> flag N mask c r = true \/ In r (rows L c)).
Proof. exact first_flags. Qed.
Print Assumptions C40_first_flags.
Theorem C40_fill_in : forall (F : Fld) (N : nat) (L : csc F) (mask : list bool) (wi : list nat) (size off : nat),
  csc_ok N L -> lower_pat F N L -> 2 * length (c_i L) = N * (N - 1) -> 2 * length mask = N * (N - 1) ->
  size <= length wi -> StronglySorted lt (firstn size wi) -> (forall a, In a (firstn size wi) -> a + off < N) ->
  exists L' mask', symbolic F N L mask wi size off = Ok (L', mask') /\ csc_ok N L' /\ lower_pat F N L'
    /\ length (c_i L') = length (c_i L) /\ length mask' = length mask
    /\ (forall c r, c < r < N -> (flag N mask' c r = true <-> flag N mask c r = true \/ pair (firstn size wi) off c r))
    /\ (forall c r, c < r < N -> (In r (rows L' c) <-> In r (rows L c) \/ pair (firstn size wi) off c r /\ flag N mask c r = false))
    /\ (forall c r, c < N -> entry L' r c = entry L r c).
Proof. exact fill_in. Qed.
Print Assumptions C40_fill_in.
Example C40_flags_example :
  let L := mkCsc [0; 1; 1; 2; 2] [2; 3; 0; 0; 0; 0] [qz 5; qz 7; qz 0; qz 0; qz 0; qz 0] 2 : csc QcFld in
  csc_ok 4 L /\ lower_pat QcFld 4 L /\ 2 * length (c_i L) = 4 * (4 - 1)
  /\ set_mask QcFld 4 L (repeat false 6) = Ok [false; true; false; false; false; true]
  /\ StronglySorted lt (firstn 3 [0; 1; 2; 9]) /\ (forall a, In a (firstn 3 [0; 1; 2; 9]) -> a + 1 < 4)
  /\ match symbolic QcFld 4 L [false; true; false; false; false; true] [0; 1; 2; 9] 3 1 with
     | Ok (L', mask') => c_p L' = [0; 1; 3; 4; 4] /\ firstn 4 (c_i L') = [2; 2; 3; 3] /\ mask' = [false; true; false; true; true; true]
     | Err _ => False
     end.
Proof.
  cbv zeta. split; [apply csc_okb_ok; reflexivity|]. split; [match goal with |- lower_pat _ _ ?L => exact (lower_patb_ok QcFld 4 L eq_refl) end|]. split; [reflexivity|]. split; [vm_compute; reflexivity|].
  split; [apply lt_list_ok; reflexivity|]. split; [simpl; intuition lia|]. vm_compute. auto.
Qed.

(** ** C43 *)
(** The arrays of L are those of a full strictly lower triangular factor (utils.py 134-151),
    with N(N-1)/2 places; every sequence of insertions of strictly lower triangular entries into
    a factor with that many places stays in bounds. *)
Theorem C43_storage : forall (F : Ring) (N : nat) (ops : list (nat * nat * bool * F)) (L : csc F),
  csc_ok N L -> lower_pat F N L -> length (c_i L) = length (c_i (full_L N : csc F)) ->
  (forall row col keep v, In (row, col, keep, v) ops -> col < row < N) ->
  exists L', inserts F N ops L = Ok L' /\ csc_ok N L' /\ lower_pat F N L' /\ length (c_i L') = length (c_i L) /\ c_n L' <= length (c_i L').
Proof.
  intros F N ops L H1 H2 H3 H4. apply inserts_ok; auto. unfold room. rewrite H3.
  destruct (full_ok F N) as (_ & _ & _ & E & _). lia.
Qed.
Print Assumptions C43_storage.
Theorem C43_initial : forall (F : Ring) (N : nat),
  csc_ok N (full_L N : csc F) /\ lower_pat F N (full_L N) /\ 2 * length (c_i (full_L N : csc F)) = N * (N - 1)
  /\ (forall i j, j < N -> In i (rows (full_L N : csc F) j) <-> j < i < N).
Proof. intros F N. destruct (full_ok F N) as (A & B & _ & C & D). auto. Qed.
Print Assumptions C43_initial.
(** One place less is not enough. *)
Theorem C43_tight_refuted : exists (L : csc ZRing) (ops : list (nat * nat * bool * ZRing)),
  csc_ok 3 L /\ lower_pat ZRing 3 L /\ 2 * (length (c_i L) + 1) = 3 * 2
  /\ (forall row col keep v, In (row, col, keep, v) ops -> col < row < 3) /\ inserts ZRing 3 ops L = Err OutOfBounds.
Proof.
  exists (mkCsc [0; 0; 0; 0] [0; 0] [0; 0]%Z 0), [(1, 0, true, 0%Z); (2, 0, true, 0%Z); (2, 1, true, 0%Z)].
  split; [apply csc_okb_ok; reflexivity|]. split; [apply lower_patb_ok; reflexivity|]. split; [reflexivity|]. split; [|reflexivity].
  intros row col keep v [E|[E|[E|[]]]]; inversion E; lia.
Qed.
Print Assumptions C43_tight_refuted.
Example C43_example :
  let L := mkCsc [0; 0; 0; 0] [0; 0; 0] [0; 0; 0]%Z 0 : csc ZRing in
  csc_ok 3 L /\ lower_pat ZRing 3 L /\ length (c_i L) = length (c_i (full_L 3 : csc ZRing))
  /\ inserts ZRing 3 [(2, 1, true, 0%Z); (1, 0, false, 4%Z); (2, 0, false, 5%Z); (1, 0, true, 9%Z)] L = Ok (mkCsc [0; 2; 3; 3] [1; 2; 2] [4; 5; 0]%Z 3).
Proof.
  cbv zeta. split; [apply csc_okb_ok; reflexivity|]. split; [apply lower_patb_ok; reflexivity|]. split; reflexivity.
Qed.
