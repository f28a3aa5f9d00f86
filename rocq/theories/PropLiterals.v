(** C48, C49: numbers in the generated files. *)

From Coq Require Import String Ascii Arith Bool ZArith NArith QArith Qabs Lia Lqa List.
From Verif Require Import Literals LiteralsProofs.
Import ListNotations.
Open Scope string_scope.
Open Scope list_scope.

(** 0.5e-20 *)
Definition half20 : Q := 1 # (2 * Pos.pow 10 20).

(** ** C48 *)

(** The literal is a C decimal number within 0.5e-20 of the value, with its sign. *)
Theorem C48_literal_close : forall q, exists r, read_dec (fmt20 q) = Some r /\ (Qabs (r - q) <= half20)%Q
  /\ (0 <= q -> 0 <= r)%Q /\ (q <= 0 -> r <= 0)%Q.
Proof.
  intro q. destruct (read_fmt20 q) as (r & E & V). exists r. split; auto. rewrite V. destruct (lit_sign q). split; [apply lit_close|tauto].
Qed.
Print Assumptions C48_literal_close.

(** At most 20 binary, or decimal, fraction digits: exact.  In particular integers. *)
Theorem C48_literal_exact : forall q m k, (k <= 20)%positive -> (q == m # Pos.pow 2 k \/ q == m # Pos.pow 10 k)%Q ->
  exists r, read_dec (fmt20 q) = Some r /\ (r == q)%Q.
Proof.
  intros q m k Hk H. destruct (read_fmt20 q) as (r & E & V). exists r. split; auto. rewrite V. apply (lit_exact q m k); auto.
Qed.
Print Assumptions C48_literal_exact.

(** At most 0.5e-20 in magnitude: zero. *)
Theorem C48_literal_small : forall q, (Qabs q <= half20)%Q -> exists r, read_dec (fmt20 q) = Some r /\ (r == 0)%Q.
Proof.
  intros q H. destruct (read_fmt20 q) as (r & E & V). exists r. split; auto. rewrite V. apply lit_small. auto.
Qed.
Print Assumptions C48_literal_small.

(** The text depends only on the value. *)
Theorem C48_literal_unique : forall q q', (q == q')%Q -> fmt20 q = fmt20 q'.
Proof. exact fmt20_eq. Qed.
Print Assumptions C48_literal_unique.

(** Doubles of magnitude at least 2^-13 come back unchanged: no other double is as close to
    the literal. *)
Theorem C48_double_round_trip : forall q, is_double q -> (1 # Pos.pow 2 13 <= Qabs q)%Q ->
  exists r, read_dec (fmt20 q) = Some r /\ forall q', is_double q' -> ~ (q' == q)%Q -> (Qabs (r - q) < Qabs (r - q'))%Q.
Proof.
  intros q Hq Hb. destruct (read_fmt20 q) as (r & E & V). exists r. split; auto. intros q' Hq' Hn. rewrite V. apply lit_nearest; auto.
Qed.
Print Assumptions C48_double_round_trip.

(** Smaller doubles need not: 2^-70 is a double, but its literal is 0. *)
Theorem C48_small_double_refuted : exists q, is_double q /\ ~ (q == 0)%Q /\ (exists r, read_dec (fmt20 q) = Some r /\ r == 0)%Q.
Proof.
  exists (1 # Pos.pow 2 70). split; [|split].
  - exists 1%Z, 1004%nat. split; [reflexivity|]. split; [lia|]. reflexivity.
  - discriminate.
  - eexists. split; [vm_compute; reflexivity|reflexivity].
Qed.
Print Assumptions C48_small_double_refuted.

Definition frac3 : Q := 6004799503160661 # 18014398509481984.  (* the double 1/3 *)
Example C48_example : is_double frac3 /\ (1 # Pos.pow 2 13 <= Qabs frac3)%Q /\ fmt20 frac3 = "0.33333333333333331483"
  /\ fmt20 (-5 # 2) = "-2.50000000000000000000" /\ (-5 # 2 == -5 # Pos.pow 2 1)%Q
  /\ (Qabs (-1 # Pos.pow 10 21) <= half20)%Q /\ fmt20 (-1 # Pos.pow 10 21) = "-0.00000000000000000000".
Proof.
  split; [exists 6004799503160661%Z, 1020%nat; split; [reflexivity|]; split; [lia|]; vm_compute; reflexivity|].
  split; [vm_compute; discriminate|]. split; [vm_compute; reflexivity|]. split; [vm_compute; reflexivity|]. split; [reflexivity|].
  split; [vm_compute; discriminate|]. vm_compute. reflexivity.
Qed.

(** Arrays: declared length, order and values; [rest] is whatever follows in the file. *)
Theorem C48_array : forall typ name qs rest, ident typ = true -> ident name = true ->
  exists es, read_vec (write_vec_float typ name (map Fin qs) ++ rest) = Some (typ, name, N.of_nat (length qs), es, rest)
    /\ Forall2 (fun q e => exists r, read_cast typ e = Some r /\ (Qabs (r - q) <= half20)%Q) qs es.
Proof.
  intros typ name qs rest Ht Hn. rewrite read_vec_float by auto. rewrite map_length. eexists. split; [reflexivity|]. rewrite map_map. clear.
  induction qs as [|q qs IH]; cbn [map]; constructor; auto. destruct (read_cast_fmt typ q) as (r & E & V). exists r. split; auto. rewrite V. apply lit_close.
Qed.
Print Assumptions C48_array.
Theorem C48_int_array : forall typ name zs rest, ident typ = true -> ident name = true ->
  exists es, read_vec (write_vec_int typ name zs ++ rest) = Some (typ, name, N.of_nat (length zs), es, rest)
    /\ Forall2 (fun z e => read_int e = Some z) zs es.
Proof.
  intros typ name zs rest Ht Hn. rewrite read_vec_int by auto. eexists. split; [reflexivity|]. clear.
  induction zs as [|z zs IH]; cbn [map]; constructor; auto. apply read_int_fmt.
Qed.
Print Assumptions C48_int_array.

(** Sparse matrices: three arrays, in this order, and the struct pointing at them. *)
Theorem C48_matrix : forall name qualifier i p x rest, ident name = true -> ident qualifier = true ->
  let q := if String.eqb qualifier "" then "" else (qualifier ++ "_")%string in
  exists ei ep ex s1 s2 s3,
    read_vec (write_mat name qualifier (mkF i p (map Fin x)) ++ rest) = Some (("cpg_" ++ q ++ "int")%string, (name ++ "_i")%string, N.of_nat (length i), ei, s1)
    /\ read_vec s1 = Some (("cpg_" ++ q ++ "int")%string, (name ++ "_p")%string, N.of_nat (length p), ep, s2)
    /\ read_vec s2 = Some (("cpg_" ++ q ++ "float")%string, (name ++ "_x")%string, N.of_nat (length x), ex, s3)
    /\ s3 = ("cpg_" ++ q ++ "csc " ++ name ++ " = {" ++ name ++ "_p, " ++ name ++ "_i, " ++ name ++ "_x, " ++ dec (N.of_nat (length x)) ++ "};" ++ nl ++ rest)%string
    /\ Forall2 (fun z e => read_int e = Some z) i ei /\ Forall2 (fun z e => read_int e = Some z) p ep
    /\ Forall2 (fun v e => exists r, read_cast ("cpg_" ++ q ++ "float") e = Some r /\ (Qabs (r - v) <= half20)%Q) x ex.
Proof.
  intros name qualifier i p x rest Hn Hq q.
  assert (Q : ident q = true) by (unfold q; destruct (String.eqb qualifier ""); auto; apply ident_app; auto).
  assert (T : forall t, ident t = true -> ident ("cpg_" ++ q ++ t) = true) by (intros t H; apply ident_app; [reflexivity|]; apply ident_app; auto).
  unfold write_mat. cbn [f_i f_p f_x]. fold q. rewrite map_length, !append_assoc.
  edestruct (C48_int_array ("cpg_" ++ q ++ "int") (name ++ "_i") i) as (ei & Ei & Fi); [apply T; reflexivity|apply ident_app; auto|].
  edestruct (C48_int_array ("cpg_" ++ q ++ "int") (name ++ "_p") p) as (ep & Ep & Fp); [apply T; reflexivity|apply ident_app; auto|].
  edestruct (C48_array ("cpg_" ++ q ++ "float") (name ++ "_x") x) as (ex & Ex & Fx); [apply T; reflexivity|apply ident_app; auto|].
  exists ei, ep, ex. do 3 eexists. split; [exact Ei|]. split; [exact Ep|]. split; [exact Ex|]. auto.
Qed.
Print Assumptions C48_matrix.

(** Dense matrices: entry (i, j) is element i + rows * j. *)
Theorem C48_dense : forall name rows cols (m : nat -> nat -> Q) rest, ident name = true ->
  exists es, read_vec (write_dense name rows cols (fun i j => Fin (m i j)) ++ rest) = Some ("cpg_float", name, N.of_nat (rows * cols), es, rest)
    /\ forall i j, (i < rows)%nat -> (j < cols)%nat ->
       exists e r, nth_error es (i + rows * j) = Some e /\ read_cast "cpg_float" e = Some r /\ (Qabs (r - m i j) <= half20)%Q.
Proof.
  intros name rows cols m rest Hn. unfold write_dense. set (es := flat_map _ _).
  assert (L : forall s k, (length (flat_map (fun j => map (fun i => ("(cpg_float)" ++ fmt (Fin (m i j)))%string) (seq 0 rows)) (seq s k)) = rows * k)%nat).
  { intros s k. revert s. induction k as [|k IH]; intro s; cbn [seq flat_map]; [cbn; lia|]. rewrite app_length, map_length, seq_length, IH. rewrite Nat.mul_succ_r, Nat.add_comm. reflexivity. }
  exists es. split.
  - rewrite read_vec_text; auto.
    + unfold es. rewrite L. reflexivity.
    + apply forallb_forall. intros e He. unfold es in He. apply in_flat_map in He. destruct He as (j & _ & He). apply in_map_iff in He. destruct He as (i & <- & _). apply (cast_ok "cpg_float" (Fin (m i j))). reflexivity.
  - intros i j Hi Hj. destruct (read_cast_fmt "cpg_float" (m i j)) as (r & E & V).
    exists ("(cpg_float)" ++ fmt (Fin (m i j)))%string, r. split; [|split; [exact E|rewrite V; apply lit_close]].
    unfold es. clear - Hi Hj.
    assert (G : forall k s j, (j < k)%nat -> nth_error (flat_map (fun j => map (fun i => ("(cpg_float)" ++ fmt (Fin (m i j)))%string) (seq 0 rows)) (seq s k)) (i + rows * j)
                = Some ("(cpg_float)" ++ fmt (Fin (m i (s + j)%nat)))%string).
    { induction k as [|k IH]; intros s [|j'] H; try lia; cbn [seq flat_map].
      - replace (i + rows * 0)%nat with i by lia. replace (s + 0)%nat with s by lia. rewrite nth_error_app1 by (rewrite map_length, seq_length; lia). rewrite nth_error_map. rewrite (nth_error_nth' _ 0%nat) by (rewrite seq_length; lia).
        rewrite seq_nth by lia. reflexivity.
      - rewrite nth_error_app2 by (rewrite map_length, seq_length; nia). rewrite map_length, seq_length. replace (i + rows * S j' - rows)%nat with (i + rows * j')%nat by nia.
        rewrite IH by lia. replace (S s + j')%nat with (s + S j')%nat by lia. reflexivity. }
    apply (G cols 0%nat j Hj).
Qed.
Print Assumptions C48_dense.
Example C48_text_example : write_mat "canon_A" "" (mkF [0%Z; 1%Z] [0%Z; 2%Z] [Fin (1 # 2); Fin (-3 # 1)]) =
("cpg_int canon_A_i[2] = {
0,
1,
};
cpg_int canon_A_p[2] = {
0,
2,
};
cpg_float canon_A_x[2] = {
(cpg_float)0.50000000000000000000,
(cpg_float)-3.00000000000000000000,
};
cpg_csc canon_A = {canon_A_p, canon_A_i, canon_A_x, 2};
")%string /\ ident "canon_A" = true /\ ident "cpg_float" = true.
Proof. vm_compute. auto. Qed.

(** ** C49 *)

(** Entry by entry: infinities become +-1e30, everything else is kept. *)
Theorem C49_replaced : forall v i, (i < length v)%nat ->
  match nth i v NaN with
  | PInf => nth i (replace_inf v) NaN = Fin e30
  | NInf => nth i (replace_inf v) NaN = Fin (- e30)
  | x => nth i (replace_inf v) NaN = x
  end.
Proof. intros v i H. unfold replace_inf. change NaN with (replace_inf1 NaN) at 2 3 4 5 6. rewrite !map_nth. destruct (nth i v NaN); reflexivity. Qed.
Print Assumptions C49_replaced.
Theorem C49_length : forall v, length (replace_inf v) = length v.
Proof. intro v. apply map_length. Qed.
Theorem C49_idempotent : forall v, replace_inf (replace_inf v) = replace_inf v.
Proof. intro v. unfold replace_inf. rewrite map_map. apply map_ext. destruct a; reflexivity. Qed.
Print Assumptions C49_idempotent.
(** Matrices: same pattern. *)
Theorem C49_matrix : forall m, f_i (replace_inf_mat m) = f_i m /\ f_p (replace_inf_mat m) = f_p m /\ f_x (replace_inf_mat m) = replace_inf (f_x m).
Proof. auto. Qed.

(** Text of an array without NaN, infinities replaced: every entry is a number, infinities
    read exactly +-1e30. *)
Theorem C49_text : forall typ name v rest, ident typ = true -> ident name = true -> ~ In NaN v ->
  exists es, read_vec (write_vec_float typ name (replace_inf v) ++ rest) = Some (typ, name, N.of_nat (length v), es, rest)
    /\ Forall2 (fun x e => exists r, read_cast typ e = Some r /\
         match x with PInf => r == e30 | NInf => r == - e30 | Fin q => Qabs (r - q) <= half20 | NaN => False end)%Q v es.
Proof.
  intros typ name v rest Ht Hn HN. rewrite read_vec_float by auto. rewrite C49_length. eexists. split; [reflexivity|]. unfold replace_inf. rewrite map_map.
  assert (E : forall z, exists r, read_cast typ ("(" ++ typ ++ ")" ++ fmt (Fin (z # 1))) = Some r /\ (r == z # 1)%Q).
  { intro z. destruct (read_cast_fmt typ (z # 1)) as (r & E & V). exists r. split; auto. rewrite V. apply (lit_exact _ (z * 2) 1); [lia|]. left. unfold Qeq. cbn [Qnum Qden]. change (Z.pos (2 ^ 1)) with 2%Z. lia. }
  induction v as [|x v IH]; cbn [map]; constructor.
  - destruct x as [q| | |]; cbn [replace_inf1].
    + destruct (read_cast_fmt typ q) as (r & E' & V). exists r. split; auto. rewrite V. apply lit_close.
    + apply E.
    + apply (E (- Qnum e30)%Z).
    + exfalso. apply HN. left. auto.
  - apply IH. intro H. apply HN. right. auto.
Qed.
Print Assumptions C49_text.

(** The objective: infinite exactly when the reported value is +-1e30 (or infinite), with the
    same sign; otherwise as reported. *)
Theorem C49_objective : forall q, report_obj (Fin q) =
  if Qeq_bool q e30 then PInf else if Qeq_bool q (- e30) then NInf else Fin q.
Proof. reflexivity. Qed.
Theorem C49_objective_infinite : forall q, (report_obj (Fin q) = PInf <-> q == e30)%Q /\ (report_obj (Fin q) = NInf <-> q == - e30)%Q
  /\ (~ q == e30 -> ~ q == - e30 -> report_obj (Fin q) = Fin q)%Q.
Proof.
  intro q. cbn [report_obj]. destruct (Qeq_bool q e30) eqn:E1; [apply Qeq_bool_iff in E1|apply Qeq_bool_neq in E1].
  - split; [|split]; [split; auto|split; [discriminate|]|intros; contradiction]. intro H. rewrite E1 in H. discriminate.
  - destruct (Qeq_bool q (- e30)) eqn:E2; [apply Qeq_bool_iff in E2|apply Qeq_bool_neq in E2]; (split; [split; [discriminate|intro; contradiction]|]); split; try (split; auto; discriminate); try (intros; contradiction); auto.
    split; [discriminate|intro; contradiction].
Qed.
Print Assumptions C49_objective_infinite.
(** Going there and back. *)
Theorem C49_round_trip : forall v, v = PInf \/ v = NInf -> report_obj (replace_inf1 v) = v.
Proof. intros v [-> | ->]; reflexivity. Qed.
Print Assumptions C49_round_trip.
Example C49_example : replace_inf [Fin (1 # 2); NInf; PInf] = [Fin (1 # 2); Fin (- e30); Fin e30] /\ ~ In NaN [Fin (1 # 2); NInf; PInf]
  /\ fmt (Fin (- e30)) = "-1000000000000000019884624838656.00000000000000000000" /\ is_double e30.
Proof.
  split; [reflexivity|]. split; [simpl; intuition discriminate|]. split; [vm_compute; reflexivity|].
  exists 7105427357601002%Z, 1121%nat. split; [reflexivity|]. split; [lia|]. vm_compute. reflexivity.
Qed.

(** Arrays and values written without replace_inf (parameter values, their bounds, the
    objective offset): an infinite entry is not a C number. *)
Theorem C49_unreplaced_refuted : forall typ v, (forall q, v <> Fin q) -> read_cast typ ("(" ++ typ ++ ")" ++ fmt v) = None.
Proof. exact read_cast_inf. Qed.
Print Assumptions C49_unreplaced_refuted.
