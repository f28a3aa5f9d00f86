(** Proofs about the text of Literals.v. *)

From Coq Require Import String Ascii Arith Bool ZArith NArith QArith Qabs Lia Lqa List.
From Verif Require Import Literals.
Import ListNotations.
Open Scope string_scope.
Open Scope list_scope.

(** ** Digits *)

Lemma digit_ok : forall d, (d < 10)%N -> is_digit (digit d) = true /\ dval (digit d) = d.
Proof.
  intros d H. assert (E : In d (map N.of_nat (seq 0 10))).
  { apply in_map_iff. exists (N.to_nat d). split; [lia|]. apply in_seq. lia. }
  cbn [seq map In] in E. repeat (destruct E as [<-|E]; [vm_compute; auto|]). destruct E.
Qed.
Lemma mod10 : forall n, (n mod 10 < 10)%N.
Proof. intro n. apply N.mod_lt. lia. Qed.

Lemma pow10_S : forall k, (10 ^ N.of_nat (S k) = 10 * 10 ^ N.of_nat k)%N.
Proof. intro k. replace (N.of_nat (S k)) with (N.succ (N.of_nat k)) by lia. apply N.pow_succ_r'. Qed.

Lemma div10_lt : forall n p, (n < 10 * p -> n / 10 < p)%N.
Proof. intros n p H. apply N.div_lt_upper_bound; lia. Qed.
Lemma mod10_eq : forall n, (10 * (n / 10) + n mod 10 = n)%N.
Proof. intro n. symmetry. apply N.div_mod. lia. Qed.

Lemma digits_dec : forall fuel n s, (n < 10 ^ N.of_nat fuel)%N ->
  exists len, (fuel <> 0 -> len <> 0)%nat /\ forall a k, digits (dec_aux fuel n s) a k = digits s (a * 10 ^ N.of_nat len + n)%N (k + len).
Proof.
  induction fuel as [|f IH]; intros n s H.
  - exists 0%nat. split; [lia|]. intros a k. cbn [dec_aux]. f_equal; [|lia]. replace (10 ^ N.of_nat 0)%N with 1%N in * by reflexivity. lia.
  - rewrite pow10_S in H. cbn [dec_aux]. destruct (digit_ok _ (mod10 n)) as [D1 D2]. destruct (N.ltb_spec n 10) as [L|L].
    + exists 1%nat. split; [lia|]. intros a k. cbn [digits]. rewrite D1, D2. rewrite (N.mod_small n 10 L). f_equal; [|lia].
      replace (10 ^ N.of_nat 1)%N with 10%N by reflexivity. lia.
    + destruct (IH (n / 10)%N (String (digit (n mod 10)) s) (div10_lt _ _ H)) as (len & _ & E).
      exists (S len). split; [lia|]. intros a k. rewrite E. cbn [digits]. rewrite D1, D2. rewrite pow10_S. f_equal; [|lia].
      pose proof (mod10_eq n). lia.
Qed.
Lemma digits_pad : forall k n s a j, (n < 10 ^ N.of_nat k)%N -> digits (pad k n s) a j = digits s (a * 10 ^ N.of_nat k + n)%N (j + k).
Proof.
  induction k as [|k IH]; intros n s a j H.
  - cbn [pad]. f_equal; [|lia]. replace (10 ^ N.of_nat 0)%N with 1%N in * by reflexivity. lia.
  - rewrite pow10_S in *. destruct (digit_ok _ (mod10 n)) as [D1 D2]. cbn [pad]. rewrite IH by (apply div10_lt; auto). cbn [digits]. rewrite D1, D2.
    f_equal; [|lia]. pose proof (mod10_eq n). lia.
Qed.
Lemma fuel_ok : forall n, (n < 10 ^ N.of_nat (S (N.to_nat (N.size n))))%N.
Proof.
  intro n. rewrite pow10_S, N2Nat.id. pose proof (N.size_gt n) as H. assert (2 ^ N.size n <= 10 ^ N.size n)%N by (apply N.pow_le_mono_l; lia). lia.
Qed.
Lemma append_assoc : forall a b c, ((a ++ b) ++ c = a ++ (b ++ c))%string.
Proof. induction a as [|x a IH]; intros; simpl; auto. rewrite IH. auto. Qed.
Lemma append_nil : forall a, (a ++ "")%string = a.
Proof. induction a as [|x a IH]; simpl; auto. rewrite IH. auto. Qed.
Lemma dec_aux_app : forall f n s t, (dec_aux f n s ++ t)%string = dec_aux f n (s ++ t).
Proof. induction f as [|f IH]; intros; cbn [dec_aux]; auto. destruct (n <? 10)%N; auto. rewrite IH. auto. Qed.
Lemma pad_app : forall k n s t, (pad k n s ++ t)%string = pad k n (s ++ t).
Proof. induction k as [|k IH]; intros; cbn [pad]; auto. rewrite IH. auto. Qed.
Lemma digits_dec_app : forall n t, exists len, len <> 0%nat /\ forall a k, digits (dec n ++ t) a k = digits t (a * 10 ^ N.of_nat len + n)%N (k + len).
Proof.
  intros n t. unfold dec. rewrite dec_aux_app. cbn [append]. destruct (digits_dec _ n t (fuel_ok n)) as (len & H1 & H2).
  exists len. split; auto.
Qed.

(** All characters of a text. *)
Fixpoint allc (p : ascii -> bool) (s : string) : bool := match s with EmptyString => true | String c t => p c && allc p t end.
Lemma allc_app : forall p a b, allc p (a ++ b) = allc p a && allc p b.
Proof. induction a as [|c a IH]; intros; simpl; auto. rewrite IH. apply andb_assoc. Qed.
Lemma dec_aux_allc : forall f n s, allc is_digit s = true -> allc is_digit (dec_aux f n s) = true.
Proof.
  induction f as [|f IH]; intros n s H; cbn [dec_aux]; auto. destruct (digit_ok _ (mod10 n)) as [D _].
  assert (H' : allc is_digit (String (digit (n mod 10)) s) = true) by (cbn [allc]; rewrite D; auto). destruct (n <? 10)%N; auto.
Qed.
Lemma pad_allc : forall k n s, allc is_digit s = true -> allc is_digit (pad k n s) = true.
Proof.
  induction k as [|k IH]; intros n s H; cbn [pad]; auto. destruct (digit_ok _ (mod10 n)) as [D _]. apply IH. cbn [allc]. rewrite D. auto.
Qed.
Lemma dec_allc : forall n, allc is_digit (dec n) = true.
Proof. intro n. apply dec_aux_allc. auto. Qed.
Lemma dec_first : forall n, exists c t, dec n = String c t /\ is_digit c = true.
Proof.
  intro n. pose proof (dec_allc n) as H. destruct (dec n) as [|c t] eqn:E.
  - destruct (digits_dec_app n "") as (len & Hl & Hd). rewrite E in Hd. cbn [append digits] in Hd. specialize (Hd 0%N 0%nat). injection Hd as _ Hk. lia.
  - exists c, t. split; auto. cbn [allc] in H. apply andb_prop in H. tauto.
Qed.

Lemma not_digit : forall c d, is_digit c = true -> is_digit d = false -> c <> d.
Proof. intros c d H1 H2 ->. congruence. Qed.
Lemma read_dec_digit : forall c t, is_digit c = true -> read_dec (String c t) = read_udec (String c t).
Proof.
  intros c t H. unfold read_dec. destruct c as [[|] [|] [|] [|] [|] [|] [|] [|]]; try reflexivity; vm_compute in H; discriminate.
Qed.
Lemma read_int_digit : forall c t, is_digit c = true -> read_int (String c t) = option_map Z.of_N (read_uint (String c t)).
Proof.
  intros c t H. unfold read_int. destruct c as [[|] [|] [|] [|] [|] [|] [|] [|]]; try reflexivity; vm_compute in H; discriminate.
Qed.

Lemma read_uint_dec : forall n, read_uint (dec n) = Some n.
Proof.
  intro n. unfold read_uint. destruct (digits_dec_app n "") as (len & Hl & Hd). rewrite append_nil in Hd. rewrite Hd. cbn [digits]. destruct len; [lia|].
  cbn [Nat.add]. f_equal.
Qed.
Theorem read_int_fmt : forall z, read_int (fmt_int z) = Some z.
Proof.
  intro z. unfold fmt_int. destruct (Z.ltb_spec z 0).
  - cbn [append read_int]. rewrite read_uint_dec. cbn [option_map]. f_equal. lia.
  - cbn [append]. destruct (dec_first (Z.abs_N z)) as (c & t & E & D). rewrite E, read_int_digit, <- E, read_uint_dec by auto. cbn [option_map]. f_equal. lia.
Qed.

(** ** Decimal fractions *)
Lemma read_udec_text : forall a b, (b < ten20)%N ->
  read_udec (dec a ++ "." ++ pad 20 b "")%string = Some (inject_Z (Z.of_N a) + (Z.of_N b # Pos.pow 10 20))%Q.
Proof.
  intros a b Hb. unfold read_udec. destruct (digits_dec_app a ("." ++ pad 20 b "")) as (len & Hl & Hd). rewrite Hd. destruct len as [|len]; [lia|].
  cbn [append digits]. change (is_digit ".") with false. cbv iota. cbn [Nat.add]. rewrite digits_pad by exact Hb. cbn [digits Nat.add].
  change (Pos.pow 10 (Pos.of_nat 20)) with (Pos.pow 10 20). do 3 f_equal; lia.
Qed.

Definition dround (q : Q) : N := round_half_even (Z.abs_N (Qnum q) * ten20) (Npos (Qden q)).
(** The value of the literal. *)
Definition lit (q : Q) : Q := (if Qnum q <? 0 then - Z.of_N (dround q) else Z.of_N (dround q))%Z # Pos.pow 10 20.

Lemma split20 : forall s : N, (inject_Z (Z.of_N (s / ten20)) + (Z.of_N (s mod ten20) # Pos.pow 10 20) == Z.of_N s # Pos.pow 10 20)%Q.
Proof.
  intro s. unfold Qeq, Qplus, inject_Z. cbn [Qnum Qden]. pose proof (N.div_mod s ten20) as H. unfold ten20 in *. rewrite Pos.mul_1_l. assert (E20 : Z.pos (Pos.pow 10 20) = (10 ^ 20)%Z) by (rewrite Pos2Z.inj_pow; auto). rewrite !E20. specialize (H ltac:(discriminate)). set (a := (s / 10 ^ 20)%N) in *. set (b := (s mod 10 ^ 20)%N) in *. change (10 ^ 20)%N with 100000000000000000000%N in H.
  change (10 ^ 20)%Z with 100000000000000000000%Z. lia.
Qed.
Theorem read_fmt20 : forall q, exists r, read_dec (fmt20 q) = Some r /\ (r == lit q)%Q.
Proof.
  intro q. unfold fmt20, lit. fold (dround q). set (s := dround q). assert (Hb : (s mod ten20 < ten20)%N) by (apply N.mod_lt; discriminate).
  pose proof (read_udec_text (s / ten20) (s mod ten20) Hb) as R. pose proof (split20 s) as V. destruct (Qnum q <? 0)%Z.
  - cbn [append read_dec]. cbn [append] in R. rewrite R. cbn [option_map]. eexists. split; [reflexivity|]. rewrite V. reflexivity.
  - cbn [append]. destruct (dec_first (s / ten20)) as (c & t & E & D). rewrite E. cbn [append]. rewrite read_dec_digit by auto.
    rewrite E in R. cbn [append] in R. rewrite R. eexists. split; [reflexivity|]. exact V.
Qed.

(** Rounding. *)
Lemma round_spec : forall n d, (d <> 0)%N -> (2 * Z.abs (Z.of_N (round_half_even n d) * Z.of_N d - Z.of_N n) <= Z.of_N d)%Z.
Proof.
  intros n d Hd. pose proof (N.div_mod n d Hd) as E. pose proof (N.mod_lt n d Hd) as L. unfold round_half_even. set (q := (n / d)%N) in *. set (r := (n mod d)%N) in *.
  destruct (N.compare_spec (2 * r) d) as [C|C|C]; [destruct (N.even q)| |]; nia.
Qed.
Lemma round_exact : forall m d, (d <> 0)%N -> round_half_even (m * d) d = m.
Proof.
  intros m d Hd. unfold round_half_even. rewrite N.div_mul, N.mod_mul by auto. cbn [N.mul]. destruct (N.compare_spec 0 d); lia.
Qed.
Lemma round_scale : forall n d c, (d <> 0 -> c <> 0 -> round_half_even (n * c) (d * c) = round_half_even n d)%N.
Proof.
  intros n d c Hd Hc. unfold round_half_even. rewrite N.div_mul_cancel_r by auto. rewrite N.mul_mod_distr_r by auto.
  replace (2 * (n mod d * c))%N with (2 * (n mod d) * c)%N by lia. generalize (n mod d)%N. intro r.
  destruct (N.compare_spec (2 * r * c) (d * c)), (N.compare_spec (2 * r) d); auto; nia.
Qed.
Lemma dround_eq : forall q q', (q == q')%Q -> dround q = dround q'.
Proof.
  intros [n d] [n' d'] H. unfold Qeq in H. cbn [Qnum Qden] in H. unfold dround. cbn [Qnum Qden].
  rewrite <- (round_scale _ (Npos d) (Npos d')) by discriminate. rewrite <- (round_scale _ (Npos d') (Npos d)) by discriminate.
  f_equal; [|lia]. assert (E : (Z.abs_N n * Npos d' = Z.abs_N n' * Npos d)%N) by nia. replace (Z.abs_N n * ten20 * N.pos d')%N with (ten20 * (Z.abs_N n * Npos d'))%N by lia. rewrite E. lia.
Qed.
Lemma neg_eq : forall q q', (q == q')%Q -> (Qnum q <? 0)%Z = (Qnum q' <? 0)%Z.
Proof. intros [n d] [n' d'] H. unfold Qeq in H. cbn [Qnum Qden] in *. destruct (Z.ltb_spec n 0), (Z.ltb_spec n' 0); auto; nia. Qed.
(** The text depends on the value only. *)
Theorem fmt20_eq : forall q q', (q == q')%Q -> fmt20 q = fmt20 q'.
Proof.
  intros q q' H. unfold fmt20. fold (dround q). fold (dround q'). rewrite (dround_eq q q' H), (neg_eq q q' H). auto.
Qed.

Theorem lit_close : forall q, (Qabs (lit q - q) <= 1 # (2 * Pos.pow 10 20))%Q.
Proof.
  intros [n d]. pose proof (round_spec (Z.abs_N n * ten20) (Npos d) ltac:(discriminate)) as H. fold (dround (n # d)) in H. change (round_half_even (Z.abs_N n * ten20) (N.pos d)) with (dround (n # d)) in H.
  unfold lit. cbn [Qnum Qden] in *. set (s := dround (n # d)) in *. unfold ten20 in H. change (10 ^ 20)%N with 100000000000000000000%N in H. change (Pos.pow 10 20) with 100000000000000000000%positive.
  apply Qabs_Qle_condition. unfold Qle, Qminus, Qplus, Qopp. cbn [Qnum Qden]. destruct (Z.ltb_spec n 0); split; nia.
Qed.
Lemma lit_of : forall q m, (q == m # Pos.pow 10 20)%Q -> (lit q == q)%Q.
Proof.
  intros q m H. rewrite H at 2. unfold lit. rewrite (dround_eq _ _ H), (neg_eq _ _ H). unfold dround. cbn [Qnum Qden]. change (N.pos (Pos.pow 10 20)) with ten20.
  rewrite round_exact by discriminate. destruct (Z.ltb_spec m 0); unfold Qeq; cbn [Qnum Qden]; lia.
Qed.
Theorem lit_exact : forall q m k, (k <= 20)%positive -> (q == m # Pos.pow 2 k \/ q == m # Pos.pow 10 k)%Q -> (lit q == q)%Q.
Proof.
  intros q m k Hk H.
  assert (T2 : (10 ^ 20 = 2 ^ Z.pos k * (2 ^ (20 - Z.pos k) * 5 ^ 20))%Z).
  { rewrite Z.mul_assoc, <- Z.pow_add_r by lia. replace (Z.pos k + (20 - Z.pos k))%Z with 20%Z by lia. vm_compute. reflexivity. }
  assert (T10 : (10 ^ 20 = 10 ^ Z.pos k * 10 ^ (20 - Z.pos k))%Z) by (rewrite <- Z.pow_add_r by lia; f_equal; lia).
  assert (E20 : Z.pos (Pos.pow 10 20) = (10 ^ 20)%Z) by (rewrite Pos2Z.inj_pow; auto).
  destruct H as [H|H].
  - apply (lit_of q (m * (2 ^ (20 - Z.pos k) * 5 ^ 20))). rewrite H. unfold Qeq. cbn [Qnum Qden]. rewrite E20, Pos2Z.inj_pow, T2. ring.
  - apply (lit_of q (m * 10 ^ (20 - Z.pos k))). rewrite H. unfold Qeq. cbn [Qnum Qden]. rewrite E20, Pos2Z.inj_pow, T10 at 1. ring.
Qed.
Theorem lit_small : forall q, (Qabs q <= 1 # (2 * Pos.pow 10 20))%Q -> (lit q == 0)%Q.
Proof.
  intros [n d] H. assert (D : dround (n # d) = 0%N).
  { unfold dround. cbn [Qnum Qden]. unfold Qabs, Qle in H. cbn [Qnum Qden] in H. unfold ten20. change (10 ^ 20)%N with 100000000000000000000%N. change (Pos.pow 10 20) with 100000000000000000000%positive in H.
    unfold round_half_even. set (x := (Z.abs_N n * 100000000000000000000)%N).
    assert (B : (2 * x <= Npos d)%N) by (subst x; lia). assert (S0 : (x < Npos d)%N) by lia.
    rewrite N.div_small, N.mod_small by auto. destruct (N.compare_spec (2 * x) (Npos d)); auto. lia. }
  unfold lit. rewrite D. destruct (Qnum (n # d) <? 0)%Z; reflexivity.
Qed.
Theorem lit_sign : forall q, ((q <= 0 -> lit q <= 0) /\ (0 <= q -> 0 <= lit q))%Q.
Proof.
  intros [n d]. unfold lit, Qle. cbn [Qnum Qden]. destruct (Z.ltb_spec n 0); split; intro; try lia.
  assert (n = 0)%Z by lia. subst n. assert (D : dround (0 # d) = 0%N).
  { unfold dround. cbn [Qnum Qden Z.abs_N N.mul]. apply (round_exact 0). discriminate. }
  rewrite D. reflexivity.
Qed.

(** ** Doubles *)

(** Finite double precision numbers: m * 2^e, |m| < 2^53, -1074 <= e <= 971, over the common
    denominator 2^1074 (k = e + 1074). *)
Definition dbl (m : Z) (k : nat) : Q := (m * 2 ^ Z.of_nat k)%Z # Pos.pow 2 1074.
Definition is_double (q : Q) : Prop := exists m k, (Z.abs m < 2 ^ 53)%Z /\ (k <= 2045)%nat /\ (q == dbl m k)%Q.

Lemma pow_split : forall a b, (a <= b)%nat -> (2 ^ Z.of_nat b = 2 ^ Z.of_nat a * 2 ^ Z.of_nat (b - a))%Z.
Proof. intros a b H. rewrite <- Z.pow_add_r by lia. f_equal. lia. Qed.
Lemma pow_mono : forall a b, (0 <= a <= b)%Z -> (2 ^ a <= 2 ^ b)%Z.
Proof. intros. apply Z.pow_le_mono_r; lia. Qed.
Lemma gap : forall m k m' k', (Z.abs m < 2 ^ 53 -> Z.abs m' < 2 ^ 53 -> 2 ^ 1061 <= Z.abs (m * 2 ^ Z.of_nat k) ->
  m * 2 ^ Z.of_nat k <> m' * 2 ^ Z.of_nat k' -> 2 ^ 1008 <= Z.abs (m * 2 ^ Z.of_nat k - m' * 2 ^ Z.of_nat k'))%Z.
Proof.
  intros m k m' k' Hm Hm' Hbig Hne.
  assert (Hk : (1008 <= k)%nat).
  { destruct (Nat.le_gt_cases 1008 k) as [|Hlt]; auto. exfalso. rewrite Z.abs_mul in Hbig. rewrite (Z.abs_eq (2 ^ Z.of_nat k)) in Hbig by (apply Z.pow_nonneg; lia).
    assert (H1 : (2 ^ Z.of_nat k <= 2 ^ 1007)%Z) by (apply pow_mono; lia).
    assert (H2 : (Z.abs m * 2 ^ Z.of_nat k <= 2 ^ 53 * 2 ^ 1007)%Z) by (apply Z.mul_le_mono_nonneg; try lia; apply Z.pow_nonneg; lia).
    rewrite <- Z.pow_add_r in H2 by lia. change (53 + 1007)%Z with 1060%Z in H2. assert (2 ^ 1060 < 2 ^ 1061)%Z by (apply Z.pow_lt_mono_r; lia). lia. }
  destruct (Nat.le_gt_cases 1008 k') as [Hk'|Hk'].
  - rewrite (pow_split 1008 k), (pow_split 1008 k') in * by lia. change (Z.of_nat 1008) with 1008%Z in *.
    set (u := (2 ^ Z.of_nat (k - 1008))%Z) in *. set (v := (2 ^ Z.of_nat (k' - 1008))%Z) in *. set (B := (2 ^ 1008)%Z) in *.
    assert (HB : (0 < B)%Z) by (apply Z.pow_pos_nonneg; lia). clear Hbig. clearbody B u v.
    replace (m * (B * u) - m' * (B * v))%Z with (B * (m * u - m' * v))%Z in * by ring. rewrite Z.abs_mul, (Z.abs_eq B) by lia.
    assert (m * u - m' * v <> 0)%Z by (intro E; apply Hne; assert (m * u = m' * v)%Z by lia; replace (m * (B * u))%Z with (B * (m * u))%Z by ring; rewrite H; ring).
    assert (1 <= Z.abs (m * u - m' * v))%Z by lia. nia.
  - assert (H1 : (2 ^ Z.of_nat k' <= 2 ^ 1007)%Z) by (apply pow_mono; lia).
    assert (H0 : (0 < 2 ^ Z.of_nat k')%Z) by (apply Z.pow_pos_nonneg; lia).
    assert (H2 : (Z.abs (m' * 2 ^ Z.of_nat k') <= 2 ^ 53 * 2 ^ 1007)%Z).
    { rewrite Z.abs_mul, (Z.abs_eq (2 ^ Z.of_nat k')) by lia. apply Z.mul_le_mono_nonneg; lia. }
    rewrite <- Z.pow_add_r in H2 by lia. change (53 + 1007)%Z with 1060%Z in H2.
    assert (H3 : (2 ^ 1061 = 2 * 2 ^ 1060)%Z) by (rewrite <- Z.pow_succ_r by lia; reflexivity).
    assert (H4 : (2 ^ 1008 <= 2 ^ 1060)%Z) by (apply pow_mono; lia). lia.
Qed.
Lemma half_lt : (1 # (2 * Pos.pow 10 20) < 1 # Pos.pow 2 67)%Q.
Proof. reflexivity. Qed.
(** A double of magnitude at least 2^-13 is the double closest to its literal. *)
Theorem lit_nearest : forall q q', is_double q -> is_double q' -> (1 # Pos.pow 2 13 <= Qabs q)%Q -> ~ (q' == q)%Q ->
  (Qabs (lit q - q) < Qabs (lit q - q'))%Q.
Proof.
  intros q q' (m & k & Hm & _ & Hq) (m' & k' & Hm' & _ & Hq') Hbig Hne.
  assert (G : (1 # Pos.pow 2 66 <= Qabs (q - q'))%Q).
  { rewrite Hq, Hq'. unfold dbl. set (a := (m * 2 ^ Z.of_nat k)%Z). set (b := (m' * 2 ^ Z.of_nat k')%Z).
    assert (Ed : Z.pos (Pos.pow 2 1074) = (2 ^ 1074)%Z) by (rewrite Pos2Z.inj_pow; reflexivity).
    assert (E66 : Z.pos (Pos.pow 2 66) = (2 ^ 66)%Z) by reflexivity.
    assert (Hab : (2 ^ 1008 <= Z.abs (a - b))%Z).
    { apply gap; auto.
      - rewrite Hq in Hbig. unfold dbl in Hbig. fold a in Hbig. unfold Qle, Qabs in Hbig. cbn [Qnum Qden] in Hbig. rewrite Ed in Hbig. change (Z.pos (Pos.pow 2 13)) with (2 ^ 13)%Z in Hbig.
        fold a. replace (2 ^ 1074)%Z with (2 ^ 13 * 2 ^ 1061)%Z in Hbig by (rewrite <- Z.pow_add_r by lia; reflexivity).
        set (B := (2 ^ 1061)%Z) in *. change (2 ^ 13)%Z with 8192%Z in Hbig. lia.
      - intro E. apply Hne. rewrite Hq, Hq'. unfold dbl. rewrite E. reflexivity. }
    assert (Es : ((a # 2 ^ 1074) - (b # 2 ^ 1074) == (a - b) # 2 ^ 1074)%Q).
    { unfold Qeq, Qminus, Qplus, Qopp. cbn [Qnum Qden]. rewrite Pos2Z.inj_mul. ring. }
    rewrite Es. unfold Qle, Qabs. cbn [Qnum Qden]. rewrite Ed, E66. replace (2 ^ 1074)%Z with (2 ^ 1008 * 2 ^ 66)%Z by (rewrite <- Z.pow_add_r by lia; reflexivity).
    set (B := (2 ^ 1008)%Z) in *. change (2 ^ 66)%Z with 73786976294838206464%Z. lia. }
  pose proof (lit_close q) as C. pose proof half_lt as L.
  assert (T : (Qabs (q - q') <= Qabs (lit q - q) + Qabs (lit q - q'))%Q).
  { replace (Qabs (lit q - q)) with (Qabs (lit q - q)) by auto. rewrite <- (Qabs_opp (lit q - q)).
    assert (E : (q - q' == - (lit q - q) + (lit q - q'))%Q) by ring. rewrite E. apply Qabs_triangle. }
  assert (S2 : (1 # Pos.pow 2 66 == (1 # Pos.pow 2 67) + (1 # Pos.pow 2 67))%Q) by reflexivity.
  rewrite S2 in G. clear S2. revert G C L T. generalize (Qabs (lit q - q)) (Qabs (lit q - q')) (Qabs (q - q')) (1 # (2 * Pos.pow 10 20))%Q (1 # Pos.pow 2 67)%Q.
  intros x y z u v G C L T. lra.
Qed.

(** ** Arrays *)

(** C identifiers and type names: letters, digits, underscores. *)
Definition idchar (c : ascii) : bool :=
  let n := N_of_ascii c in
  (is_digit c || (65 <=? n) && (n <=? 90) || (97 <=? n) && (n <=? 122) || (n =? 95))%N.
Definition ident (s : string) : bool := allc idchar s.

Lemma allc_mono : forall (p q : ascii -> bool) s, (forall c, p c = true -> q c = true) -> allc p s = true -> allc q s = true.
Proof.
  intros p q s H. induction s as [|c s IH]; cbn [allc]; auto. intro A. apply andb_prop in A. destruct A as [A1 A2]. rewrite H, IH; auto.
Qed.
Lemma upto_app : forall c s t, allc (fun x => negb (Ascii.eqb x c)) s = true -> upto c (s ++ String c t) = Some (s, t).
Proof.
  induction s as [|x s IH]; intros t H; cbn [append upto].
  - rewrite Ascii.eqb_refl. auto.
  - cbn [allc] in H. apply andb_prop in H. destruct H as [H1 H2]. apply negb_true_iff in H1. rewrite H1, IH by auto. auto.
Qed.
Lemma strip_app : forall p t, strip p (p ++ t) = Some t.
Proof. induction p as [|c p IH]; intros; cbn [append strip]; auto. rewrite Ascii.eqb_refl. auto. Qed.
Lemma neq_char : forall (p : ascii -> bool) c x, p c = false -> p x = true -> negb (Ascii.eqb x c) = true.
Proof. intros p c x H1 H2. apply negb_true_iff. apply Ascii.eqb_neq. intros ->. congruence. Qed.

(** Entries: no comma, not starting with a closing brace. *)
Definition entry_ok (e : string) : bool :=
  allc (fun x => negb (Ascii.eqb x ",")) e && match e with EmptyString => false | String c _ => negb (Ascii.eqb c "}") end.
Lemma strip_brace : forall e t, entry_ok e = true -> strip ("};" ++ nl) (e ++ t) = None.
Proof.
  intros e t H. apply andb_prop in H. destruct H as [_ H]. destruct e as [|c e]; [discriminate|]. cbn [append strip]. apply negb_true_iff in H.
  replace (Ascii.eqb "}" c) with false; auto.
Qed.
Lemma read_entries_ok : forall es fuel rest, forallb entry_ok es = true -> (length es < fuel)%nat ->
  read_entries fuel (cat (map (fun e => e ++ "," ++ nl)%string es) ++ "};" ++ nl ++ rest)%string = Some (es, rest).
Proof.
  induction es as [|e es IH]; intros fuel rest H Hf; (destruct fuel as [|fuel]; [cbn in Hf; lia|]).
  - reflexivity.
  - cbn [forallb] in H. apply andb_prop in H. destruct H as [H1 H2]. cbn [map cat fold_right]. fold cat. rewrite !append_assoc. cbn [read_entries].
    rewrite strip_brace by auto. change (("," ++ ?x)%string) with (String "," x). rewrite upto_app by (apply andb_prop in H1; tauto).
    rewrite strip_app. rewrite IH by (auto; cbn in Hf; lia). auto.
Qed.
Lemma str_len_app : forall a b, (String.length (a ++ b) = String.length a + String.length b)%nat.
Proof. induction a as [|c a IH]; intros; cbn [append String.length]; auto. rewrite IH. auto. Qed.
Lemma cat_len : forall es, (length es <= String.length (cat (map (fun e => e ++ "," ++ nl)%string es)))%nat.
Proof.
  induction es as [|e es IH]; cbn [map cat fold_right length]; auto. fold cat. rewrite !str_len_app. cbn [String.length]. lia.
Qed.

Lemma ident_space : forall s, ident s = true -> allc (fun x => negb (Ascii.eqb x " ")) s = true.
Proof. intros s. apply allc_mono. intro c. apply (neq_char idchar). reflexivity. Qed.
Lemma ident_brack : forall s, ident s = true -> allc (fun x => negb (Ascii.eqb x "[")) s = true.
Proof. intros s. apply allc_mono. intro c. apply (neq_char idchar). reflexivity. Qed.
Lemma ident_comma : forall s, ident s = true -> allc (fun x => negb (Ascii.eqb x ",")) s = true.
Proof. intros s. apply allc_mono. intro c. apply (neq_char idchar). reflexivity. Qed.

Theorem read_vec_text : forall typ name es rest, ident typ = true -> ident name = true -> forallb entry_ok es = true ->
  read_vec (vec_text typ name es ++ rest)%string = Some (typ, name, N.of_nat (length es), es, rest).
Proof.
  intros typ name es rest Ht Hn He. unfold vec_text, read_vec. rewrite !append_assoc.
  change (" " ++ ?x)%string with (String " " x). rewrite upto_app by (apply ident_space; auto).
  change ("[" ++ ?x)%string with (String "[" x). rewrite upto_app by (apply ident_brack; auto).
  change ("] = {" ++ ?x)%string with (String "]" (" = {" ++ x)). rewrite upto_app.
  2: { apply allc_mono with (p := is_digit); [|apply dec_allc]. intro c. apply (neq_char is_digit). reflexivity. }
  rewrite read_uint_dec. rewrite <- (append_assoc " = {" nl). rewrite strip_app. rewrite read_entries_ok; auto.
  rewrite str_len_app. pose proof (cat_len es). lia.
Qed.

Lemma fmt20_allc : forall q, allc (fun x => negb (Ascii.eqb x ",")) (fmt20 q) = true.
Proof.
  intro q. assert (D : forall s, allc is_digit s = true -> allc (fun x => negb (Ascii.eqb x ",")) s = true) by (intros s; apply allc_mono; intro c; apply (neq_char is_digit); reflexivity).
  unfold fmt20. rewrite !allc_app. rewrite (D _ (dec_allc _)), (D _ (pad_allc _ _ "" eq_refl)). destruct (Qnum q <? 0)%Z; reflexivity.
Qed.
Lemma fmt_allc : forall v, allc (fun x => negb (Ascii.eqb x ",")) (fmt v) = true.
Proof. destruct v; try reflexivity. apply fmt20_allc. Qed.
Lemma cast_ok : forall typ v, ident typ = true -> entry_ok ("(" ++ typ ++ ")" ++ fmt v) = true.
Proof.
  intros typ v H. unfold entry_ok. rewrite !allc_app. rewrite fmt_allc. rewrite (ident_comma _ H). reflexivity.
Qed.
Lemma int_ok : forall z, entry_ok (fmt_int z) = true.
Proof.
  intro z. unfold entry_ok, fmt_int. assert (D : allc (fun x => negb (Ascii.eqb x ",")) (dec (Z.abs_N z)) = true).
  { apply allc_mono with (p := is_digit); [intro c; apply (neq_char is_digit); reflexivity|apply dec_allc]. }
  rewrite allc_app, D. destruct (z <? 0)%Z; [reflexivity|]. cbn [append allc andb]. destruct (dec_first (Z.abs_N z)) as (c & t & E & Dc). rewrite E.
  apply (neq_char is_digit); auto.
Qed.
Theorem read_vec_float : forall typ name v rest, ident typ = true -> ident name = true ->
  read_vec (write_vec_float typ name v ++ rest) = Some (typ, name, N.of_nat (length v), map (fun x => "(" ++ typ ++ ")" ++ fmt x)%string v, rest).
Proof.
  intros typ name v rest Ht Hn. unfold write_vec_float. rewrite read_vec_text; auto.
  - rewrite map_length. auto.
  - apply forallb_forall. intros e He. apply in_map_iff in He. destruct He as (x & <- & _). apply cast_ok. auto.
Qed.
Theorem read_vec_int : forall typ name v rest, ident typ = true -> ident name = true ->
  read_vec (write_vec_int typ name v ++ rest) = Some (typ, name, N.of_nat (length v), map fmt_int v, rest).
Proof.
  intros typ name v rest Ht Hn. unfold write_vec_int. rewrite read_vec_text; auto.
  - rewrite map_length. auto.
  - apply forallb_forall. intros e He. apply in_map_iff in He. destruct He as (x & <- & _). apply int_ok.
Qed.
Theorem read_cast_fmt : forall typ q, exists r, read_cast typ ("(" ++ typ ++ ")" ++ fmt (Fin q)) = Some r /\ (r == lit q)%Q.
Proof.
  intros typ q. destruct (read_fmt20 q) as (r & E & V). exists r. split; auto. unfold read_cast. 
  replace ("(" ++ typ ++ ")" ++ fmt (Fin q))%string with (("(" ++ typ ++ ")") ++ fmt (Fin q))%string by (rewrite !append_assoc; auto).
  rewrite strip_app. auto.
Qed.
Lemma ident_app : forall a b, ident a = true -> ident b = true -> ident (a ++ b) = true.
Proof. intros a b H1 H2. unfold ident in *. rewrite allc_app, H1, H2. auto. Qed.

(** A literal that is not finite is not read as a number. *)
Theorem read_cast_inf : forall typ v, (forall q, v <> Fin q) -> read_cast typ ("(" ++ typ ++ ")" ++ fmt v) = None.
Proof.
  intros typ v H. unfold read_cast.
  replace ("(" ++ typ ++ ")" ++ fmt v)%string with (("(" ++ typ ++ ")") ++ fmt v)%string by (rewrite !append_assoc; auto).
  rewrite strip_app. destruct v as [q| | |]; [exfalso; eapply H; eauto|reflexivity..].
Qed.
