(** Which entries an index expression denotes (NumPy's rules), independent of the code. *)

From Coq Require Import String Arith Bool ZArith List.
From Verif Require Import Base Retrieve RetrieveProofs Explicit StoredVars.
Import ListNotations.

(** Index [z] of an axis of length [dim] denotes position [i]; negative ones count from the end. *)
Definition denotes (dim : nat) (z : Z) (i : nat) : Prop :=
  Z.of_nat i = z \/ (z < 0 /\ Z.of_nat i = Z.of_nat dim + z)%Z.

Definition from_end (dim : nat) (z : Z) : Z := if Z.ltb z 0 then (Z.of_nat dim + z)%Z else z.

(** Position [i] of an axis belongs to a key.  Lists run in parallel: [t] is the common position in all of them, a
    list of one entry is repeated. *)
Definition axis_sel (t dim : nat) (k : akey) (i : nat) : Prop :=
  match k with
  | AInt z => denotes dim z i
  | ASlice a b s =>
      let lo := match a with None => 0%Z | Some z => Z.max 0 (from_end dim z) end in
      (lo <= Z.of_nat i)%Z
      /\ match b with None => True | Some z => (Z.of_nat i < from_end dim z)%Z end
      /\ exists n, Z.of_nat i = (lo + n * Zpos s)%Z
  | AList [z] => denotes dim z i
  | AList l => exists z, nth_error l t = Some z /\ denotes dim z i
  end.

(** Axes without a key are taken as a whole. *)
Inductive axes_sel (t : nat) : list nat -> list akey -> list nat -> Prop :=
| as_rest : forall sh idx, in_shape sh idx -> axes_sel t sh [] idx
| as_cons : forall h sh k ks i idx, i < h -> axis_sel t h k i -> axes_sel t sh ks idx ->
    axes_sel t (h :: sh) (k :: ks) (i :: idx).

Definition selects (sh : list nat) (k : vkey) (idx : list nat) : Prop :=
  match k with
  | KTuple ks => exists t, axes_sel t sh ks idx
  | KList l | KArray l => in_shape sh idx /\ exists h i, hd_error sh = Some h /\ hd_error idx = Some i
                          /\ exists z, In z l /\ denotes h z i
  | KMask l => in_shape sh idx /\ exists i, hd_error idx = Some i /\ nth_error l i = Some true
  end.

Definition item_selects (s : sitem) (idx : list nat) : Prop :=
  match s with SWhole v => in_shape (uv_shape v) idx | SIndex v k => selects (uv_shape v) k idx end.

(** Keys that NumPy accepts for an axis; here, lists have nonnegative entries. *)
Definition axis_ok (dim : nat) (k : akey) : Prop :=
  match k with
  | AInt z => (- Z.of_nat dim <= z < Z.of_nat dim)%Z
  | ASlice _ _ _ => True
  | AList l => Forall (fun z => 0 <= z < Z.of_nat dim)%Z l
  end.
Inductive axes_ok : list nat -> list akey -> Prop :=
| ao_nil : forall sh, axes_ok sh []
| ao_cons : forall h sh k ks, axis_ok h k -> axes_ok sh ks -> axes_ok (h :: sh) (k :: ks).

(** At most one list of two or more (or no) entries. *)
Definition one_list (ks : list akey) : Prop :=
  length (filter (fun k => match k with AList [_] => false | AList _ => true | _ => false end) ks) <= 1.
Definition no_repeats (ks : list akey) : Prop :=
  Forall (fun k => match k with AList l => NoDup l | _ => True end) ks.

(** Index expressions outside the exceptions: a list of indices into a vector; for arrays of other dimensions a
    tuple of keys, one per axis if there is a list among them. *)
Definition plain_key (sh : list nat) (k : vkey) : Prop :=
  match sh with
  | [h] => exists l, k = KList l /\ Forall (fun z => 0 <= z < Z.of_nat h)%Z l /\ NoDup l
  | _ => exists ks, k = KTuple ks /\ ks <> [] /\ axes_ok sh ks /\ no_repeats ks
           /\ (existsb is_list ks = true -> length ks = length sh)
  end.
(** ... which denote at least two entries, or the only entry of a variable. *)
Definition enough (sh : list nat) (sel : list nat -> Prop) : Prop :=
  exists idx, sel idx /\ (fsize sh = 1 \/ exists idx', sel idx' /\ idx' <> idx).
Definition plain_item (s : sitem) : Prop :=
  match s with SWhole _ => True | SIndex v k => plain_key (uv_shape v) k /\ enough (uv_shape v) (selects (uv_shape v) k) end.
Definition exact_item (s : sitem) : Prop :=
  match s with SIndex _ (KTuple ks) => one_list ks | _ => True end.
