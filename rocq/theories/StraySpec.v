(** Specification for calls with any index: where the written entry lies, and which array each block was
    last computed from. *)

From Coq Require Import String Arith Bool ZArith List.
From Verif Require Import Base Pus Machine Runtime RuntimeSpec Stray.
Import ListNotations.
Open Scope list_scope.

(** Number of values of all parameters, and of the parameters before [n]. *)
Fixpoint total (ps : list (string * nat)) : nat :=
  match ps with [] => 0 | (_, s) :: t => s + total t end.
Fixpoint offset (ps : list (string * nat)) (n : string) : nat :=
  match ps with [] => 0 | (m, s) :: t => if String.eqb n m then 0 else s + offset t n end.
Fixpoint size_of (ps : list (string * nat)) (n : string) : nat :=
  match ps with [] => 0 | (m, s) :: t => if String.eqb n m then s else size_of t n end.

(** The entry of the parameter array a call is about. *)
Definition place (ps : list (string * nat)) (n : string) (idx : Z) : Z :=
  if Nat.eqb (size_of ps n) 1 then Z.of_nat (offset ps n) else (Z.of_nat (offset ps n) + idx)%Z.

Section Spec.
  Variable N : Num.
  Notation V := (car N).

  (** The call stays inside the array: it has one more entry than there are parameter values. *)
  Definition inside (ps : list (string * nat)) (o : zop N) : Prop :=
    match o with
    | ZUpd n idx _ => In n (map fst ps) /\ (0 <= place ps n idx <= Z.of_nat (total ps))%Z
    | ZSolve => True
    end.

  (** An index the parameter has. *)
  Definition in_range (ps : list (string * nat)) (o : zop N) : Prop :=
    match o with
    | ZUpd n idx _ => In n (map fst ps) /\ (size_of ps n = 1%nat \/ (0 <= idx < Z.of_nat (size_of ps n))%Z)
    | ZSolve => True
    end.

  (** The same call with a natural index. *)
  Definition plain (ps : list (string * nat)) (o : zop N) : op N :=
    match o with
    | ZUpd n idx v => OUpd n (if Nat.eqb (size_of ps n) 1 then 0%nat else Z.to_nat idx) v
    | ZSolve => OSolve
    end.

  (** The parameter array after some calls, and at each solve. *)
  Fixpoint array (ps : list (string * nat)) (vec : list V) (os : list (zop N)) : list V :=
    match os with
    | [] => vec
    | ZUpd n idx v :: t => array ps (upd vec (Z.to_nat (place ps n idx)) v) t
    | ZSolve :: t => array ps vec t
    end.
  Fixpoint arrays (ps : list (string * nat)) (vec : list V) (os : list (zop N)) : list (list V) :=
    match os with
    | [] => []
    | ZUpd n idx v :: t => arrays ps (upd vec (Z.to_nat (place ps n idx)) v) t
    | ZSolve :: t => vec :: arrays ps vec t
    end.

  (** For one block: the array it was last computed from, at each solve.  A solve computes the block anew
      when an update function that names the block has been called since the last solve ([due]). *)
  Fixpoint seen (ps : list (string * nat)) (names : string -> bool) (vec : list V) (due : bool) (old : list V)
           (os : list (zop N)) : list (list V) :=
    match os with
    | [] => []
    | ZUpd n idx v :: t => seen ps names (upd vec (Z.to_nat (place ps n idx)) v) (due || names n) old t
    | ZSolve :: t => let now := if due then vec else old in now :: seen ps names vec false now t
    end.

  (** The block for a given parameter array. *)
  Definition data_for (g : genc N) (p : pid) (vec : list V) : list V :=
    if chg_get (g_chg g) p
    then map (dot vec) (g_rows g p) ++ skipn (length (g_rows g p)) (g_baked g p)
    else g_baked g p.

  (** Every changing block that reads the entry written is named by the function called. *)
  Definition covers (g : genc N) (o : zop N) : Prop :=
    match o with
    | ZUpd n idx _ => forall p r c v, chg_get (g_chg g) p = true -> In r (g_rows g p) -> In (c, v) r ->
                        Z.of_nat c = place (g_params g) n idx -> In p (g_outd g n)
    | ZSolve => True
    end.
End Spec.
Arguments inside {N}. Arguments in_range {N}. Arguments plain {N}. Arguments array {N}. Arguments arrays {N}.
Arguments seen {N}. Arguments data_for {N}. Arguments covers {N}.
