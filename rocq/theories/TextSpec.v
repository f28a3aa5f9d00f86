(** What the text edits should do, said with concatenation only. *)
From Coq Require Import String Ascii List Arith Bool.
From Verif Require Import Base.
Import ListNotations.
Open Scope string_scope.
Open Scope list_scope.

Definition occurs (x s : string) : Prop := exists a b, s = (a ++ x ++ b)%string.

(** [a] is the text before the first occurrence of [x]. *)
Definition first (x a s : string) : Prop :=
  (exists b, s = (a ++ x ++ b)%string)
  /\ forall a' b', s = (a' ++ x ++ b')%string -> String.length a <= String.length a'.

(** The text before the first occurrence, or all of it. *)
Definition before (x a s : string) : Prop := first x a s \/ (~ occurs x s /\ a = s).

Fixpoint join (x : string) (ps : list string) : string :=
  match ps with [] => "" | [p] => p | p :: r => (p ++ x ++ join x r)%string end.

(** The text cut at the occurrences of [x], found one after the other from the left. *)
Inductive pieces (x : string) : string -> list string -> Prop :=
| pieces_none s : ~ occurs x s -> pieces x s [s]
| pieces_more p r ps : first x p (p ++ x ++ r)%string -> pieces x r ps -> pieces x (p ++ x ++ r)%string (p :: ps).

(** Number of positions at which [x] occurs. *)
Fixpoint begins (x s : string) : bool :=
  match x, s with
  | EmptyString, _ => true
  | String a x', String b s' => Ascii.eqb a b && begins x' s'
  | String _ _, EmptyString => false
  end.
Fixpoint count (x s : string) : nat :=
  (if begins x s then 1 else 0) + match s with EmptyString => 0 | String _ r => count x r end.

(** A word: text without spaces. *)
Fixpoint no_space (s : string) : Prop :=
  match s with EmptyString => True | String c r => c <> " "%char /\ no_space r end.
