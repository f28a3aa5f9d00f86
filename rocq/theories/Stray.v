(** The update functions of the generated C code called with any index: cpg_update_<p>(idx, val) of
    utils.py 904-930 takes a signed cpg_int and tests nothing.  Runtime.v and Explicit.v model the calls
    with an index below the size of the parameter; here the index is any integer.  A write or read outside
    an array is undefined in C and stops the model with [OutOfBounds]. *)

From Coq Require Import String Arith Bool ZArith List.
From Verif Require Import Base Pus Machine Runtime Explicit.
Import ListNotations.
Open Scope list_scope.

(** [l[k] = v] and [l[k]] with a signed subscript. *)
Definition zput {A} (l : list A) (k : Z) (v : A) : res (list A) :=
  if Z.ltb k 0 then Err OutOfBounds else put l (Z.to_nat k) v.
Definition zget {A} (l : list A) (k : Z) : res A :=
  if Z.ltb k 0 then Err OutOfBounds else get l (Z.to_nat k).

Section Stray.
  Variable N : Num.
  Notation V := (car N).
  Variable g : genc N.
  Variable scr : nat -> pid -> list V -> list V.

  (** The subscript in the text of utils.py 916 and 926: [base_col] for a parameter of size 1, whose function
      takes no index (907-908), and [idx+base_col] for any other. *)
  Definition subscript (name : string) (idx : Z) : option Z :=
    match base_col g name, assoc name (g_params g) with
    | Some c, Some sz => Some (if Nat.eqb sz 1 then Z.of_nat c else (idx + Z.of_nat c)%Z)
    | _, _ => None
    end.

  Inductive zop := ZUpd (name : string) (idx : Z) (val : V) | ZSolve.

  (** utils.py 904-930 (non-explicit): the assignment, then the flags of the parameter whose function it is. *)
  Definition z_update (s : rst N) (name : string) (idx : Z) (val : V) : res (rst N) :=
    match subscript name idx with
    | None => Err KeyError
    | Some k =>
      vec <- zput (r_vec s) k val ;;
      Ok (mkR vec (fun p => mem_pid p (g_outd g name) || r_flag s p) (r_m s) (r_ini s) (r_log s))
    end.

  Definition z_step (s : rst N) (o : zop) : res (rst N) :=
    match o with ZUpd name idx val => z_update s name idx val | ZSolve => do_solve g scr s end.

  Fixpoint z_steps (s : rst N) (os : list zop) : res (rst N) :=
    match os with [] => Ok s | o :: t => s' <- z_step s o ;; z_steps s' t end.
End Stray.
Arguments ZUpd {N}. Arguments ZSolve {N}. Arguments subscript {N}. Arguments z_update {N}.
Arguments z_step {N}. Arguments z_steps {N}.

(** utils.py 904-930 with explicit set: the value is first limited to the two bounds stored at the same
    subscript. *)
Definition zx_update {K : ORing} (g : genc K) (lower upper : list K) (s : xst K) (name : string) (idx : Z) (val : K)
  : res (xst K) :=
  match subscript g name idx with
  | None => Err KeyError
  | Some k =>
    lo <- zget lower k ;; hi <- zget upper k ;;
    vec <- zput (xs_vec s) k (clamp lo hi val) ;;
    Ok (mkX vec (fun p => mem_pid p (g_outd g name) || xs_flag s p) (xs_can s) (xs_log s))
  end.
