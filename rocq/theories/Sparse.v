(** Arrays and loops of the generated C code, and the compressed lower-triangular factor:
    cpg_osqp_grad_compute.c.jinja2 14-155, utils.py 134-151. *)

From Coq Require Import Arith Bool ZArith Lia List.
From Verif Require Import Base Machine Runtime.
Import ListNotations.

(** [for (k = i; k < i + n; k++)] *)
Fixpoint for_ {S} (n i : nat) (f : nat -> S -> res S) (s : S) : res S :=
  match n with O => Ok s | Datatypes.S n' => s' <- f i s;; for_ n' (Datatypes.S i) f s' end.
(** [for (k = i + n - 1; k >= i; k--)] *)
Fixpoint for_down {S} (n i : nat) (f : nat -> S -> res S) (s : S) : res S :=
  match n with O => Ok s | Datatypes.S n' => s' <- f (i + n') s;; for_down n' i f s' end.
(** A loop that a [break] may leave: [f] answers false after a break. *)
Fixpoint for_break {S} (n i : nat) (f : nat -> S -> res (bool * S)) (s : S) : res S :=
  match n with
  | O => Ok s
  | Datatypes.S n' => '(go, s') <- f i s;; if (go : bool) then for_break n' (Datatypes.S i) f s' else Ok s'
  end.

(** cpg_grad_csc: column pointers, row indices, values, nnz.  The arrays have their allocated
    lengths; only the first nnz entries are meaningful. *)
Record csc (K : Type) := mkCsc { c_p : list nat; c_i : list nat; c_x : list K; c_n : nat }.
Arguments mkCsc {K}. Arguments c_p {K}. Arguments c_i {K}. Arguments c_x {K}. Arguments c_n {K}.
Definition set_x {K} (L : csc K) (x : list K) : csc K := mkCsc (c_p L) (c_i L) x (c_n L).

(** Binary search of lines 21-32 and 62-74: position of the row, or where to insert it. *)
Fixpoint bsearch (fuel : nat) (is : list nat) (row start stop pos : nat) : res (nat + nat) :=
  if Nat.ltb start stop then
    match fuel with
    | O => Err RecursionError
    | Datatypes.S f =>
        let mid := start + (stop - start) / 2 in
        m <- get is mid;;
        if Nat.eqb m row then Ok (inl mid)
        else if Nat.ltb m row then bsearch f is row (mid + 1) stop pos
        else bsearch f is row start mid mid
    end
  else Ok (inr pos).

(** Lines 34-51 and 77-93. *)
Definition insert_at {K} (N : nat) (L : csc K) (row col pos : nat) (v : K) : res (csc K) :=
  let n := c_n L + 1 in
  '(is, xs) <- for_down (n - 1 - pos) (pos + 1)
      (fun p '(is, xs) => i <- get is (p - 1);; is' <- put is p i;;
                          x <- get xs (p - 1);; xs' <- put xs p x;; Ok (is', xs'))
      (c_i L, c_x L);;
  is' <- put is pos row;;
  xs' <- put xs pos v;;
  ps <- for_ (N - col) (col + 1) (fun j ps => x <- get ps j;; put ps j (x + 1)) (c_p L);;
  Ok (mkCsc ps is' xs' n).

(** insert_nonzero (15-52, [keep] = true: an entry already present is left alone, a new one is
    0.0) and insert_nonzero_and_value (55-93, [keep] = false: overwritten). *)
Definition insert {K} (N : nat) (L : csc K) (row col : nat) (keep : bool) (v : K) : res (csc K) :=
  if Nat.ltb row col then Ok L
  else
    start <- get (c_p L) col;;
    stop <- get (c_p L) (col + 1);;
    r <- bsearch (stop - start) (c_i L) row start stop stop;;
    match r with
    | inl k => if keep then Ok L else xs <- put (c_x L) k v;; Ok (set_x L xs)
    | inr pos => insert_at N L row col pos v
    end.

(** remove_nonzero (96-128); [small] is fabs(.) <= 1e-6. *)
Definition remove_nz {K} (small : K -> bool) (N : nat) (L : csc K) (row col : nat) : res (csc K) :=
  if Nat.ltb row col then Ok L
  else
    start <- get (c_p L) col;;
    stop <- get (c_p L) (col + 1);;
    found <- for_break (stop - start) start
      (fun p _ => i <- get (c_i L) p;;
        if Nat.eqb i row then x <- get (c_x L) p;; Ok (false, if small x then Some p else None)
        else Ok (true, None)) None;;
    match found with
    | None => Ok L
    | Some pos =>
        '(is, xs) <- for_ (c_n L - 1 - pos) pos
          (fun p '(is, xs) => i <- get is (p + 1);; is' <- put is p i;;
                              x <- get xs (p + 1);; xs' <- put xs p x;; Ok (is', xs'))
          (c_i L, c_x L);;
        ps <- for_ (N - col) (col + 1) (fun j ps => x <- get ps j;; put ps j (x - 1)) (c_p L);;
        Ok (mkCsc ps is xs (c_n L - 1))
    end.

(** utils.py 134-151: the initial factor, dense below the diagonal, all ones. *)
Definition full_L {K : Num} (N : nat) : csc K :=
  let cols := map (fun j => seq (j + 1) (N - j - 1)) (seq 0 N) in
  mkCsc (fold_left (fun acc c => acc ++ [last acc 0 + length c]) cols [0])
        (concat cols) (repeat n1 (length (concat cols))) (length (concat cols)).

(** Index into Lmask, line 137 and writer.py 263, in C integer arithmetic (division truncates). *)
Definition mask_index (N col row : Z) : Z := ((2 * N - 3 - col) * col ÷ 2 + row - 1)%Z.
