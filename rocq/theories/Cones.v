(** Cone descriptions passed to the conic solvers: clarabel.py 128-146 and 308-323,
    scs.py 118-137 and 224-238, ecos.py 78-88, 100-102 and 122-126, qoco.py 80-92, 129-133
    (QOCOGEN) and 256-265, 300-312, 349-353 (QOCO). *)

From Coq Require Import String Arith Bool ZArith QArith Lia List.
From Verif Require Import Base Pus Machine.
Import ListNotations.

(** CVXPY's ConeDims: zero and nonnegative rows, number of exponential cones, sizes of the
    second-order and semidefinite cones, exponents of the 3D power cones. *)
Record dims := mkDims { d_zero : nat; d_nonneg : nat; d_exp : nat; d_soc : list nat; d_psd : list nat; d_p3d : list Q }.

Inductive cone := Zero (n : nat) | Nonneg (n : nat) | Soc (n : nat) | Psd (n : nat) | Exp | Pow (alpha : Q).
(** Rows of a cone; Clarabel's and CVXPY's semidefinite cones take the triangle. *)
Definition cone_rows (c : cone) : nat :=
  match c with Zero n | Nonneg n | Soc n => n | Psd n => n * (n + 1) / 2 | Exp | Pow _ => 3 end.
(** The cone of every row, in row order. *)
Definition row_cones (l : list cone) : list cone := flat_map (fun c => repeat c (cone_rows c)) l.

(** Rows of CVXPY's stacked constraints (cone_matrix_stuffing: zero, nonneg, SOC, PSD, exp,
    power). *)
Definition block (mk : nat -> cone) (n : nat) : list cone := if Nat.ltb 0 n then [mk n] else [].
Definition cv_cones (d : dims) : list cone :=
  block Zero (d_zero d) ++ block Nonneg (d_nonneg d) ++ map Soc (d_soc d) ++ map Psd (d_psd d) ++ repeat Exp (d_exp d) ++ map Pow (d_p3d d).

(** n_cone_types, clarabel.py 141-146. *)
Definition one (n : nat) : nat := if Nat.ltb 0 n then 1 else 0.
Definition clar_n (d : dims) : nat :=
  one (d_zero d) + one (d_nonneg d) + one (d_exp d) + length (d_soc d) + length (d_psd d) + length (d_p3d d).
(** cone_str_list, clarabel.py 312-319. *)
Definition clar_cones (d : dims) : list cone :=
  block Zero (d_zero d) ++ block Nonneg (d_nonneg d) ++ repeat Exp (d_exp d) ++ map Soc (d_soc d) ++ map Psd (d_psd d) ++ map Pow (d_p3d d).
(** What clarabel_DefaultSolver_new(.., n_cone_types, cones, ..) gets: the first n_cone_types
    elements (an array initialiser that is too long is cut, with a compiler warning). *)
Definition clar_seen (d : dims) : list cone := firstn (clar_n d) (clar_cones d).

(** check_unsupported_cones; Clarabel and the base class accept everything. *)
Definition check_cones (s : solver) (d : dims) : res unit :=
  match s with
  | SCS _ => if Nat.ltb 0 (d_exp d) || Nat.ltb 0 (length (d_psd d)) || Nat.ltb 0 (length (d_p3d d)) then Err ValueError else Ok tt
  | ECOS | QOCO _ | QOCOGEN _ => if Nat.ltb 0 (d_exp d) then Err ValueError else Ok tt
  | OSQP | CLARABEL _ => Ok tt
  end.
(** SCS: z, l, q of the ScsCone struct; ECOS and QOCO: p equality rows in A, then l and q for
    the rows of G. *)
Definition zlq_cones (d : dims) : list cone := block Zero (d_zero d) ++ block Nonneg (d_nonneg d) ++ map Soc (d_soc d).
