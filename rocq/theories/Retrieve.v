(** Results: how user variables and constraints are located in the solver's solution,
    copied by the generated code and handed to Python.
    Models cvxpygen/canonicalizer.py 124-224, cvxpygen/utils.py 574-628 (result structs),
    949-975 (cpg_retrieve_prim, cpg_retrieve_dual), 1036-1044 (when they are called),
    1217-1243 (solve_cpp, non-explicit) and templates/cpg_solver.py.jinja2 73-82
    (reshape and save).  The explicit-mode variants are in Explicit.v. *)

From Coq Require Import String Arith Bool List DecimalString DecimalNat.
From Verif Require Import Base Pus.
Import ListNotations.
Open Scope list_scope.

(** ** NumPy layout *)

(** Position of a multi-index in column-major ('F') order. *)
Fixpoint fpos (shape idx : list nat) : nat :=
  match shape, idx with
  | h :: t, i :: is => i + h * fpos t is
  | _, _ => 0
  end.

(** All multi-indices of a shape in column-major order. *)
Fixpoint fidx (shape : list nat) : list (list nat) :=
  match shape with
  | [] => [[]]
  | h :: t => flat_map (fun is => map (fun i => i :: is) (seq 0 h)) (fidx t)
  end.

Definition fsize (shape : list nat) : nat := fold_right Nat.mul 1 shape.

Section Arrays.
  Variable A : Type.
  Variable dflt : A.
  (** [a.flatten(order='F')]; an array is a function on its multi-indices. *)
  Definition flattenF (shape : list nat) (a : list nat -> A) : list A := map a (fidx shape).
  (** [np.array(l).reshape(shape, order='F')]; ValueError if the sizes differ. *)
  Definition reshapeF (shape : list nat) (l : list A) : res (list nat -> A) :=
    if Nat.eqb (length l) (fsize shape) then Ok (fun idx => nth (fpos shape idx) l dflt)
    else Err ValueError.
End Arrays.
Arguments flattenF {A}. Arguments reshapeF {A}.

(** ** Symmetric variables *)

(** The pairs (i,j), i<=j<n, in the order in which CVXPY stores them. *)
Definition upper (n : nat) : list (nat * nat) :=
  flat_map (fun i => map (fun j => (i, j)) (seq i (n - i))) (seq 0 n).

(** CVXPY's upper_tri_to_full(n) as (row, column) pairs in creation order: one entry for
    the pair and, off the diagonal, one for its mirror image. *)
Definition tri_entries (n : nat) : list (nat * nat) :=
  flat_map (fun '(c, (i, j)) => if Nat.eqb i j then [(j * n + i, c)] else [(j * n + i, c); (i * n + j, c)])
           (combine (seq 0 (length (upper n))) (upper n)).

(** [(_, col) = m.nonzero()] (canonicalizer.py 141) for an m-row csc matrix with nonzero
    entries [l]: SciPy returns the entries ordered by row (stable). *)
Definition nonzero_cols (m : nat) (l : list (nat * nat)) : list nat :=
  flat_map (fun r => map snd (filter (fun e => Nat.eqb (fst e) r) l)) (seq 0 m).

(** ** Primal variables: canonicalizer.py 124-158 *)

Record uvar := mkUV { uv_name : string; uv_id : nat; uv_shape : list nat; uv_sym : bool }.

(** CVXPY's InverseData.var_offsets: prefix sums over the variables (id, size) of the
    reduced problem, in order. *)
Fixpoint var_offsets (o : nat) (l : list (nat * nat)) : list (nat * nat) :=
  match l with [] => [] | (i, s) :: t => (i, o) :: var_offsets (o + s) t end.

Fixpoint lookup {A} (k : nat) (l : list (nat * A)) : option A :=
  match l with [] => None | (k', v) :: t => if Nat.eqb k k' then Some v else lookup k t end.

Definition key {A} (o : option A) : res A := match o with Some a => Ok a | None => Err KeyError end.

Fixpoint mapM {A B} (f : A -> res B) (l : list A) : res (list B) :=
  match l with [] => Ok [] | a :: t => b <- f a;; bs <- mapM f t;; Ok (b :: bs) end.

(** One record per variable instead of dictionaries keyed by the variable's name
    (identical when names are distinct, which the theorems assume). *)
Record pinfo := mkPI
  { pi_name : string; pi_off : nat; pi_idx : list nat; pi_size : nat; pi_shape : list nat; pi_sym : bool }.

Definition prim_info (red : list (nat * nat)) (vs : list uvar) : res (list pinfo) :=
  mapM (fun v => o <- key (lookup (uv_id v) (var_offsets 0 red));;
    idx <- (if uv_sym v then match uv_shape v with
                             | n :: _ => Ok (map (fun c => o + c) (nonzero_cols (n * n) (tri_entries n)))
                             | [] => Err IndexError end
            else Ok (seq o (fsize (uv_shape v))));;
    Ok (mkPI (uv_name v) o idx (fsize (uv_shape v)) (uv_shape v) (uv_sym v))) vs.

(** sol_statically_allocated: osqp.py 89, scs.py 79, ecos.py 47, clarabel.py 49,
    qoco.py 48 and 222. *)
Definition sol_static (s : solver) : bool :=
  match s with OSQP | SCS _ | QOCOGEN _ => true | ECOS | CLARABEL _ | QOCO _ => false end.

(** ret_prim_func_exists and ret_dual_func_exists return True unconditionally for ECOS,
    Clarabel, QOCO and QOCOGEN; OSQP and SCS use _interface.py 117-123. *)
Definition ret_always (s : solver) : bool :=
  match s with OSQP | SCS _ => false | _ => true end.
Definition ret_prim (s : solver) (vs : list pinfo) : bool :=
  ret_always s || existsb pi_sym vs || existsb (fun v => Nat.eqb (pi_size v) 1) vs.

(** Fields of a result struct: a scalar, a pointer to the variable's own array, or a
    pointer into the solver's vector [vec] at an offset (utils.py 586-599, 615-627;
    the cast to (cpg_float * ) makes the offset count entries). *)
Inductive fld := FScalar | FOwn | FSol (vec : string) (off : nat).

(** Emitted statements: STRUCT.name = vec[k], STRUCT.name[i] = vec[k]. *)
Inductive cstmt := SScalar (name : string) (vec : string) (k : nat) | SElem (name : string) (i : nat) (vec : string) (k : nat).

(** utils.py 586-599. *)
Definition prim_fields (s : solver) (vs : list pinfo) : list (string * fld) :=
  map (fun v => (pi_name v, if Nat.eqb (pi_size v) 1 then FScalar
                            else if pi_sym v || negb (sol_static s) then FOwn else FSol "x" (pi_off v))) vs.

(** utils.py 576-584: the arrays defined for variables, with their lengths. *)
Definition prim_arrays (s : solver) (vs : list pinfo) : list (string * nat) :=
  flat_map (fun v => if Nat.eqb (pi_size v) 1 then []
                     else if pi_sym v || negb (sol_static s) then [(pi_name v, pi_size v)] else []) vs.

(** utils.py 949-961. *)
Definition retrieve_prim (s : solver) (vs : list pinfo) : list cstmt :=
  flat_map (fun v =>
    if Nat.eqb (length (pi_idx v)) 1 then [SScalar (pi_name v) "x" (nth 0 (pi_idx v) 0)]
    else if pi_sym v || negb (sol_static s)
         then map (fun '(i, k) => SElem (pi_name v) i "x" k) (combine (seq 0 (length (pi_idx v))) (pi_idx v))
         else []) vs.

(** ** Dual variables: canonicalizer.py 160-224 *)

(** Chain of constraint id maps: the keys of the first map are the user constraints, in
    order (167-178); each later map is applied in turn. *)
Definition chase (maps : list (list (nat * nat))) (i : nat) : res nat :=
  fold_left (fun r m => k <- r;; key (lookup k m)) maps (Ok i).
Definition dual_ids (maps : list (list (nat * nat))) : res (list nat) :=
  match maps with
  | [] => Err IndexError
  | m :: rest => mapM (chase rest) (map fst m)
  end.

(** np.cumsum([0] + sizes[:-1]) (187). *)
Fixpoint psums (o : nat) (l : list nat) : list nat :=
  match l with [] => [o] | s :: t => o :: psums (o + s) t end.
Definition offsets (sizes : list nat) : list nat := psums 0 (removelast sizes).

Record dinfo := mkDI { di_name : nat; di_vec : string; di_off : nat; di_size : nat }.
Definition di_idx (d : dinfo) : list nat := seq (di_off d) (di_size d).

(** [eqs], [neqs]: canonical constraints (id, size); for quadratic solvers the list
    inverse_data[-2].constraints is [eqs ++ neqs].  [split]: dual_var_split. *)
Definition dual_info (split : bool) (vec0 vec1 : string) (eqs neqs : list (nat * nat))
           (maps : list (list (nat * nat))) : res (list dinfo) :=
  ids <- dual_ids maps;;
  let con := eqs ++ neqs in
  let offs := offsets (map snd con) in
  ov <- (if split then
           let k := length eqs in
           match nth_error offs k with
           | None => Err IndexError                    (* d_canon_offsets[n_split], 195 *)
           | Some ok => Ok (firstn k offs ++ map (fun o => o - ok) (skipn k offs),
                            repeat vec0 k ++ repeat vec1 (length offs - k))
           end
         else Ok (offs, repeat vec0 (length offs)));;
  let '(offs', vecs) := ov in
  let odict := combine (map fst con) offs' in
  let vdict := combine (map fst con) vecs in
  ps <- mapM (fun i => o <- key (lookup i odict);; v <- key (lookup i vdict);;
                       z <- key (lookup i con);; Ok (v, o, z)) ids;;
  Ok (map (fun '(i, (v, o, z)) => mkDI i v o z) (combine (seq 0 (length ps)) ps)).

(** dual_var_split and dual_var_names: _interface.py 29-30, scs.py 112-113,
    ecos.py 71-72, clarabel.py 122-123, qoco.py 76-77 and 250-251. *)
Definition dual_split (s : solver) : bool :=
  match s with ECOS | QOCO _ | QOCOGEN _ => true | _ => false end.
Definition dual_vec0 (s : solver) : string := match s with CLARABEL _ => "z" | _ => "y" end.
Definition dual_vec1 (s : solver) : string := "z".

Definition ret_dual (s : solver) (ds : list dinfo) : bool :=
  ret_always s || existsb (fun d => Nat.eqb (di_size d) 1) ds.

(** f'd{i}' (207). *)
Definition dname (i : nat) : string := ("d" ++ NilEmpty.string_of_uint (Nat.to_uint i))%string.

(** utils.py 615-627; sizes decide (scalar iff size 1, canonicalizer.py 217). *)
Definition dual_fields (s : solver) (ds : list dinfo) : list (string * fld) :=
  map (fun d => (dname (di_name d), if Nat.eqb (di_size d) 1 then FScalar
                            else if negb (sol_static s) then FOwn else FSol (di_vec d) (di_off d))) ds.

(** utils.py 603-613. *)
Definition dual_arrays (s : solver) (ds : list dinfo) : list (string * nat) :=
  flat_map (fun d => if Nat.eqb (di_size d) 1 then []
                     else if negb (sol_static s) then [(dname (di_name d), di_size d)] else []) ds.

(** utils.py 963-975 (single stage). *)
Definition retrieve_dual (s : solver) (ds : list dinfo) : list cstmt :=
  flat_map (fun d =>
    if Nat.eqb (length (di_idx d)) 1 then [SScalar (dname (di_name d)) (di_vec d) (nth 0 (di_idx d) 0)]
    else if negb (sol_static s)
         then map (fun '(i, k) => SElem (dname (di_name d)) i (di_vec d) k)
                  (combine (seq 0 (length (di_idx d))) (di_idx d))
         else []) ds.

(** ** Execution *)

Section Exec.
  Variable K : Type.
  (** [r_cells n i]: the scalar field n (i = 0) or entry i of the array of variable n;
      [r_vecs]: the solver's solution vectors. *)
  Record rstate := mkRS { r_cells : string -> nat -> K; r_vecs : string -> list K }.

  Definition vread (st : rstate) (vec : string) (k : nat) : res K :=
    match nth_error (r_vecs st vec) k with Some v => Ok v | None => Err OutOfBounds end.
  Definition cset (cells : string -> nat -> K) (n : string) (i : nat) (v : K) : string -> nat -> K :=
    fun m j => if String.eqb m n && Nat.eqb j i then v else cells m j.
  Definition vset (vecs : string -> list K) (w : string) (k : nat) (v : K) : string -> list K :=
    fun m => if String.eqb m w then upd (vecs m) k v else vecs m.

  (** TypeError stands for code that does not compile (indexing a scalar field,
      assigning a value to a pointer field, missing field). *)
  Definition exec_stmt (fields : list (string * fld)) (arr : list (string * nat)) (st : rstate) (c : cstmt)
    : res rstate :=
    match c with
    | SScalar n vec k =>
        match assoc n fields with
        | Some FScalar => v <- vread st vec k;; Ok (mkRS (cset (r_cells st) n 0 v) (r_vecs st))
        | _ => Err TypeError
        end
    | SElem n i vec k =>
        match assoc n fields with
        | Some FOwn =>
            match assoc n arr with
            | Some z => if Nat.ltb i z
                        then v <- vread st vec k;; Ok (mkRS (cset (r_cells st) n i v) (r_vecs st))
                        else Err OutOfBounds
            | None => Err TypeError
            end
        | Some (FSol w o) =>
            if Nat.ltb (o + i) (length (r_vecs st w))
            then v <- vread st vec k;; Ok (mkRS (r_cells st) (vset (r_vecs st) w (o + i) v))
            else Err OutOfBounds
        | _ => Err TypeError
        end
    end.

  Fixpoint exec (fields : list (string * fld)) (arr : list (string * nat)) (st : rstate) (cs : list cstmt)
    : res rstate :=
    match cs with
    | [] => Ok st
    | c :: t => st' <- exec_stmt fields arr st c;; exec fields arr st' t
    end.

  (** solve_cpp, utils.py 1218-1243: copy a field of a result struct. *)
  Definition read_field (fields : list (string * fld)) (arr : list (string * nat)) (st : rstate)
             (n : string) (size : nat) : res (list K) :=
    if Nat.eqb size 1 then
      match assoc n fields with Some FScalar => Ok [r_cells st n 0] | _ => Err TypeError end
    else
      match assoc n fields with
      | Some FOwn => match assoc n arr with
                     | Some z => if Nat.leb size z then Ok (map (r_cells st n) (seq 0 size)) else Err OutOfBounds
                     | None => Err TypeError
                     end
      | Some (FSol w o) => if Nat.leb (o + size) (length (r_vecs st w))
                           then Ok (firstn size (skipn o (r_vecs st w))) else Err OutOfBounds
      | _ => Err TypeError
      end.

  Variable k0 : K.

  (** What Python stores for each variable after the solver has left its solution in
      [r_vecs]: cpg_retrieve_prim (if it exists), solve_cpp, reshape, save_value. *)
  Definition primal_results (s : solver) (vs : list pinfo) (st : rstate)
    : res (list (string * (list nat -> K))) :=
    let fs := prim_fields s vs in let ar := prim_arrays s vs in
    st' <- (if ret_prim s vs then exec fs ar st (retrieve_prim s vs) else Ok st);;
    mapM (fun v => l <- read_field fs ar st' (pi_name v) (pi_size v);;
                   a <- reshapeF k0 (pi_shape v) l;; Ok (pi_name v, a)) vs.

  (** The same for duals; the flat vectors, which Python reshapes when the canonical
      constraint's shape has as many entries (cpg_solver.py.jinja2 79-81). *)
  Definition dual_results (s : solver) (ds : list dinfo) (st : rstate) : res (list (list K)) :=
    let fs := dual_fields s ds in let ar := dual_arrays s ds in
    st' <- (if ret_dual s ds then exec fs ar st (retrieve_dual s ds) else Ok st);;
    mapM (fun d => read_field fs ar st' (dname (di_name d)) (di_size d)) ds.
End Exec.
Arguments mkRS {K}. Arguments r_cells {K}. Arguments r_vecs {K}. Arguments exec {K}. Arguments exec_stmt {K}.
Arguments read_field {K}. Arguments primal_results {K}. Arguments dual_results {K}. Arguments vread {K}.
Arguments cset {K}. Arguments vset {K}.
