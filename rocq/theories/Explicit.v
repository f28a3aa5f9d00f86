(** Explicit mode: the lookup-table solver PDAQP.
    Models cvxpygen/solvers/pdaqp.py 76-230 and 264-304, the explicit branches of
    cvxpygen/utils.py (576-599, 904-930, 949-975, 1008-1067, 1217-1243, 1277-1318,
    1580-1584) and cvxpygen/writer.py 418-516 (explicit gradient).
    The table itself (pdaqp's MPQP.solve and codegen) is external: it enters as the array
    of feedback laws.  The regularisation 1e-6*I added to P (97) is in ExplicitEnd.v. Not modelled: limits on
    regions and floats, single-precision storage. *)

From Coq Require Import String Arith Bool ZArith List.
From Verif Require Import Base Pus Machine Runtime Retrieve RuntimeSpec.
Import ListNotations.
Open Scope list_scope.

(** NumPy boolean indexing [v[mask]]. *)
Fixpoint mask_sel {A} (m : list bool) (v : list A) : list A :=
  match m, v with
  | b :: m', x :: v' => if b then x :: mask_sel m' v' else mask_sel m' v'
  | _, _ => []
  end.
(** [m[m] = s] for a boolean array m (144-145). *)
Fixpoint mask_set (m s : list bool) : list bool :=
  match m with
  | [] => []
  | false :: m' => false :: mask_set m' s
  | true :: m' => match s with b :: s' => b :: mask_set m' s' | [] => true :: mask_set m' [] end
  end.
(** Positions of true entries: the enumerations of utils.py 1020-1027 and writer.py 484-486. *)
Definition mask_pos (m : list bool) : list nat :=
  map fst (filter (fun ib => snd ib) (combine (seq 0 (length m)) m)).

Fixpoint map2 {A B C} (f : A -> B -> C) (l : list A) (l' : list B) : list C :=
  match l, l' with a :: t, b :: t' => f a b :: map2 f t t' | _, _ => [] end.

(** ** Parameter bounds and clamping *)

Section Bounds.
  Variable K : ORing.
  Local Open Scope num_scope.

  Definition ltb (a b : K) : bool := negb (oleb b a).

  (** utils.py 909-915, 919-925: two tests in this order. *)
  Definition clamp (lo hi v : K) : K :=
    let v1 := if ltb v lo then lo else v in
    if ltb hi v1 then hi else v1.

  (** A user constraint as pdaqp.py 277-291 sees it: with variables or without parameters;
      parameter <= constant (or ==); constant <= parameter; any other parameter-only
      constraint.  Values are already broadcast to the parameter's entries. *)
  Inductive ucon := UVars | UUpper (name : string) (vals : list K) | ULower (name : string) (vals : list K) | UOther.

  Definition put_slice (l : list K) (c : nat) (vals : list K) : list K :=
    firstn c l ++ vals ++ skipn (c + length vals) l.

  Variable big : K.                       (* 1e30 *)
  Variable ps : list (string * nat).      (* name_to_size_usp *)

  Definition set_bound (l : list K) (n : string) (vals : list K) : res (list K) :=
    match find_col n (col_to_name 0 ps), assoc n ps with
    | Some c, Some s => if Nat.eqb (length vals) s then Ok (put_slice l c vals) else Err ValueError
    | _, _ => Err KeyError
    end.

  Definition bound_step (b : list K * list K) (c : ucon) : res (list K * list K) :=
    match c with
    | UVars => Ok b
    | UUpper n vals => u <- set_bound (snd b) n vals;; Ok (fst b, u)
    | ULower n vals => l <- set_bound (fst b) n vals;; Ok (l, snd b)
    | UOther => Err ValueError
    end.

  Fixpoint bound_steps (b : list K * list K) (cs : list ucon) : res (list K * list K) :=
    match cs with [] => Ok b | c :: t => b' <- bound_step b c;; bound_steps b' t end.

  (** pdaqp.py 271-291: (lower, upper). *)
  Definition bounds (cs : list ucon) : res (list K * list K) :=
    let k := list_sum (map snd ps) in
    bound_steps (repeat (- big) k ++ [n1], repeat big k ++ [n1]) cs.

  (** 301-304: the box for (q, u). *)
  Definition omin (a b : K) : K := if oleb a b then a else b.
  Definition omax (a b : K) : K := if oleb a b then b else a.
  Definition box (C : list (row K)) (lower upper : list K) : list K * list K :=
    (map2 omin (map (dot lower) C) (map (dot upper) C),
     map2 omax (map (dot lower) C) (map (dot upper) C)).
End Bounds.
Arguments ltb {K}. Arguments clamp {K}. Arguments UVars {K}. Arguments UUpper {K}. Arguments ULower {K}.
Arguments UOther {K}. Arguments bounds {K}. Arguments box {K}. Arguments put_slice {K}.
Arguments omin {K}. Arguments omax {K}. Arguments bound_step {K}. Arguments bound_steps {K}. Arguments set_bound {K}.

(** ** Eliminating fixed and unused parameters: pdaqp.py 98-145 *)

Section Reduce.
  Variable K : Ring.
  Local Open Scope num_scope.

  Definition neqb (a b : K) : bool := negb (rz (a - b)).
  Definition ldot (a b : list K) : K := rsum (map2 nmul a b).
  Definition vadd (a b : list K) : list K := map2 nadd a b.
  (** Row [i] of an identity block starting at column [o] in a matrix with [w] columns. *)
  Definition unit_row (w o i : nat) : list K := map (fun j => if Nat.eqb j (o + i) then n1 else n0) (seq 0 w).

  (** np.any(M != 0, axis=0) for a matrix with [w] columns. *)
  Definition any_col (w : nat) (M : list (list K)) : list bool :=
    map (fun j => existsb (fun r => neqb (nth j r n0) n0) M) (seq 0 w).

  Record xqp := mkXQ
    { xq_f : list K; xq_F : list (list K); xq_A : list (list K); xq_b : list K; xq_B : list (list K);
      xq_min : list K; xq_max : list K; xq_mask : list bool; xq_amask : list bool }.

  (** [n], [m]: variables and rows of A; [A] dense. *)
  Definition reduce (n : nat) (A : list (list K)) (thmin thmax : list K) : xqp :=
    let m := length A in
    let F := map (unit_row (n + m) 0) (seq 0 n) in
    let B := map (unit_row (n + m) n) (seq 0 m) in
    let amask := map (existsb (fun a => neqb a n0)) A in
    let B := mask_sel amask B in
    let b := mask_sel amask (repeat n0 m) in
    let th_mask := map2 neqb thmin thmax in
    let fixed := map negb th_mask in
    let f := vadd (repeat n0 n) (map (fun r => ldot (mask_sel fixed r) (mask_sel fixed thmin)) F) in
    let b := vadd b (map (fun r => ldot (mask_sel fixed r) (mask_sel fixed thmin)) B) in
    let F := map (mask_sel th_mask) F in
    let B := map (mask_sel th_mask) B in
    let thmin := mask_sel th_mask thmin in
    let thmax := mask_sel th_mask thmax in
    let nz := map2 orb (any_col (length thmin) F) (any_col (length thmin) B) in
    mkXQ f (map (mask_sel nz) F) (mask_sel amask A) b (map (mask_sel nz) B)
         (mask_sel nz thmin) (mask_sel nz thmax) (mask_set th_mask nz) amask.

  (** utils.py 1019-1028: cpg_theta. *)
  Definition theta (n : nat) (mask : list bool) (q u : list K) : res (list K) :=
    mapM (fun i => if Nat.ltb i n then get q i else get u (i - n)) (mask_pos mask).
End Reduce.
Arguments neqb {K}. Arguments ldot {K}. Arguments vadd {K}. Arguments reduce {K}. Arguments theta {K}.
Arguments unit_row {K}. Arguments any_col {K}.
Arguments mkXQ {K}. Arguments xq_f {K}. Arguments xq_F {K}. Arguments xq_A {K}. Arguments xq_b {K}. Arguments xq_B {K}.
Arguments xq_min {K}. Arguments xq_max {K}. Arguments xq_mask {K}. Arguments xq_amask {K}.

(** ** Run time: cpg_update with clamping, cpg_solve up to the table look-up *)

Section Run.
  Variable K : ORing.
  Variable g : genc K.          (* canonicalization as for OSQP; g_block is not used *)
  Variables lower upper : list K.
  Variable n : nat.
  Variable mask : list bool.

  Record xst := mkX { xs_vec : list K; xs_flag : pid -> bool; xs_can : pid -> list K; xs_log : list (list K) }.

  Definition x_init : xst := mkX (g_vec0 g) (fun _ => true) (g_baked g) [].

  (** utils.py 904-930 with explicit set. *)
  Definition x_update (s : xst) (name : string) (idx : nat) (val : K) : res xst :=
    match base_col g name with
    | None => Err KeyError
    | Some c =>
      lo <- get lower (idx + c);; hi <- get upper (idx + c);;
      vec <- put (xs_vec s) (idx + c) (clamp lo hi val);;
      Ok (mkX vec (fun p => mem_pid p (g_outd g name) || xs_flag s p) (xs_can s) (xs_log s))
    end.

  (** utils.py 1008-1052 with explicit set; the log records the argument of
      pdaqp_evaluate. *)
  Definition x_solve (s : xst) : res xst :=
    can <- canon_blocks g (xs_vec s) (xs_flag s) (xs_can s) (solver_pids OSQP);;
    th <- theta n mask (can pq) (can pu);;
    Ok (mkX (xs_vec s) (fun p => if mem_pid p (solver_pids OSQP) && chg_get (g_chg g) p then false else xs_flag s p)
            can (xs_log s ++ [th])).

  Definition x_step (s : xst) (o : op K) : res xst :=
    match o with OUpd name idx val => x_update s name idx val | OSolve => x_solve s end.
  Fixpoint x_steps (s : xst) (os : list (op K)) : res xst :=
    match os with [] => Ok s | o :: t => s' <- x_step s o;; x_steps s' t end.
End Run.
Arguments mkX {K}. Arguments xs_vec {K}. Arguments xs_flag {K}. Arguments xs_can {K}. Arguments xs_log {K}.
Arguments x_init {K}. Arguments x_update {K}. Arguments x_solve {K}. Arguments x_step {K}. Arguments x_steps {K}.

(** ** Duals: pdaqp.py 293-299 and utils.py 1580-1584 *)

(** pop(f'd{i}') for the parameter-only constraints. *)
Definition drop_bounds (bnd : nat -> bool) (ds : list dinfo) : list dinfo :=
  filter (fun d => negb (bnd (di_name d))) ds.
(** dual_save_list: (constraint index, dual). *)
Definition save_list {A} (l : list A) : list (nat * A) := combine (seq 0 (length l)) l.
(** sol_y after pdaqp_evaluate has one entry per nonzero row of A (n_dual_reduced = len(b));
    retrieval is that of a statically allocated solution, as for OSQP. *)
Definition x_duals {K} (bnd : nat -> bool) (amask : list bool) (ds : list dinfo) (y : list K) (cells : string -> nat -> K)
  : res (list (nat * list K)) :=
  vs <- dual_results OSQP (drop_bounds bnd ds) (mkRS cells (fun _ => mask_sel amask y));;
  Ok (save_list vs).

(** ** Stored variables: pdaqp.py 161-212 *)

(** prim_variable_info: one record per variable, in dictionary order. *)
Record xinfo := mkXI { xi_name : string; xi_off : nat; xi_idx : list (option nat); xi_size : nat; xi_sym : bool }.

(** [a[inds] = np.arange(size)] on np.full(size_orig, -1); negative indices count from the end. *)
Fixpoint scatter (k : nat) (inds : list Z) (a : list (option nat)) : res (list (option nat)) :=
  match inds with
  | [] => Ok a
  | z :: t =>
      let z' := if Z.ltb z 0 then (z + Z.of_nat (length a))%Z else z in
      if Z.leb 0 z' && Z.ltb z' (Z.of_nat (length a))
      then scatter (S k) t (upd a (Z.to_nat z') (Some k)) else Err IndexError
  end.

Record xstore := mkXS
  { st_vars : list xinfo; st_out : list Z; st_shift : nat; st_red : bool; st_rsize : list (string * nat);
    st_added : list string }.

Fixpoint xi_find (n : string) (vs : list xinfo) : option xinfo :=
  match vs with [] => None | v :: t => if String.eqb n (xi_name v) then Some v else xi_find n t end.
Definition xi_set (n : string) (off : nat) (idx : list (option nat)) (vs : list xinfo) : list xinfo :=
  map (fun v => if String.eqb (xi_name v) n then mkXI (xi_name v) off idx (xi_size v) (xi_sym v) else v) vs.

(** 176-199; a selection is a variable name with a list of indices, or None for the whole
    variable ([inds if inds else arange]: an empty list also means all). *)
Definition store_step (s : xstore) (sel : string * option (list Z)) : res xstore :=
  let '(n, inds) := sel in
  match xi_find n (st_vars s) with
  | None => Ok s
  | Some v =>
      let is := match inds with Some (z :: t) => z :: t | _ => map Z.of_nat (seq 0 (xi_size v)) end in
      let sz := length is in
      idx <- (if Nat.eqb sz 1 then Ok [Some (st_shift s)] else scatter 0 is (repeat None (xi_size v)));;
      Ok (mkXS (xi_set n (st_shift s) idx (st_vars s))
               (st_out s ++ map (fun z => (Z.of_nat (xi_off v) + z)%Z) is)
               (st_shift s + sz)
               (st_red s || Nat.ltb sz (xi_size v))
               (dict_set n sz (st_rsize s))
               (st_added s ++ [n]))
  end.
Fixpoint store_steps (s : xstore) (sels : list (string * option (list Z))) : res xstore :=
  match sels with [] => Ok s | x :: t => s' <- store_step s x;; store_steps s' t end.

(** 201-212: the [del] statements; [sym] is the list whose i-th entry is deleted. *)
Fixpoint remove_unstored (added : list string) (i : nat) (vs : list xinfo) (sym : list bool)
  : res (list xinfo * list bool * bool) :=
  match vs with
  | [] => Ok ([], sym, false)
  | v :: t =>
      if mem_str (xi_name v) added
      then '(vs', sym', r) <- remove_unstored added (S i) t sym;; Ok (v :: vs', sym', r)
      else if Nat.ltb i (length sym)
           then '(vs', sym', _) <- remove_unstored added (S i) t (firstn i sym ++ skipn (S i) sym);;
                Ok (vs', sym', true)
           else Err IndexError
  end.

(** What the code generator knows afterwards: variables, out_inds, [sym], [reduced],
    name_to_size_reduced. *)
Record xvars := mkXV
  { xv_vars : list xinfo; xv_out : list Z; xv_sym : list bool; xv_red : bool; xv_rsize : list (string * nat) }.

Definition store_vars (vs : list pinfo) (sels : option (list (string * option (list Z)))) : res xvars :=
  let vs0 := map (fun p => mkXI (pi_name p) (pi_off p) (map Some (pi_idx p)) (pi_size p) (pi_sym p)) vs in
  let sels := match sels with Some l => l | None => map (fun p => (pi_name p, None)) vs end in
  s <- store_steps (mkXS vs0 [] 0 false (map (fun p => (pi_name p, pi_size p)) vs) []) sels;;
  '(vs', sym', r) <- remove_unstored (st_added s) 0 (st_vars s) (map pi_sym vs);;
  Ok (mkXV vs' (st_out s) sym' (st_red s || r) (st_rsize s)).

(** utils.py 532-536: length of sol_x. *)
Definition solx_len (nvar : nat) (xv : xvars) : nat :=
  if xv_red xv then list_sum (map snd (xv_rsize xv)) else nvar.

Section Stored.
  Variable K : Type.
  Variable k0 : K.

  (** pdaqp_evaluate writes the entries [out_inds] of the canonical solution to the first
      PDAQP_N_SOLUTION entries of sol_x; an index outside the solution is an error. *)
  Definition table_out (x : list K) (out : list Z) : res (list K) :=
    mapM (fun z => if Z.ltb z 0 then Err IndexError else get x (Z.to_nat z)) out.
  Definition sol_x (len : nat) (o : list K) : list K := o ++ repeat k0 (len - length o).

  (** utils.py 586-599. *)
  Definition xfields (vs : list xinfo) : list (string * fld) :=
    map (fun v => (xi_name v, if Nat.eqb (xi_size v) 1 then FScalar
                              else if xi_sym v then FOwn else FSol "x" (xi_off v))) vs.
  Definition xarrays (vs : list xinfo) : list (string * nat) :=
    flat_map (fun v => if Nat.eqb (xi_size v) 1 then [] else if xi_sym v then [(xi_name v, xi_size v)] else []) vs.

  (** utils.py 949-961; -1 as a C array index is out of bounds. *)
  Definition xret (vs : list xinfo) : res (list cstmt) :=
    r <- mapM (fun v =>
      if Nat.eqb (length (xi_idx v)) 1 then
        match xi_idx v with [Some k] => Ok [SScalar (xi_name v) "x" k] | _ => Err OutOfBounds end
      else if xi_sym v
           then mapM (fun '(i, k) => match k with Some k => Ok (SElem (xi_name v) i "x" k) | None => Err OutOfBounds end)
                     (combine (seq 0 (length (xi_idx v))) (xi_idx v))
           else Ok []) vs;;
    Ok (concat r).
  (** _interface.py 118-119. *)
  Definition xret_exists (xv : xvars) : bool :=
    existsb (fun b => b) (xv_sym xv) || existsb (fun v => Nat.eqb (xi_size v) 1) (xv_vars xv).

  Definition field_at (fs : list (string * fld)) (ar : list (string * nat)) (st : rstate K) (n : string) (k : nat) : res K :=
    match assoc n fs with
    | Some FOwn => match assoc n ar with
                   | Some z => if Nat.ltb k z then Ok (r_cells st n k) else Err OutOfBounds
                   | None => Err TypeError end
    | Some (FSol w o) => vread st w (o + k)
    | _ => Err TypeError
    end.

  (** solve_cpp, utils.py 1217-1226: CPG_Prim_cpp is zero-initialised. *)
  Definition xread (fs : list (string * fld)) (ar : list (string * nat)) (st : rstate K) (v : xinfo) : res (list K) :=
    if Nat.eqb (xi_size v) 1 then
      match assoc (xi_name v) fs with Some FScalar => Ok [r_cells st (xi_name v) 0] | _ => Err TypeError end
    else
      fold_left (fun acc ik => l <- acc;;
                   match snd ik with
                   | Some k => a <- field_at fs ar st (xi_name v) k;; put l (fst ik) a
                   | None => Ok l
                   end)
                (combine (seq 0 (length (xi_idx v))) (xi_idx v)) (Ok (repeat k0 (xi_size v))).

  (** Values that Python stores for each remaining variable. *)
  Definition x_primal (nvar : nat) (xv : xvars) (cells : string -> nat -> K) (o : list K) : res (list (string * list K)) :=
    let vs := xv_vars xv in
    let fs := xfields vs in let ar := xarrays vs in
    let st := mkRS cells (fun _ => sol_x (solx_len nvar xv) o) in
    st' <- (if xret_exists xv then cs <- xret vs;; exec fs ar st cs else Ok st);;
    mapM (fun v => l <- xread fs ar st' v;; Ok (xi_name v, l)) vs.
End Stored.
Arguments table_out {K}. Arguments sol_x {K}. Arguments field_at {K}. Arguments xread {K}. Arguments x_primal {K}.

(** ** Gradient: writer.py 418-516, gradient_cpp in utils.py 1277-1318 *)

Section Gradient.
  Variable K : Ring.
  Local Open Scope num_scope.

  (** The table: [feedbacks], offsets [hp] per region, PDAQP_N_PARAMETER, PDAQP_N_SOLUTION. *)
  Record table := mkT { t_feed : list K; t_hp : list nat; t_np : nat; t_nsol : nat }.
  Definition t_base (t : table) (region : nat) : res nat :=
    h <- get (t_hp t) region;; Ok (h * ((t_np t + 1) * t_nsol t))%nat.

  (** pdaqp_evaluate at a leaf: entry i of the solution is the affine law of the region. *)
  Definition t_eval (t : table) (region : nat) (th : list K) : res (list K) :=
    base <- t_base t region;;
    mapM (fun i =>
      cs <- mapM (fun j => get (t_feed t) (base + i * (t_np t + 1) + j)%nat) (seq 0 (t_np t + 1));;
      Ok (ldot cs (th ++ [n1]))) (seq 0 (t_nsol t)).

  (** [for] loops accumulating into an array entry. *)
  Fixpoint dtheta_loop (t : table) (base : nat) (dx : list K) (j i fuel : nat) (acc : K) : res K :=
    match fuel with
    | O => Ok acc
    | S f =>
        c <- get (t_feed t) (base + i * (t_np t + 1) + j)%nat;; d <- get dx i;;
        dtheta_loop t base dx j (S i) f (acc + c * d)
    end.
  Fixpoint add_row (r : row K) (y : K) (dp : list K) : res (list K) :=
    match r with
    | [] => Ok dp
    | (c, w) :: rest => old <- get dp c;; dp' <- put dp c (old + w * y);; add_row rest y dp'
    end.

  (** What generation fixes for the gradient: n_var, th_mask, the q and u maps with their
      change flags (a map of a block that does not change is not written), n_sol =
      sum(name_to_size_reduced.values()), length of the parameter vector. *)
  Record xgrad := mkXG
    { xg_n : nat; xg_mask : list bool; xg_q : list (row K); xg_u : list (row K);
      xg_chq : bool; xg_chu : bool; xg_nsol : nat; xg_np : nat }.

  Fixpoint back_loop (G : xgrad) (k : nat) (pos : list nat) (dth : list K) (dp : list K) : res (list K) :=
    match pos with
    | [] => Ok dp
    | i :: t =>
        dp' <- (if Nat.ltb i (xg_n G)
                then if xg_chq G then y <- get dth k;; r <- get (xg_q G) i;; add_row r y dp else Ok dp
                else if xg_chu G then y <- get dth k;; r <- get (xg_u G) (i - xg_n G)%nat;; add_row r y dp else Ok dp);;
        back_loop G (S k) t dth dp'
    end.

  (** cpg_gradient: new cpg_dp and cpg_dx. *)
  Definition x_gradient (G : xgrad) (t : table) (region : nat) (dx : list K) : res (list K * list K) :=
    base <- t_base t region;;
    dth <- mapM (fun j => dtheta_loop t base dx j 0 (xg_nsol G) n0) (seq 0 (length (mask_pos (xg_mask G))));;
    dp <- back_loop G 0 (mask_pos (xg_mask G)) dth (repeat n0 (xg_np G));;
    Ok (dp, repeat n0 (xg_nsol G)).

  (** cpg_update_d<name> calls of gradient_cpp for one variable. *)
  Definition put_delta (v : xinfo) (vals : list K) (dx : list K) : res (list K) :=
    if Nat.eqb (xi_size v) 1 then a <- get vals 0;; put dx (xi_off v) a
    else fold_left (fun acc ik => d <- acc;;
                      match snd ik with
                      | Some k => a <- get vals (fst ik);; put d (xi_off v + k)%nat a
                      | None => Ok d
                      end)
                   (combine (seq 0 (length (xi_idx v))) (xi_idx v)) (Ok dx).
  Fixpoint put_deltas (vs : list xinfo) (vd : string -> list K) (dx : list K) : res (list K) :=
    match vs with [] => Ok dx | v :: t => dx' <- put_delta v (vd (xi_name v)) dx;; put_deltas t vd dx' end.

  (** One call of gradient_cpp: the region given by the caller, or the one left by the
      last solve; state = (pdaqp_active_region, cpg_dx).  None: no region yet (-1). *)
  Definition grad_call (G : xgrad) (t : table) (vs : list xinfo) (st : option nat * list K)
             (c : option nat * (string -> list K)) : res ((option nat * list K) * list K) :=
    let region := match fst c with Some r => Some r | None => fst st end in
    dx <- put_deltas vs (snd c) (snd st);;
    match region with
    | None => Err OutOfBounds
    | Some r => '(dp, dx') <- x_gradient G t r dx;; Ok ((Some r, dx'), dp)
    end.

  (** Histories: solves leave a region, gradient calls return a parameter gradient. *)
  Inductive gop := GSolve (region : nat) | GGrad (region : option nat) (vd : string -> list K).
  Fixpoint grad_run (G : xgrad) (t : table) (vs : list xinfo) (st : option nat * list K) (os : list gop)
    : res (list (list K)) :=
    match os with
    | [] => Ok []
    | GSolve r :: rest => grad_run G t vs (Some r, snd st) rest
    | GGrad r vd :: rest =>
        '(st', dp) <- grad_call G t vs st (r, vd);;
        ds <- grad_run G t vs st' rest;; Ok (dp :: ds)
    end.
End Gradient.
Arguments mkT {K}. Arguments t_feed {K}. Arguments t_hp {K}. Arguments t_np {K}. Arguments t_nsol {K}.
Arguments t_base {K}. Arguments t_eval {K}. Arguments dtheta_loop {K}. Arguments add_row {K}.
Arguments mkXG {K}. Arguments xg_n {K}. Arguments xg_mask {K}. Arguments xg_q {K}. Arguments xg_u {K}.
Arguments xg_chq {K}. Arguments xg_chu {K}. Arguments xg_nsol {K}. Arguments xg_np {K}.
Arguments back_loop {K}. Arguments x_gradient {K}. Arguments put_delta {K}. Arguments put_deltas {K}.
Arguments grad_call {K}. Arguments GSolve {K}. Arguments GGrad {K}. Arguments grad_run {K}.

(** ** Objective: cpg_obj, utils.py 1054-1067 *)

Section Objective.
  Variable K : Ring.
  Local Open Scope num_scope.

  (** [P] by columns: (row, value) in storage order; [half] is 0.5. *)
  Fixpoint obj_col (half : K) (col : row K) (sx : list K) (i : nat) (acc : K) : res K :=
    match col with
    | [] => Ok acc
    | (r, p) :: t => a <- get sx r;; b <- get sx i;; obj_col half t sx i (acc + half * p * a * b)
    end.
  Fixpoint obj_quad (half : K) (P : list (row K)) (sx : list K) (i : nat) (acc : K) : res K :=
    match P with [] => Ok acc | c :: t => acc' <- obj_col half c sx i acc;; obj_quad half t sx (S i) acc' end.
  Fixpoint obj_lin (q : list K) (sx : list K) (i : nat) (acc : K) : res K :=
    match q with [] => Ok acc | a :: t => b <- get sx i;; obj_lin t sx (S i) (acc + a * b) end.
  Definition x_obj (half : K) (P : list (row K)) (q sx : list K) : res K :=
    o <- obj_quad half P sx 0 n0;; obj_lin q sx 0 o.
End Objective.
Arguments x_obj {K}. Arguments obj_col {K}. Arguments obj_quad {K}. Arguments obj_lin {K}.
