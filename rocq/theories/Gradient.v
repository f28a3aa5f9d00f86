(** The gradient of the generated code: cpg_osqp_grad_compute.c.jinja2 349-531 and
    writer.py 216-312 (cpg_update_d<var>, cpg_gradient), one-stage (OSQP) form.

    Simplifications: exact field arithmetic ([Arith] instead of infinities, as in Ldl.v);
    1e-6 is [eps], 0.5 is [half], the comparisons with -1e-12 and 1e-12 are [below] and
    [above]; the arrays r, rhs, delta, dq, dl, du, which every call overwrites completely, are
    built as lists; QDLDL_etree/QDLDL_factor and QDLDL_solve are parameters. *)

From Coq Require Import Arith Bool ZArith Lia List.
From Verif Require Import Base Machine Runtime Retrieve Sparse Ldl.
Import ListNotations.

(** Compressed matrices as Canon_Params holds them have the type of [csc]. *)
Section Grad.
  Variable F : Fld.
  Variables n N : nat.
  Variable sqr : F -> res F.
  Variables eps half : F.
  Variables below above : F -> bool.
  (** QDLDL_factor: the matrix K, the arrays of L; new arrays of L (p, i, x), D, Dinv.  Its
      error code (zero pivot) is [Arith]; the generated code does not look at it. *)
  Variable qfactor : csc F -> csc F -> res (list nat * list nat * list F * list F * list F).
  (** QDLDL_solve: L, Dinv, right-hand side. *)
  Variable qsolve : csc F -> list F -> list F -> res (list F).
  Local Open Scope num_scope.

  (** writer.py 362-372, sp.bmat.  Compressed arrays from columns; the sum [P + 1e-6*sp.eye]
      drops zero results (SciPy's csr_binop), the blocks themselves keep explicit zeros. *)
  Definition csc_cols (cs : list (list (nat * F))) : csc F :=
    mkCsc (indptr_from 0 cs) (map fst (concat cs)) (map snd (concat cs)) (length (concat cs)).
  Definition column (M : csc F) (j : nat) : list (nat * F) :=
    let s := nth j (c_p M) 0 in
    let len := (nth (S j) (c_p M) 0 - s)%nat in
    combine (firstn len (skipn s (c_i M))) (firstn len (skipn s (c_x M))).
  Definition row_of (M : csc F) (i : nat) : list (nat * F) :=
    flat_map (fun j => map (fun e => (j, snd e)) (filter (fun e => Nat.eqb (fst e) i) (column M j))) (seq 0 n).
  Fixpoint plus_diag (j : nat) (c : list (nat * F)) : list (nat * F) :=
    match c with
    | [] => [(j, eps)]
    | (i, x) :: t => if Nat.ltb i j then (i, x) :: plus_diag j t
                     else if Nat.eqb i j then (i, x + eps) :: t
                     else (j, eps) :: c
    end.
  Definition kkt_K (P A : csc F) : csc F :=
    csc_cols (map (fun j => filter (fun e => negb (rz (snd e))) (plus_diag j (column P j))) (seq 0 n)
              ++ map (fun i => row_of A i ++ [((n + i)%nat, - eps)]) (seq 0 (N - n))).
  Definition kkt_Kt (P A : csc F) : csc F :=
    csc_cols (map (fun i => row_of P i ++ map (fun e => ((n + fst e)%nat, snd e)) (column A i)) (seq 0 n)
              ++ map (row_of A) (seq 0 (N - n))).

  (** Search of a line (column of K, row of K_true) for an index, and overwrite: 360-367,
      370-375, 403-408, 411-416, 419-424. *)
  Definition find_put (M : csc F) (line target : nat) (v : F) : res (csc F) :=
    s <- get (c_p M) line;;
    e <- get (c_p M) (line + 1);;
    for_break (e - s)%nat s (fun k M =>
      i <- get (c_i M) k;;
      if Nat.eqb i target then xs <- put (c_x M) k v;; Ok (false, set_x M xs) else Ok (true, M)) M.

  (** cpg_P_to_K, 349-381. *)
  Definition P_to_K (P K Kt : csc F) : res (csc F * csc F) :=
    for_ n 0 (fun col st =>
      s <- get (c_p P) col;;
      e <- get (c_p P) (col + 1);;
      for_ (e - s)%nat s (fun idx '(K, Kt) =>
        row <- get (c_i P) idx;;
        value <- get (c_x P) idx;;
        K' <- find_put K col row (if Nat.eqb row col then value + eps else value);;
        Kt' <- find_put Kt row col value;;
        Ok (K', Kt')) st) (K, Kt).

  (** cpg_A_to_K, 383-429. *)
  Definition A_to_K (A K Kt : csc F) : res (csc F * csc F) :=
    for_ n 0 (fun col st =>
      s <- get (c_p A) col;;
      e <- get (c_p A) (col + 1);;
      for_ (e - s)%nat s (fun idx '(K, Kt) =>
        row <- get (c_i A) idx;;
        value <- get (c_x A) idx;;
        K' <- find_put K (n + row) col value;;
        Kt1 <- find_put Kt col (n + row) value;;
        Kt2 <- find_put Kt1 (n + row) col value;;
        Ok (K', Kt2)) st) (K, Kt).

  (** cpg_osqp_gradient, 437-454: the active set. *)
  Definition active_step (sy : list F) (i : nat) (st : gws F * list Z) : res (gws F * list Z) :=
    let '(g, a) := st in
    y <- get sy i;;
    ai <- get a i;;
    if below y then
      (if Z.eqb ai 0 then g' <- ldl_add F N sqr (n + i) g;; a' <- put a i (-1)%Z;; Ok (g', a') else Ok (g, a))
    else if above y then
      (if Z.eqb ai 0 then g' <- ldl_add F N sqr (n + i) g;; a' <- put a i 1%Z;; Ok (g', a') else Ok (g, a))
    else
      (if Z.eqb ai 0 then Ok (g, a) else g' <- ldl_delete F N sqr (n + i) g;; a' <- put a i 0%Z;; Ok (g', a')).
  Definition active (sy : list F) (g : gws F) (a : list Z) : res (gws F * list Z) :=
    for_ (N - n)%nat 0 (active_step sy) (g, a).

  (** Is index [j] of the KKT system taken part: lines 475 and 480. *)
  Definition live (a : list Z) (j : nat) : res bool :=
    if Nat.leb n j then ai <- get a (j - n)%nat;; Ok (negb (Z.eqb ai 0)) else Ok true.

  (** 470-484: rhs - K_true r. *)
  Definition residual_at (Kt : csc F) (a : list Z) (rhs r : list F) (i : nat) : res F :=
    b <- live a i;;
    if negb b then Ok n0
    else
      d0 <- get rhs i;;
      s <- get (c_p Kt) i;;
      e <- get (c_p Kt) (i + 1);;
      for_ (e - s)%nat s (fun k d =>
        j <- get (c_i Kt) k;;
        b <- live a j;;
        if negb b then Ok d
        else x <- get (c_x Kt) k;; rj <- get r j;; Ok (d - x * rj)) d0.
  Definition residual (Kt : csc F) (a : list Z) (rhs r : list F) : res (list F) :=
    mapM (residual_at Kt a rhs r) (seq 0 N).
  (** 485-490 *)
  Definition refine_step (L : csc F) (Dinv : list F) (Kt : csc F) (a : list Z) (rhs r : list F) : res (list F) :=
    delta <- residual Kt a rhs r;;
    delta' <- qsolve L Dinv delta;;
    mapM (fun i => ri <- get r i;; di <- get delta' i;; Ok (ri + di)) (seq 0 N).
  (** 456-491 *)
  Definition kkt_solve (g : gws F) (Kt : csc F) (a : list Z) (dx : list F) : res (list F) :=
    dxs <- mapM (get dx) (seq 0 n);;
    let rhs := dxs ++ repeat n0 (N - n)%nat in
    r0 <- qsolve (gL g) (gDinv g) rhs;;
    r1 <- refine_step (gL g) (gDinv g) Kt a rhs r0;;
    r2 <- refine_step (gL g) (gDinv g) Kt a rhs r1;;
    refine_step (gL g) (gDinv g) Kt a rhs r2.

  (** 493-511 *)
  Definition fill_dq (r : list F) : res (list F) := mapM (fun i => x <- get r i;; Ok (- x)) (seq 0 n).
  Definition fill_bound (low : bool) (a : list Z) (r : list F) : res (list F) :=
    mapM (fun i =>
      ai <- get a i;;
      if Z.eqb ai (-1) then (if low then get r (n + i) else Ok n0)
      else if Z.eqb ai 1 then (if low then Ok n0 else get r (n + i))
      else Ok n0) (seq 0 (N - n)).
  (** 513-519 *)
  Definition fill_dP (r sx : list F) (dP : csc F) : res (csc F) :=
    for_ n 0 (fun j dP =>
      s <- get (c_p dP) j;;
      e <- get (c_p dP) (j + 1);;
      for_ (e - s)%nat s (fun k dP =>
        i <- get (c_i dP) k;;
        ri <- get r i;; xj <- get sx j;; xi <- get sx i;; rj <- get r j;;
        xs <- put (c_x dP) k (- half * (ri * xj + xi * rj));;
        Ok (set_x dP xs)) dP) dP.
  (** 521-531 *)
  Definition fill_dA (a : list Z) (r sx sy : list F) (dA : csc F) : res (csc F) :=
    for_ n 0 (fun j dA =>
      s <- get (c_p dA) j;;
      e <- get (c_p dA) (j + 1);;
      for_ (e - s)%nat s (fun k dA =>
        i <- get (c_i dA) k;;
        ai <- get a i;;
        if Z.eqb ai 0 then xs <- put (c_x dA) k n0;; Ok (set_x dA xs)
        else
          ri <- get r (n + i);; xj <- get sx j;; yi <- get sy i;; rj <- get r j;;
          xs <- put (c_x dA) k (- (ri * xj + yi * rj));;
          Ok (set_x dA xs)) dA) dA.

  (** writer.py 276-305: un-canonicalize one block; the map in compressed rows. *)
  Definition scatter (M : csr F) (nrows : nat) (d : list F) (dp : list F) : res (list F) :=
    for_ nrows 0 (fun j dp =>
      s <- get (Runtime.c_p M) j;;
      e <- get (Runtime.c_p M) (j + 1);;
      for_ (e - s)%nat s (fun k dp =>
        c <- get (Runtime.c_i M) k;;
        old <- get dp c;;
        x <- get (Runtime.c_x M) k;;
        dj <- get d j;;
        put dp c (old + x * dj)) dp) dp.

  (** What the generator fixes for the gradient: sizes, maps, which blocks change. *)
  Record gcfg := mkGcfg
    { gc_np : nat; gc_nl : nat;
      gc_q : option (list (row F)); gc_l : option (list (row F)); gc_u : option (list (row F));
      gc_P : option (list (row F)); gc_A : option (list (row F)) }.

  Definition scatter_opt (o : option (list (row F))) (nrows : nat) (d dp : list F) : res (list F) :=
    match o with Some rows => scatter (csr_of rows) nrows d dp | None => Ok dp end.
  (** writer.py 270-305; the loop bounds of P and A are their numbers of entries. *)
  Definition uncanon (c : gcfg) (dq dl du dP dA : list F) : res (list F) :=
    dp0 <- Ok (repeat n0 (gc_np c));;
    dp1 <- scatter_opt (gc_q c) n dq dp0;;
    dp2 <- scatter_opt (gc_l c) (gc_nl c) dl dp1;;
    dp3 <- scatter_opt (gc_u c) (N - n)%nat du dp2;;
    dp4 <- scatter_opt (gc_P c) (length dP) dP dp3;;
    scatter_opt (gc_A c) (length dA) dA dp4.

  (** Workspace: gradient part of the C globals. *)
  Record gst := mkGst
    { s_ws : gws F; s_a : list Z; s_Kt : csc F; s_init : bool; s_fP : bool; s_fA : bool;
      s_dx : list F; s_dP : csc F; s_dA : csc F }.

  (** writer.py 249-256: after the first factorisation, mark its entries. *)
  Definition set_mask (L : csc F) (mask : list bool) : res (list bool) :=
    for_ (N - 1)%nat 0 (fun j mask =>
      s <- get (c_p L) j;;
      e <- get (c_p L) (j + 1);;
      for_ (e - s)%nat s (fun k mask =>
        i <- get (c_i L) k;;
        putz mask (mask_index (Z.of_nat N) (Z.of_nat j) (Z.of_nat i)) true) mask) mask.

  Definition set_factor (g : gws F) (L : csc F) (mask : list bool) (D Dinv : list F) : gws F :=
    mkGws L mask D Dinv (gK g) (gc g) (gw g) (gwi g) (gl g) (gli g) (glx g).
  Definition set_K (g : gws F) (K : csc F) : gws F :=
    mkGws (gL g) (gMask g) (gD g) (gDinv g) K (gc g) (gw g) (gwi g) (gl g) (gli g) (glx g).

  (** writer.py 239-245: refresh the KKT matrices from the current P and A. *)
  Definition refresh (c : gcfg) (P A : csc F) (s : gst) : res (gws F * csc F) :=
    '(K1, Kt1) <- (if s_fP s && match gc_P c with Some _ => true | None => false end
                   then P_to_K P (gK (s_ws s)) (s_Kt s) else Ok (gK (s_ws s), s_Kt s));;
    '(K2, Kt2) <- (if s_fA s && match gc_A c with Some _ => true | None => false end
                   then A_to_K A K1 Kt1 else Ok (K1, Kt1));;
    Ok (set_K (s_ws s) K2, Kt2).

  Definition stale (c : gcfg) (s : gst) : bool :=
    s_fP s && match gc_P c with Some _ => true | None => false end
    || s_fA s && match gc_A c with Some _ => true | None => false end.

  (** writer.py 246-269: factorise at the first call, and again when a matrix changed.
      QDLDL_etree sets L->nnz at the first call only. *)
  Definition refactor (c : gcfg) (s : gst) (g : gws F) : res (gws F * list Z) :=
    if s_init s then
      '(p, i, x, D, Dinv) <- qfactor (gK g) (gL g);;
      let L := mkCsc p i x (nth N p 0) in
      mask <- set_mask L (gMask g);;
      Ok (set_factor g L mask D Dinv, s_a s)
    else if stale c s then
      '(p, i, x, D, Dinv) <- qfactor (gK g) (gL g);;
      Ok (set_factor g (mkCsc p i x (c_n (gL g))) (gMask g) D Dinv, repeat 1%Z (N - n))
    else Ok (g, s_a s).

  (** cpg_gradient, writer.py 231-312, with the solution sol_x, sol_y: the array cpg_dp and the
      new globals.  Flags of matrices that do not change are not touched. *)
  Definition gradient (c : gcfg) (P A : csc F) (sx sy : list F) (s : gst) : res (list F * gst) :=
    '(g1, Kt) <- refresh c P A s;;
    '(g2, a1) <- refactor c s g1;;
    '(g3, a2) <- active sy g2 a1;;
    r <- kkt_solve g3 Kt a2 (s_dx s);;
    dq <- fill_dq r;;
    dl <- fill_bound true a2 r;;
    du <- fill_bound false a2 r;;
    dP <- fill_dP r sx (s_dP s);;
    dA <- fill_dA a2 r sx sy (s_dA s);;
    dp <- uncanon c dq dl du (c_x dP) (c_x dA);;
    Ok (dp, mkGst g3 a2 Kt false
                  (match gc_P c with Some _ => false | None => s_fP s end)
                  (match gc_A c with Some _ => false | None => s_fA s end)
                  (repeat n0 n) dP dA).

  (** cpg_update_d<var>, writer.py 219-228. *)
  Definition update_d (offset idx : nat) (v : F) (s : gst) : res gst :=
    dx <- put (s_dx s) (offset + idx)%nat v;;
    Ok (mkGst (s_ws s) (s_a s) (s_Kt s) (s_init s) (s_fP s) (s_fA s) dx (s_dP s) (s_dA s)).
End Grad.
Arguments mkGcfg {F}. Arguments gc_np {F}. Arguments gc_nl {F}. Arguments gc_q {F}. Arguments gc_l {F}. Arguments gc_u {F}.
Arguments gc_P {F}. Arguments gc_A {F}.
Arguments mkGst {F}. Arguments s_ws {F}. Arguments s_a {F}. Arguments s_Kt {F}. Arguments s_init {F}. Arguments s_fP {F}.
Arguments s_fA {F}. Arguments s_dx {F}. Arguments s_dP {F}. Arguments s_dA {F}.
