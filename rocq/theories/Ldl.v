(** Maintenance of the LDL^T factorisation: cpg_osqp_grad_compute.c.jinja2 130-347.

    Arithmetic is exact, over a field.  Where the C code would divide by zero or take the root
    of a number without one the model stops with [Arith] (the C code goes on with infinities).
    Loop bounds [L->p[j]], [L->p[j+1]] are read once per loop; the loops do not change them. *)

From Coq Require Import Arith Bool ZArith Lia List.
From Verif Require Import Base Machine Runtime Sparse.
Import ListNotations.

(** The arrays of the gradient workspace used here (writer.py 374-402). *)
Record gws (K : Type) := mkGws
  { gL : csc K; gMask : list bool; gD : list K; gDinv : list K; gK : csc K;
    gc : list K; gw : list K; gwi : list nat; gl : list K; gli : list nat; glx : list K }.
Arguments mkGws {K}. Arguments gL {K}. Arguments gMask {K}. Arguments gD {K}. Arguments gDinv {K}. Arguments gK {K}.
Arguments gc {K}. Arguments gw {K}. Arguments gwi {K}. Arguments gl {K}. Arguments gli {K}. Arguments glx {K}.

Section Ldl.
  Variable F : Fld.
  Variable N : nat.
  (** C's sqrt, by contract. *)
  Variable sqr : F -> res F.
  Local Open Scope num_scope.

  Definition div (a b : F) : res F := if rz b then Err Arith else Ok (a / b).

  (** [Lmask[z]]; a negative index is out of bounds. *)
  Definition getz {A} (l : list A) (z : Z) : res A := if Z.ltb z 0 then Err OutOfBounds else get l (Z.to_nat z).
  Definition putz {A} (l : list A) (z : Z) (v : A) : res (list A) := if Z.ltb z 0 then Err OutOfBounds else put l (Z.to_nat z) v.

  (** symbolic_ldl_update, 131-143. *)
  Definition symbolic (L : csc F) (mask : list bool) (wi : list nat) (size off : nat) : res (csc F * list bool) :=
    for_ size 0 (fun k st =>
      ck <- get wi k;;
      let col := (ck + off)%nat in
      for_ (size - (k + 1))%nat (k + 1)%nat (fun j '(L, mask) =>
        rj <- get wi j;;
        let row := (rj + off)%nat in
        let ind := mask_index (Z.of_nat N) (Z.of_nat col) (Z.of_nat row) in
        b <- getz mask ind;;
        if (b : bool) then Ok (L, mask)
        else mask' <- putz mask ind true;;
             L' <- insert N L row col true n0;;
             Ok (L', mask')) st) (L, mask).

  (** cpg_rank_1_update, 157-179. *)
  Definition rank1_col (sigma g : F) (j : nat) (L : csc F) (w : list F) : res (csc F * list F) :=
    s <- get (c_p L) j;;
    e <- get (c_p L) (j + 1);;
    for_ (e - s)%nat s (fun k '(L, w) =>
      i <- get (c_i L) k;;
      if Nat.ltb j i then
        wi <- get w i;;
        wj <- get w j;;
        x <- get (c_x L) k;;
        let wi' := wi - wj * x in
        w' <- put w i wi';;
        xs <- put (c_x L) k (x + sigma * g * wi');;
        Ok (set_x L xs, w')
      else Ok (L, w)) (L, w).
  Definition rank1_step (sigma : F) (j : nat) (st : F * csc F * list F * list F * list F) : res (F * csc F * list F * list F * list F) :=
    let '(a, L, D, Dinv, w) := st in
    wj <- get w j;;
    dj <- get D j;;
    q <- div (sigma * wj * wj) dj;;
    let abar := a + q in
    g <- div wj (dj * abar);;
    r <- div abar a;;
    D' <- put D j (dj * r);;
    iv <- div n1 (dj * r);;
    Dinv' <- put Dinv j iv;;
    '(L', w') <- rank1_col sigma g j L w;;
    Ok (abar, L', D', Dinv', w').
  Definition rank1 (sigma : F) (off : nat) (L : csc F) (D Dinv w : list F) : res (csc F * list F * list F * list F) :=
    '(_, L', D', Dinv', w') <- for_ (N - off) off (rank1_step sigma) (n1, L, D, Dinv, w);;
    Ok (L', D', Dinv', w').

  Definition zeros (n : nat) (l : list F) : res (list F) := for_ n 0 (fun i l => put l i n0) l.

  (** cpg_ldl_delete, 182-222.  [r - m - 1] in [nat]: rows of column [m] exceed [m]. *)
  Definition delete_w (m : nat) (L : csc F) (D w : list F) (wi : list nat) : res (list nat * list F * nat) :=
    w0 <- zeros N w;;
    s <- get (c_p L) m;;
    e <- get (c_p L) (m + 1);;
    '(wi', w') <- for_ (e - s)%nat 0 (fun i '(wi, w) =>
       r <- get (c_i L) (s + i);;
       wi' <- put wi i (r - m - 1)%nat;;
       v <- get wi' i;;
       x <- get (c_x L) (s + i);;
       d <- get D m;;
       q <- sqr (- d);;
       w' <- put w (m + 1 + v)%nat (x * q);;
       Ok (wi', w')) (wi, w0);;
    Ok (wi', w', (e - s)%nat).
  Definition clear_row (m : nat) (L : csc F) : res (csc F) :=
    for_ m 0 (fun j L =>
      s <- get (c_p L) j;;
      e <- get (c_p L) (j + 1);;
      for_break (e - s)%nat s (fun k L =>
        i <- get (c_i L) k;;
        if Nat.leb m i then
          (if Nat.eqb i m then xs <- put (c_x L) k n0;; Ok (false, set_x L xs) else Ok (false, L))
        else Ok (true, L)) L) L.
  Definition clear_col (m : nat) (L : csc F) : res (csc F) :=
    s <- get (c_p L) m;;
    e <- get (c_p L) (m + 1);;
    for_ (e - s)%nat s (fun k L => xs <- put (c_x L) k n0;; Ok (set_x L xs)) L.
  Definition ldl_delete (m : nat) (g : gws F) : res (gws F) :=
    '(wi, w, size) <- delete_w m (gL g) (gD g) (gw g) (gwi g);;
    L1 <- clear_row m (gL g);;
    L2 <- clear_col m L1;;
    D' <- put (gD g) m (- n1);;
    Dinv' <- put (gDinv g) m (- n1);;
    '(L3, mask) <- symbolic L2 (gMask g) wi size (m + 1);;
    '(L4, D2, Dinv2, w2) <- rank1 (- n1) (m + 1) L3 D' Dinv' w;;
    Ok (mkGws L4 mask D2 Dinv2 (gK g) (gc g) w2 wi (gl g) (gli g) (glx g)).

  (** cpg_ldl_add, 225-324. *)
  (** 232-238 *)
  Definition add_c (m : nat) (Kx : csc F) (c : list F) : res (list F) :=
    c0 <- zeros N c;;
    s <- get (c_p Kx) m;;
    e <- get (c_p Kx) (m + 1);;
    for_ (e - 1 - s)%nat s (fun k c => i <- get (c_i Kx) k;; x <- get (c_x Kx) k;; put c i x) c0.
  (** 241-247 *)
  Definition add_solve (m : nat) (L : csc F) (c l : list F) : res (list F) :=
    l0 <- zeros m l;;
    for_ m 0 (fun j l =>
      lj <- get l j;;
      cj <- get c j;;
      l1 <- put l j (lj + cj);;
      s <- get (c_p L) j;;
      e <- get (c_p L) (j + 1);;
      for_ (e - s)%nat s (fun k l =>
        i <- get (c_i L) k;;
        li <- get l i;;
        x <- get (c_x L) k;;
        lj <- get l j;;
        put l i (li - x * lj)) l1) l0.
  (** 250-257 and 294-301: nonzeros of [l[0..n-1]], divided by [d i]. *)
  Definition gather (n : nat) (l : list F) (d : nat -> res F) (lx : list F) (li : list nat) : res (list F * list nat * nat) :=
    for_ n 0 (fun i '(lx, li, size) =>
      x <- get l i;;
      if rz x then Ok (lx, li, size)
      else dv <- d i;;
           q <- div x dv;;
           lx' <- put lx size q;;
           li' <- put li size i;;
           Ok (lx', li', (size + 1)%nat)) (lx, li, 0%nat).
  (** 261-265 *)
  Definition add_diag (m : nat) (Kx : csc F) (D Dinv lx : list F) (li : list nat) (size : nat) : res (list F * list F) :=
    e <- get (c_p Kx) (m + 1);;
    kmm <- get (c_x Kx) (e - 1);;
    D0 <- put D m kmm;;
    D1 <- for_ size 0 (fun k D =>
      dm <- get D m;;
      x <- get lx k;;
      i <- get li k;;
      di <- get D i;;
      put D m (dm - x * x * di)) D0;;
    dm <- get D1 m;;
    iv <- div n1 dm;;
    Dinv' <- put Dinv m iv;;
    Ok (D1, Dinv').
  (** 267-269 *)
  Definition add_row (m : nat) (L : csc F) (lx : list F) (li : list nat) (size : nat) : res (csc F) :=
    for_ size 0 (fun k L => i <- get li k;; x <- get lx k;; insert N L m i false x) L.
  (** 272-291 *)
  Definition add_l32 (m : nat) (Kx L : csc F) (D lx : list F) (li : list nat) (size : nat) (l : list F) : res (list F) :=
    l0 <- zeros N l;;
    l1 <- for_ (N - (m + 1)) (m + 1)%nat (fun j l =>
      s <- get (c_p Kx) j;;
      e <- get (c_p Kx) (j + 1);;
      for_break (e - s)%nat s (fun k l =>
        i <- get (c_i Kx) k;;
        if Nat.leb m i then
          (if Nat.eqb i m then x <- get (c_x Kx) k;; l' <- put l (j - m - 1)%nat x;; Ok (false, l') else Ok (false, l))
        else Ok (true, l)) l) l0;;
    for_ size 0 (fun r l =>
      c <- get li r;;
      s <- get (c_p L) c;;
      e <- get (c_p L) (c + 1);;
      for_ (e - s)%nat s (fun k l =>
        i <- get (c_i L) k;;
        if Nat.ltb m i then
          lv <- get l (i - m - 1)%nat;;
          x <- get (c_x L) k;;
          lr <- get lx r;;
          d <- get D c;;
          put l (i - m - 1)%nat (lv - x * lr * d)
        else Ok l) l) l1.
  (** 304-306 *)
  Definition add_col (m : nat) (L : csc F) (lx : list F) (li : list nat) (size : nat) : res (csc F) :=
    for_ size 0 (fun k L => i <- get li k;; x <- get lx k;; insert N L (i + m + 1)%nat m false x) L.
  (** 309-316 *)
  Definition add_w (m : nat) (D lx w : list F) (li wi : list nat) (size : nat) : res (list nat * list F) :=
    w0 <- zeros N w;;
    for_ size 0 (fun i '(wi, w) =>
      v <- get li i;;
      wi' <- put wi i v;;
      v' <- get wi' i;;
      x <- get lx i;;
      d <- get D m;;
      q <- sqr (- d);;
      w' <- put w (m + 1 + v')%nat (x * q);;
      Ok (wi', w')) (wi, w0).
  Definition ldl_add (m : nat) (g : gws F) : res (gws F) :=
    c <- add_c m (gK g) (gc g);;
    l <- add_solve m (gL g) c (gl g);;
    '(lx, li, size) <- gather m l (fun i => get (gD g) i) (glx g) (gli g);;
    '(D1, Dinv1) <- add_diag m (gK g) (gD g) (gDinv g) lx li size;;
    L1 <- add_row m (gL g) lx li size;;
    l' <- add_l32 m (gK g) L1 D1 lx li size l;;
    '(lx', li', size') <- gather (N - m - 1)%nat l' (fun _ => get D1 m) lx li;;
    L2 <- add_col m L1 lx' li' size';;
    '(wi, w) <- add_w m D1 lx' (gw g) li' (gwi g) size';;
    '(L3, D2, Dinv2, w2) <- rank1 n1 (m + 1) L2 D1 Dinv1 w;;
    Ok (mkGws L3 (gMask g) D2 Dinv2 (gK g) c w2 wi l' li' lx').
End Ldl.
Arguments getz {A}. Arguments putz {A}.
