(** Which entries of the variables the option [stored_vars] of the explicit solver refers to: pdaqp.py 141-164.
    CVXPY's part (what [get_data] of an index expression answers, [key_utils]) is included as far as it is used. *)

From Coq Require Import String Arith Bool ZArith List.
From Verif Require Import Base Retrieve Explicit.
Import ListNotations.
Open Scope string_scope.
Open Scope list_scope.

(** Key of one axis: an integer, a slice with positive step (None: left out), a list of integers.  Negative steps,
    None (new axes), Ellipsis and lists of truth values within a tuple are not modelled. *)
Inductive akey := AInt (i : Z) | ASlice (start stop : option Z) (step : positive) | AList (l : list Z).

(** What stands between the brackets: [X[k1, k2, ...]], [X[[i, j]]], [x[[True, False]]], [x[np.array([i, j])]]. *)
Inductive vkey := KTuple (ks : list akey) | KList (l : list Z) | KMask (l : list bool) | KArray (l : list Z).

(** An entry of stored_vars: a variable or an index expression on a variable. *)
Inductive sitem := SWhole (v : uvar) | SIndex (v : uvar) (k : vkey).
Definition si_var (s : sitem) : uvar := match s with SWhole v | SIndex v _ => v end.

(** cvxpy.utilities.key_utils.wrap_neg_index, format_slice (positive steps): start, stop and step. *)
Definition wrap_neg (z : Z) (dim : nat) : Z := if Z.ltb z 0 then (z + Z.of_nat dim)%Z else z.
Definition clip (z lo hi : Z) : Z := Z.min (Z.max z lo) hi.
Definition format_slice (k : akey) (dim : nat) : res (Z * Z * positive) :=
  let n := Z.of_nat dim in
  match k with
  | ASlice a b s =>
      let a := match a with Some z => z | None => 0%Z end in
      let b := match b with Some z => z | None => n end in
      Ok (clip (wrap_neg a dim) 0 n, clip (wrap_neg b dim) 0 n, s)
  | AInt z => let z' := wrap_neg z dim in
      if Z.leb 0 z' && Z.ltb z' n then Ok (z', (z' + 1)%Z, 1%positive) else Err IndexError
  | AList _ => Err TypeError
  end.

Definition full_slice : akey := ASlice None None 1.
Definition is_list (k : akey) : bool := match k with AList _ => true | _ => false end.

(** key_utils.validate_key. *)
Definition validate_key (ks : list akey) (shape : list nat) : res (list akey) :=
  if Nat.ltb (length shape) (length ks) then Err IndexError
  else mapM (fun kd => '(a, b, s) <- format_slice (fst kd) (snd kd);; Ok (ASlice (Some a) (Some b) s))
            (combine (ks ++ repeat full_slice (length shape - length ks)) shape).

(** [s.get_data()[0]]: a key without lists makes an [index] atom, which holds the validated key; any other makes a
    [special_index] atom, which holds the key as written. *)
Definition cvx_key (shape : list nat) (k : vkey) : res vkey :=
  match k with
  | KTuple ks => if existsb is_list ks then Ok k else ks' <- validate_key ks shape;; Ok (KTuple ks')
  | _ => Ok k
  end.

(** np.arange(a, b, s) *)
Fixpoint arange_n (n : nat) (a s : Z) : list Z :=
  match n with 0 => [] | S n => a :: arange_n n (a + s)%Z s end.
Definition arange (a b : Z) (s : positive) : list Z :=
  arange_n (Z.to_nat ((b - a + Zpos s - 1) / Zpos s)) a (Zpos s).

(** 156-158: [zip(sl[0], v.shape)] stops at the shorter list. *)
Definition ax_range (kd : akey * nat) : res (list Z) :=
  match fst kd with
  | AList l => Ok l
  | k => '(a, b, s) <- format_slice k (snd kd);; Ok (arange a b s)
  end.

(** itertools.product and np.ravel_multi_index(id, shape, order='F') *)
Fixpoint product (rs : list (list Z)) : list (list Z) :=
  match rs with [] => [[]] | r :: t => flat_map (fun z => map (cons z) (product t)) r end.
Fixpoint ravel (shape : list nat) (id : list Z) : res Z :=
  match shape, id with
  | [], [] => Ok 0%Z
  | h :: t, z :: u => if Z.leb 0 z && Z.ltb z (Z.of_nat h)
                      then r <- ravel t u;; Ok (z + Z.of_nat h * r)%Z else Err ValueError
  | _, _ => Err ValueError
  end.

(** 156-159 *)
Definition expand (shape : list nat) (ks : list akey) : res (list Z) :=
  rs <- mapM ax_range (combine ks shape);; mapM (ravel shape) (product rs).

Definition of_bool (b : bool) : Z := if b then 1%Z else 0%Z.

(** 145-160 together with [np.array(inds, dtype='int') if inds else ...] (171).  The list of a key that is not a
    tuple is run through as if it were the tuple of axes.  For vectors the key itself is made an integer array:
    slices cannot be converted, the truth value of a NumPy array of two or more entries is an error and that of one
    entry is whether it is nonzero.  [x[()]] is x. *)
Definition sel_item (s : sitem) : res (string * option (list Z)) :=
  match s with
  | SWhole v => Ok (uv_name v, None)
  | SIndex v (KTuple []) => Ok (uv_name v, None)
  | SIndex v k =>
      k' <- cvx_key (uv_shape v) k;;
      is <- match uv_shape v with
            | [_] => match k' with
                     | KTuple [AList l] => Ok l
                     | KTuple _ => Err TypeError
                     | KList l => Ok l
                     | KMask l => Ok (map of_bool l)
                     | KArray [z] => Ok (if Z.eqb z 0 then [] else [z])
                     | KArray [] => Ok []
                     | KArray _ => Err ValueError
                     end
            | sh => expand sh match k' with
                              | KTuple ks => ks
                              | KList l | KArray l => map AInt l
                              | KMask l => map (fun b => AInt (of_bool b)) l
                              end
            end;;
      Ok (uv_name v, Some is)
  end.

(** 142-164 with the rest of the storage code (Explicit.v). *)
Definition store_items (vs : list pinfo) (items : option (list sitem)) : res xvars :=
  match items with
  | None => store_vars vs None
  | Some l => sels <- mapM sel_item l;; store_vars vs (Some sels)
  end.
