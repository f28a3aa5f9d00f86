(** Specification for forward and backward in explicit mode. *)

From Coq Require Import String Arith Bool ZArith List.
From Verif Require Import Base Pus Machine Runtime RuntimeSpec Canon Retrieve RetrieveProofs Explicit ExplicitVars ExplicitProofs GradUser EndSpec ExplicitEndSpec PropExplicit Layer LayerSpec ExplicitLayer.
Import ListNotations.
Open Scope string_scope.
Open Scope list_scope.

Section Spec.
  Variable O : OFld.
  Notation F := (of_fld O).
  Notation K := (of_ord O).
  Variables (big : F) (cons : list (ucon K)).
  Variables (g : genc F) (mask : list bool) (leaf : list F -> nat).
  (** The laws: region, theta, canonical solution. *)
  Variable law : nat -> list F -> list F.
  Variables (pids : list (nat * string)) (shapes : list (string * list nat)) (red : list (nat * nat)) (us : list uvar).
  Variable sels : option (list (string * option (list Z))).
  Variable ctxs : nat -> ctx.

  (** What the calls refer to: parameter values of a forward call (those passed now, and for other
      parameters those passed before); parameter values of the latest forward call with the same
      context, and derivatives, of a backward call. *)
  Inductive xlexp :=
  | XEF (k : nat) (th : pvals F)
  | XEB (k : nat) (own : pvals F) (dvars : list (varr F)).
  Fixpoint xlexpect (th : pvals F) (own : nat -> option (pvals F)) (os : list (xlop O)) : list xlexp :=
    match os with
    | [] => []
    | XLF k vals :: t => let th' := after pids th (ctxs k) vals in XEF k th' :: xlexpect th' (nset k th' own) t
    | XLB k dvars :: t =>
        match own k with
        | Some tho => XEB k tho dvars :: xlexpect th own t
        | None => xlexpect th own t
        end
    end.

  (** Supported calls. *)
  Definition xlop_ok (o : xlop O) : Prop :=
    match o with
    | XLF k vals => Forall2 (fun i a => assoc (pname pids i) shapes = Some (fst a)) (cx_pids (ctxs k)) vals
    | XLB k dvars => Forall2 (fun i a => forall u, In u us -> uv_id u = i -> fst a = uv_shape u) (cx_vars (ctxs k)) dvars
    end.
  Fixpoint xordered (done : list nat) (os : list (xlop O)) : Prop :=
    match os with
    | [] => True
    | XLF k _ :: t => xordered (k :: done) t
    | XLB k _ :: t => In k done /\ xordered done t
    end.

  (** Declared bounds of a parameter entry, values limited to them. *)
  Definition low (nm : string) (i : nat) : F := last_lower (K := K) cons nm i (ropp big).
  Definition high (nm : string) (i : nat) : F := last_upper (K := K) cons nm i big.
  Definition limited_to (th tc : pvals F) : Prop :=
    forall nm s i, In (nm, s) (g_params g) -> i < s -> limited (K := K) (low nm i) (high nm i) (th nm i) (tc nm i).
  Definition in_bounds (th : pvals F) : Prop :=
    forall nm s i, In (nm, s) (g_params g) -> i < s -> of_le O (low nm i) (th nm i) /\ of_le O (th nm i) (high nm i).

  (** Table parameter at parameter values; region. *)
  Definition theta_at (p : pvals F) : list F := mask_sel mask (canon_spec g p pq ++ canon_spec g p pu).
  Definition region_at (p : pvals F) : nat := leaf (theta_at p).

  (** Arrays of the context's variables: the entries requested for storage of the parts of [xs], zero elsewhere. *)
  Definition shown (xs : list F) (u : uvar) (a : list nat -> F) : Prop :=
    forall idx, in_shape (uv_shape u) idx ->
      let p := fpos (uv_shape u) idx in
      (requested (sel_of us sels (uv_name u)) p -> a idx = nth p (cut red (uv_id u) xs) n0)
      /\ (~ requested (sel_of us sels (uv_name u)) p -> a idx = n0).
  Definition vars_show (k : nat) (xs : list F) (vs : list (list nat -> F)) : Prop :=
    Forall2 (fun i a => exists u, In u us /\ uv_id u = i /\ shown xs u a) (cx_vars (ctxs k)) vs.

  (** Sum over the context's variables and all entries of derivative * change. *)
  Definition vars_change (dv : list (varr F)) (vs vs' : list (list nat -> F)) : F :=
    rsum (map (fun e : varr F * ((list nat -> F) * (list nat -> F)) =>
                 rsum (map (fun idx => nmul (snd (fst e) idx) (rsub (snd (snd e) idx) (fst (snd e) idx))) (fidx (fst (fst e)))))
              (combine dv (combine vs vs'))).
  (** Sum over the context's parameters and all entries of gradient * change. *)
  Definition shape_of (nm : string) : list nat := match assoc nm shapes with Some sh => sh | None => [] end.
  Definition pars_change (k : nat) (l : list (list nat -> F)) (p p' : pvals F) : F :=
    rsum (map (fun e : nat * (list nat -> F) =>
                 let nm := pname pids (fst e) in
                 rsum (map (fun idx => nmul (snd e idx) (rsub (p' nm (fpos (shape_of nm) idx)) (p nm (fpos (shape_of nm) idx)))) (fidx (shape_of nm))))
              (combine (cx_pids (ctxs k)) l)).
  (** Parameter values that differ in the context's parameters only. *)
  Definition differ_in (k : nat) (p p' : pvals F) : Prop :=
    forall nm s i, In (nm, s) (g_params g) -> i < s -> ~ In nm (map (pname pids) (cx_pids (ctxs k))) -> p nm i = p' nm i.

  (** forward returns the law of the region at its values limited to the bounds.  backward returns the gradient
      of the law of the region of the context's own forward call: derivative times change of the variables equals
      gradient times change of the parameters, for any two parameter values. *)
  Definition xl_right (e : xlexp) (o : lout F) : Prop :=
    match e, o with
    | XEF k th, OVars vs => exists tc, limited_to th tc /\ vars_show k (law (region_at tc) (theta_at tc)) vs
    | XEB k own dv, OGrads l => length l = length (cx_pids (ctxs k)) /\ exists tc, limited_to own tc /\
        forall p p', differ_in k p p' -> forall vs vs',
          vars_show k (law (region_at tc) (theta_at p)) vs -> vars_show k (law (region_at tc) (theta_at p')) vs' ->
          vars_change dv vs vs' = pars_change k l p p'
    | _, _ => False
    end.

  (** What is assumed of the table: for every region and theta, it holds the rows out_inds of a law. *)
  Definition table_laws (xv : xvars) (t : table F) : Prop :=
    t_np t = length (mask_pos mask) /\ t_nsol t = length (xv_out xv)
    /\ (forall h, In h (t_hp t) -> (h + 1) * ((t_np t + 1) * t_nsol t) <= length (t_feed t))
    /\ (forall th, length th = t_np t -> leaf th < length (t_hp t))
    /\ forall r th, r < length (t_hp t) -> length th = t_np t ->
         length (law r th) = total red /\ exists o, table_out (law r th) (xv_out xv) = Ok o /\ t_eval t r th = Ok o.
End Spec.
Arguments XEF {O}. Arguments XEB {O}.
