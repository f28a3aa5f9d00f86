(** The generated C files as translation units: in each file the declarations it reads through
    its include lines, then its own definitions in order, every one with its C type and the
    global identifiers it refers to; and what a C compiler checks of them.
    Models cvxpygen/utils.py 87-158 and 297-338 (write_vec_def, write_vec_prot, write_mat_def,
    write_mat_prot, write_param_def, write_param_prot, write_struct_def, write_struct_prot),
    470-689 (write_workspace_def), 692-883 (write_workspace_prot), 885-1084 (write_solve_def),
    1087-1142 (write_solve_prot), cvxpygen/writer.py 145-352 (_write_gradient_def,
    _write_gradient_prot), 354-416 (_write_gradient_workspace_def), 418-520
    (_write_gradient_explicit), the templates cpg_osqp_grad_compute.c.jinja2,
    cpg_osqp_grad_compute.h.jinja2 and cpg_osqp_grad_workspace.h.jinja2, and declare_workspace
    and define_workspace of cvxpygen/solvers/*.py.
    Single-stage code only.  Member names, values, and the arguments of calls are not part of
    this model (C69 has the members, C70 the include lines); names of the solver's library
    functions, of QDLDL and of the C library are not listed. *)

From Coq Require Import String List Bool Arith.
From Verif Require Import Base Config Symbols.
Import ListNotations.
Open Scope string_scope.
Open Scope list_scope.

(** ** C, as far as needed *)

Inductive cty := CT (n : string) | CPtr (t : cty) | CArr (t : cty) (len : nat)
               | CFun (r : string) (args : list string).

Definition strs_eqb : list string -> list string -> bool :=
  fix go a b := match a, b with
                | [], [] => true
                | x :: a', y :: b' => String.eqb x y && go a' b'
                | _, _ => false
                end.
Fixpoint cty_eqb (a b : cty) : bool :=
  match a, b with
  | CT m, CT n => String.eqb m n
  | CPtr s, CPtr t => cty_eqb s t
  | CArr s m, CArr t n => cty_eqb s t && Nat.eqb m n
  | CFun r x, CFun r' x' => String.eqb r r' && strs_eqb x x'
  | _, _ => false
  end.

(** One line of a file: an extern declaration, a file-local (static) object, or a definition
    with external linkage and the global names in its initialiser or body. *)
Inductive item :=
  | Ext (x : string) (t : cty)
  | Sta (x : string) (t : cty)
  | Def (x : string) (t : cty) (us : list string).

Inductive cerr := Conflict (x : string) | Redefined (x : string) | Undeclared (x : string).

(** Names seen so far with their types, and the names defined so far. *)
Record unit_env := mkE { e_seen : list (string * cty); e_done : list string }.

Fixpoint lookup (x : string) (l : list (string * cty)) : option cty :=
  match l with [] => None | (y, t) :: r => if String.eqb y x then Some t else lookup x r end.
Definition known_name (x : string) (l : list (string * cty)) : bool :=
  match lookup x l with Some _ => true | None => false end.
Definition compatible (x : string) (t : cty) (l : list (string * cty)) : bool :=
  match lookup x l with Some t' => cty_eqb t' t | None => true end.

(** C11 6.2.2 and 6.7: a repeated declaration has a compatible type; a static object cannot
    follow a declaration with external linkage; 6.9: one definition; 6.5.1: names are declared
    before they are used. *)
Definition check_item (e : unit_env) (i : item) : cerr + unit_env :=
  match i with
  | Ext x t => if compatible x t (e_seen e) then inr (mkE ((x, t) :: e_seen e) (e_done e)) else inl (Conflict x)
  | Sta x t => if known_name x (e_seen e) then inl (Conflict x)
               else inr (mkE ((x, t) :: e_seen e) (x :: e_done e))
  | Def x t us =>
      if negb (compatible x t (e_seen e)) then inl (Conflict x)
      else if mem_str x (e_done e) then inl (Redefined x)
      else let seen := (x, t) :: e_seen e in
           match find (fun u => negb (known_name u seen)) us with
           | Some u => inl (Undeclared u)
           | None => inr (mkE seen (x :: e_done e))
           end
  end.
Fixpoint check_unit (e : unit_env) (l : list item) : cerr + unit_env :=
  match l with
  | [] => inr e
  | i :: r => match check_item e i with inl x => inl x | inr e' => check_unit e' r end
  end.
Definition compile (l : list item) : cerr + unit_env := check_unit (mkE [] []) l.

(** ** The data the files depend on *)

(** A canonical block: number of stored entries (len(p.data) or len(p)), of column pointers, and
    the same for its map (0 column pointers cannot occur; the numbers are not checked). *)
Record ublock := mkUB { k_id : string; k_changes : bool; k_len : nat; k_ptr : nat; k_mlen : nat; k_mptr : nat }.
(** A variable: name, size, symmetric. *)
Record uvar3 := mkUV { w_name : string; w_size : nat; w_sym : bool }.

Record uin := mkU {
  u_if : iface;
  u_prefix : string;
  u_gradient : bool;
  u_explicit : nat;
  u_blocks : list ublock;
  u_vars : list uvar3;
  u_reduced : bool;                     (* variable_info.reduced *)
  u_rsizes : list nat;                  (* name_to_size_reduced *)
  u_duals : list (string * nat);
  u_params : list (string * nat);       (* name_to_size_usp *)
  u_settings : list (string * string);  (* stgs_names_to_type *)
  u_flat : nat;                         (* len(flat_usp) *)
  u_theta : nat;                        (* n_param_reduced *)
  u_ndual : nat;                        (* n_dual_reduced *)
  u_nvar : nat;                         (* solver_interface.n_var *)
  u_neq : nat;
  u_nineq : nat;
  u_soc : nat;                          (* number of second-order cones *)
  u_cones : nat                         (* Clarabel: n_cone_types *)
}.

Definition expl (u : uin) : bool := negb (Nat.eqb (u_explicit u) 0).
Definition pre (u : uin) (x : string) : string := append (u_prefix u) x.
Definition items_if (b : bool) (l : list item) : list item := if b then l else [].

Definition fl := CT "cpg_float".
Definition it := CT "cpg_int".
Definition csc := CT "cpg_csc".

(** canonicalizer.py 241-245: the dictionary col_to_name_usp, whose keys are running sums of the
    sizes; a later parameter that starts at the same column takes the entry over. *)
Fixpoint dict_set (c : nat) (n : string) (d : list (nat * string)) : list (nat * string) :=
  match d with
  | [] => [(c, n)]
  | (c', m) :: r => if Nat.eqb c' c then (c, n) :: r else (c', m) :: dict_set c n r
  end.
Fixpoint col_to_name (cum : nat) (ps : list (string * nat)) (d : list (nat * string)) : list (nat * string) :=
  match ps with
  | [] => d
  | (n, s) :: r => col_to_name (cum + s) r (dict_set cum n d)
  end.
Definition size_of (ps : list (string * nat)) (n : string) : nat :=
  match find (fun p => String.eqb (fst p) n) ps with Some (_, s) => s | None => 0 end.
(** The parameters the update functions are written for (utils.py 902). *)
Definition written_params (u : uin) : list string := map snd (col_to_name 0 (u_params u) []).

Definition block_empty (b : ublock) : bool := Nat.eqb (k_len b) 0.
Definition block_kept (u : uin) (b : ublock) : bool :=
  negb (expl u) || negb (String.eqb (k_id b) "A" || (u_reduced u && String.eqb (k_id b) "P")).
Definition scalar_var (v : uvar3) : bool := Nat.eqb (w_size v) 1.
Definition own_array (u : uin) (v : uvar3) : bool :=
  negb (scalar_var v) && (w_sym v || negb (sol_static (u_if u))).

(** ** Names the solver's headers declare (osqp.py 139-142; pdaqp.py 231-243, the arrays with
    gradients only). *)
Definition solver_header (u : uin) : list item :=
  match u_if u with
  | IOSQP => [Ext "solver" (CT "OSQPSolver"); Ext "sol_x" (CArr (CT "OSQPFloat") (u_nvar u));
              Ext "sol_y" (CArr (CT "OSQPFloat") (u_neq u + u_nineq u))]
  | IPDAQP => [Ext "pdaqp_evaluate" (CFun "void" ["c_float*"; "c_float*"])]
              ++ items_if (u_gradient u)
                   [Ext "pdaqp_active_region" (CT "int"); Ext "pdaqp_feedbacks" (CPtr (CT "c_float_store"));
                    Ext "pdaqp_hp_list" (CPtr (CT "c_int"))]
  | _ => []
  end.

(** ** cpg_workspace.h, utils.py 692-883 *)

(** utils.py 310-320 (write_param_prot) without d. *)
Definition param_ext (u : uin) (b : ublock) (suffix : string) : list item :=
  if block_empty b then []
  else [Ext (pre u ("canon_" ++ k_id b ++ suffix)%string)
            (if is_matrix (k_id b) then csc else CArr fl (k_len b))].

(** declare_workspace: scs.py 181-204, ecos.py 181-188, clarabel.py 299-306, qoco.py 173-180 and
    403-410. *)
Definition solver_ext (u : uin) : list item :=
  match u_if u with
  | ISCS =>
      items_if (existsb (fun b => String.eqb (k_id b) "P") (u_blocks u)) [Ext (pre u "scs_P") (CT "ScsMatrix")]
      ++ [Ext (pre u "scs_A") (CT "ScsMatrix"); Ext (pre u "Scs_D") (CT "ScsData")]
      ++ items_if (negb (Nat.eqb (u_soc u) 0)) [Ext (pre u "scs_q") (CArr it (u_soc u))]
      ++ [Ext (pre u "Scs_K") (CT "ScsCone"); Ext (pre u "Canon_Settings") (CT "ScsSettings");
          Ext (pre u "scs_x") (CArr fl (u_nvar u)); Ext (pre u "scs_y") (CArr fl (u_neq u + u_nineq u));
          Ext (pre u "scs_s") (CArr fl (u_neq u + u_nineq u)); Ext (pre u "Scs_Sol") (CT "ScsSolution");
          Ext (pre u "Scs_Info") (CT "ScsInfo"); Ext (pre u "Scs_Work") (CPtr (CT "ScsWork"))]
  | IECOS =>
      items_if (negb (Nat.eqb (u_soc u) 0)) [Ext (pre u "ecos_q") (CArr it (u_soc u))]
      ++ [Ext (pre u "ecos_workspace") (CPtr (CT "pwork")); Ext (pre u "ecos_flag") it]
  | ICLARABEL =>
      [Ext (pre u "P") (CT "ClarabelCscMatrix"); Ext (pre u "A") (CT "ClarabelCscMatrix");
       Ext (pre u "cones") (CArr (CT "ClarabelSupportedConeT") (u_cones u));
       Ext (pre u "settings") (CT "ClarabelDefaultSettings"); Ext (pre u "solver") (CPtr (CT "ClarabelDefaultSolver"));
       Ext (pre u "solution") (CT "ClarabelDefaultSolution")]
  | IQOCOGEN =>
      items_if (negb (Nat.eqb (u_soc u) 0)) [Ext (pre u "qoco_custom_q") (CArr it (u_soc u))]
      ++ [Ext (pre u "qoco_custom_workspace") (CT "Workspace"); Ext (pre u "qoco_custom_flag") it]
  | IQOCO =>
      items_if (negb (Nat.eqb (u_soc u) 0)) [Ext (pre u "qoco_q") (CArr it (u_soc u))]
      ++ [Ext (pre u "qoco_solver") (CPtr (CT "QOCOSolver")); Ext (pre u "qoco_flag") it]
  | IOSQP | IPDAQP => []
  end.

Definition workspace_h (u : uin) : list item :=
  solver_header u
  ++ [Ext (pre u "cpg_params_vec") (CArr fl (u_flat u))]
  ++ items_if (expl u) [Ext (pre u "cpg_params_vec_lower") (CArr fl (u_flat u));
                        Ext (pre u "cpg_params_vec_upper") (CArr fl (u_flat u))]
  ++ flat_map (fun b => items_if (k_changes b) [Ext (pre u ("canon_" ++ k_id b ++ "_map")%string) csc]) (u_blocks u)
  ++ flat_map (fun b => items_if (negb (String.eqb (k_id b) "d"))
                          (param_ext u b "" ++ items_if (inmem (u_if u)) (param_ext u b "_conditioning"))) (u_blocks u)
  ++ items_if (expl u)
       [Ext (pre u "cpg_theta") (CArr fl (u_theta u));
        Ext "sol_x" (CArr fl (if u_reduced u then list_sum (u_rsizes u) else u_nvar u))]
  ++ items_if (Nat.eqb (u_explicit u) 2) [Ext "sol_y" (CArr fl (u_ndual u))]
  ++ [Ext (pre u "Canon_Params") (CT "Canon_Params_t")]
  ++ items_if (inmem (u_if u)) [Ext (pre u "Canon_Params_conditioning") (CT "Canon_Params_t")]
  ++ [Ext (pre u "Canon_Outdated") (CT "Canon_Outdated_t")]
  ++ items_if (u_gradient u) [Ext (pre u "Canon_Outdated_Grad") (CT "Canon_Outdated_t")]
  ++ map (fun v => Ext (pre u ("cpg_" ++ w_name v)%string) (CArr fl (w_size v))) (filter (own_array u) (u_vars u))
  ++ items_if (negb (sol_static (u_if u)))
       (map (fun d => Ext (pre u ("cpg_" ++ fst d)%string) (CArr fl (snd d)))
            (filter (fun d => negb (Nat.eqb (snd d) 1)) (u_duals u)))
  ++ [Ext (pre u "CPG_Prim") (CT "CPG_Prim_t")]
  ++ items_if (negb (Nat.eqb (u_explicit u) 1) && negb (match u_duals u with [] => true | _ => false end))
       [Ext (pre u "CPG_Dual") (CT "CPG_Dual_t")]
  ++ items_if (negb (expl u)) [Ext (pre u "CPG_Info") (CT "CPG_Info_t")]
  ++ [Ext (pre u "CPG_Result") (CT "CPG_Result_t")]
  ++ items_if (extra_stgs (u_if u)) [Ext (pre u "Canon_Settings") (CT "Canon_Settings_t")]
  ++ items_if (negb (ws_static (u_if u))) (solver_ext u)
  ++ items_if (u_gradient u) [Ext (pre u "cpg_dp") (CArr fl (u_flat u)); Ext (pre u "CPG_Delta") (CT "CPG_Delta_t")].

(** ** cpg_workspace.c, utils.py 470-689 *)

(** utils.py 117-131 (write_mat_def). *)
Definition mat_def (n : string) (num idx : cty) (ty : string) (nnz ptr : nat) : list item :=
  [Def (n ++ "_i")%string (CArr idx nnz) []; Def (n ++ "_p")%string (CArr idx ptr) [];
   Def (n ++ "_x")%string (CArr num nnz) [];
   Def n (CT ty) [(n ++ "_p")%string; (n ++ "_i")%string; (n ++ "_x")%string]].

Definition map_def (u : uin) (b : ublock) : list item :=
  items_if (k_changes b) (mat_def (pre u ("canon_" ++ k_id b ++ "_map")%string) fl it "cpg_csc" (k_mlen b) (k_mptr b)).

(** utils.py 297-307 (write_param_def) without d. *)
Definition param_def (u : uin) (b : ublock) (suffix : string) : list item :=
  if block_empty b then []
  else let n := pre u ("canon_" ++ k_id b ++ suffix)%string in
       if is_matrix (k_id b) then mat_def n fl it "cpg_csc" (k_len b) (k_ptr b)
       else [Def n (CArr fl (k_len b)) []].
Definition block_def (u : uin) (b : ublock) : list item :=
  if String.eqb (k_id b) "d" then []
  else param_def u b "" ++ items_if (inmem (u_if u)) (param_def u b "_conditioning").

(** utils.py 529-552: the members of Canon_Params point to the non-empty blocks. *)
Definition params_uses (u : uin) (suffix : string) : list string :=
  flat_map (fun b => if block_empty b || String.eqb (k_id b) "d" then []
                     else [pre u ("canon_" ++ k_id b ++ suffix)%string])
           (filter (block_kept u) (u_blocks u)).

(** The variable the solution pointers of ws_ptrs start with (osqp.py 78-86, scs.py 68-76,
    ecos.py 35-44, clarabel.py 37-46, qoco.py 36-45 and 210-219, pdaqp.py 49-57); with
    dual_var_names y for OSQP, SCS and PDAQP. *)
Definition prim_ptr (u : uin) : string :=
  match u_if u with
  | IOSQP | IPDAQP => "sol_x"
  | ISCS => pre u "scs_x"
  | IECOS => pre u "ecos_workspace"
  | ICLARABEL => pre u "solution"
  | IQOCOGEN => pre u "qoco_custom_workspace"
  | IQOCO => pre u "qoco_solver"
  end.
Definition dual_ptr (u : uin) : string :=
  match u_if u with
  | IOSQP | IPDAQP => "sol_y"
  | ISCS => pre u "scs_y"
  | IECOS => pre u "ecos_workspace"
  | ICLARABEL => pre u "solution"
  | IQOCOGEN => pre u "qoco_custom_workspace"
  | IQOCO => pre u "qoco_solver"
  end.
(** define_workspace: scs.py 207-270, ecos.py 190-198, clarabel.py 308-323, qoco.py 182-190 and
    412-420. *)
Definition scs_matrix (u : uin) (m : string) : item :=
  Def (pre u ("Scs_" ++ m)%string) (CT "ScsMatrix")
      [pre u ("canon_" ++ m ++ "_x")%string; pre u ("canon_" ++ m ++ "_i")%string; pre u ("canon_" ++ m ++ "_p")%string].
Definition solver_def (u : uin) : list item :=
  match u_if u with
  | ISCS =>
      let quad := existsb (fun b => String.eqb (k_id b) "P") (u_blocks u) in
      items_if quad [scs_matrix u "P"]
      ++ [scs_matrix u "A";
          Def (pre u "Scs_D") (CT "ScsData")
              ([pre u "Scs_A"] ++ (if quad then [pre u "Scs_P"] else []) ++ [pre u "canon_b"; pre u "canon_c"])]
      ++ items_if (negb (Nat.eqb (u_soc u) 0)) [Def (pre u "scs_q") (CArr it (u_soc u)) []]
      ++ [Def (pre u "Scs_K") (CT "ScsCone") (if Nat.eqb (u_soc u) 0 then [] else [pre u "scs_q"]);
          Def (pre u "Canon_Settings") (CT "ScsSettings") [];
          Def (pre u "scs_x") (CArr fl (u_nvar u)) []; Def (pre u "scs_y") (CArr fl (u_neq u + u_nineq u)) [];
          Def (pre u "scs_s") (CArr fl (u_neq u + u_nineq u)) [];
          Def (pre u "Scs_Sol") (CT "ScsSolution") [pre u "scs_x"; pre u "scs_y"; pre u "scs_s"];
          Def (pre u "Scs_Info") (CT "ScsInfo") []; Def (pre u "Scs_Work") (CPtr (CT "ScsWork")) []]
  | IECOS =>
      items_if (negb (Nat.eqb (u_soc u) 0)) [Def (pre u "ecos_q") (CArr it (u_soc u)) []]
      ++ [Def (pre u "ecos_workspace") (CPtr (CT "pwork")) []; Def (pre u "ecos_flag") it []]
  | ICLARABEL =>
      [Def (pre u "P") (CT "ClarabelCscMatrix") []; Def (pre u "A") (CT "ClarabelCscMatrix") [];
       Def (pre u "cones") (CArr (CT "ClarabelSupportedConeT") (u_cones u)) [];
       Def (pre u "settings") (CT "ClarabelDefaultSettings") []; Def (pre u "solver") (CPtr (CT "ClarabelDefaultSolver")) [];
       Def (pre u "solution") (CT "ClarabelDefaultSolution") []]
  | IQOCOGEN =>
      items_if (negb (Nat.eqb (u_soc u) 0)) [Def (pre u "qoco_custom_q") (CArr it (u_soc u)) []]
      ++ [Def (pre u "qoco_custom_workspace") (CT "Workspace") []; Def (pre u "qoco_custom_flag") it []]
  | IQOCO =>
      items_if (negb (Nat.eqb (u_soc u) 0)) [Def (pre u "qoco_q") (CArr it (u_soc u)) []]
      ++ [Def (pre u "qoco_solver") (CPtr (CT "QOCOSolver")) []; Def (pre u "qoco_flag") it []]
  | IOSQP | IPDAQP => []
  end.

Definition has_dual (u : uin) : bool :=
  negb (Nat.eqb (u_explicit u) 1) && negb (match u_duals u with [] => true | _ => false end).
Definition vec_duals (u : uin) : list (string * nat) := filter (fun d => negb (Nat.eqb (snd d) 1)) (u_duals u).

Definition workspace_c (u : uin) : list item :=
  [Def (pre u "cpg_params_vec") (CArr fl (u_flat u)) []]
  ++ items_if (expl u) [Def (pre u "cpg_params_vec_lower") (CArr fl (u_flat u)) [];
                        Def (pre u "cpg_params_vec_upper") (CArr fl (u_flat u)) []]
  ++ flat_map (map_def u) (u_blocks u)
  ++ flat_map (block_def u) (filter (block_kept u) (u_blocks u))
  ++ items_if (expl u)
       [Def (pre u "cpg_theta") (CArr fl (u_theta u)) [];
        Def "sol_x" (CArr fl (if u_reduced u then list_sum (u_rsizes u) else u_nvar u)) []]
  ++ items_if (Nat.eqb (u_explicit u) 2) [Def "sol_y" (CArr fl (u_ndual u)) []]
  ++ [Def (pre u "Canon_Params") (CT "Canon_Params_t") (params_uses u "")]
  ++ items_if (inmem (u_if u)) [Def (pre u "Canon_Params_conditioning") (CT "Canon_Params_t") (params_uses u "_conditioning")]
  ++ [Def (pre u "Canon_Outdated") (CT "Canon_Outdated_t") []]
  ++ items_if (u_gradient u) [Def (pre u "Canon_Outdated_Grad") (CT "Canon_Outdated_t") []]
  ++ map (fun v => Def (pre u (w_name v)) (CArr fl (w_size v)) []) (filter (own_array u) (u_vars u))
  ++ [Def (pre u "CPG_Prim") (CT "CPG_Prim_t")
          (map (fun v => if own_array u v then pre u (w_name v) else prim_ptr u)
               (filter (fun v => negb (scalar_var v)) (u_vars u)))]
  ++ items_if (has_dual u)
       (items_if (negb (sol_static (u_if u))) (map (fun d => Def (pre u (fst d)) (CArr fl (snd d)) []) (vec_duals u))
        ++ [Def (pre u "CPG_Dual") (CT "CPG_Dual_t")
                (map (fun d => if sol_static (u_if u) then dual_ptr u else pre u (fst d)) (vec_duals u))])
  ++ items_if (negb (expl u)) [Def (pre u "CPG_Info") (CT "CPG_Info_t") []]
  ++ [Def (pre u "CPG_Result") (CT "CPG_Result_t")
          ([pre u "CPG_Prim"] ++ (if has_dual u then [pre u "CPG_Dual"] else [])
           ++ (if expl u then [] else [pre u "CPG_Info"]))]
  ++ items_if (negb (expl u) && extra_stgs (u_if u)) [Def (pre u "Canon_Settings") (CT "Canon_Settings_t") []]
  ++ items_if (negb (ws_static (u_if u))) (solver_def u)
  ++ items_if (u_gradient u) [Def (pre u "cpg_dp") (CArr fl (u_flat u)) [];
                              Def (pre u "CPG_Delta") (CT "CPG_Delta_t") [pre u "cpg_dp"]].

(** ** cpg_solve.h, utils.py 1087-1142 *)

Definition update_ty (size : nat) : cty :=
  CFun "void" (if Nat.eqb size 1 then ["cpg_float"] else ["cpg_int"; "cpg_float"]).
Definition void_fn : cty := CFun "void" [].
Definition not_d (b : ublock) : bool := negb (String.eqb (k_id b) "d").
Definition some_var (u : uin) : bool :=
  ret_always (u_if u) || (existsb w_sym (u_vars u) || existsb scalar_var (u_vars u)).
Definition some_dual (u : uin) : bool :=
  ret_always (u_if u) || existsb (fun d => Nat.eqb (snd d) 1) (u_duals u).

Definition solve_ext (u : uin) : list item :=
  map (fun p => Ext (pre u (update_fn (fst p))) (update_ty (snd p))) (u_params u)
  ++ flat_map (fun b => items_if (k_changes b) [Ext (pre u ("cpg_canonicalize_" ++ k_id b)%string) void_fn]) (u_blocks u)
  ++ items_if (some_var u) [Ext (pre u "cpg_retrieve_prim") void_fn]
  ++ items_if (negb (Nat.eqb (u_explicit u) 1) && some_dual u) [Ext (pre u "cpg_retrieve_dual") void_fn]
  ++ items_if (negb (expl u)) [Ext (pre u "cpg_retrieve_info") void_fn]
  ++ items_if (inmem (u_if u))
       (flat_map (fun b => items_if (not_d b) [Ext (pre u ("cpg_copy_" ++ k_id b)%string) void_fn]) (u_blocks u)
        ++ [Ext (pre u "cpg_copy_all") void_fn])
  ++ [Ext (pre u "cpg_solve") void_fn]
  ++ items_if (expl u && negb (u_reduced u)) [Ext (pre u "cpg_obj") (CFun "cpg_float" [])]
  ++ items_if (negb (expl u))
       ([Ext (pre u "cpg_set_solver_default_settings") void_fn]
        ++ map (fun s => Ext (pre u (setting_fn (fst s))) (CFun "void" [snd s])) (u_settings u)).
Definition solve_h (u : uin) : list item :=
  workspace_h u ++ items_if (expl u) (solver_header u) ++ solve_ext u.

(** ** cpg_solve.c, utils.py 885-1084 *)

Definition canon_fns (u : uin) : list string :=
  flat_map (fun b => opt (k_changes b) (pre u ("cpg_canonicalize_" ++ k_id b)%string)) (u_blocks u).
Definition copy_fns (u : uin) : list string :=
  flat_map (fun b => opt (not_d b) (pre u ("cpg_copy_" ++ k_id b)%string)) (u_blocks u).
(** Variables of the solver in the update structure, the solve call and the settings; an upper
    bound over all update structures (osqp.py 19-62, scs.py 24-46, ecos.py 84-124,
    clarabel.py 160-204, qoco.py 90-130 and 262-350, pdaqp.py 76-79). *)
Definition solver_uses (u : uin) : list string :=
  map (pre u) (ws_used (u_if u) (negb (Nat.eqb (u_soc u) 0)))
  ++ match u_if u with
     | IOSQP => ["solver"]
     | IPDAQP => ["pdaqp_evaluate"; "sol_x"] ++ (if Nat.eqb (u_explicit u) 2 then ["sol_y"] else [])
     | _ => []
     end.
(** Objective value, iterations, status, residuals in ws_ptrs. *)
Definition info_uses (u : uin) : list string :=
  match u_if u with
  | IOSQP => ["solver"]
  | ISCS => [pre u "Scs_Info"]
  | IECOS => [pre u "ecos_workspace"; pre u "ecos_flag"]
  | ICLARABEL => [pre u "solution"]
  | IQOCOGEN => [pre u "qoco_custom_workspace"]
  | IQOCO => [pre u "qoco_solver"]
  | IPDAQP => []
  end.
(** utils.py 1069-1084: stgs_reset_function and stgs_direct_write_ptr. *)
Definition setting_uses (u : uin) : list string :=
  match u_if u with
  | IOSQP => ["solver"]
  | IQOCOGEN => [pre u "qoco_custom_workspace"]
  | _ => [pre u "Canon_Settings"]
  end.

Definition solve_sta (u : uin) : list item :=
  [Sta "i" it; Sta "j" it] ++ items_if (expl u) [Sta "obj_val" fl].
Definition solve_fns (u : uin) : list item :=
  map (fun n => Def (pre u (update_fn n)) (update_ty (size_of (u_params u) n))
                       ([pre u "cpg_params_vec"; pre u "Canon_Outdated"]
                        ++ (if expl u then [pre u "cpg_params_vec_lower"; pre u "cpg_params_vec_upper"] else [])
                        ++ (if u_gradient u then [pre u "Canon_Outdated_Grad"] else [])))
         (written_params u)
  ++ flat_map (fun b => items_if (k_changes b)
                 [Def (pre u ("cpg_canonicalize_" ++ k_id b)%string) void_fn
                      ["i"; "j"; pre u "Canon_Params"; pre u ("canon_" ++ k_id b ++ "_map")%string; pre u "cpg_params_vec"]])
              (u_blocks u)
  ++ items_if (some_var u) [Def (pre u "cpg_retrieve_prim") void_fn [pre u "CPG_Prim"; prim_ptr u]]
  ++ items_if (negb (Nat.eqb (u_explicit u) 1) && some_dual u)
       [Def (pre u "cpg_retrieve_dual") void_fn (if has_dual u then [pre u "CPG_Dual"; dual_ptr u] else [])]
  ++ items_if (negb (expl u)) [Def (pre u "cpg_retrieve_info") void_fn ([pre u "CPG_Info"; pre u "Canon_Params"] ++ info_uses u)]
  ++ items_if (inmem (u_if u))
       (flat_map (fun b => items_if (not_d b)
                    [Def (pre u ("cpg_copy_" ++ k_id b)%string) void_fn
                         ["i"; pre u "Canon_Params_conditioning"; pre u "Canon_Params"]]) (u_blocks u)
        ++ [Def (pre u "cpg_copy_all") void_fn (copy_fns u)])
  ++ [Def (pre u "cpg_solve") void_fn
          ([pre u "Canon_Outdated"; pre u "Canon_Params"] ++ canon_fns u
           ++ (if expl u then [pre u "cpg_theta"] else [])
           ++ (if inmem (u_if u) then [pre u "Canon_Params_conditioning"; pre u "cpg_copy_all"] ++ copy_fns u else [])
           ++ solver_uses u
           ++ (if some_var u then [pre u "cpg_retrieve_prim"] else [])
           ++ (if negb (Nat.eqb (u_explicit u) 1) && some_dual u then [pre u "cpg_retrieve_dual"] else [])
           ++ (if expl u then [] else [pre u "cpg_retrieve_info"]))]
  ++ items_if (expl u && negb (u_reduced u))
       [Def (pre u "cpg_obj") (CFun "cpg_float" []) ["obj_val"; "i"; "j"; pre u "Canon_Params"; "sol_x"]]
  ++ items_if (negb (expl u))
       ([Def (pre u "cpg_set_solver_default_settings") void_fn (setting_uses u)]
        ++ map (fun s => Def (pre u (setting_fn (fst s))) (CFun "void" [snd s]) (setting_uses u)) (u_settings u)).
Definition solve_c (u : uin) : list item := solve_sta u ++ solve_fns u.

(** ** Gradient files *)

(** cpg_osqp_grad_workspace.h.jinja2 *)
Definition grad_workspace_h (u : uin) : list item :=
  workspace_h u ++ [Ext (pre u "CPG_OSQP_Grad") (CT "CPG_OSQP_Grad_t")].
(** cpg_osqp_grad_compute.h.jinja2, lines 4-12 *)
Definition gi := "cpg_grad_int".
Definition gm := "cpg_grad_csc*".
Definition grad_compute_h (u : uin) : list item :=
  grad_workspace_h u
  ++ [Ext "cpg_rank_1_update" (CFun "void" [gi; gi]); Ext "cpg_ldl_add" (CFun "void" [gi]);
      Ext "cpg_ldl_delete" (CFun "void" [gi]); Ext "cpg_P_to_K" (CFun "void" [gm; gm; gm]);
      Ext "cpg_A_to_K" (CFun "void" [gm; gm; gm]); Ext "cpg_ldl_symbolic" void_fn; Ext "cpg_ldl_numeric" void_fn;
      Ext "cpg_osqp_gradient" void_fn].
(** writer.py 315-352 (single stage) and 431-446 (explicit). *)
Definition gradient_ext (u : uin) : list item :=
  map (fun v => Ext (pre u (update_d_fn (w_name v))) (update_ty (w_size v))) (u_vars u)
  ++ [Ext (pre u "cpg_gradient") void_fn].
Definition gradient_h (u : uin) : list item := workspace_h u ++ gradient_ext u.

(** The arrays of cpg_osqp_grad_workspace.c: kind, name, length (writer.py 374-402). *)
Inductive gkind := GInt | GFloat | GCsc.
Definition grad_table (u : uin) : list (string * gkind * nat) :=
  let n := u_nvar u in let N := n + (u_neq u + u_nineq u) in
  let entries := fun id => list_sum (map k_len (filter (fun b => String.eqb (k_id b) id) (u_blocks u))) in
  [("a", GInt, N - n); ("etree", GInt, N); ("Lnz", GInt, N); ("iwork", GInt, 3 * N); ("bwork", GInt, N);
   ("fwork", GFloat, N); ("L", GCsc, Nat.div ((N - 1) * N) 2); ("Lmask", GInt, Nat.div ((N - 1) * N) 2);
   ("D", GFloat, N); ("Dinv", GFloat, N);
   ("K", GCsc, entries "P" + n + entries "A" + (N - n)); ("K_true", GCsc, entries "P" + entries "A" + entries "A");
   ("rhs", GFloat, N); ("delta", GFloat, N);
   ("c", GFloat, N); ("w", GFloat, N); ("wi", GInt, N); ("l", GFloat, N); ("li", GInt, N); ("lx", GFloat, N);
   ("dx", GFloat, n); ("r", GFloat, N); ("dq", GFloat, n); ("dl", GFloat, N - n); ("du", GFloat, N - n);
   ("dP", GCsc, entries "P"); ("dA", GCsc, entries "A")].
(** writer.py 404-410; the number of column pointers of K, L, ... is given as N + 1 throughout
    (dP, dA and K_true have their own; no declaration repeats it). *)
Definition grad_array (u : uin) (a : string * gkind * nat) : list item :=
  let '(n, k, len) := a in
  let x := pre u ("cpg_osqp_grad_" ++ n)%string in
  match k with
  | GInt => [Def x (CArr (CT "cpg_grad_int") len) []]
  | GFloat => [Def x (CArr (CT "cpg_grad_float") len) []]
  | GCsc => mat_def x (CT "cpg_grad_float") (CT "cpg_grad_int") "cpg_grad_csc" len (u_nvar u + (u_neq u + u_nineq u) + 1)
  end.
(** writer.py 412-415 *)
Definition grad_workspace_c (u : uin) : list item :=
  flat_map (grad_array u) (grad_table u)
  ++ [Def (pre u "CPG_OSQP_Grad") (CT "CPG_OSQP_Grad_t")
          (map (fun a => pre u ("cpg_osqp_grad_" ++ fst (fst a))%string) (grad_table u))].

(** cpg_osqp_grad_compute.c.jinja2, lines 9-11 and the functions with what they refer to. *)
Definition compute_c (u : uin) : list item :=
  let ws := pre u "CPG_OSQP_Grad" in
  [Def "n" (CT "const cpg_grad_int") []; Def "N" (CT "const cpg_grad_int") [];
   Def "cpg_grad_a" (CT "cpg_grad_float") []; Def "cpg_grad_a_bar" (CT "cpg_grad_float") [];
   Def "cpg_grad_gamma" (CT "cpg_grad_float") [];
   Def "insert_nonzero" (CFun "void" [gm; gi; gi]) ["N"];
   Def "insert_nonzero_and_value" (CFun "void" [gm; gi; gi; "cpg_grad_float"]) ["N"];
   Def "remove_nonzero" (CFun "void" [gm; gi; gi]) ["N"];
   Def "symbolic_ldl_update" (CFun "void" [gm; "cpg_grad_int*"; gi; gi]) ["insert_nonzero"; "N"; ws];
   Def "symbolic_ldl_downdate" (CFun "void" [gm; "cpg_grad_int*"; gi; gi]) ["remove_nonzero"];
   Def "cpg_rank_1_update" (CFun "void" [gi; gi]) ["N"; "cpg_grad_a"; "cpg_grad_a_bar"; "cpg_grad_gamma"; ws];
   Def "cpg_ldl_delete" (CFun "void" [gi]) ["symbolic_ldl_update"; "cpg_rank_1_update"; "N"; ws];
   Def "cpg_ldl_add" (CFun "void" [gi]) ["insert_nonzero_and_value"; "symbolic_ldl_downdate"; "cpg_rank_1_update"; "N"; ws];
   Def "cpg_ldl_symbolic" void_fn ["N"; ws]; Def "cpg_ldl_numeric" void_fn ["N"; ws];
   Def "cpg_P_to_K" (CFun "void" [gm; gm; gm]) ["n"]; Def "cpg_A_to_K" (CFun "void" [gm; gm; gm]) ["n"];
   Def "cpg_osqp_gradient" void_fn ["cpg_ldl_delete"; "cpg_ldl_add"; "n"; "N"; ws; "sol_x"; "sol_y"]].

Definition maps_of (u : uin) (ids : list string) : list string :=
  flat_map (fun b => opt (k_changes b && mem_str (k_id b) ids) (pre u ("canon_" ++ k_id b ++ "_map")%string)) (u_blocks u).
(** cpg_gradient.c: writer.py 145-312 for OSQP and 448-505 in explicit mode. *)
Definition gradient_sta (u : uin) : list item :=
  if expl u then
    [Sta "i" it; Sta "j" it; Sta "kk" it;
     Sta "cpg_dx" (CArr fl (list_sum (u_rsizes u))); Sta "cpg_dtheta" (CArr fl (u_theta u))]
  else [Sta "i" it; Sta "j" it; Sta "k" it].
Definition gradient_fns (u : uin) : list item :=
  map (fun v => Def (pre u (update_d_fn (w_name v))) (update_ty (w_size v))
                    [if expl u then "cpg_dx" else pre u "CPG_OSQP_Grad"]) (u_vars u)
  ++ [Def (pre u "cpg_gradient") void_fn
          (if expl u then
             ["i"; "j"; "kk"; "cpg_dx"; "cpg_dtheta"; "pdaqp_hp_list"; "pdaqp_active_region"; "pdaqp_feedbacks"; pre u "cpg_dp"]
             ++ maps_of u ["q"; "u"]
           else
             ["i"; "j"; "k"; pre u "Canon_Outdated_Grad"; pre u "Canon_Params"; pre u "CPG_OSQP_Grad"; pre u "cpg_dp";
              "cpg_ldl_symbolic"; "cpg_ldl_numeric"; "cpg_osqp_gradient"]
             ++ flat_map (fun b => opt (k_changes b && mem_str (k_id b) ["P"; "A"]) ("cpg_" ++ k_id b ++ "_to_K")%string) (u_blocks u)
             ++ maps_of u ["q"; "l"; "u"; "P"; "A"])].
Definition gradient_c (u : uin) : list item := gradient_sta u ++ gradient_fns u.

(** ** The translation units: file name, what it reads, what it defines *)

Definition units (u : uin) : list (string * list item * list item) :=
  [("cpg_workspace.c", workspace_h u, workspace_c u);
   ("cpg_solve.c", solve_h u ++ workspace_h u, solve_c u)]
  ++ (if u_gradient u
      then if expl u
           then [("cpg_gradient.c", gradient_h u ++ workspace_h u ++ solver_header u, gradient_c u)]
           else [("cpg_gradient.c", gradient_h u ++ grad_workspace_h u ++ grad_compute_h u, gradient_c u);
                 ("cpg_osqp_grad_workspace.c", grad_workspace_h u, grad_workspace_c u);
                 ("cpg_osqp_grad_compute.c", grad_workspace_h u, compute_c u)]
      else []).

(** Everything the generated headers declare, without the solver's header. *)
Definition headers (u : uin) : list item :=
  workspace_h u ++ solve_ext u
  ++ items_if (u_gradient u) (gradient_ext u ++ items_if (negb (expl u)) (grad_compute_h u)).

(** The struct type of the gradient workspace, cpg_osqp_grad_workspace.h.jinja2 17-47, and the
    initialiser writer.py 412-415 writes: field, type of the value after its cast
    (utils.py 74-84). *)
Definition grad_struct : list (string * cty) :=
  let i := CPtr (CT "cpg_grad_int") in let f := CPtr (CT "cpg_grad_float") in let m := CPtr (CT "cpg_grad_csc") in
  [("init", CT "cpg_grad_int"); ("a", i); ("etree", i); ("Lnz", i); ("iwork", i); ("bwork", i); ("fwork", f); ("L", m);
   ("Lmask", i); ("D", f); ("Dinv", f); ("K", m); ("K_true", m); ("rhs", f); ("delta", f); ("c", f); ("w", f); ("wi", i);
   ("l", f); ("li", i); ("lx", f); ("dx", f); ("r", f); ("dq", f); ("dl", f); ("du", f); ("dP", m); ("dA", m)].
Definition cast_ty (k : gkind) : cty :=
  match k with
  | GInt => CPtr (CT "cpg_grad_int")
  | GFloat => CPtr (CT "cpg_grad_float")
  | GCsc => CPtr (CT "cpg_grad_csc")
  end.
Definition grad_init (u : uin) : list (string * cty) :=
  ("init", CT "cpg_grad_int") :: map (fun a => (fst (fst a), cast_ty (snd (fst a)))) (grad_table u).
