(** The kinds of the contexts: the names that decide conditions have their values, the others only a kind. *)

From Coq Require Import String Ascii Arith Bool List.
From Verif Require Import Base Config Template TemplateText TemplateSpec TemplateCheck TemplateCtx.
Import ListNotations.
Open Scope string_scope.
Open Scope list_scope.

Definition k_sizes := KList [KCls 3; KNum].
Definition k_shapes := KList [KCls 3; KCls 1].
Definition k_consts (c : ctx) : kctx := map (fun p => (fst p, KV (snd p))) c.

Definition k_cmake (g ts : bool) (e : nat) (extra : ctx) : kctx :=
  k_consts extra ++ [("date", KCls 2); ("prefix", KPlain); ("gradient", KV (VB g)); ("explicit", KV (VN e)); ("gradient_two_stage", KV (VB ts))].
Definition k_setup (extra : ctx) : kctx := k_consts extra ++ [("date", KCls 2)].
Definition k_readme (g ts : bool) : kctx :=
  [("date", KPlain); ("params_table", KPlain); ("primals_table", KPlain); ("duals_table", KPlain); ("code_dir", KPlain);
   ("code_dir_python", KPlain); ("solver_name", KPlain); ("solver_docu_url", KPlain); ("cmake_prefix", KPlain);
   ("gradient", KV (VB g)); ("gradient_two_stage", KV (VB ts)); ("prim_typedef", KPlain); ("dual_typedef", KPlain);
   ("info_typedef", KPlain); ("result_typedef", KPlain); ("update_declarations", KPlain); ("solve_declarations", KPlain);
   ("settings_declarations", KPlain); ("settings_list", KPlain)].
Definition k_example (g : bool) (e : nat) : kctx :=
  [("date", KCls 2); ("prefix", KPlain); ("gradient", KV (VB g)); ("explicit", KV (VN e)); ("writable_params", KList [KCls 3; KBool; KPlain]);
   ("prim_name_to_size", k_sizes); ("dual_name_to_size", k_sizes); ("param_name_to_size", k_sizes)].
Definition k_hpp (g : bool) (e : nat) (st : bool) : kctx :=
  [("date", KCls 2); ("prefix", KPlain); ("explicit", KV (VN e)); ("gradient", KV (VB g)); ("params", k_sizes); ("param_names", KSeq (KCls 3));
   ("prim_vars", k_sizes); ("dual_vars", k_sizes); ("status_is_int", KV (VB st)); ("n_grad_var", KNum); ("n_grad_constr", KNum)].
Definition k_solver (i : iface) (g : bool) (e : nat) : kctx :=
  (if g then [("n_grad_var", KNum); ("n_grad_constr", KNum); ("prim_name_to_size", k_sizes); ("param_name_to_shape", k_shapes)] else [])
  ++ [("date", KCls 2); ("prefix", KPlain); ("explicit", KV (VN e)); ("gradient", KV (VB g)); ("code_dir_module", KPlain);
   ("stgs_translation", KV (VS (dict_text (translation i)))); ("param_names_quoted", KCls 1); ("param_names", KSeq (KCls 3));
   ("var_name_to_shape", k_shapes); ("dual_save_list", KList [KNum; KCls 3; KCls 1; KCls 1]);
   ("status_is_int", KV (VB (status_is_int i)));
   ("status_int_fmt", KV (VS (if status_is_int i then "%d (for description visit " ++ docu i ++ ")" else "")%string));
   ("solver_name", KPlain)].
Definition k_gradc (ts : bool) : kctx :=
  [("n", KNum); ("N", KNum); ("workspace", KPlain); ("gradient_two_stage", KV (VB ts)); ("sol_x_var", KPlain); ("sol_y_var", KPlain)].
Definition k_gradws : kctx := [("workspace", KPlain)].

(** ** Scans *)

(** Brackets: the closing brackets to come. *)
Fixpoint bscan (t : string) (s : list ascii) : option (list ascii) :=
  match t with
  | EmptyString => Some s
  | String c r =>
    match closer c with
    | Some d => bscan r (d :: s)
    | None => if is_close c then match s with d :: s' => if Ascii.eqb d c then bscan r s' else None | [] => None end
              else bscan r s
    end
  end.
Definition bplain (t : string) : bool :=
  forallb (fun c => match closer c with Some _ => false | None => negb (is_close c) end) (list_ascii_of_string t).
Definition bcls (n : nat) (s : list ascii) : bool := true.

(** Layout: class 0 (words) inside code, strings and triple-quoted strings, class 1 (code), class 2 in triple-quoted strings,
    class 3 (words that are not empty) also directly after a double quote. *)
Definition quotec (q : ascii) : bool := Ascii.eqb q dq || Ascii.eqb q sq.
Definition pcls (n : nat) (s : py) : bool :=
  match n, p_mode s with
  | 0, Code false | 0, Triple 0 | 1, Code false | 2, Triple 0 | 3, Code false | 3, Triple 0 | 3, One => true
  | 0, Quoted q false | 3, Quoted q false => quotec q
  | _, _ => false
  end.
Definition pafter (n : nat) (s : py) : py :=
  match n, p_mode s with 3, One => mkPy (p_open s) (p_brackets s) (p_due s) (Quoted dq false) | _, _ => s end.
Definition wordc (c : ascii) : bool :=
  negb (Ascii.eqb c nl || Ascii.eqb c tab || Ascii.eqb c "#" || Ascii.eqb c ":" || Ascii.eqb c sq || Ascii.eqb c dq || Ascii.eqb c bs
        || is_close c || match closer c with Some _ => true | None => false end).
Definition pplain (t : string) : bool := forallb wordc (list_ascii_of_string t).

Definition list_ascii_dec : forall a b : list ascii, {a = b} + {a <> b} := list_eq_dec ascii_dec.
Definition pmode_dec : forall a b : pmode, {a = b} + {a <> b}.
Proof. decide equality; solve [apply Nat.eq_dec | apply bool_dec | apply ascii_dec]. Defined.
Definition py_dec : forall a b : py, {a = b} + {a <> b}.
Proof. decide equality; [apply pmode_dec | apply bool_dec | apply list_ascii_dec | apply (list_eq_dec Nat.eq_dec)]. Defined.
Definition unit_dec : forall a b : unit, {a = b} + {a <> b}.
Proof. intros [] []. now left. Defined.

Definition bchk := chk (list ascii) bscan bcls (fun _ s => s) bplain list_ascii_dec true.
Definition pchk := chk py py_run pcls pafter pplain py_dec false.
Definition uchk := chk unit (fun _ s => Some s) (fun _ _ => true) (fun _ s => s) (fun _ => true) unit_dec true.
