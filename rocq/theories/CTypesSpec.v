(** What the C types of generated programs are meant to do, stated without the memory layout:
    which initial values a member accepts, and which quantity an expression of the user's C
    code should read. *)

From Coq Require Import String List Bool.
From Verif Require Import Base Config CTypes.
Import ListNotations.
Open Scope string_scope.
Open Scope list_scope.

(** A value written for a member of the given type: numbers for numbers, null or the address
    of a suitable object for pointers. *)
Definition accepts (t : ty) (v : cval) : Prop :=
  match t, v with
  | TName n, (VZero | VNum) => In n ["cpg_float"; "cpg_int"; "int"]
  | TPtr _, VZero => True
  | TPtr (TName "cpg_float"), VArr => True
  | TPtr (TName "cpg_csc"), VCsc => True
  | TPtr (TName "char"), VStr => True
  | TPtr (TName n), VAddr T => n = T
  | _, _ => False
  end.

(** Names are keys of Python dicts, so they are distinct. *)
Definition dicts (y : tin) : Prop :=
  NoDup (map fst (t_blocks y)) /\ NoDup (map fst (t_vars y)) /\ NoDup (map fst (t_duals y)) /\ NoDup (t_params y).

(** A program that is not explicit, for a solver computing with double. *)
Definition ordinary (y : tin) : Prop := t_explicit y = 0 /\ t_if y <> IPDAQP.

(** A file that knows the types of program [y1] reads from program [y2] what it names. *)
Definition reads_prim (y1 y2 : tin) : Prop :=
  forall v, In v (map fst (t_vars y2)) -> read_result (typedefs y1) (typedefs y2) "prim" v = Ok ("prim", v).
Definition reads_dual (y1 y2 : tin) : Prop :=
  forall v, In v (map fst (t_duals y2)) -> read_result (typedefs y1) (typedefs y2) "dual" v = Ok ("dual", v).
Definition reads_obj (y1 y2 : tin) : Prop :=
  read_result (typedefs y1) (typedefs y2) "info" "obj_val" = Ok ("info", "obj_val").
Definition reads_info (y1 y2 : tin) : Prop :=
  forall f, In f ["obj_val"; "iter"; "status"; "pri_res"; "dua_res"] ->
            read_result (typedefs y1) (typedefs y2) "info" f = Ok ("info", f).
Definition reads_delta (y1 y2 : tin) : Prop :=
  forall p, In p (t_params y2) -> read_delta (typedefs y1) (typedefs y2) p = Ok p.

(** The names, and which of them are single numbers, of the second list are those the first
    list starts with. *)
Definition shape (l : list (string * nat)) : list (string * bool) := map (fun v => (fst v, Nat.eqb (snd v) 1)) l.
Definition starts_with {A} (l p : list A) : Prop := exists rest, l = p ++ rest.
