(** The part of Jinja's template language the templates of cvxpygen use, and rendering under StrictUndefined.
    Models cvxpygen/utils.py 13-39: the environment has undefined=StrictUndefined, so that using a name the context does
    not hold raises UndefinedError (also in a condition), autoescape is off, and a file is written from a template and a
    context.  Jinja itself is external code; simplified: the text of a list is not needed and left empty, a string inside a
    tuple is printed without quotes (shapes hold numbers only), [and] and [not] are the only connectives, [trim] drops
    blanks, tabs and newlines. *)

From Coq Require Import String Ascii Arith Bool List DecimalString.
Import ListNotations.
Open Scope string_scope.
Open Scope list_scope.

(** Python values in a context. *)
Inductive val :=
| VS (s : string) | VN (n : nat) | VB (b : bool) | VNone | VT (l : list val) | VL (l : list val).

(** Expressions: names, literals, connectives, comparisons, [a if c else b], [~] and [|trim]. *)
Inductive texp :=
| Nm (x : string) | Str (s : string) | Num (n : nat)
| Not (e : texp) | And (e f : texp)
| Eq (e f : texp) | Ne (e f : texp) | Gt (e f : texp)
| Cond (a c b : texp) | Cat (e f : texp) | Trim (e : texp).

(** Text, an output tag, if/else and for over a name of the context. *)
Inductive node :=
| Txt (s : string)
| Out (e : texp)
| If (c : texp) (a b : list node)
| For (xs : list string) (x : string) (body : list node).

Inductive terr := Undefined (x : string) | BadUnpack | NotIterable | BadCompare.
Inductive tres (A : Type) := Done (a : A) | Fail (e : terr).
Arguments Done {A} _.
Arguments Fail {A} _.
Definition tbind {A B} (r : tres A) (f : A -> tres B) : tres B :=
  match r with Done a => f a | Fail e => Fail e end.

Definition ctx := list (string * val).
Fixpoint get {A} (x : string) (c : list (string * A)) : option A :=
  match c with [] => None | (y, v) :: r => if String.eqb y x then Some v else get x r end.

Definition dec (n : nat) : string := NilEmpty.string_of_uint (Nat.to_uint n).
Fixpoint joined (l : list string) : string :=
  match l with [] => "" | [a] => a | a :: r => a ++ ", " ++ joined r end%string.

(** str(v); a tuple of one entry has a trailing comma. *)
Fixpoint pystr (v : val) : string :=
  match v with
  | VS s => s
  | VN n => dec n
  | VB b => if b then "True" else "False"
  | VNone => "None"
  | VT [a] => "(" ++ pystr a ++ ",)"
  | VT l => "(" ++ joined (map pystr l) ++ ")"
  | VL _ => ""
  end%string.

(** bool(v). *)
Definition truthy (v : val) : bool :=
  match v with
  | VS s => negb (String.eqb s "")
  | VN n => negb (n =? 0)%nat
  | VB b => b
  | VNone => false
  | VT l | VL l => match l with [] => false | _ => true end
  end.

(** ==; values of different types differ, except that True is 1 and False is 0. *)
Definition as_num (v : val) : option nat :=
  match v with VN n => Some n | VB b => Some (if b then 1 else 0) | _ => None end.
Definition veq (v w : val) : bool :=
  match v, w with
  | VS s, VS t => String.eqb s t
  | VNone, VNone => true
  | _, _ => match as_num v, as_num w with Some n, Some m => (n =? m)%nat | _, _ => false end
  end.

Definition blank (c : ascii) : bool :=
  let n := nat_of_ascii c in ((n =? 32) || (n =? 10) || (n =? 9) || (n =? 13))%nat.
Fixpoint ltrim (s : string) : string :=
  match s with String c r => if blank c then ltrim r else s | EmptyString => "" end.
Fixpoint rtrim (s : string) : string :=
  match s with
  | EmptyString => ""
  | String c r => match rtrim r with
                  | EmptyString => if blank c then "" else String c ""
                  | r' => String c r'
                  end
  end.

Fixpoint eval (c : ctx) (e : texp) : tres val :=
  match e with
  | Nm x => match get x c with Some v => Done v | None => Fail (Undefined x) end
  | Str s => Done (VS s)
  | Num n => Done (VN n)
  | Not e => tbind (eval c e) (fun v => Done (VB (negb (truthy v))))
  | And e f => tbind (eval c e) (fun v => if truthy v then eval c f else Done v)
  | Eq e f => tbind (eval c e) (fun v => tbind (eval c f) (fun w => Done (VB (veq v w))))
  | Ne e f => tbind (eval c e) (fun v => tbind (eval c f) (fun w => Done (VB (negb (veq v w)))))
  | Gt e f => tbind (eval c e) (fun v => tbind (eval c f) (fun w =>
      match as_num v, as_num w with Some n, Some m => Done (VB (m <? n)%nat) | _, _ => Fail BadCompare end))
  | Cond a q b => tbind (eval c q) (fun v => if truthy v then eval c a else eval c b)
  | Cat e f => tbind (eval c e) (fun v => tbind (eval c f) (fun w => Done (VS (pystr v ++ pystr w)%string)))
  | Trim e => tbind (eval c e) (fun v => Done (VS (rtrim (ltrim (pystr v)))))
  end.

(** The names bound for one element: one name takes the element, several take the entries of a tuple. *)
Definition bind_loop (xs : list string) (v : val) : tres ctx :=
  match xs, v with
  | [x], _ => Done [(x, v)]
  | _, VT l => if (length l =? length xs)%nat then Done (combine xs l) else Fail BadUnpack
  | _, _ => Fail BadUnpack
  end.

(** Rendering; loop variables are visible in the body only. *)
Fixpoint rnode (c : ctx) (t : node) {struct t} : tres string :=
  let rl := fix rl (c : ctx) (l : list node) {struct l} : tres string :=
    match l with
    | [] => Done ""%string
    | t :: r => tbind (rnode c t) (fun a => tbind (rl c r) (fun b => Done (a ++ b)%string))
    end in
  match t with
  | Txt s => Done s
  | Out e => tbind (eval c e) (fun v => Done (pystr v))
  | If q a b => tbind (eval c q) (fun v => if truthy v then rl c a else rl c b)
  | For xs x body =>
    match get x c with
    | None => Fail (Undefined x)
    | Some (VL vs) =>
      (fix loop (vs : list val) : tres string :=
         match vs with
         | [] => Done ""%string
         | v :: r => tbind (bind_loop xs v) (fun b => tbind (rl (b ++ c) body) (fun s =>
                     tbind (loop r) (fun s' => Done (s ++ s')%string)))
         end) vs
    | Some _ => Fail NotIterable
    end
  end.
Fixpoint render (c : ctx) (l : list node) : tres string :=
  match l with
  | [] => Done ""%string
  | t :: r => tbind (rnode c t) (fun a => tbind (render c r) (fun b => Done (a ++ b)%string))
  end.
Fixpoint loop (c : ctx) (xs : list string) (body : list node) (vs : list val) : tres string :=
  match vs with
  | [] => Done ""%string
  | v :: r => tbind (bind_loop xs v) (fun b => tbind (render (b ++ c) body) (fun s =>
              tbind (loop c xs body r) (fun s' => Done (s ++ s')%string)))
  end.

(** {**a, **b}: entries of [b] win. *)
Definition merge (a b : ctx) : ctx := b ++ a.
