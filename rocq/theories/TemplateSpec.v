(** What a generated file has to satisfy: brackets nest, and a Python file is laid out in blocks.
    Written without reference to the templates. *)

From Coq Require Import String Ascii Arith Bool List.
Import ListNotations.
Open Scope string_scope.
Open Scope list_scope.

(** ** Brackets *)

Definition closer (c : ascii) : option ascii :=
  match c with "("%char => Some ")"%char | "["%char => Some "]"%char | "{"%char => Some "}"%char | _ => None end.
Definition is_close (c : ascii) : bool :=
  match c with ")"%char | "]"%char | "}"%char => true | _ => false end.

(** A text whose brackets nest: no brackets, or a bracketed nested text between two nested texts. *)
Inductive nested : string -> Prop :=
| nested_nil : nested ""
| nested_char : forall c s, closer c = None -> is_close c = false -> nested s -> nested (String c s)
| nested_pair : forall o c s s', closer o = Some c -> nested s -> nested s' ->
    nested (String o (s ++ String c s')).

(** ** Layout of a Python file

    A logical line ends at a newline outside brackets and triple quotes.  Blank lines and lines with only a comment count
    for nothing.  A line that ends in a colon opens a block: the next line is indented further.  Any other line has the
    indentation of one of the blocks that are open.  A string is closed on its line. *)

Inductive pmode :=
| Start (n : nat)                 (* before the first character of a line, after n blanks *)
| Code (colon : bool)             (* inside a line; whether the last character that is no blank is a colon *)
| Comment (colon : bool)          (* after # behind code *)
| Skip                            (* comment on a line of its own *)
| Quoted (q : ascii) (esc : bool) (* in a string; after a backslash *)
| One | Two                       (* after one or two double quotes *)
| Triple (k : nat).               (* in a triple-quoted string, after k double quotes *)

Record py := mkPy { p_open : list nat;     (* indentation of the open blocks, innermost first *)
                    p_brackets : list ascii; (* closing brackets to come, innermost first *)
                    p_due : bool;          (* a block has to begin *)
                    p_mode : pmode }.

Definition nl : ascii := "010"%char.
Definition dq : ascii := "034"%char.
Definition sq : ascii := "039"%char.
Definition bs : ascii := "092"%char.
Definition tab : ascii := "009"%char.

(** Closing blocks until one of indentation [n]. *)
Fixpoint close_to (n : nat) (l : list nat) : option (list nat) :=
  match l with
  | [] => None
  | m :: r => if (m =? n)%nat then Some l else if (n <? m)%nat then close_to n r else None
  end.

(** The end of a physical line in code. *)
Definition line_end (s : py) (colon : bool) : py :=
  match p_brackets s with
  | [] => mkPy (p_open s) [] colon (Start 0)
  | b => mkPy (p_open s) b (p_due s) (Code false)
  end.

(** One character of code. *)
Definition code_char (s : py) (colon : bool) (c : ascii) : option py :=
  let to m := Some (mkPy (p_open s) (p_brackets s) (p_due s) m) in
  if Ascii.eqb c nl then Some (line_end s colon)
  else if Ascii.eqb c " " then to (Code colon)
  else if Ascii.eqb c tab then None
  else if Ascii.eqb c "#" then to (Comment colon)
  else if Ascii.eqb c ":" then to (Code true)
  else if Ascii.eqb c sq then to (Quoted sq false)
  else if Ascii.eqb c dq then to One
  else match closer c with
       | Some d => Some (mkPy (p_open s) (d :: p_brackets s) (p_due s) (Code false))
       | None =>
         if is_close c then
           match p_brackets s with
           | d :: r => if Ascii.eqb d c then Some (mkPy (p_open s) r (p_due s) (Code false)) else None
           | [] => None
           end
         else to (Code false)
       end.

(** One character of a string. *)
Definition quoted_char (s : py) (q : ascii) (esc : bool) (c : ascii) : option py :=
  let to m := Some (mkPy (p_open s) (p_brackets s) (p_due s) m) in
  if Ascii.eqb c nl then None
  else if esc then to (Quoted q false)
  else if Ascii.eqb c bs then to (Quoted q true)
  else if Ascii.eqb c q then to (Code false)
  else to (Quoted q false).

Definition py_char (s : py) (c : ascii) : option py :=
  let to m := Some (mkPy (p_open s) (p_brackets s) (p_due s) m) in
  match p_mode s with
  | Start n =>
    if Ascii.eqb c " " then to (Start (S n))
    else if Ascii.eqb c nl then to (Start 0)
    else if Ascii.eqb c "#" then to Skip
    else
      match (if p_due s then match p_open s with m :: _ => if (m <? n)%nat then Some (n :: p_open s) else None | [] => None end
             else close_to n (p_open s)) with
      | Some o => code_char (mkPy o (p_brackets s) false (Code false)) false c
      | None => None
      end
  | Code colon => code_char s colon c
  | Comment colon => if Ascii.eqb c nl then Some (line_end s colon) else Some s
  | Skip => if Ascii.eqb c nl then to (Start 0) else Some s
  | Quoted q esc => quoted_char s q esc c
  | One => if Ascii.eqb c dq then to Two else quoted_char s dq false c
  | Two => if Ascii.eqb c dq then to (Triple 0) else code_char s false c
  | Triple k => if Ascii.eqb c dq then (if (k =? 2)%nat then to (Code false) else to (Triple (S k))) else to (Triple 0)
  end.
Fixpoint py_run (t : string) (s : py) : option py :=
  match t with
  | EmptyString => Some s
  | String c r => match py_char s c with Some s' => py_run r s' | None => None end
  end.
Definition py_init : py := mkPy [0] [] false (Start 0).
(** A file that is laid out in blocks, ends after a line and opens no block at its end. *)
Definition py_layout (t : string) : Prop :=
  exists s, py_run t py_init = Some s /\ p_brackets s = [] /\ p_due s = false /\ exists n, p_mode s = Start n.
