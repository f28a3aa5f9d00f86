(** How the texts of the headers and of README.html are read: by a C compiler and by a person in front of a browser.
    Nothing here refers to the functions that write the texts. *)

From Coq Require Import String Ascii List Arith Bool.
From Verif Require Import Base CTypes.
Import ListNotations.
Open Scope string_scope.
Open Scope list_scope.

(** ** Words of C *)

(** Letters, digits and underscores form words; white space separates them; a comment goes from two slashes to the end of the
    line; any other character is a word by itself. *)
Definition wordc (c : ascii) : bool :=
  let n := nat_of_ascii c in
  (((65 <=? n) && (n <=? 90)) || ((97 <=? n) && (n <=? 122)) || ((48 <=? n) && (n <=? 57)) || (n =? 95))%nat.
Definition blank (c : ascii) : bool := let n := nat_of_ascii c in ((n =? 32) || ((9 <=? n) && (n <=? 13)))%nat.
Fixpoint wordy (s : string) : bool := match s with EmptyString => true | String c r => wordc c && wordy r end.
Definition word (s : string) : Prop := s <> "" /\ wordy s = true.

Inductive lst := Norm (w : string) | Slash (w : string) | Cmt.
Definition flush (w : string) : list string := match w with EmptyString => [] | _ => [w] end.
Definition step_norm (w : string) (c : ascii) : lst * list string :=
  if wordc c then (Norm (w ++ String c ""), [])
  else if blank c then (Norm "", flush w)
  else if Ascii.eqb c "/" then (Slash w, [])
  else (Norm "", flush w ++ [String c ""]).
Definition step (st : lst) (c : ascii) : lst * list string :=
  match st with
  | Norm w => step_norm w c
  | Slash w => if Ascii.eqb c "/" then (Cmt, flush w)
               else let '(st', o) := step_norm "" c in (st', flush w ++ ["/"] ++ o)
  | Cmt => if (nat_of_ascii c =? 10)%nat then (Norm "", []) else (Cmt, [])
  end.
Fixpoint scan (st : lst) (s : string) : lst * list string :=
  match s with
  | EmptyString => (st, [])
  | String c r => let '(st1, o1) := step st c in let '(st2, o2) := scan st1 r in (st2, o1 ++ o2)
  end.
Definition finish (st : lst) : list string := match st with Norm w => flush w | Slash w => flush w ++ ["/"] | Cmt => [] end.
Definition tokens (s : string) : list string := let '(st, o) := scan (Norm "") s in o ++ finish st.

(** ** Type definitions *)

(** A member: a type, perhaps a star, a name. *)
Definition member (ts : list string) : option (string * ty) :=
  match ts with
  | [b; n] => Some (n, TName b)
  | [b; s; n] => if String.eqb s "*" then Some (n, TPtr (TName b)) else None
  | _ => None
  end.
Fixpoint members (cur ts : list string) : option (fields * list string) :=
  match ts with
  | [] => None
  | t :: r =>
    if String.eqb t ";" then
      match member cur, members [] r with Some m, Some (fs, r') => Some (m :: fs, r') | _, _ => None end
    else if String.eqb t "}" then match cur with [] => Some ([], r) | _ => None end
    else members (cur ++ [t]) r
  end.
Fixpoint definitions (fuel : nat) (ts : list string) : option tenv :=
  match fuel, ts with
  | _, [] => Some []
  | O, _ => None
  | S k, t :: a :: b :: r =>
    if negb (String.eqb t "typedef") then None
    else if String.eqb a "struct" then
      if negb (String.eqb b "{") then None else
      match members [] r with
      | Some (fs, n :: e :: r') =>
        if String.eqb e ";" then option_map (cons (n, Struct fs)) (definitions k r') else None
      | _ => None
      end
    else match r with
         | e :: r' => if String.eqb e ";" then option_map (cons (b, Alias a)) (definitions k r') else None
         | [] => None
         end
  | S _, _ => None
  end.
(** The type definitions of a text; [None] if it is anything else. *)
Definition types_in (s : string) : option tenv := let ts := tokens s in definitions (length ts) ts.

(** ** Function declarations *)

(** A function's name, the type it returns and the types of its arguments. *)
Definition signature := (string * (string * list (list string)))%type.
(** Sentences end with a semicolon; what follows the last one is kept apart. *)
Fixpoint sentences (cur ts : list string) : list (list string) * list string :=
  match ts with
  | [] => ([], cur)
  | t :: r => if String.eqb t ";" then let '(l, e) := sentences [] r in (cur :: l, e) else sentences (cur ++ [t]) r
  end.
Fixpoint at_commas (cur ts : list string) : list (list string) :=
  match ts with
  | [] => match cur with [] => [] | _ => [cur] end
  | t :: r => if String.eqb t "," then cur :: at_commas [] r else at_commas (cur ++ [t]) r
  end.
Definition declaration (ts : list string) : option signature :=
  let ts := match ts with t :: r => if String.eqb t "extern" then r else ts | [] => [] end in
  match ts with
  | ret :: n :: o :: r =>
    if String.eqb o "(" && String.eqb (last r "") ")" then Some (n, (ret, map (@removelast string) (at_commas [] (removelast r)))) else None
  | _ => None
  end.
Fixpoint all_some {A} (l : list (option A)) : option (list A) :=
  match l with
  | [] => Some []
  | Some a :: r => option_map (cons a) (all_some r)
  | None :: _ => None
  end.
(** The declarations of a text, and the words behind the last one. *)
Definition functions_in (s : string) : option (list signature * list string) :=
  let '(l, e) := sentences [] (tokens s) in option_map (fun l => (l, e)) (all_some (map declaration l)).

(** ** HTML *)

(** The characters a browser shows for the two references in use, and the text of an element: tags are not shown. *)
Fixpoint begins (p s : string) : option string :=
  match p, s with
  | EmptyString, _ => Some s
  | String a p', String b s' => if Ascii.eqb a b then begins p' s' else None
  | String _ _, EmptyString => None
  end.
Fixpoint shown_from (fuel : nat) (s : string) : string :=
  match fuel, s with
  | S k, String c r =>
    match begins "&lt;" s, begins "&gt;" s with
    | Some t, _ => String "<" (shown_from k t)
    | _, Some t => String ">" (shown_from k t)
    | _, _ => String c (shown_from k r)
    end
  | _, _ => ""
  end.
Definition shown (s : string) : string := shown_from (String.length s) s.
Fixpoint untag (inside : bool) (s : string) : string :=
  match s with
  | EmptyString => ""
  | String c r =>
    if inside then untag (negb (Ascii.eqb c ">")) r
    else if Ascii.eqb c "<" then untag true r
    else String c (untag false r)
  end.

(** A reader who looks for the setting [n] of type [t] puts them in place of the two placeholders. *)
Fixpoint fill_from (fuel : nat) (n t s : string) : string :=
  match fuel, s with
  | S k, String c r =>
    match begins "<setting_name>" s, begins "<setting_type>" s with
    | Some u, _ => (n ++ fill_from k n t u)%string
    | _, Some u => (t ++ fill_from k n t u)%string
    | _, _ => String c (fill_from k n t r)
    end
  | _, _ => ""
  end.
Definition fill (n t s : string) : string := fill_from (String.length s) n t s.

(** ** The C type of a setting *)
Definition type_words (t : string) : list string := tokens t.
