(** Numbers in the generated C files: the text written by write_vec_def and write_mat_def
    (utils.py 87-131), replace_inf (utils.py 213-228), the objective value reported back
    (cpg_solver.py.jinja2 98-101), and a reader for the C declarations. *)

From Coq Require Import String Ascii Arith Bool ZArith NArith QArith Lia List.
Import ListNotations.
Open Scope string_scope.
Open Scope list_scope.

(** ** Decimal text *)

Definition digit (d : N) : ascii := ascii_of_N (48 + d).

(** Decimal digits of [n] in front of [acc]; [fuel] bounds their number. *)
Fixpoint dec_aux (fuel : nat) (n : N) (acc : string) : string :=
  match fuel with
  | O => acc
  | S f => let acc' := String (digit (n mod 10)) acc in
           if (n <? 10)%N then acc' else dec_aux f (n / 10)%N acc'
  end.
Definition dec (n : N) : string := dec_aux (S (N.to_nat (N.size n))) n "".

(** The last [k] decimal digits of [n], zero padded. *)
Fixpoint pad (k : nat) (n : N) (acc : string) : string :=
  match k with O => acc | S k' => pad k' (n / 10)%N (String (digit (n mod 10)) acc) end.

(** Round to nearest, ties to even, of n / d. *)
Definition round_half_even (n d : N) : N :=
  let q := (n / d)%N in
  match (2 * (n mod d) ?= d)%N with Lt => q | Gt => (q + 1)%N | Eq => if N.even q then q else (q + 1)%N end.

Definition ten20 : N := (10 ^ 20)%N.

(** Python's '%.20f' of a finite number.  Python converts the exact value of the double with
    correct rounding.  Negative zero is not distinguished from zero. *)
Definition fmt20 (q : Q) : string :=
  let s := round_half_even (Z.abs_N (Qnum q) * ten20) (Npos (Qden q)) in
  ((if (Qnum q <? 0)%Z then "-" else "") ++ dec (s / ten20) ++ "." ++ pad 20 (s mod ten20) "")%string.

(** Numbers of numpy arrays: finite values, infinities, NaN.  '%.20f' of the latter three is
    the text inf, -inf, nan. *)
Inductive fnum := Fin (q : Q) | PInf | NInf | NaN.
Definition fmt (v : fnum) : string := match v with Fin q => fmt20 q | PInf => "inf" | NInf => "-inf" | NaN => "nan" end.

(** f'{k}' of an integer. *)
Definition fmt_int (z : Z) : string := ((if (z <? 0)%Z then "-" else "") ++ dec (Z.abs_N z))%string.

(** ** Array and matrix definitions *)

Definition nl : string := String (ascii_of_nat 10) "".

(** write_vec_def, utils.py 87-107: [typ] with the qualifier already inserted; values of float
    type and of integer type ('float' in typ decides). *)
Definition qualified (typ qualifier : string) : string :=
  let q := if String.eqb qualifier "" then "" else (qualifier ++ "_")%string in
  if String.eqb typ "cpg_float" then ("cpg_" ++ q ++ "float")%string
  else if String.eqb typ "cpg_int" then ("cpg_" ++ q ++ "int")%string else typ.
Definition cat : list string -> string := fold_right append "".
Definition vec_text (typ name : string) (entries : list string) : string :=
  (typ ++ " " ++ name ++ "[" ++ dec (N.of_nat (length entries)) ++ "] = {" ++ nl ++ cat (map (fun e => e ++ "," ++ nl)%string entries) ++ "};" ++ nl)%string.
Definition write_vec_float (typ name : string) (v : list fnum) : string :=
  vec_text typ name (map (fun x => "(" ++ typ ++ ")" ++ fmt x)%string v).
Definition write_vec_int (typ name : string) (v : list Z) : string := vec_text typ name (map fmt_int v).

(** write_mat_def, utils.py 117-131. *)
Record fcsc := mkF { f_i : list Z; f_p : list Z; f_x : list fnum }.
Definition write_mat (name qualifier : string) (m : fcsc) : string :=
  let q := if String.eqb qualifier "" then "" else (qualifier ++ "_")%string in
  (write_vec_int ("cpg_" ++ q ++ "int") (name ++ "_i") (f_i m)
   ++ write_vec_int ("cpg_" ++ q ++ "int") (name ++ "_p") (f_p m)
   ++ write_vec_float ("cpg_" ++ q ++ "float") (name ++ "_x") (f_x m)
   ++ "cpg_" ++ q ++ "csc " ++ name ++ " = {" ++ name ++ "_p, " ++ name ++ "_i, " ++ name ++ "_x, " ++ dec (N.of_nat (length (f_x m))) ++ "};" ++ nl)%string.

(** write_dense_mat_def, utils.py 161-173: column by column. *)
Definition write_dense (name : string) (rows cols : nat) (m : nat -> nat -> fnum) : string :=
  vec_text "cpg_float" name
    (flat_map (fun j => map (fun i => "(cpg_float)" ++ fmt (m i j))%string (seq 0 rows)) (seq 0 cols)).

(** ** Infinities *)

(** The double 1e30. *)
Definition e30 : Q := 1000000000000000019884624838656 # 1.

(** np.sign, as used: of an infinity, +-1. *)
Definition replace_inf1 (v : fnum) : fnum := match v with PInf => Fin e30 | NInf => Fin (- e30) | _ => v end.
Definition replace_inf : list fnum -> list fnum := map replace_inf1.
(** A sparse matrix: its data only. *)
Definition replace_inf_mat (m : fcsc) : fcsc := mkF (f_i m) (f_p m) (replace_inf (f_x m)).

(** cpg_solver.py.jinja2 98-101: prob._value from the reported objective. *)
Definition report_obj (v : fnum) : fnum :=
  match v with
  | Fin q => if Qeq_bool q e30 then PInf else if Qeq_bool q (- e30) then NInf else Fin q
  | _ => v
  end.

(** ** Reading the C text back *)

Definition is_digit (c : ascii) : bool := let n := N_of_ascii c in (48 <=? n)%N && (n <=? 57)%N.
Definition dval (c : ascii) : N := (N_of_ascii c - 48)%N.

(** A nonempty run of digits: value, number of digits, rest. *)
Fixpoint digits (s : string) (acc : N) (k : nat) : N * nat * string :=
  match s with
  | String c t => if is_digit c then digits t (10 * acc + dval c)%N (S k) else (acc, k, s)
  | EmptyString => (acc, k, s)
  end.
(** An unsigned decimal number, digits "." digits, up to the end of the text. *)
Definition read_udec (s : string) : option Q :=
  match digits s 0 0 with
  | (a, S _, String "."%char t) =>
      match digits t 0 0 with
      | (b, S k, EmptyString) => Some (inject_Z (Z.of_N a) + (Z.of_N b # Pos.pow 10 (Pos.of_nat (S k))))%Q
      | _ => None
      end
  | _ => None
  end.
Definition read_dec (s : string) : option Q :=
  match s with
  | String "-"%char t => option_map Qopp (read_udec t)
  | _ => read_udec s
  end.
Definition read_uint (s : string) : option N :=
  match digits s 0 0 with (a, S _, EmptyString) => Some a | _ => None end.
Definition read_int (s : string) : option Z :=
  match s with
  | String "-"%char t => option_map (fun n => - Z.of_N n)%Z (read_uint t)
  | _ => option_map Z.of_N (read_uint s)
  end.

Fixpoint strip (p s : string) : option string :=
  match p, s with
  | EmptyString, _ => Some s
  | String a p', String b s' => if Ascii.eqb a b then strip p' s' else None
  | _, _ => None
  end.
(** Text before the first [c], and after it. *)
Fixpoint upto (c : ascii) (s : string) : option (string * string) :=
  match s with
  | EmptyString => None
  | String b t => if Ascii.eqb b c then Some ("", t)
                  else match upto c t with Some (u, r) => Some (String b u, r) | None => None end
  end.

(** The entries of a braced list, each on a line of its own, up to the line "};". *)
Fixpoint read_entries (fuel : nat) (s : string) : option (list string * string) :=
  match fuel with
  | O => None
  | S f =>
      match strip ("};" ++ nl) s with
      | Some rest => Some ([], rest)
      | None => match upto "," s with
                | Some (e, t) => match strip nl t with
                                 | Some t' => match read_entries f t' with Some (es, rest) => Some (e :: es, rest) | None => None end
                                 | None => None
                                 end
                | None => None
                end
      end
  end.
(** typ name[len] = {entries}; rest: element type, name, declared length, entries, rest. *)
Definition read_vec (s : string) : option (string * string * N * list string * string) :=
  match upto " " s with
  | Some (typ, s1) =>
      match upto "[" s1 with
      | Some (name, s2) =>
          match upto "]" s2 with
          | Some (len, s3) =>
              match read_uint len, strip (" = {" ++ nl) s3 with
              | Some n, Some s4 =>
                  match read_entries (S (String.length s4)) s4 with
                  | Some (es, rest) => Some (typ, name, n, es, rest)
                  | None => None
                  end
              | _, _ => None
              end
          | None => None
          end
      | None => None
      end
  | None => None
  end.
(** An entry (typ)literal. *)
Definition read_cast (typ e : string) : option Q :=
  match strip ("(" ++ typ ++ ")") e with Some l => read_dec l | None => None end.
