(** Specification for the registered solve method: which generation's code each problem gets. *)

From Coq Require Import String Ascii Arith Bool List.
From Verif Require Import Base Config Import.
Import ListNotations.
Open Scope string_scope.
Open Scope list_scope.

(** In a session that stays in one directory: the code of a generation is used by its problem unless an
    earlier generation with the same directory name has been loaded in this interpreter; then that
    one's code is used, even if the new code did not compile.  [k]: number of the next generation. *)
Definition upd {A B} (eqb : A -> A -> bool) (f : A -> option B) (a : A) (b : B) : A -> option B := fun x => if eqb x a then Some b else f x.
Fixpoint expect (loaded : string -> option nat) (reg : nat -> option (nat * nat)) (k : nat) (os : list op) : (nat -> option (nat * nat)) * list (option ierr) :=
  match os with
  | [] => (reg, [])
  | Chdir _ :: t => let (r, es) := expect loaded reg k t in (r, None :: es)
  | Gen p d false _ :: t => let (r, es) := expect loaded reg (S k) t in (r, None :: es)
  | Gen p d true b :: t =>
      match loaded d, b with
      | Some g, _ => let (r, es) := expect loaded (upd Nat.eqb reg p (g, g)) (S k) t in (r, None :: es)
      | None, true => let (r, es) := expect (upd String.eqb loaded d k) (upd Nat.eqb reg p (k, k)) (S k) t in (r, None :: es)
      | None, false => let (r, es) := expect loaded reg (S k) t in (r, Some ImportFailed :: es)
      end
  end.

(** Entries of sys.path searched before the current directory. *)
Fixpoint ahead (cwd : path) (l : list path) : list path :=
  match l with [] => [] | e :: t => if path_eqb cwd e then [] else e :: ahead cwd t end.

(** A directory name that means something only to the generator: not loaded, not built in, not found on
    sys.path before the current directory. *)
Definition unused (builtin : string -> bool) (s : st) (d : string) : Prop :=
  identifier d = true /\ builtin d = false
  /\ s_mods s [d] = None /\ s_mods s [d; "cpg_solver"] = None /\ s_mods s [d; "cpg_module"] = None
  /\ (existsb (path_eqb (s_cwd s)) (s_path s) = true -> forall e n, In e (ahead (s_cwd s) (s_path s)) -> s_fs s (e ++ [d]) = Some n -> regular n = false).
(** The current directory exists. *)
Definition here (s : st) : Prop := s_cwd s = [] \/ exists i a b, s_fs s (s_cwd s) = Some (NDir i a b).
Definition stays (builtin : string -> bool) (s : st) (o : op) : Prop :=
  match o with Gen _ d _ _ => unused builtin s d | Chdir p => p = s_cwd s end.

(** An interpreter state as it arises: generations in files and modules are earlier ones, names of
    modules are names of files, packages lie in directories of their names. *)
Record sane (s : st) : Prop := mkSane
  { sn_py : forall p i g nm e, s_fs s p = Some (NDir i (Some (g, nm)) e) -> g < s_next s;
    sn_ext : forall p i y g, s_fs s p = Some (NDir i y (Some g)) -> g < s_next s;
    sn_solve : forall n a b, s_mods s n = Some (MSolve a b) -> a < s_next s;
    sn_mext : forall n g, s_mods s n = Some (MExt g) -> g < s_next s;
    sn_clean : forall n m, s_mods s n = Some m -> Forall (fun d => clean d = true) n;
    sn_last : forall n p, s_mods s n = Some (MPkg p) -> exists q, p = q ++ [last n ""] }.
