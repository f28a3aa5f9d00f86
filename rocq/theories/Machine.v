(** Memory of the generated code as far as the update calls touch it, and the effect of
    the emitted calls.
    Models cvxpygen/utils.py 987-1006 (the cpg_copy functions), 496-560 (the two Canon_Params
    structs) and, as documented oracles, the solver library calls. *)

From Coq Require Import Arith Bool List.
From Verif Require Import Base Pus.
Import ListNotations.

Section Machine.
  Variable D : Type.                       (* contents of one data block *)
  Variable size : pid -> nat.              (* p_id_to_size: rows of the block's map *)
  Variable copied : list pid.              (* keys of parameter_canon.p without 'd' *)
  Variable baked : pid -> D.               (* data baked into generated solver code *)
  (** What the library does to a conditioning array it has been given, at the n-th
      call.  Arbitrary: in-place equilibration, permutation, anything. *)
  Variable scr : nat -> pid -> D -> D.

  (** [m_can]: Canon_Params; [m_cnd]: the separate conditioning arrays; [m_alias p]: the
      conditioning pointer of [p] points to the Canon_Params array; [m_sol]: the data the
      solver library currently works with; [m_tick]: calls made so far. *)
  Record mst := mkM
    { m_can : pid -> D; m_cnd : pid -> D; m_alias : pid -> bool; m_sol : pid -> D; m_tick : nat }.

  Definition pset {A} (f : pid -> A) (p : pid) (v : A) : pid -> A :=
    fun x => if pid_eqb x p then v else f x.

  Definition view_cnd (s : mst) (p : pid) : D :=
    if m_alias s p then m_can s p else m_cnd s p.

  (** utils.py 992-1001: size 1 copies the *pointer*, larger sizes copy the entries,
      size 0 emits an empty function. *)
  Definition copy_one (s : mst) (p : pid) : mst :=
    match size p with
    | 0 => s
    | 1 => mkM (m_can s) (m_cnd s) (pset (m_alias s) p true) (m_sol s) (m_tick s)
    | _ => if m_alias s p then s
           else mkM (m_can s) (pset (m_cnd s) p (m_can s p)) (m_alias s) (m_sol s) (m_tick s)
    end.

  (** The library writes into every (nonempty) conditioning array it holds. *)
  Definition scribble (s : mst) : mst :=
    mkM (fun p => if m_alias s p then scr (m_tick s) p (m_can s p) else m_can s p)
        (fun p => if m_alias s p then m_cnd s p
                  else match size p with 0 => m_cnd s p | _ => scr (m_tick s) p (m_cnd s p) end)
        (m_alias s) (m_sol s) (S (m_tick s)).

  Definition read (s : mst) (x : src) (p : pid) : D :=
    match x with Canon => m_can s p | Cond => view_cnd s p | Baked => baked p end.

  Definition transfer (s : mst) (x : src) (ps : list pid) : mst :=
    let s' := mkM (m_can s) (m_cnd s) (m_alias s)
                  (fun p => if mem_pid p ps then read s x p else m_sol s p) (m_tick s) in
    match x with Cond => scribble s' | _ => s' end.

  Definition exec (s : mst) (a : action) : mst :=
    match a with
    | ACopyAll => fold_left copy_one copied s
    | ACopy p => copy_one s p
    | AInit x ps | APush x ps => transfer s x ps
    end.

  Definition exec_all (s : mst) (acts : list action) : mst := fold_left exec acts s.
End Machine.

Arguments mkM {D}. Arguments m_can {D}. Arguments m_cnd {D}. Arguments m_alias {D}.
Arguments m_sol {D}. Arguments m_tick {D}. Arguments view_cnd {D}.
Arguments copy_one {D}. Arguments scribble {D}. Arguments read {D}. Arguments transfer {D}.
Arguments exec {D}. Arguments exec_all {D}.
