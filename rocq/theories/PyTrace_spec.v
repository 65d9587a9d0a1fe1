(** What C95 says. *)
From Coq Require Import List Arith Bool.
Import ListNotations.
From Verif Require Import PyTrace_model.

(** The events of a thread in the record of backend [b]: contexts, and whether it is the begin. *)
Definition of_thread (b t : nat) (l : list event) : list (nat * bool) :=
  map (fun e => (e_ctx e, e_entry e)) (filter (fun e => (e_thread e =? t) && (e_backend e =? b)) l).
(** Reading it: the blocks that are open, innermost first; [None]: an end which is not that of the innermost one. *)
Fixpoint reading (open : list nat) (l : list (nat * bool)) : option (list nat) :=
  match l with
  | [] => Some open
  | (c, true) :: l' => reading (c :: open) l'
  | (c, false) :: l' => match open with o :: open' => if o =? c then reading open' l' else None | [] => None end
  end.
Definition finished (t : nat) (s : state) : Prop := p_stack s t = [].

(** No [yield] inside [with], and the backend is not changed. *)
Fixpoint tidy (s : stmt) : bool :=
  match s with
  | SWith _ b => negb (existsb has_yield b) && forallb tidy b
  | STry b h => forallb tidy b && forallb tidy h
  | SBackend _ => false
  | _ => true
  end.
(** Nor are there generators. *)
Fixpoint plain (s : stmt) : bool :=
  match s with
  | SWith _ b => forallb plain b
  | STry b h => forallb plain b && forallb plain h
  | SCall _ | SRaise | SReturn => true
  | _ => false
  end.

(** No interrupt comes inside [__enter__] or [__exit__]. *)
Definition inside_call (it : item) : bool := match it with KMid _ _ | KOut _ => true | _ => false end.
Fixpoint calm (fn : nat -> list stmt) (xs : list label) (s : state) : Prop :=
  match xs with
  | [] => True
  | x :: xs' => match x with Interrupt t => match p_stack s t with it :: _ => inside_call it = false | [] => True end | Go _ => True end /\
                match step fn x s with Some s' => calm fn xs' s' | None => True end
  end.

(** What a program without generators does, as a tree: the events of a statement, and how it ends. *)
Section Tree.
Variable fn : nat -> list stmt.
Inductive execs : list stmt -> list (nat * bool) -> outcome -> Prop :=
| E_nil : execs [] [] Falls
| E_seq s ss e1 e2 o : exec s e1 Falls -> execs ss e2 o -> execs (s :: ss) (e1 ++ e2) o
| E_stop s ss e o : exec s e o -> o <> Falls -> execs (s :: ss) e o
with exec : stmt -> list (nat * bool) -> outcome -> Prop :=
| E_with c b e o : execs b e o -> exec (SWith c b) ((c, true) :: e ++ [(c, false)]) o
| E_raise : exec SRaise [] Raises
| E_return : exec SReturn [] Returns
| E_call f e o : execs (fn f) e o -> exec (SCall f) e (match o with Raises => Raises | _ => Falls end)
| E_try b h e o : execs b e o -> o <> Raises -> exec (STry b h) e o
| E_catch b h e1 e2 o : execs b e1 Raises -> execs h e2 o -> exec (STry b h) (e1 ++ e2) o.
End Tree.
