(** What C34 says. Viewers are numbered in the order in which they connect. *)
From Coq Require Import List Arith Bool.
Import ListNotations.
From Verif Require Import Backend_model.

Section Spec.
Context {Text : Type}.
(** Each viewer so far: the address of its connection and whether it is connected. *)
Definition close (ws : nat) (v : nat * bool) : nat * bool := if fst v =? ws then (fst v, false) else v.
Definition vstep (l : blabel Text) (vs : list (nat * bool)) : list (nat * bool) :=
  match l with
  | Connect ws => vs ++ [(ws, true)]
  | Disconnect ws _ => map (close ws) vs
  | _ => vs
  end.
Definition viewers (ls : list (blabel Text)) : list (nat * bool) := fold_left (fun vs l => vstep l vs) ls [].
Definition connected (vs : list (nat * bool)) (v ws : nat) : Prop := nth_error vs v = Some (ws, true).
(** What a web server does: an address is used for one connection at a time, text and close come from open connections; a session's
    thread answers while its viewer is connected. *)
Definition legal (l : blabel Text) (vs : list (nat * bool)) : Prop :=
  match l with
  | Connect ws => forall v, ~ connected vs v ws
  | Data ws _ | Disconnect ws _ => exists v, connected vs v ws
  | Answer v _ => exists ws, connected vs v ws
  | RunTask => True
  end.
Definition legal_run (ls : list (blabel Text)) : Prop := forall a l b, ls = a ++ l :: b -> legal l (viewers a).
(** The answers of sessions in order, with the viewer they are for; and how many tasks the server has run. *)
Definition answers_of (l : blabel Text) (vs : list (nat * bool)) : list (nat * Text) :=
  match l with
  | Answer v t => [(v, t)]
  | Disconnect ws late => flat_map (fun iv => match iv with (i, (a, c)) => if (a =? ws) && c then map (fun t => (i, t)) late else [] end) (combine (seq 0 (length vs)) vs)
  | _ => []
  end.
Fixpoint answers_from (vs : list (nat * bool)) (ls : list (blabel Text)) : list (nat * Text) :=
  match ls with [] => [] | l :: ls' => answers_of l vs ++ answers_from (vstep l vs) ls' end.
Definition answers (ls : list (blabel Text)) : list (nat * Text) := answers_from [] ls.
Definition tasks_run (ls : list (blabel Text)) : nat := length (filter (fun l => match l with RunTask => true | _ => false end) ls).
(** The web server has run the tasks of the earlier connections under an address before it opens a new one under it. *)
Definition settled (ls : list (blabel Text)) : Prop := forall a ws b v t n, ls = a ++ Connect ws :: b ->
  nth_error (answers a) n = Some (v, t) -> tasks_run a <= n -> forall c, nth_error (viewers a) v <> Some (ws, c).
End Spec.
