(** What is expected when a traced process forks (C98). *)
From Coq Require Import List Arith Bool.
Import ListNotations.
From Verif Require Import Fork_model.

(** [a] is [b], or one of the processes it comes from. *)
Inductive ancestor (forks : list (nat * nat)) : nat -> nat -> Prop :=
| a_self p : ancestor forks p p
| a_fork p q r : ancestor forks p q -> In (q, r) forks -> ancestor forks p r.

(** How often event [n] is shown, and how often as an event of process [pid]. *)
Definition times (n : nat) (l : list (nat * nat * event)) : nat := length (filter (fun x => Nat.eqb (e_num (snd x)) n) l).
Definition times_of (pid n : nat) (l : list (nat * nat * event)) : nat :=
  length (filter (fun x => Nat.eqb (fst (fst x)) pid && Nat.eqb (e_num (snd x)) n) l).

(** An event is shown under the process and the thread that have made it. *)
Definition right (x : nat * nat * event) : Prop := e_pid (snd x) = fst (fst x) /\ e_tid (snd x) = snd (fst x).

(** Events that have been made and not yet taken by the sender. *)
Definition waiting (p : proc) : list event := flat_map snd (p_bufs p).
(** A history in which every fork is made while no events are waiting. *)
Fixpoint tidy (h : list label) (w : world) : Prop :=
  match h with
  | [] => True
  | a :: r => match a with
              | Fork pid _ _ => match w_procs w pid with Some p => waiting p = [] | None => True end
              | _ => True
              end /\ match step a w with Some w' => tidy r w' | None => True end
  end.
(** The process never makes a sender. *)
Definition exposes (pid : nat) (a : label) : bool := match a with Expose q => Nat.eqb q pid | _ => false end.
(** The process has an event of a thread that is not sent yet. *)
Definition holds (p : proc) (tid : nat) (e : event) : Prop :=
  exists l, In (tid, l) (p_bufs p ++ match p_hand p with Some b => b | None => [] end) /\ In e l.
(** Something the sender of the process does by itself. *)
Definition by_sender (pid : nat) (a : label) : Prop := a = Lock pid \/ (exists ks, a = Pop pid ks) \/ a = Send pid.
(** The thread waits in the process, for ever. *)
Definition hangs (w : world) (pid tid : nat) : Prop := exists p, w_procs w pid = Some p /\ In tid (p_stuck p).
(** Something the thread does. *)
Definition by_thread (pid tid : nat) (a : label) : Prop := a = Trace pid tid \/ a = Drop pid tid \/ exists c, a = Fork pid tid c.
(** A history in which only processes without a sender fork. *)
Fixpoint calm (h : list label) (w : world) : Prop :=
  match h with
  | [] => True
  | a :: r => match a with
              | Fork pid _ _ => match w_procs w pid with Some p => p_hand p = None | None => True end
              | _ => True
              end /\ match step a w with Some w' => calm r w' | None => True end
  end.
(** The event is shown, or the process still has it, unless the process has ended. *)
Definition kept (w : world) (pid tid : nat) (e : event) : Prop :=
  w_procs w pid = None \/ In (pid, tid, e) (w_shown w) \/ exists p, w_procs w pid = Some p /\ holds p tid e.
