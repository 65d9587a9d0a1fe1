(** What is meant by deadlock, and what the callbacks may do. *)
From Coq Require Import List Arith Bool.
Import ListNotations.
From Verif Require Import Locks_model.

(** Nothing can go on although not all has ended. *)
Definition stuck (s : state) : Prop := (exists t, todo s t <> []) /\ forall t, step t s = None.
(** A program for each of finitely many threads, each doing what threads of its kind do. *)
Definition program (roles : nat -> role) (cb : callbacks) (prog : nat -> list op) : Prop :=
  (exists n, forall t, n <= t -> prog t = []) /\ forall t, prog t <> [] -> trace (thread_code roles cb t) (prog t).
Definition reachable (prog : nat -> list op) (s : state) : Prop := exists ts, run ts (begin prog) = Some s.

(** Code that takes no mutex but those of the user, one at a time, the broadcast queue, and what a trace point needs, and that waits for no thread. *)
Definition harmless_lock (l : lock) : bool :=
  match l with LUser _ | LBroadcast _ | LConfig | LTracker _ | LOrphans | LWrite _ => true | _ => false end.
Fixpoint harmless (c : code) : Prop :=
  match c with
  | Nop => True
  | Seq a b | Either a b => harmless a /\ harmless b
  | Many a => harmless a
  | Any f => forall i, harmless (f i)
  | Locked l a => harmless_lock l = true /\ a = Nop
  | Join _ => False
  end.
Definition all_harmless (cb : callbacks) : Prop :=
  harmless (cb_log cb) /\ harmless (cb_name cb) /\ (forall t, harmless (cb_handle cb t)) /\ (forall t, harmless (cb_unsolicited cb t)) /\
  harmless (cb_factory cb) /\ harmless (cb_source cb).
