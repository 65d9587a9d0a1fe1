(** What C85 says. *)
From Coq Require Import List Arith Bool.
Import ListNotations.
From Verif Require Import Inherit_model.

(** Server [l], which answers to [pid], is there: the process that made it runs and has not destroyed it. *)
Definition serves (w : world) (l pid : nat) : Prop :=
  exists s, nth_error (w_servers w) l = Some s /\ s_pid s = pid /\ s_up s = true /\ alive w (s_maker s) = true.
(** The client of connection [c] is there: its process runs and has not destroyed the transport. *)
Definition client_there (w : world) (c : nat) : Prop :=
  exists x, nth_error (w_conns w) c = Some x /\ c_open x = true /\ alive w (c_client x) = true.
(** [p] is [q], or was forked from a process for which this holds. *)
Inductive descends (w : world) (q : nat) : nat -> Prop :=
  | self : descends w q q
  | child p x p' : nth_error (w_procs w) p = Some x -> p_parent x = Some p' -> descends w q p' -> descends w q p.
(** [q] has no other living descendant than itself. *)
Definition childless (w : world) (q : nat) : Prop := forall p, alive w p = true -> descends w q p -> p = q.
(** Requests over connection [c] can be answered: the server has taken it in and is there. *)
Definition answered (w : world) (c : nat) : Prop :=
  exists x pid, nth_error (w_conns w) c = Some x /\ c_stage x = Taken /\ serves w (c_server x) pid.
