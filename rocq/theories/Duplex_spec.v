(** Vocabulary for C88. *)
From Coq Require Import List Arith Bool.
Import ListNotations.
From Verif Require Import Duplex_model.

(** No thread can do anything. *)
Definition stuck (cap : nat) (s : duplex) : Prop := forall e, d_step cap e s = None.

(** Nothing is left to send, to read or on its way. *)
Definition idle_client (c : client) : Prop :=
  c_up c = [] /\ c_down c = [] /\ c_requests c = [] /\ c_casts c = [] /\ c_out c = [] /\ c_want c = [].
Definition finished (s : duplex) : Prop := Forall idle_client (d_clients s) /\ d_send s = [] /\ d_mid s = None /\ d_casts s = [].

(** The worker of client [c] is sending, or waits to send. *)
Definition worker_sends (c : client) : Prop := c_want c <> [] \/ (c_out c <> [] /\ c_worker c = true).

(** The server is sending to a client whose worker is sending too, and both directions are full. *)
Definition ring (cap : nat) (s : duplex) : Prop :=
  exists i rest more c, d_send s = (i, rest) :: more /\ rest <> [] /\ nth_error (d_clients s) i = Some c /\
    cap <= length (c_up c) /\ cap <= length (c_down c) /\ worker_sends c /\ c_out c <> [].

(** How many of these messages are answered. *)
Definition answered (l : list message) : nat := length (filter (fun m => match m_answer m with Some _ => true | None => false end) l).
(** How many cells they take, with the answers they lead to. *)
Definition size (m : message) : nat := S (m_more m).
Definition answer_size (m : message) : nat := match m_answer m with Some k => S k | None => 0 end.
Definition total (f : message -> nat) (l : list message) : nat := list_sum (map f l).
