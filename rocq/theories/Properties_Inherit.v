(** C85: when the process of a server ends or destroys it, discovery lists it no more and its clients notice; and the same for
    clients. *)
From Coq Require Import List Arith Bool.
Import ListNotations.
From Verif Require Import Inherit_model Inherit_spec Inherit_proofs Inherit_witness.

(** Discovery never lists a process twice. *)
Theorem C85_once : forall h w, run h world0 = Some w -> NoDup (discovered w).
Proof. exact listed_once. Qed.
(** While no other living process descends from one that made a server, discovery lists exactly the servers that are there. *)
Theorem C85_partial : forall h w pid, run h world0 = Some w -> (forall l s, nth_error (w_servers w) l = Some s -> childless w (s_maker s)) ->
  (In pid (discovered w) <-> exists l, serves w l pid).
Proof. exact listed_exactly. Qed.
(** A client's connection lasts exactly as long as the server is there, if the server's process has no living descendant. *)
Theorem C85_client_partial : forall h w c x s, run h world0 = Some w -> nth_error (w_conns w) c = Some x -> nth_error (w_servers w) (c_server x) = Some s ->
  childless w (s_maker s) -> client_there w c -> (server_end w c = true <-> serves w (c_server x) (s_pid s)).
Proof. exact client_notices. Qed.
(** The server sees the connection end exactly when the client is gone, if the client's process has no living descendant. *)
Theorem C85_server_partial : forall h w c x, run h world0 = Some w -> nth_error (w_conns w) c = Some x -> childless w (c_client x) ->
  (held (ClientEnd c) w = true <-> client_there w c).
Proof. exact server_notices. Qed.
(** Under the same condition a process without a server can make one. *)
Theorem C85_again_partial : forall h w p x, run h world0 = Some w -> nth_error (w_procs w) p = Some x -> p_alive x = true ->
  (forall l s, nth_error (w_servers w) l = Some s -> childless w (s_maker s)) ->
  (forall l s, nth_error (w_servers w) l = Some s -> s_maker s = p -> s_up s = false) ->
  exists w', step (Serve p) w = Some w' /\ serves w' (length (w_servers w)) (p_pid x).
Proof. exact can_serve. Qed.
(** In general: what is listed has a living process among the descendants of the one that made it, *)
Theorem C85_heirs : forall h w pid, run h world0 = Some w -> In pid (discovered w) ->
  exists l s p, nth_error (w_servers w) l = Some s /\ s_pid s = pid /\ alive w p = true /\ descends w (s_maker s) p.
Proof. exact listed_heirs. Qed.
(** and a child made while the server is there keeps it listed, and its connections from ending, for as long as the child lives,
    whatever becomes of the server; *)
Theorem C85_child : forall h1 h2 w1 w2 l s cpid, run h1 world0 = Some w1 -> nth_error (w_servers w1) l = Some s -> serves w1 l (s_pid s) ->
  run (Fork (s_maker s) cpid :: h2) w1 = Some w2 -> alive w2 (length (w_procs w1)) = true ->
  In (s_pid s) (discovered w2) /\
  (forall c y, nth_error (w_conns w1) c = Some y -> c_server y = l -> c_stage y = Taken -> server_end w2 c = true).
Proof. exact child_keeps_listed. Qed.
(** a child of a client likewise keeps the connection; *)
Theorem C85_client_child : forall h1 h2 w1 w2 c x cpid, run h1 world0 = Some w1 -> nth_error (w_conns w1) c = Some x -> client_there w1 c ->
  run (Fork (c_client x) cpid :: h2) w1 = Some w2 -> alive w2 (length (w_procs w1)) = true -> held (ClientEnd c) w2 = true.
Proof. exact child_keeps_client. Qed.
(** and while a server that is not there any more is kept in this way, no request to it is answered, and once six connections
    wait, [connect] never returns. *)
Theorem C85_orphan : forall h1 h2 w1 w2 l s, run h1 world0 = Some w1 -> nth_error (w_servers w1) l = Some s -> ~ serves w1 l (s_pid s) -> run h2 w1 = Some w2 ->
  held (Listener l) w2 = true ->
  (forall c y, nth_error (w_conns w2) c = Some y -> c_server y = l -> ~ answered w2 c) /\
  (5 < queue l w1 -> connecting (s_pid s) w2 = Blocks).
Proof. exact orphan_blocks. Qed.
(** The property is false: with a child that outlives the server, whether its process has ended or has destroyed it, the process is
    listed, the client does not notice, connecting hangs, and a process that gets the number again cannot serve. *)
Theorem C85_refuted :
  (exists h w, run h world0 = Some w /\ (forall l pid, ~ serves w l pid) /\ discovered w = [10] /\ client_there w 0 /\ server_end w 0 = true /\ alive w 0 = false) /\
  (exists h w, run h world0 = Some w /\ (forall l pid, ~ serves w l pid) /\ discovered w = [10] /\ client_there w 0 /\ server_end w 0 = true /\ alive w 0 = true) /\
  (exists h w, run h world0 = Some w /\ (forall l pid, ~ serves w l pid) /\ connecting 10 w = Blocks) /\
  (exists h w x, run h world0 = Some w /\ (forall l pid, ~ serves w l pid) /\ nth_error (w_procs w) 3 = Some x /\ p_alive x = true /\ p_pid x = 10 /\ step (Serve 3) w = Some w).
Proof. exact inherit_fails. Qed.

Print Assumptions C85_once.
Print Assumptions C85_partial.
Print Assumptions C85_client_partial.
Print Assumptions C85_server_partial.
Print Assumptions C85_again_partial.
Print Assumptions C85_heirs.
Print Assumptions C85_child.
Print Assumptions C85_client_child.
Print Assumptions C85_orphan.
Print Assumptions C85_refuted.
