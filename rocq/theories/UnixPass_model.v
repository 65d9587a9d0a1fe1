(** Model of one pass of the server worker, [TransportUnix::work], scalopus_transport/src/transport_unix.cpp
    lines 225-383, with the places where it can block.  Complements [UnixSystem_model], in which every message
    is complete and no call blocks.

    Sockets are blocking (no O_NONBLOCK is set anywhere in the file; line 235 says "We will just block when
    writing, that's fine").  [protocol::receive] blocks while the peer keeps the connection open without
    completing a message; [protocol::send] blocks while the buffer of a peer that does not read is full.

    Simplifications: the write buffer of a peer is either able to take any message or full ([deaf]);
    [accept] fails only for want of file descriptors; [handle] is a function of the request; the exception
    set of [select] (lines 340-345) stays empty. *)
From Coq Require Import List Arith NArith Ascii Bool.
Import ListNotations.
From Verif Require Import Protocol_model UnixSystem_model.

(** What is next on the input of a connection when there is anything to read: a complete message; something
    for which [receive] returns [false] (end of stream, or a malformed message: C02); or the beginning of a
    message whose rest does not come. *)
Inductive incoming := Message (m : msg) | Failing | Stalled.

Record peer := { p_in : list incoming; p_deaf : bool }.

Record server := {
  v_conns : list (nat * peer);          (* [connections_] but the listening socket, ordered by descriptor *)
  v_backlog : list (nat * peer);        (* connected, not yet accepted *)
  v_free : nat;                         (* descriptors the process may still open *)
  v_queue : list (bytes * bytes);       (* [broadcast_messages_] *)
  v_sent : list (nat * msg);            (* messages sent, oldest first *)
}.

(** A pass ends, or the thread blocks in [accept], [read] or [send] for as long as the peers do nothing. *)
Inductive pass_end := Done (s : server) | Blocked (s : server).

Section Pass.
Variable handle : msg -> option (option bytes).   (* [None]: no such endpoint; [Some None]: returned [false] *)

(** processMsg, lines 392-406, and the response, lines 324-331. *)
Definition respond (m : msg) : option msg :=
  match handle m with
  | Some (Some d) => Some {| req_id := req_id m; ep_name := ep_name m; payload := d |}
  | _ => None
  end.

(** Lines 310-346 for the connections in [todo]; [kept] are the connections done with.  [readable] is the
    content of [read_fds]: the connections with input, or all of them if [select] failed (the sets are then
    left as they were, and line 241 only logs). *)
Fixpoint serve_conns (all : bool) (todo kept : list (nat * peer)) (free : nat) (sent : list (nat * msg)) :
    list (nat * peer) * nat * list (nat * msg) * bool :=
  match todo with
  | [] => (kept, free, sent, true)
  | (c, p) :: rest =>
      match p_in p with
      | [] => if all then (kept ++ (c, p) :: rest, free, sent, false) else serve_conns all rest (kept ++ [(c, p)]) free sent
      | Message m :: r =>
          let p' := {| p_in := r; p_deaf := p_deaf p |} in
          match respond m with
          | Some a => if p_deaf p then (kept ++ (c, p') :: rest, free, sent, false)
                      else serve_conns all rest (kept ++ [(c, p')]) free (sent ++ [(c, a)])
          | None => serve_conns all rest (kept ++ [(c, p')]) free sent
          end
      | Failing :: _ => serve_conns all rest kept (S free) sent          (* lines 333-338 *)
      | Stalled :: _ => (kept ++ (c, p) :: rest, free, sent, false)
      end
  end.

(** Lines 349-364: one broadcast to every connection. *)
Fixpoint send_all (m : msg) (conns : list (nat * peer)) (sent : list (nat * msg)) : list (nat * msg) * bool :=
  match conns with
  | [] => (sent, true)
  | (c, p) :: rest => if p_deaf p then (sent, false) else send_all m rest (sent ++ [(c, m)])
  end.
Fixpoint cast_all (rq : list (bytes * bytes)) (conns : list (nat * peer)) (sent : list (nat * msg)) :
    list (bytes * bytes) * list (nat * msg) * bool :=
  match rq with
  | [] => ([], sent, true)
  | (n, d) :: rest =>
      match send_all {| req_id := 0; ep_name := n; payload := d |} conns sent with
      | (sent', true) => cast_all rest conns sent'
      | (sent', false) => (rest, sent', false)
      end
  end.

(** The whole pass. [sig]: [select] was interrupted by a signal (lines 238-243). *)
Definition pass (sig : bool) (s : server) : pass_end :=
  let rest conns backlog free :=
    match serve_conns sig (v_conns s) [] free (v_sent s) with
    | (conns', free', sent', false) =>
        Blocked {| v_conns := conns' ++ conns; v_backlog := backlog; v_free := free'; v_queue := v_queue s; v_sent := sent' |}
    | (conns', free', sent', true) =>
        let conns2 := conns' ++ conns in
        match cast_all (rev (v_queue s)) conns2 sent' with
        | (rq, sent2, true) =>
            Done {| v_conns := conns2; v_backlog := backlog; v_free := free'; v_queue := rev rq; v_sent := sent2 |}
        | (rq, sent2, false) =>
            Blocked {| v_conns := conns2; v_backlog := backlog; v_free := free'; v_queue := rev rq; v_sent := sent2 |}
        end
    end in
  match v_backlog s with
  | [] => if sig then Blocked s                                  (* accept with nobody waiting *)
          else rest [] [] (v_free s)
  | b :: bs => match v_free s with
               | O => Done s                                     (* lines 251-257: accept failed, continue *)
               | S f => rest [b] bs f
               end
  end.

(** [n] passes without a signal, no peer doing anything meanwhile. *)
Fixpoint passes (n : nat) (s : server) : pass_end :=
  match n with
  | O => Done s
  | S n' => match pass false s with Done s' => passes n' s' | Blocked s' => Blocked s' end
  end.
End Pass.
