(** Model of a server and its clients that send to each other through sockets of limited capacity
    ([scalopus_transport/src/transport_unix.cpp], [protocol.cpp]): which thread waits for which.

    Each transport has one worker thread, which both reads and sends ([TransportUnix::work], lines 217-383): the server's
    reads requests and sends the answers (lines 318-331) and the broadcasts (lines 349-364); the client's reads answers and
    broadcasts (lines 258-301), sends what an endpoint answers to a broadcast (lines 293-297) and the client's own broadcasts
    (lines 349-364).  The threads of the program send requests (lines 138-163).  All sends of a transport hold [write_lock_].
    Sends and reads block (line 235: "We will just block when writing, that's fine").

    A message is a number of cells (pieces of memory of the kernel); each direction of a connection holds at most [cap]
    cells. The last cell carries what its receiver will do: answer with a message of so many cells, or not answer.

    Simplifications: the content of messages is left out (C76 is about it); connections are neither made nor lost; the order
    in which a worker takes its connections and its broadcasts within a pass is left open; an answer to an answer does not
    exist (lines 264-276: answers are given to the promise); the broadcasts of a transport are sent in the order of the list
    (C08: they are not, which makes no difference here). *)
From Coq Require Import List Arith Bool.
Import ListNotations.
From Verif Require Import UnixSystem_model.

Inductive cell := More | Last (answer : option nat).

Record message := { m_more : nat; m_answer : option nat }.
Definition cells (m : message) : list cell := repeat More (m_more m) ++ [Last (m_answer m)].

Record client := {
  c_up : list cell;               (* on the way to the server *)
  c_down : list cell;             (* on the way to the client *)
  c_requests : list message;      (* what the threads of the program are going to request *)
  c_casts : list message;         (* the client's broadcast queue *)
  c_out : list cell;              (* the rest of the message being sent; [write_lock_] is held when there is any *)
  c_worker : bool;                (* the message being sent is sent by the worker *)
  c_want : list cell;             (* the worker waits for [write_lock_] with this message *)
  c_mid : bool;                   (* the worker is in the middle of reading a message *)
  c_upgot : nat;                  (* messages of this client the server has read *)
  c_downgot : nat;                (* messages this client has read *)
}.

Record duplex := {
  d_clients : list client;
  d_send : list (nat * list cell);    (* what the server's worker is sending, to whom, one after the other *)
  d_mid : option nat;                 (* it is in the middle of reading a message of this client *)
  d_casts : list message;             (* the server's broadcast queue *)
}.

Inductive dstep :=
  | SrvRead (i : nat) | SrvSend | SrvCast
  | CliRead (i : nat) | CliSend (i : nat) | CliLock (i : nat) | CliRequest (i : nat) | CliCast (i : nat).

Definition set_client (i : nat) (c : client) (s : duplex) : duplex :=
  {| d_clients := set_nth i c (d_clients s); d_send := d_send s; d_mid := d_mid s; d_casts := d_casts s |}.

Definition reply (a : option nat) : list cell := match a with Some k => cells {| m_more := k; m_answer := None |} | None => [] end.

(** The worker of the client is neither sending nor waiting to send: it can read and start something new. *)
Definition worker_free (c : client) : bool :=
  match c_want c, c_out c with
  | [], [] => true
  | [], _ => negb (c_worker c)
  | _, _ => false
  end.

Definition d_step (cap : nat) (e : dstep) (s : duplex) : option duplex :=
  match e with
  | SrvRead i =>                                                       (* lines 318-331: one piece of [receive] *)
      match d_send s, nth_error (d_clients s) i with
      | [], Some c =>
          if match d_mid s with None => true | Some j => i =? j end then
            match c_up c with
            | x :: up =>
                let c' got := {| c_up := up; c_down := c_down c; c_requests := c_requests c; c_casts := c_casts c; c_out := c_out c; c_worker := c_worker c;
                                 c_want := c_want c; c_mid := c_mid c; c_upgot := got; c_downgot := c_downgot c |} in
                match x with
                | More => Some {| d_clients := set_nth i (c' (c_upgot c)) (d_clients s); d_send := []; d_mid := Some i; d_casts := d_casts s |}
                | Last a => Some {| d_clients := set_nth i (c' (S (c_upgot c))) (d_clients s);
                                    d_send := match a with Some _ => [(i, reply a)] | None => [] end; d_mid := None; d_casts := d_casts s |}
                end
            | [] => None
            end
          else None
      | _, _ => None
      end
  | SrvSend =>                                                         (* one piece of [protocol::send] *)
      match d_send s with
      | (i, x :: rest) :: more =>
          match nth_error (d_clients s) i with
          | Some c =>
              if length (c_down c) <? cap then
                let c' := {| c_up := c_up c; c_down := c_down c ++ [x]; c_requests := c_requests c; c_casts := c_casts c; c_out := c_out c; c_worker := c_worker c;
                             c_want := c_want c; c_mid := c_mid c; c_upgot := c_upgot c; c_downgot := c_downgot c |} in
                Some {| d_clients := set_nth i c' (d_clients s); d_send := match rest with [] => more | _ => (i, rest) :: more end;
                        d_mid := d_mid s; d_casts := d_casts s |}
              else None
          | None => None
          end
      | _ => None
      end
  | SrvCast =>                                                         (* lines 349-364: one broadcast, to every client *)
      match d_send s, d_mid s, d_casts s with
      | [], None, m :: ms => Some {| d_clients := d_clients s; d_send := map (fun i => (i, cells m)) (seq 0 (length (d_clients s))); d_mid := None; d_casts := ms |}
      | _, _, _ => None
      end
  | CliRead i =>                                                       (* lines 258-301: one piece of [receive] *)
      match nth_error (d_clients s) i with
      | Some c =>
          if worker_free c then
            match c_down c with
            | x :: down =>
                let c' mid want got := {| c_up := c_up c; c_down := down; c_requests := c_requests c; c_casts := c_casts c; c_out := c_out c; c_worker := c_worker c;
                                          c_want := want; c_mid := mid; c_upgot := c_upgot c; c_downgot := got |} in
                match x with
                | More => Some (set_client i (c' true [] (c_downgot c)) s)
                | Last a => Some (set_client i (c' false (reply a) (S (c_downgot c))) s)
                end
            | [] => None
            end
          else None
      | None => None
      end
  | CliSend i =>                                                       (* one piece of [protocol::send] *)
      match nth_error (d_clients s) i with
      | Some c =>
          match c_out c with
          | x :: out =>
              if length (c_up c) <? cap then
                Some (set_client i {| c_up := c_up c ++ [x]; c_down := c_down c; c_requests := c_requests c; c_casts := c_casts c; c_out := out; c_worker := c_worker c;
                                      c_want := c_want c; c_mid := c_mid c; c_upgot := c_upgot c; c_downgot := c_downgot c |} s)
              else None
          | [] => None
          end
      | None => None
      end
  | CliLock i =>                                                       (* lines 295 and 361: the worker gets [write_lock_] *)
      match nth_error (d_clients s) i with
      | Some c =>
          match c_out c, c_want c with
          | [], _ :: _ =>
              Some (set_client i {| c_up := c_up c; c_down := c_down c; c_requests := c_requests c; c_casts := c_casts c; c_out := c_want c; c_worker := true;
                                    c_want := []; c_mid := c_mid c; c_upgot := c_upgot c; c_downgot := c_downgot c |} s)
          | _, _ => None
          end
      | None => None
      end
  | CliRequest i =>                                                    (* lines 149-151: a thread of the program gets [write_lock_] *)
      match nth_error (d_clients s) i with
      | Some c =>
          match c_out c, c_requests c with
          | [], m :: ms =>
              Some (set_client i {| c_up := c_up c; c_down := c_down c; c_requests := ms; c_casts := c_casts c; c_out := cells m; c_worker := false;
                                    c_want := c_want c; c_mid := c_mid c; c_upgot := c_upgot c; c_downgot := c_downgot c |} s)
          | _, _ => None
          end
      | None => None
      end
  | CliCast i =>                                                       (* lines 349-354: the worker takes one of the broadcasts *)
      match nth_error (d_clients s) i with
      | Some c =>
          if worker_free c && negb (c_mid c) then
            match c_casts c with
            | m :: ms =>
                Some (set_client i {| c_up := c_up c; c_down := c_down c; c_requests := c_requests c; c_casts := ms; c_out := c_out c; c_worker := c_worker c;
                                      c_want := cells m; c_mid := c_mid c; c_upgot := c_upgot c; c_downgot := c_downgot c |} s)
            | [] => None
            end
          else None
      | None => None
      end
  end.

Fixpoint d_run (cap : nat) (es : list dstep) (s : duplex) : option duplex :=
  match es with
  | [] => Some s
  | e :: es' => match d_step cap e s with Some s' => d_run cap es' s' | None => None end
  end.

(** At first nothing is on its way: each client has requests to make and broadcasts to send, the server has broadcasts. *)
Definition client0 (p : list message * list message) : client :=
  {| c_up := []; c_down := []; c_requests := fst p; c_casts := snd p; c_out := []; c_worker := false; c_want := []; c_mid := false; c_upgot := 0; c_downgot := 0 |}.
Definition duplex0 (clients : list (list message * list message)) (casts : list message) : duplex :=
  {| d_clients := map client0 clients; d_send := []; d_mid := None; d_casts := casts |}.
