(** Model of [scalopus_transport/src/transport_unix.cpp] and [.h] at the level of messages: one server
    transport, any number of client transports, and the threads using them, as a step machine.

    [step l s] executes one atomic step [l]; [None] means that the step is not possible in [s].  A schedule
    is a list of steps.  The steps of one thread are the critical sections (and the hand-over of one message)
    of the code; steps of different threads interleave in any way the schedule says.  The steps of a worker
    may be taken in any order here, which includes the order of its loop (lines 225-383).

    Simplifications:
    - messages travel whole and in order (C01); a message cut short by the death of the server is [Cut] or a
      shortened [Full] (C02); a malformed message is [Bad]; a failing [protocol::send] puts nothing on the wire;
    - request ids do not wrap around after 2^64 requests;
    - the answers of the endpoints ([Endpoint::handle], [Endpoint::unsolicited]) are part of the schedule, so
      they may be anything; [None] stands for returning [false];
    - [select], the sleep and the logging are not represented. *)
From Coq Require Import List Arith NArith Ascii Bool.
Import ListNotations.
From Verif Require Import Protocol_model.

Fixpoint bytes_eqb (a b : bytes) : bool :=
  match a, b with
  | [], [] => true
  | x :: a', y :: b' => (x =? y)%char && bytes_eqb a' b'
  | _, _ => false
  end.

(** Where a message comes from; for specifications only, no step looks at it. *)
Inductive origin :=
  | GReq (r : nat)       (* request number [r] of the client *)
  | GAns                 (* answer of a server endpoint *)
  | GBcast (k : nat)     (* dispatch number [k] of a server broadcast *)
  | GUns                 (* answer of an [unsolicited] handler *)
  | GCast                (* broadcast made on a client *)
  | GRaw.                (* a client not using this library *)

(** What the receiving end of a connection finds: a message; the end of the stream within a message ([receive]
    returns [false] and leaves [m] in its output argument); or something else for which [receive] returns [false]. *)
Inductive item := Full (m : msg) (g : origin) | Cut (m : msg) | Bad.

(** State of the future belonging to a request. *)
Inductive fval := Unready | Value (d : bytes) | CommError | BrokenPromise.

(** Progress of a call of [request], transport_unix.cpp lines 138-162: id drawn (line 140); message sent
    (lines 149-153); booked in [ongoing_requests_] (lines 159-160) and returned; or failed and returned (152-155). *)
Inductive stage := Taken | Sent | Booked | Failed.

Record req := { r_id : N; r_name : bytes; r_data : bytes; r_stage : stage; r_held : bool; r_val : fval }.

(** What became of a message the client worker processed: it was the answer of request [r] and was given to
    the future, or the future had been released; or it was handed to [unsolicited]; or there was no endpoint. *)
Inductive outcome := Resolved (r : nat) | Released (r : nat) | Unsolicited | Nobody.

(** A client transport with its socket, transport_unix.h lines 84-109. *)
Record client := {
  c_born : bool;                             (* [connect] was called *)
  c_open : bool;                             (* [client_fd_ != 0] *)
  c_run : bool;                              (* [running_] *)
  c_term : bool;                             (* [set_value] on a satisfied promise: uncaught exception *)
  c_next : N;                                (* [request_counter_] *)
  c_reqs : list req;                         (* every request made so far, oldest first *)
  c_pending : list ((bytes * N) * nat);      (* [ongoing_requests_]: key, number of the request *)
  c_eps : list bytes;                        (* names in [endpoints_] *)
  c_in : list item;                          (* sent by the server, not yet received *)
  c_out : list item;                         (* sent by the client, not yet received *)
  c_log : list (msg * origin * outcome);     (* what the worker processed, oldest first (for specifications) *)
  c_rx : list item;                          (* everything the server put on the wire (for specifications) *)
}.

Definition client0 : client :=
  {| c_born := false; c_open := false; c_run := false; c_term := false; c_next := 1; c_reqs := []; c_pending := [];
     c_eps := []; c_in := []; c_out := []; c_log := []; c_rx := [] |}.

(** The server's view of a connection: none yet, waiting in the backlog of [listen], in [connections_], erased. *)
Inductive conn := NoConn | Backlog | Accepted | Closed.

Record sys := {
  s_up : bool;                               (* the server process lives *)
  s_eps : list bytes;                        (* names in [endpoints_] of the server *)
  s_queue : list (bytes * bytes);            (* [broadcast_messages_], transport.h *)
  s_conn : nat -> conn;
  s_cl : nat -> client;
  s_calls : list (nat * msg * option bytes); (* calls of [handle]: client, request, answer; oldest first *)
  s_made : list (bytes * bytes);             (* calls of [broadcast] on the server; oldest first *)
  s_disp : list (bytes * bytes);             (* broadcasts taken from the queue and sent; oldest first *)
}.

Definition sys0 : sys :=
  {| s_up := true; s_eps := []; s_queue := []; s_conn := fun _ => NoConn; s_cl := fun _ => client0;
     s_calls := []; s_made := []; s_disp := [] |}.

(** Record updates. *)
Definition set_in (x : list item) (c : client) : client :=
  {| c_born := c_born c; c_open := c_open c; c_run := c_run c; c_term := c_term c; c_next := c_next c; c_reqs := c_reqs c;
     c_pending := c_pending c; c_eps := c_eps c; c_in := x; c_out := c_out c; c_log := c_log c; c_rx := c_rx c |}.
Definition set_out (x : list item) (c : client) : client :=
  {| c_born := c_born c; c_open := c_open c; c_run := c_run c; c_term := c_term c; c_next := c_next c; c_reqs := c_reqs c;
     c_pending := c_pending c; c_eps := c_eps c; c_in := c_in c; c_out := x; c_log := c_log c; c_rx := c_rx c |}.
Definition set_reqs (x : list req) (c : client) : client :=
  {| c_born := c_born c; c_open := c_open c; c_run := c_run c; c_term := c_term c; c_next := c_next c; c_reqs := x;
     c_pending := c_pending c; c_eps := c_eps c; c_in := c_in c; c_out := c_out c; c_log := c_log c; c_rx := c_rx c |}.
Definition set_next (x : N) (c : client) : client :=
  {| c_born := c_born c; c_open := c_open c; c_run := c_run c; c_term := c_term c; c_next := x; c_reqs := c_reqs c;
     c_pending := c_pending c; c_eps := c_eps c; c_in := c_in c; c_out := c_out c; c_log := c_log c; c_rx := c_rx c |}.
Definition set_pending (x : list ((bytes * N) * nat)) (c : client) : client :=
  {| c_born := c_born c; c_open := c_open c; c_run := c_run c; c_term := c_term c; c_next := c_next c; c_reqs := c_reqs c;
     c_pending := x; c_eps := c_eps c; c_in := c_in c; c_out := c_out c; c_log := c_log c; c_rx := c_rx c |}.
Definition set_log (x : list (msg * origin * outcome)) (c : client) : client :=
  {| c_born := c_born c; c_open := c_open c; c_run := c_run c; c_term := c_term c; c_next := c_next c; c_reqs := c_reqs c;
     c_pending := c_pending c; c_eps := c_eps c; c_in := c_in c; c_out := c_out c; c_log := x; c_rx := c_rx c |}.
Definition set_rx (x : list item) (c : client) : client :=
  {| c_born := c_born c; c_open := c_open c; c_run := c_run c; c_term := c_term c; c_next := c_next c; c_reqs := c_reqs c;
     c_pending := c_pending c; c_eps := c_eps c; c_in := c_in c; c_out := c_out c; c_log := c_log c; c_rx := x |}.
Definition set_eps (x : list bytes) (c : client) : client :=
  {| c_born := c_born c; c_open := c_open c; c_run := c_run c; c_term := c_term c; c_next := c_next c; c_reqs := c_reqs c;
     c_pending := c_pending c; c_eps := x; c_in := c_in c; c_out := c_out c; c_log := c_log c; c_rx := c_rx c |}.
Definition set_flags (born opn run term : bool) (c : client) : client :=
  {| c_born := born; c_open := opn; c_run := run; c_term := term; c_next := c_next c; c_reqs := c_reqs c;
     c_pending := c_pending c; c_eps := c_eps c; c_in := c_in c; c_out := c_out c; c_log := c_log c; c_rx := c_rx c |}.

Definition with_stage (x : stage) (r : req) : req :=
  {| r_id := r_id r; r_name := r_name r; r_data := r_data r; r_stage := x; r_held := r_held r; r_val := r_val r |}.
Definition with_val (x : fval) (r : req) : req :=
  {| r_id := r_id r; r_name := r_name r; r_data := r_data r; r_stage := r_stage r; r_held := r_held r; r_val := x |}.
Definition with_held (x : bool) (r : req) : req :=
  {| r_id := r_id r; r_name := r_name r; r_data := r_data r; r_stage := r_stage r; r_held := x; r_val := r_val r |}.

Definition upd {A} (f : nat -> A) (k : nat) (v : A) : nat -> A := fun n => if n =? k then v else f n.
Fixpoint set_nth {A} (n : nat) (x : A) (l : list A) : list A :=
  match l, n with
  | [], _ => []
  | _ :: r, O => x :: r
  | y :: r, S n' => y :: set_nth n' x r
  end.

Definition with_cl (c : nat) (x : client) (s : sys) : sys :=
  {| s_up := s_up s; s_eps := s_eps s; s_queue := s_queue s; s_conn := s_conn s; s_cl := upd (s_cl s) c x;
     s_calls := s_calls s; s_made := s_made s; s_disp := s_disp s |}.
Definition with_conn (c : nat) (x : conn) (s : sys) : sys :=
  {| s_up := s_up s; s_eps := s_eps s; s_queue := s_queue s; s_conn := upd (s_conn s) c x; s_cl := s_cl s;
     s_calls := s_calls s; s_made := s_made s; s_disp := s_disp s |}.
Definition with_calls (x : list (nat * msg * option bytes)) (s : sys) : sys :=
  {| s_up := s_up s; s_eps := s_eps s; s_queue := s_queue s; s_conn := s_conn s; s_cl := s_cl s;
     s_calls := x; s_made := s_made s; s_disp := s_disp s |}.
Definition with_up (x : bool) (s : sys) : sys :=
  {| s_up := x; s_eps := s_eps s; s_queue := s_queue s; s_conn := s_conn s; s_cl := s_cl s;
     s_calls := s_calls s; s_made := s_made s; s_disp := s_disp s |}.

Definition mem (n : bytes) (l : list bytes) : bool := existsb (bytes_eqb n) l.
Definition key_eqb (a b : bytes * N) : bool := bytes_eqb (fst a) (fst b) && (snd a =? snd b)%N.

(** [ongoing_requests_.find(key)], [erase], and assignment through [operator[]]. *)
Fixpoint p_find (k : bytes * N) (l : list ((bytes * N) * nat)) : option nat :=
  match l with
  | [] => None
  | (k', r) :: l' => if key_eqb k k' then Some r else p_find k l'
  end.
Definition p_erase (k : bytes * N) (l : list ((bytes * N) * nat)) := filter (fun e => negb (key_eqb k (fst e))) l.
Definition p_put (k : bytes * N) (r : nat) (l : list ((bytes * N) * nat)) := (k, r) :: p_erase k l.

(** [work], lines 271-301: what the client worker does with the content [m] of [incoming]; [ua] is the
    answer of the [unsolicited] handler, if it gets called. *)
Definition process (m : msg) (g : origin) (ua : option bytes) (c : client) : client :=
  let k := (ep_name m, req_id m) in
  let log o := set_log (c_log c ++ [(m, g, o)]) in
  match p_find k (c_pending c) with
  | Some r =>                                                      (* lines 275-283 *)
      match nth_error (c_reqs c) r with
      | Some q =>
          set_pending (p_erase k (c_pending c))
            (if r_held q
             then match r_val q with
                  | Unready => log (Resolved r) (set_reqs (set_nth r (with_val (Value (payload m)) q) (c_reqs c)) c)
                  | _ => log (Resolved r) (set_flags (c_born c) (c_open c) (c_run c) true c)
                  end
             else log (Released r) c)
      | None => c
      end
  | None =>                                                        (* lines 284-301 *)
      if mem (ep_name m) (c_eps c)
      then let c1 := log Unsolicited c in
           match ua with
           | Some d => if c_open c1
                       then set_out (c_out c1 ++ [Full {| req_id := req_id m; ep_name := ep_name m; payload := d |} GUns]) c1
                       else c1
           | None => c1
           end
      else log Nobody c
  end.

(** Lines 261-302: the client socket is readable.  After a failed [receive] the connection is given up
    (lines 265-269), but whatever is in [incoming] is still processed. [eof]: the server closed or died. *)
Definition client_recv (eof : bool) (ua : option bytes) (c : client) : option client :=
  if negb (c_run c) then None else
  match c_in c with
  | Full m g :: r => Some (process m g ua (set_in r c))
  | Cut m :: r => Some (process m GAns ua (set_flags (c_born c) false false (c_term c) (set_in r c)))
  | Bad :: r => Some (process msg0 GRaw ua (set_flags (c_born c) false false (c_term c) (set_in r c)))
  | [] => if eof then Some (process msg0 GRaw ua (set_flags (c_born c) false false (c_term c) c)) else None
  end.

(** Lines 366-382: entries whose future was released are erased. *)
Definition cleanup (c : client) : client :=
  set_pending (filter (fun e => match nth_error (c_reqs c) (snd e) with Some q => r_held q | None => false end) (c_pending c)) c.

(** A message arrives in the buffer of the client socket if the client still has it open. *)
Definition push_in (x : item) (c : client) : client := if c_open c then set_rx (c_rx c ++ [x]) (set_in (c_in c ++ [x]) c) else c.
Definition push_out (x : item) (c : client) : client := set_out (c_out c ++ [x]) c.

Inductive label :=
  | Connect (c : nat)
  | Accept (c : nat)
  | AddClientEp (c : nat) (n : bytes)
  | AddServerEp (n : bytes)
  | ReqTake (c : nat) (n d : bytes)
  | ReqSend (c r : nat) (ok : bool)
  | ReqBook (c r : nat)
  | Drop (c r : nat)
  | CliRecv (c : nat) (ua : option bytes)
  | CliCleanup (c : nat)
  | CliCast (c : nat) (n d : bytes)
  | CliRaw (c : nat) (x : item)
  | CliClose (c : nat)
  | SrvRecv (c : nat) (ans : option bytes)
  | SrvLost (c : nat)
  | MakeBcast (n d : bytes)
  | DispBcast
  | SrvCrash
  | SrvCrashSending (c : nat) (d : bytes) (j : nat).

Definition is_accepted (x : conn) : bool := match x with Accepted => true | _ => false end.

(** The client sees the end of the stream. *)
Definition eof_for (s : sys) (c : nat) : bool :=
  negb (s_up s) || match s_conn s c with Closed => true | _ => false end.

Definition broken (pend : list ((bytes * N) * nat)) (l : list req) : list req :=
  fold_left (fun l e => match nth_error l (snd e) with
                        | Some q => match r_val q with Unready => set_nth (snd e) (with_val BrokenPromise q) l | _ => l end
                        | None => l end) pend l.

Definition in_call (q : req) : bool := match r_stage q with Taken => true | Sent => true | _ => false end.

Definition step (l : label) (s : sys) : option sys :=
  match l with
  | Connect c =>                                                   (* connect, lines 100-136, successful *)
      let x := s_cl s c in
      if c_born x || negb (s_up s) then None
      else Some (with_conn c Backlog (with_cl c (set_flags true true true false x) s))
  | Accept c =>                                                    (* lines 248-258 *)
      match s_up s, s_conn s c with
      | true, Backlog => Some (with_conn c Accepted s)
      | _, _ => None
      end
  | AddClientEp c n =>                                             (* transport.cpp lines 59-64 *)
      Some (with_cl c (set_eps (n :: c_eps (s_cl s c)) (s_cl s c)) s)
  | AddServerEp n =>
      Some {| s_up := s_up s; s_eps := n :: s_eps s; s_queue := s_queue s; s_conn := s_conn s; s_cl := s_cl s;
              s_calls := s_calls s; s_made := s_made s; s_disp := s_disp s |}
  | ReqTake c n d =>                                               (* lines 140-147 *)
      let x := s_cl s c in
      if negb (c_born x) then None else
      Some (with_cl c (set_next (c_next x + 1)%N
             (set_reqs (c_reqs x ++ [{| r_id := c_next x; r_name := n; r_data := d; r_stage := Taken; r_held := true;
                                        r_val := Unready |}]) x)) s)
  | ReqSend c r ok =>                                              (* lines 149-156 *)
      let x := s_cl s c in
      match nth_error (c_reqs x) r with
      | Some q =>
          match r_stage q with
          | Taken =>
              if c_open x && ok
              then Some (with_cl c (push_out (Full {| req_id := r_id q; ep_name := r_name q; payload := r_data q |} (GReq r))
                                     (set_reqs (set_nth r (with_stage Sent q) (c_reqs x)) x)) s)
              else Some (with_cl c (set_reqs (set_nth r (with_val CommError (with_stage Failed q)) (c_reqs x)) x) s)
          | _ => None
          end
      | None => None
      end
  | ReqBook c r =>                                                 (* lines 159-161 *)
      let x := s_cl s c in
      match nth_error (c_reqs x) r with
      | Some q =>
          match r_stage q with
          | Sent => Some (with_cl c (set_pending (p_put (r_name q, r_id q) r (c_pending x))
                           (set_reqs (set_nth r (with_stage Booked q) (c_reqs x)) x)) s)
          | _ => None
          end
      | None => None
      end
  | Drop c r =>                                                    (* the caller releases the future *)
      let x := s_cl s c in
      match nth_error (c_reqs x) r with
      | Some q => if in_call q then None
                  else Some (with_cl c (set_reqs (set_nth r (with_held false q) (c_reqs x)) x) s)
      | None => None
      end
  | CliRecv c ua =>
      match client_recv (eof_for s c) ua (s_cl s c) with
      | Some x => Some (with_cl c x s)
      | None => None
      end
  | CliCleanup c => Some (with_cl c (cleanup (s_cl s c)) s)
  | CliCast c n d =>                                               (* lines 349-364 on a client: request id 0 *)
      let x := s_cl s c in
      if c_run x && c_open x
      then Some (with_cl c (push_out (Full {| req_id := 0; ep_name := n; payload := d |} GCast) x) s) else None
  | CliRaw c i =>                                                  (* a client with its own idea of the protocol *)
      let x := s_cl s c in
      if c_open x then Some (with_cl c (push_out (match i with Full m _ => Full m GRaw | i => i end) x) s) else None
  | CliClose c =>                                                  (* destructor, lines 204-216 *)
      let x := s_cl s c in
      if negb (c_born x) || existsb in_call (c_reqs x) then None else
      Some (with_cl c (set_pending [] (set_in [] (set_flags (c_born x) false false (c_term x)
             (set_reqs (broken (c_pending x) (c_reqs x)) x)))) s)
  | SrvRecv c ans =>                                               (* lines 318-338 and processMsg, 392-406 *)
      let x := s_cl s c in
      match s_up s, s_conn s c, c_out x with
      | true, Accepted, Full m g :: r =>
          let s1 := with_cl c (set_out r x) s in
          if mem (ep_name m) (s_eps s)
          then let s2 := with_calls (s_calls s ++ [(c, m, ans)]) s1 in
               match ans with
               | Some d => Some (with_cl c (push_in (Full {| req_id := req_id m; ep_name := ep_name m; payload := d |} GAns)
                                               (set_out r x)) s2)
               | None => Some s2
               end
          else Some s1
      | true, Accepted, _ :: r => Some (with_conn c Closed (with_cl c (set_out r x) s))
      | _, _, _ => None
      end
  | SrvLost c =>                                                   (* receive fails: the client is gone *)
      match s_up s, s_conn s c, c_open (s_cl s c) with
      | true, Accepted, false => Some (with_conn c Closed s)
      | _, _, _ => None
      end
  | MakeBcast n d =>                                               (* transport.cpp lines 39-43 *)
      Some {| s_up := s_up s; s_eps := s_eps s; s_queue := s_queue s ++ [(n, d)]; s_conn := s_conn s; s_cl := s_cl s;
              s_calls := s_calls s; s_made := s_made s ++ [(n, d)]; s_disp := s_disp s |}
  | DispBcast =>                                                   (* transport_unix.cpp 349-364, transport.cpp 45-51 *)
      if negb (s_up s) then None else
      match rev (s_queue s) with
      | [] => None
      | (n, d) :: rq =>
          let x := Full {| req_id := 0; ep_name := n; payload := d |} (GBcast (length (s_disp s))) in
          Some {| s_up := s_up s; s_eps := s_eps s; s_queue := rev rq; s_conn := s_conn s;
                  s_cl := fun c => if is_accepted (s_conn s c) then push_in x (s_cl s c) else s_cl s c;
                  s_calls := s_calls s; s_made := s_made s; s_disp := s_disp s ++ [(n, d)] |}
      end
  | SrvCrash => if s_up s then Some (with_up false s) else None
  | SrvCrashSending c d j =>                                       (* dies in line 330, in the payload of the answer *)
      let x := s_cl s c in
      match s_up s, s_conn s c, c_out x with
      | true, Accepted, Full m g :: r =>
          if mem (ep_name m) (s_eps s) && (j <? length d)
          then let m' := {| req_id := req_id m; ep_name := ep_name m; payload := firstn j d |} in
               let i := if j mod chunk_size =? 0 then Cut m' else Full m' GAns in
               Some (with_up false (with_calls (s_calls s ++ [(c, m, Some d)]) (with_cl c (push_in i (set_out r x)) s)))
          else None
      | _, _, _ => None
      end
  end.

Fixpoint run (ls : list label) (s : sys) : option sys :=
  match ls with
  | [] => Some s
  | l :: ls' => match step l s with Some s' => run ls' s' | None => None end
  end.
