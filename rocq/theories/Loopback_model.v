(** Model of [scalopus_transport/src/transport_loopback.cpp]: a loopback client, the server it is connected to
    and the worker thread of the client; and the broadcasts of a loopback server.

    As in [UnixSystem_model], [step l s] is one atomic step, schedules are lists of steps and the answers of
    the endpoints are part of the schedule.  The worker holds [request_lock_] from line 89 to line 119, so
    [request] and [pendingRequests] (which take the lock, lines 69 and 77) are not possible meanwhile; releasing
    a future and adding an endpoint to the server are.

    Simplifications: one client; a handler does not itself use the client's [request] (that would deadlock,
    line 69 under line 89, and is the subject of C53); memory is not exhausted. *)
From Coq Require Import List Arith NArith Ascii Bool.
Import ListNotations.
From Verif Require Import Protocol_model UnixSystem_model.

(** The shared state of a promise. [LRuntime] is the exception of lines 105-106. *)
Inductive lval := LUnready | LValue (d : bytes) | LRuntime | LBroken.

Record lreq := { lr_name : bytes; lr_data : bytes; lr_held : bool; lr_val : lval }.

Record lstate := {
  lo_eps : list bytes;                             (* names registered at the server *)
  lo_reqs : list lreq;                             (* every request made, oldest first *)
  lo_queue : list nat;                             (* [ongoing_requests_], by request number *)
  lo_todo : option (list nat);                     (* what the loop of line 90 has yet to visit; [None]: lock not held *)
  lo_calls : list (nat * bytes * bytes * option bytes);   (* calls of [handle]: request, endpoint, payload, answer *)
}.

Definition lo0 : lstate := {| lo_eps := []; lo_reqs := []; lo_queue := []; lo_todo := None; lo_calls := [] |}.

Inductive llabel :=
  | LRequest (n d : bytes)
  | LDrop (r : nat)
  | LAddEp (n : bytes)
  | LBegin
  | LServe (ans : option bytes)
  | LEnd.

(** The next state, undefined behaviour, or not possible. *)
Inductive lres := LNext (s : lstate) | LUB | LStuck.

Definition l_with_val (x : lval) (r : lreq) : lreq :=
  {| lr_name := lr_name r; lr_data := lr_data r; lr_held := lr_held r; lr_val := x |}.

(** [ongoing_requests_.clear()], line 118: a promise without a value is broken by its destruction. *)
Definition break_all (q : list nat) (l : list lreq) : list lreq :=
  fold_left (fun l r => match nth_error l r with
                        | Some x => match lr_val x with LUnready => set_nth r (l_with_val LBroken x) l | _ => l end
                        | None => l end) q l.

Definition lstep (l : llabel) (s : lstate) : lres :=
  match l with
  | LRequest n d =>                                                  (* request, lines 62-73 *)
      match lo_todo s with
      | Some _ => LStuck
      | None => LNext {| lo_eps := lo_eps s;
                         lo_reqs := lo_reqs s ++ [{| lr_name := n; lr_data := d; lr_held := true; lr_val := LUnready |}];
                         lo_queue := lo_queue s ++ [length (lo_reqs s)]; lo_todo := None; lo_calls := lo_calls s |}
      end
  | LDrop r =>                                                       (* the caller releases the future *)
      match nth_error (lo_reqs s) r with
      | Some x => LNext {| lo_eps := lo_eps s;
                           lo_reqs := set_nth r {| lr_name := lr_name x; lr_data := lr_data x; lr_held := false; lr_val := lr_val x |} (lo_reqs s);
                           lo_queue := lo_queue s; lo_todo := lo_todo s; lo_calls := lo_calls s |}
      | None => LStuck
      end
  | LAddEp n =>                                                      (* transport.cpp lines 59-64, at the server *)
      LNext {| lo_eps := n :: lo_eps s; lo_reqs := lo_reqs s; lo_queue := lo_queue s; lo_todo := lo_todo s; lo_calls := lo_calls s |}
  | LBegin =>                                                        (* line 89 *)
      match lo_todo s with
      | Some _ => LStuck
      | None => LNext {| lo_eps := lo_eps s; lo_reqs := lo_reqs s; lo_queue := lo_queue s; lo_todo := Some (lo_queue s); lo_calls := lo_calls s |}
      end
  | LServe ans =>                                                    (* lines 90-117, one turn of the loop *)
      match lo_todo s with
      | Some (r :: rest) =>
          match nth_error (lo_reqs s) r with
          | Some x =>
              if negb (lr_held x)                                    (* lines 94-97 *)
              then LNext {| lo_eps := lo_eps s; lo_reqs := lo_reqs s; lo_queue := lo_queue s; lo_todo := Some rest; lo_calls := lo_calls s |}
              else if mem (lr_name x) (lo_eps s)
              then let v := match ans with Some d => LValue d | None => lr_val x end in   (* lines 109-116 *)
                   LNext {| lo_eps := lo_eps s; lo_reqs := set_nth r (l_with_val v x) (lo_reqs s); lo_queue := lo_queue s;
                            lo_todo := Some rest; lo_calls := lo_calls s ++ [(r, lr_name x, lr_data x, ans)] |}
              else LUB                                               (* lines 103-111: set_exception, then a call through null *)
          | None => LStuck
          end
      | _ => LStuck
      end
  | LEnd =>                                                          (* lines 118-119 *)
      match lo_todo s with
      | Some [] => LNext {| lo_eps := lo_eps s; lo_reqs := break_all (lo_queue s) (lo_reqs s); lo_queue := []; lo_todo := None; lo_calls := lo_calls s |}
      | _ => LStuck
      end
  end.

Fixpoint lrun (ls : list llabel) (s : lstate) : lres :=
  match ls with
  | [] => LNext s
  | l :: ls' => match lstep l s with LNext s' => lrun ls' s' | r => r end
  end.

(** pendingRequests, lines 75-79, when the lock is free. *)
Definition l_pending (s : lstate) : nat := length (lo_queue s).

(** ** Requests on a transport that is not connected *)
(** The same worker and the same [request] in a transport made by [serve]: [server_] is null, and serving a request that
    is still wanted calls through it (line 100). *)
Definition lstep_unconnected (l : llabel) (s : lstate) : lres :=
  match l with
  | LServe _ =>
      match lo_todo s with
      | Some (r :: rest) =>
          match nth_error (lo_reqs s) r with
          | Some x => if negb (lr_held x)
                      then LNext {| lo_eps := lo_eps s; lo_reqs := lo_reqs s; lo_queue := lo_queue s; lo_todo := Some rest; lo_calls := lo_calls s |}
                      else LUB
          | None => LStuck
          end
      | _ => LStuck
      end
  | _ => lstep l s
  end.

Fixpoint lrun_unconnected (ls : list llabel) (s : lstate) : lres :=
  match ls with
  | [] => LNext s
  | l :: ls' => match lstep_unconnected l s with LNext s' => lrun_unconnected ls' s' | r => r end
  end.

(** ** Broadcasts of the server, lines 121-147 *)
(** A client in [clients_]: alive or not, and the endpoints registered at it. *)
Record lclient := { lc_alive : bool; lc_eps : list bytes }.

(** Deliveries: client number, endpoint, payload. *)
Inductive bres := BNext (log : list (nat * bytes * bytes)) | BUB | BTerminate.

Section Broadcast.
Variable answer : nat -> bytes -> bytes -> option bytes.    (* [unsolicited] of a client endpoint *)
Variable server_handle : bytes -> bytes -> option bytes.    (* [handle] of a server endpoint *)

Fixpoint to_clients (seps : list bytes) (n d : bytes) (i : nat) (cs : list lclient) (log : list (nat * bytes * bytes)) : bres :=
  match cs with
  | [] => BNext log
  | c :: cs' =>
      if lc_alive c && mem n (lc_eps c)
      then let log' := log ++ [(i, n, d)] in
           match answer i n d with
           | None => to_clients seps n d (S i) cs' log'
           | Some r => if mem n seps                                 (* line 137: getEndpoint(...)->handle *)
                       then match server_handle n r with
                            | Some _ => BTerminate                   (* line 140: exception leaves the thread *)
                            | None => to_clients seps n d (S i) cs' log'
                            end
                       else BUB                                      (* call through null *)
           end
      else to_clients seps n d (S i) cs' log
  end.

(** [rq] is the queue with the most recent broadcast first ([popBroadcast], transport.cpp lines 45-51). *)
Fixpoint broadcasts (seps : list bytes) (cs : list lclient) (rq : list (bytes * bytes)) (log : list (nat * bytes * bytes)) : bres :=
  match rq with
  | [] => BNext log
  | (n, d) :: rq' =>
      match to_clients seps n d 0 cs log with
      | BNext log' => broadcasts seps cs rq' log'
      | r => r
      end
  end.
End Broadcast.

(** ** Connecting while the server is broadcasting *)
(** [clients_] is a [std::vector] (transport_loopback.h line 83). [addClient] (line 52) appends to it on the thread
    that connects; the worker of the server iterates over it (line 127), and no lock is taken by either.
    [k_len] elements, room for [k_cap]; [k_gen] numbers the storage: appending to a full vector moves the elements to
    new storage and frees the old one. [k_iter] is the iteration in progress: storage, position and end, as fixed
    by the range-based loop when it starts.
    Simplification: accesses are single steps; the C++ memory model already calls every overlap a data race. *)
Record kstate := { k_len : nat; k_cap : nat; k_gen : nat; k_iter : option (nat * nat * nat); k_visited : list nat }.

Inductive klabel := KConnect | KBegin | KNext.

Inductive kres := KNextS (s : kstate) | KUB | KStuck.

Definition k0 : kstate := {| k_len := 0; k_cap := 0; k_gen := 0; k_iter := None; k_visited := [] |}.

Definition kstep (l : klabel) (s : kstate) : kres :=
  match l with
  | KConnect =>                                                      (* line 52 *)
      if k_len s =? k_cap s
      then KNextS {| k_len := S (k_len s); k_cap := if k_cap s =? 0 then 1 else 2 * k_cap s; k_gen := S (k_gen s);
                     k_iter := k_iter s; k_visited := k_visited s |}
      else KNextS {| k_len := S (k_len s); k_cap := k_cap s; k_gen := k_gen s; k_iter := k_iter s; k_visited := k_visited s |}
  | KBegin =>                                                        (* line 127, begin() and end() *)
      match k_iter s with
      | Some _ => KStuck
      | None => KNextS {| k_len := k_len s; k_cap := k_cap s; k_gen := k_gen s; k_iter := Some (k_gen s, 0, k_len s); k_visited := [] |}
      end
  | KNext =>                                                         (* line 127, test for the end, copy of one element *)
      match k_iter s with
      | None => KStuck
      | Some (g, i, e) =>
          if i =? e then KNextS {| k_len := k_len s; k_cap := k_cap s; k_gen := k_gen s; k_iter := None; k_visited := k_visited s |}
          else if g =? k_gen s
          then KNextS {| k_len := k_len s; k_cap := k_cap s; k_gen := k_gen s; k_iter := Some (g, S i, e); k_visited := k_visited s ++ [i] |}
          else KUB                                                   (* the storage has been freed *)
      end
  end.

Fixpoint krun (ls : list klabel) (s : kstate) : kres :=
  match ls with
  | [] => KNextS s
  | l :: ls' => match kstep l s with KNextS s' => krun ls' s' | r => r end
  end.
