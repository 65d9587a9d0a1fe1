(** Locks and waiting in the whole library: which mutexes each function takes, in which order, and which threads it waits for.
    Only this is kept of the functions; conditions, loops and the number of times are open ([Either], [Many], [Any]). [std::shared_timed_mutex]
    is treated as if every lock were exclusive (there are more waits than there are). The waits with a time limit (futures, [select], sleeping) end
    by themselves and are left out; so are reading from and writing to sockets, which end if the other side reads and writes.
    The destructors of things are where the last reference to them is dropped; they appear where that can be under a lock. *)
From Coq Require Import List Arith Bool.
Import ListNotations.

(** The mutexes; the numbers tell the objects apart. *)
Inductive lock :=
| LGil                        (* the interpreter lock of Python *)
| LSession (b : nat)          (* CatapultBackend::session_mutex_, catapult_backend.h *)
| LIncoming (s : nat)         (* TraceSession::incoming_mutex_, trace_session.h *)
| LRecorder (r : nat)         (* CatapultRecorder::source_mutex_, catapult_recorder.h *)
| LGeneral (g : nat)          (* GeneralProvider::mapping_mutex_, general_provider.h *)
| LManager (m : nat)          (* EndpointManagerPoll::mutex_, endpoint_manager_poll.h *)
| LRequest (t : nat)          (* request_lock_ of a transport, transport_unix.h, transport_loopback.h *)
| LEndpoint (t : nat)         (* Transport::endpoint_mutex_, transport.h *)
| LWrite (t : nat)            (* TransportUnix::write_lock_, transport_unix.h *)
| LBroadcast (t : nat)        (* Transport::broadcast_message_mutex_, transport.h *)
| LSources (p : nat)          (* NativeTraceProvider::source_mutex_, native_trace_provider.h *)
| LMapping (p : nat)          (* ScopeTracingProvider::mapping_mutex_, scope_tracing_provider.h *)
| LData (s : nat)             (* NativeTraceSource::data_mutex_, native_trace_source.h *)
| LConfig                     (* TraceConfigurator::threads_map_mutex_, trace_configurator.h *)
| LOrphans                    (* TracePointCollectorNative::orphaned_mutex_, tracepoint_collector_native.h *)
| LTracker (k : nat)          (* MapTracker::mutex_ (trace names, buffers, thread names), map_tracker.h *)
| LParser (p : nat)           (* BabeltraceParser::mutex_, babeltrace_parser.h *)
| LUser (n : nat).            (* mutexes of the user *)
Definition lock_dec (a b : lock) : {a = b} + {a <> b}.
Proof. decide equality; apply Nat.eq_dec. Defined.

(** ** The machine: threads that take and release mutexes and wait for others to end *)
Inductive op := Acq (l : lock) | Rel (l : lock) | Wait (t : nat).
Record state := { todo : nat -> list op; owner : lock -> option nat }.
Definition give (f : lock -> option nat) (l : lock) (v : option nat) : lock -> option nat := fun k => if lock_dec k l then v else f k.
Definition next (f : nat -> list op) (t : nat) (r : list op) : nat -> list op := fun u => if Nat.eq_dec u t then r else f u.
(** [None]: thread [t] has ended or must wait. Taking a mutex that one has is waiting for ever. *)
Definition step (t : nat) (s : state) : option state :=
  match todo s t with
  | [] => None
  | Acq l :: r => match owner s l with None => Some {| todo := next (todo s) t r; owner := give (owner s) l (Some t) |} | Some _ => None end
  | Rel l :: r => match owner s l with
                  | Some u => if Nat.eq_dec u t then Some {| todo := next (todo s) t r; owner := give (owner s) l None |} else None
                  | None => None
                  end
  | Wait u :: r => match todo s u with [] => Some {| todo := next (todo s) t r; owner := owner s |} | _ :: _ => None end
  end.
Fixpoint run (ts : list nat) (s : state) : option state :=
  match ts with [] => Some s | t :: ts' => match step t s with Some s' => run ts' s' | None => None end end.
Definition begin (prog : nat -> list op) : state := {| todo := prog; owner := fun _ => None |}.

(** ** Functions *)
Inductive code :=
| Nop
| Seq (a b : code)
| Either (a b : code)
| Many (a : code)
| Any (f : nat -> code)                (* with some object *)
| Locked (l : lock) (a : code)         (* [lock_guard] *)
| Join (t : nat).                      (* [thread::join] *)
Infix ";;" := Seq (at level 61, right associativity).
Inductive trace : code -> list op -> Prop :=
| tr_nop : trace Nop []
| tr_seq a b x y : trace a x -> trace b y -> trace (a ;; b) (x ++ y)
| tr_left a b x : trace a x -> trace (Either a b) x
| tr_right a b x : trace b x -> trace (Either a b) x
| tr_none a : trace (Many a) []
| tr_more a x y : trace a x -> trace (Many a) y -> trace (Many a) (x ++ y)
| tr_any f i x : trace (f i) x -> trace (Any f) x
| tr_locked l a x : trace a x -> trace (Locked l a) (Acq l :: x ++ [Rel l])
| tr_join t : trace (Join t) [Wait t].
Definition maybe (a : code) : code := Either Nop a.
Definition touch (l : lock) : code := Locked l Nop.

(** What the user of the library supplies. *)
Record callbacks := {
  cb_log : code;                       (* loggers *)
  cb_name : code;                      (* [getName] and [setTransport] of an endpoint *)
  cb_handle : nat -> code;             (* [handle] of an endpoint on a transport *)
  cb_unsolicited : nat -> code;        (* [unsolicited] of an endpoint on a transport *)
  cb_factory : code;                   (* endpoint factories *)
  cb_source : code                     (* sources of events: [work], [startInterval], [stopInterval], [finishInterval] *)
}.

(** What the threads are for. [RTransport]: the thread of a transport, [RLoopback]: that of the server side of a loopback; [RSender]: that of a sender on a
    transport; [RUser]: the threads of the user; [RParser]: the thread that reads the output of babeltrace. *)
Inductive role := RServer | RSession | RRecorder | RPoll | RLoopback | RTransport | RSender | RParser | RUser.

Section Library.
Variable roles : nat -> role.
Variable cb : callbacks.
(** Waiting for a thread of some kind. *)
Definition join (r : role -> bool) : code := Any (fun u => if r (roles u) then Join u else Nop).
Definition is_transport (r : role) : bool := match r with RTransport | RLoopback => true | _ => false end.
Definition is_client (r : role) : bool := match r with RTransport => true | _ => false end.
Definition is_sender (r : role) : bool := match r with RSender => true | _ => false end.
Definition is_session (r : role) : bool := match r with RSession => true | _ => false end.
Definition is_recorder (r : role) : bool := match r with RRecorder => true | _ => false end.
Definition is_poll (r : role) : bool := match r with RPoll => true | _ => false end.
Definition is_parser (r : role) : bool := match r with RParser => true | _ => false end.
Definition is_server (r : role) : bool := match r with RServer => true | _ => false end.

(** *** scalopus_interface/src/transport.cpp *)
Definition broadcast (t : nat) : code := touch (LBroadcast t).                                (* 39-43 *)
Definition drop_endpoint : code := maybe (join is_sender).                                    (* ~EndpointNativeTraceSender, endpoint_native_trace_sender.cpp 53-58 *)
Definition add_endpoint (t : nat) : code := Locked (LEndpoint t) (cb_name cb ;; drop_endpoint).   (* 59-64; an endpoint of that name is replaced *)
Definition endpoints_of (t : nat) : code := touch (LEndpoint t).                              (* 66-70, also [getEndpoint] 72-80 *)

(** *** scalopus_transport/src/transport_unix.cpp, transport_loopback.cpp *)
Definition request (t : nat) : code := touch (LWrite t) ;; maybe (touch (LRequest t)).        (* unix 137-162 *)
Definition loopback_request (t : nat) : code := touch (LRequest t).                           (* loopback 62-73 *)
Definition any_request (t : nat) : code := Either (request t) (loopback_request t).
Definition pending (t : nat) : code := touch (LRequest t).                                    (* unix 386-390, loopback 75-79 *)
Definition drop_transport : code := maybe (join is_transport) ;; Many drop_endpoint.          (* unix 204-217, loopback 41-45, and the endpoints *)

(** The endpoints of the library: [handle] (introspect, mapping, process info, configurator) and [unsolicited] (the receiver of events). *)
Definition handle (t : nat) : code :=
  Either (cb_handle cb t) (Either (endpoints_of t) (Either (Any (fun k => touch (LTracker k))) (touch LConfig))).
(** endpoint_native_trace_receiver.cpp 46-50, native_trace_provider.cpp 64-93: [incoming]. *)
Definition incoming_events : code := Any (fun p => touch (LSources p)) ;; Many (Any (fun s => touch (LData s))).
Definition unsolicited (t : nat) : code := Either (cb_unsolicited cb t) incoming_events.
(** transport_unix.cpp 219-384. *)
Definition transport_pass (t : nat) : code :=
  cb_log cb ;;
  maybe (Locked (LRequest t) (maybe (Locked (LEndpoint t) (unsolicited t ;; maybe (touch (LWrite t)))))) ;;       (* 267-303 *)
  Many (handle t ;; maybe (touch (LWrite t))) ;;                                                                  (* 311-348 *)
  Many (touch (LBroadcast t) ;; touch (LBroadcast t) ;; Many (touch (LWrite t))) ;; touch (LBroadcast t) ;;       (* 350-365 *)
  touch (LRequest t).                                                                                             (* 367-382 *)
(** transport_loopback.cpp 81-147. A client: [server] is the other side; it has no clients itself. *)
Definition client_pass (t server : nat) : code :=
  Locked (LRequest t) (Many (endpoints_of server ;; handle server)) ;; Many (touch (LBroadcast t) ;; touch (LBroadcast t)) ;; touch (LBroadcast t).
(** The server: it may be the last to have a client; that it is then the last to have itself (C53) is left out. *)
Definition server_pass (t : nat) : code :=
  touch (LRequest t) ;;
  Many (touch (LBroadcast t) ;; touch (LBroadcast t) ;;
        Many (Any (fun client => endpoints_of client ;; unsolicited client ;; maybe (endpoints_of t ;; handle client)) ;; maybe (join is_client ;; Many drop_endpoint))) ;; touch (LBroadcast t).
Definition loopback_thread : code := Many (Any server_pass).
Definition transport_thread : code := Many (Any (fun t => Either (transport_pass t) (Any (fun server => client_pass t server)))).

(** *** scalopus_general/src/endpoint_manager_poll.cpp *)
Definition manage (m : nat) : code :=                                                         (* 53-117 *)
  Locked (LManager m)
    (Many (cb_log cb ;; drop_transport) ;;
     Many (cb_log cb ;; Any (fun t => any_request t ;; Many (Either (cb_factory cb ;; add_endpoint t) (cb_log cb))) ;; drop_transport)).
Definition endpoints (m : nat) : code := touch (LManager m).                                  (* 149-153 *)
Definition add_factory (m : nat) : code := touch (LManager m).                                (* 155-159 *)
Definition stop_polling : code := maybe (join is_poll).                                       (* 131-139 *)
Definition poll_thread : code := Many (Any manage).                                           (* 140-147 *)

(** *** Sources of events *)
Definition update_mapping (p : nat) : code := maybe (Any endpoints ;; Many (Any any_request)) ;; touch (LMapping p).   (* scope_tracing_provider.cpp 46-79 *)
Definition native_source (p s : nat) : code :=
  Either (touch (LData s))                                                                    (* native_trace_source.cpp 46-54 *)
         (maybe (update_mapping p) ;; touch (LMapping p) ;; touch (LData s)).                 (* 71-90 *)
Definition general_source (g : nat) : code :=                                                 (* general_provider.cpp 46-69, general_source.cpp 38-43 *)
  Locked (LGeneral g) (Any endpoints ;; Many (Any any_request)) ;; touch (LGeneral g).
(** lttng_source.cpp 44-165, babeltrace_tool.cpp 102-115, babeltrace_parser.cpp 145-152. *)
Definition lttng_source (p : nat) : code := Either (Locked (LParser p) (cb_log cb)) (update_mapping p ;; touch (LMapping p)).
(** babeltrace_parser.cpp 53-127; the callbacks are those of the sources, they only keep the event. *)
Definition parser_thread : code := Many (Any (fun p => maybe (Locked (LParser p) (Many (cb_log cb)))) ;; cb_log cb).
(** babeltrace_parser.cpp 134-139, babeltrace_tool.cpp 84-100, when the provider ends. *)
Definition halt_parser : code := maybe (Any (fun p => touch (LParser p)) ;; join is_parser).
Definition source : code := Either (cb_source cb) (Either (Any (fun p => Any (fun s => native_source p s))) (Either (Any general_source) (Any lttng_source))).
Definition make_source : code := Any (fun p => touch (LSources p)).                           (* native_trace_provider.cpp 44-50 *)
(** A provider may be the last to have the manager, and the manager the last to have transports. *)
Definition drop_source : code := halt_parser ;; maybe (stop_polling ;; Many drop_transport).

(** *** scalopus_catapult/src *)
Definition session_thread : code :=                                                           (* trace_session.cpp 71-92; answers are handed to the server thread *)
  Many (Any (fun s => touch (LIncoming s) ;; maybe (touch (LIncoming s) ;; cb_log cb ;; Many (Either source (cb_log cb)))) ;; Many source).
Definition server_thread : code :=                                                            (* catapult_backend.cpp 98-176 *)
  Many (Any (fun b =>
    Either (cb_log cb)
   (Either (Locked (LSession b) (Many make_source))                                           (* 144-176: a page connects *)
   (Either (touch (LSession b) ;; Either (cb_log cb) (Any (fun s => touch (LIncoming s))))    (* 109-120: a message *)
   (Either (Locked (LSession b) (join is_session ;; Many drop_source))                        (* 134-142: a page is gone *)
           (touch (LSession b))))))).                                                         (* 154-162: an answer is sent *)
Definition recorder_thread : code := Many (Any (fun r => Locked (LRecorder r) (Many source))).   (* catapult_recorder.cpp 36-52 *)
Definition recorder_call (r : nat) : code :=
  Either (Locked (LRecorder r) (Many source))                                                 (* 60-76, 102-119 *)
 (Either (join is_recorder)                                                                   (* 54-58 *)
         (Many make_source ;; Many drop_source)).                                             (* 83-100 *)

(** endpoint_native_trace_sender.cpp 75-112, tracepoint_collector_native.cpp 99-112. *)
Definition sender_thread : code := Many (touch LOrphans ;; Any (fun k => touch (LTracker k)) ;; maybe (Any broadcast)).

(** *** What the user calls *)
Definition trace_point : code :=                                                              (* trace_configurator.cpp 40-66, tracepoint_collector_native.cpp 52-97 *)
  touch LConfig ;; Any (fun k => touch (LTracker k) ;; touch (LTracker k)).
Definition thread_ends : code := maybe (touch LConfig) ;; maybe (Any (fun k => touch (LTracker k) ;; touch (LTracker k)) ;; touch LOrphans ;; Any (fun k => touch (LTracker k))).
Definition api : code :=
  Either (Any (fun t => Either (any_request t) (Either (pending t) (Either (broadcast t) (Either (add_endpoint t) (endpoints_of t))))))
 (Either (Any (fun m => Either (manage m) (Either (endpoints m) (Either (add_factory m) stop_polling))))
 (Either (Any (fun r => recorder_call r))
 (Either source
 (Either (Many make_source)
 (Either drop_transport
 (Either drop_source
 (Either (join is_server ;; Many (join is_session))                                           (* ~CatapultServer, and the sessions of the backend *)
 (Either trace_point thread_ends)))))))).
(** A thread of the user: library calls, some of them from Python, that is with the interpreter lock; also the user's own locks. *)
Definition user_thread : code := Many (Either api (Either (Locked LGil (Many api)) (Any (fun n => touch (LUser n))))).

Definition thread_code (t : nat) : code :=
  match roles t with
  | RServer => server_thread | RSession => session_thread | RRecorder => recorder_thread | RPoll => poll_thread
  | RLoopback => loopback_thread | RTransport => transport_thread | RSender => sender_thread | RParser => parser_thread | RUser => user_thread
  end.
End Library.
