(** Data races: which variables the functions of the library read and write, and under which mutexes.
    Only this is kept; conditions, loops and the number of times are open ([Either], [Many], [Any]). What is atomic ([std::atomic]) is no variable here.
    Not here: what constructors do before their object is known to another thread, and what destructors do after the thread of their object has ended;
    [CatapultRecorder::start] and [TraceSession::setLogger] count as construction (nothing else can reach the object's worker before).
    That an object is still there when it is used is another matter (C46, C53, C55). The slots of the ring buffers are in RingBuffer_model. *)
From Coq Require Import List Arith Bool.
Import ListNotations.
From Verif Require Locks_model.
Import Locks_model(lock(..), lock_dec).

(** What the threads are for, and for which object. *)
Inductive role :=
| RServer (b : nat) | RSession (s : nat) | RRecorder (r : nat) | RPoll (m : nat)
| RTransport (t : nat)       (* the thread of a transport of either kind *)
| RSender (e : nat) | RParser (p : nat)
| RUser.
Definition role_dec (a b : role) : {a = b} + {a <> b}.
Proof. decide equality; apply Nat.eq_dec. Defined.

(** The variables. *)
Inductive loc :=
| VBroadcasts (t : nat)      (* Transport::broadcast_messages_, transport.h *)
| VEndpoints (t : nat)       (* Transport::endpoints_, of a unix transport *)
| VLoopEndpoints (t : nat)   (* the same, of a loopback transport *)
| VTransportLogger (t : nat) (* Transport::logger_ *)
| VOngoing (t : nat)         (* ongoing_requests_, transport_unix.h, transport_loopback.h *)
| VConnections (t : nat)     (* TransportUnix::connections_ *)
| VClientFd (t : nat)        (* TransportUnix::client_fd_ *)
| VRunning (t : nat)         (* running_, transport_unix.h 92, transport_loopback.h *)
| VClients (t : nat)         (* TransportLoopback::clients_ *)
| VServers (f : nat)         (* TransportLoopbackFactory::servers_ *)
| VTransport (e : nat)       (* Endpoint::transport_, endpoint.h 91 *)
| VProcessName (e : nat)     (* EndpointProcessInfo::info_.name *)
| VSenderRunning (e : nat)   (* EndpointNativeTraceSender::running_ *)
| VManager (m : nat)         (* EndpointManagerPoll::transports_, transport_endpoints_, endpoint_factories_ *)
| VPolling (m : nat)         (* EndpointManagerPoll::is_polling_ *)
| VManagerLogger (m : nat)   (* EndpointManagerPoll::logger_ *)
| VScopes (p : nat)          (* ScopeTracingProvider::mapping_ *)
| VGeneral (g : nat)         (* GeneralProvider::mapping_ *)
| VSources (p : nat)         (* NativeTraceProvider::sources_ *)
| VProviderLogger (p : nat)  (* NativeTraceProvider::logger_ *)
| VRecorded (s : nat)        (* NativeTraceSource::recorded_data_ *)
| VIncoming (s : nat)        (* TraceSession::incoming_msg_ *)
| VSessionSources (s : nat)  (* TraceSession::sources_ *)
| VSessionRunning (s : nat)  (* TraceSession::running_, trace_session.h 110 *)
| VSessions (b : nat)        (* CatapultBackend::sessions_ *)
| VProviders (b : nat)       (* CatapultBackend::providers_ *)
| VBackendLogger (b : nat)   (* CatapultBackend::logger_ *)
| VRecSources (r : nat)      (* CatapultRecorder::sources_ *)
| VOrphans                   (* TracePointCollectorNative::orphaned_tid_buffers_ *)
| VTable (k : nat)           (* MapTracker::mapping_ (trace names, buffers, thread names) *)
| VThreads                   (* TraceConfigurator::thread_state_ *)
| VRegistered (n : nat)      (* the static bool of a trace point in the source, trace_macro.h 48 *)
| VRecording (p : nat)       (* BabeltraceParser::sessions_recording_ *)
| VParserLogger (p : nat)    (* BabeltraceParser::logger_ *)
| VCallback (c : nat)        (* EventCallback::active and ::callback, babeltrace_parser.h *)
| VEvents (c : nat)          (* LttngSource::events_, to which the callback [c] adds *)
| VUser (n : nat).           (* of the user *)
Definition loc_dec (a b : loc) : {a = b} + {a <> b}.
Proof. decide equality; apply Nat.eq_dec. Defined.

(** ** The machine: threads that take mutexes, alone or shared, read and write, and wait for others to end *)
Inductive mode := Excl | Shared.
Definition mode_dec (a b : mode) : {a = b} + {a <> b}.
Proof. decide equality. Defined.
Inductive op := Acq (m : mode) (l : lock) | Rel (m : mode) (l : lock) | Get (x : loc) | Put (x : loc) | Wait (t : nat).
Definition holder := (mode * nat)%type.
Definition holder_dec (a b : holder) : {a = b} + {a <> b}.
Proof. decide equality; [apply Nat.eq_dec|apply mode_dec]. Defined.
Record state := { todo : nat -> list op; holders : lock -> list holder }.
Definition give (f : lock -> list holder) (l : lock) (v : list holder) : lock -> list holder := fun k => if lock_dec k l then v else f k.
Definition next (f : nat -> list op) (t : nat) (r : list op) : nat -> list op := fun u => if Nat.eq_dec u t then r else f u.
Fixpoint drop (h : holder) (hs : list holder) : list holder :=
  match hs with [] => [] | k :: r => if holder_dec k h then r else k :: drop h r end.
Definition free (m : mode) (hs : list holder) : bool :=
  match m with
  | Excl => match hs with [] => true | _ :: _ => false end
  | Shared => forallb (fun h => match fst h with Excl => false | Shared => true end) hs
  end.
Definition step (t : nat) (s : state) : option state :=
  match todo s t with
  | [] => None
  | Acq m l :: r => if free m (holders s l) then Some {| todo := next (todo s) t r; holders := give (holders s) l ((m, t) :: holders s l) |} else None
  | Rel m l :: r => Some {| todo := next (todo s) t r; holders := give (holders s) l (drop (m, t) (holders s l)) |}
  | Get _ :: r | Put _ :: r => Some {| todo := next (todo s) t r; holders := holders s |}
  | Wait u :: r => match todo s u with [] => Some {| todo := next (todo s) t r; holders := holders s |} | _ :: _ => None end
  end.
Fixpoint run (ts : list nat) (s : state) : option state :=
  match ts with [] => Some s | t :: ts' => match step t s with Some s' => run ts' s' | None => None end end.
Definition begin (prog : nat -> list op) : state := {| todo := prog; holders := fun _ => [] |}.

(** ** Functions *)
Inductive code :=
| Nop
| Seq (a b : code)
| Either (a b : code)
| Many (a : code)
| Any (f : nat -> code)                            (* with some object *)
| Locked (m : mode) (l : lock) (a : code)          (* [lock_guard], [unique_lock]; [shared_lock] *)
| Read (x : loc)
| Write (x : loc)                                  (* changes; may read as well *)
| Join (t : nat).                                  (* [thread::join] *)
Infix ";;" := Seq (at level 61, right associativity).
Inductive trace : code -> list op -> Prop :=
| tr_nop : trace Nop []
| tr_seq a b x y : trace a x -> trace b y -> trace (a ;; b) (x ++ y)
| tr_left a b x : trace a x -> trace (Either a b) x
| tr_right a b x : trace b x -> trace (Either a b) x
| tr_none a : trace (Many a) []
| tr_more a x y : trace a x -> trace (Many a) y -> trace (Many a) (x ++ y)
| tr_any f i x : trace (f i) x -> trace (Any f) x
| tr_locked m l a x : trace a x -> trace (Locked m l a) (Acq m l :: x ++ [Rel m l])
| tr_read x : trace (Read x) [Get x]
| tr_write x : trace (Write x) [Put x]
| tr_join t : trace (Join t) [Wait t].
Definition maybe (a : code) : code := Either Nop a.
Definition under (l : lock) (a : code) : code := Locked Excl l a.

(** What the user of the library supplies. *)
Record callbacks := {
  cb_log : code;                       (* loggers *)
  cb_name : code;                      (* [getName] of an endpoint *)
  cb_handle : nat -> code;             (* [handle] of an endpoint on a transport *)
  cb_unsolicited : nat -> code;        (* [unsolicited] of an endpoint on a transport *)
  cb_factory : code;                   (* endpoint factories *)
  cb_source : code                     (* sources of events: [work], [startInterval], [stopInterval], [finishInterval] *)
}.

Section Library.
Variable roles : nat -> role.
Variable cb : callbacks.
Definition join (r : role) : code := Any (fun u => if role_dec (roles u) r then Join u else Nop).

(** *** scalopus_interface/src/transport.cpp; a transport is a unix one or a loopback one *)
Definition broadcast (t : nat) : code := under (LBroadcast t) (Write (VBroadcasts t)).                     (* 39-43 *)
Definition pop_broadcast (t : nat) : code := under (LBroadcast t) (Write (VBroadcasts t)).                 (* 45-51 *)
Definition have_broadcast (t : nat) : code := under (LBroadcast t) (Read (VBroadcasts t)).                 (* 53-57 *)
Definition table (t : nat) (loopback : bool) : loc := if loopback then VLoopEndpoints t else VEndpoints t.
Definition end_sender : code := maybe (Any (fun e => Write (VSenderRunning e) ;; join (RSender e))).       (* endpoint_native_trace_sender.cpp 53-58 *)
Definition add_endpoint (t : nat) (lb : bool) : code :=                                                    (* 59-64, endpoint.cpp 44-47 *)
  under (LEndpoint t) (cb_name cb ;; Write (table t lb) ;; end_sender ;; Any (fun e => Write (VTransport e))).
Definition endpoints_of (t : nat) (lb : bool) : code := under (LEndpoint t) (Read (table t lb)).           (* 66-70, also [getEndpoint] 72-80 *)
Definition transport_logger (t : nat) : code := Write (VTransportLogger t).                                (* 83-86 *)
Definition transport_log (t : nat) : code := Read (VTransportLogger t) ;; cb_log cb.

(** *** scalopus_transport/src/transport_unix.cpp, transport_loopback.cpp *)
Definition unix_request (t : nat) : code := under (LWrite t) (Read (VClientFd t)) ;; maybe (under (LRequest t) (Write (VOngoing t))).   (* unix 138-162 *)
Definition loopback_request (t : nat) : code := under (LRequest t) (Write (VOngoing t)).                   (* loopback 62-73 *)
Definition request (t : nat) : code := Either (unix_request t) (loopback_request t).
Definition pending (t : nat) : code := under (LRequest t) (Read (VOngoing t)).                             (* unix 386-390, loopback 75-79 *)
Definition is_connected (t : nat) : code := maybe (Read (VClientFd t)).                                    (* unix 164-167, loopback 57-60 *)
Definition end_transport : code := maybe (Any (fun t => Write (VRunning t) ;; join (RTransport t))) ;; Many end_sender.   (* unix 204-208, loopback 41-45 *)
Definition read_transport : code := Any (fun e => Read (VTransport e)).

(** The endpoints of the library: introspect (45-56), trace mapping (49-62), process info (60-75), configurator (106-147). *)
Definition tracker_read (k : nat) : code := Locked Shared (LTracker k) (Read (VTable k)).                  (* map_tracker.h 63-86 *)
Definition tracker_write (k : nat) : code := under (LTracker k) (Write (VTable k)).                        (* map_tracker.h 53-57, 91-104 *)
Definition handle (t : nat) (lb : bool) : code :=
  Either (cb_handle cb t) (Either (endpoints_of t lb) (Either (Any tracker_read)
  (Either (Any (fun e => Read (VProcessName e)) ;; Any tracker_read) (under LConfig (Read VThreads))))).
(** endpoint_native_trace_receiver.cpp 45-49, native_trace_provider.cpp 64-91; native_trace_source.cpp [addData]. *)
Definition incoming_events : code := Any (fun p => under (LSources p) (Read (VSources p))) ;; Many (Any (fun s => under (LData s) (Write (VRecorded s)))).
Definition unsolicited (t : nat) : code := Either (cb_unsolicited cb t) incoming_events.
(** transport_unix.cpp 218-384 and [processMsg] 392-406, which looks into [endpoints_] without a lock. *)
Definition process_msg (t : nat) : code := Read (VEndpoints t) ;; handle t false.
Definition unix_pass (t : nat) : code :=
  Read (VRunning t) ;; Read (VConnections t) ;;
  maybe (transport_log t) ;;
  maybe (Write (VConnections t)) ;;                                                                        (* 248-258 *)
  Read (VClientFd t) ;;
  maybe (maybe (Write (VRunning t) ;; Write (VClientFd t)) ;;                                              (* 261-302 *)
         under (LRequest t) (Write (VOngoing t) ;;
           maybe (under (LEndpoint t) (Read (VEndpoints t) ;; unsolicited t ;; maybe (under (LWrite t) (Read (VClientFd t))))))) ;;
  maybe (transport_log t) ;;
  Read (VConnections t) ;;
  Many (Read (VClientFd t) ;; maybe (process_msg t ;; maybe (under (LWrite t) Nop)) ;; maybe (Write (VConnections t))) ;;   (* 310-346 *)
  Many (have_broadcast t ;; pop_broadcast t ;; Read (VConnections t) ;; Many (under (LWrite t) Nop)) ;; have_broadcast t ;; (* 349-364 *)
  under (LRequest t) (Write (VOngoing t)).                                                                 (* 366-382 *)
(** transport_loopback.cpp 81-151. *)
Definition loopback_pass (t : nat) : code :=
  Read (VRunning t) ;;
  under (LRequest t) (Many (Any (fun server => endpoints_of server true ;; handle server true)) ;; Write (VOngoing t)) ;;
  Many (have_broadcast t ;; pop_broadcast t ;;
        Many (Read (VClients t) ;; maybe (Any (fun client => endpoints_of client true ;; maybe (unsolicited client ;; maybe (endpoints_of t true ;; handle client true))) ;; end_transport))) ;;
  have_broadcast t.
Definition transport_thread (t : nat) : code := Either (Many (unix_pass t)) (Many (loopback_pass t)).
(** Factories: unix 424-470; loopback 175-214. *)
Definition discover : code := maybe (Any (fun f => Read (VServers f))).
Definition serve : code := maybe (Any (fun f => Write (VServers f))).
Definition connect_to : code := maybe (Any (fun server => Write (VClients server))).

(** *** scalopus_general/src/endpoint_manager_poll.cpp *)
Definition manager_log (m : nat) : code := Read (VManagerLogger m) ;; cb_log cb.                           (* 161-167 *)
Definition connect (m : nat) : code :=                                                                     (* 78-122 *)
  Read (VManager m) ;; maybe (manager_log m ;; connect_to ;; Any (fun t => is_connected t) ;;
  Either (manager_log m ;; end_transport)
         (Write (VManager m) ;; Any (fun t => request t ;;
          Many (Read (VManager m) ;; Either (cb_factory cb ;; maybe (Write (VManager m) ;; Either (add_endpoint t true) (add_endpoint t false))) (manager_log m))))).
Definition manage (m : nat) : code :=                                                                      (* 53-76 *)
  under (LManager m) (Read (VManager m) ;; Many (Any is_connected ;; maybe (manager_log m ;; Write (VManager m) ;; end_transport)) ;; discover ;; Many (connect m)).
Definition endpoints (m : nat) : code := under (LManager m) (Read (VManager m)).                           (* 149-153 *)
Definition add_factory (m : nat) : code := under (LManager m) (Write (VManager m)).                        (* 155-159 *)
Definition stop_polling (m : nat) : code := Read (VPolling m) ;; maybe (Write (VPolling m) ;; join (RPoll m)).   (* 132-139 *)
Definition manager_logger (m : nat) : code := Write (VManagerLogger m).                                    (* 168-171 *)
Definition poll_thread (m : nat) : code := Many (Read (VPolling m) ;; manage m).                           (* 140-147 *)

(** *** Sources of events *)
Definition ask : code := Any endpoints ;; Many (read_transport ;; Any request).
Definition update_mapping (p : nat) : code := maybe ask ;; under (LMapping p) (Write (VScopes p)).         (* scope_tracing_provider.cpp 46-79 *)
Definition get_mapping (p : nat) : code := under (LMapping p) (Read (VScopes p)).                          (* 40-44 *)
Definition native_start (s : nat) : code := under (LData s) (Write (VRecorded s)).                         (* native_trace_source.cpp 46-54 *)
Definition native_finish (p s : nat) : code :=                                                             (* 70-186 *)
  maybe (update_mapping p) ;; get_mapping p ;; under (LData s) (Write (VRecorded s)) ;; maybe (Read (VProviderLogger p) ;; cb_log cb).
Definition general_finish (g : nat) : code := under (LGeneral g) (Write (VGeneral g) ;; ask ;; Write (VGeneral g)) ;; under (LGeneral g) (Read (VGeneral g)).   (* general_source.cpp 40-73, general_provider.cpp 46-68 *)
Definition make_source : code := maybe (Any (fun p => under (LSources p) (Write (VSources p)))).           (* native_trace_provider.cpp 44-50 *)
(** lttng_source.cpp, babeltrace_tool.cpp, babeltrace_parser.cpp; [p] is the parser, [c] the callback of the source and the source. *)
Definition parser_log (p : nat) : code := Read (VParserLogger p) ;; cb_log cb.
Definition lttng_stop (c : nat) : code := maybe (Write (VCallback c)).                                     (* source 51-58, [disable] in the header *)
Definition set_callback (p : nat) : code := under (LParser p) (parser_log p ;; Write (VRecording p)).      (* parser 145-152 *)
Definition lttng_start (p c : nat) : code := lttng_stop c ;; Write (VEvents c) ;; Any (fun c' => Write (VCallback c')) ;; set_callback p.   (* source 44-49, tool 102-115 *)
Definition lttng_finish (p c : nat) : code := lttng_stop c ;; Read (VEvents c) ;; update_mapping p ;; get_mapping p.   (* source 64-165 *)
Definition parser_thread (p : nat) : code :=                                                               (* parser 53-127 *)
  Many (maybe (under (LParser p) (Read (VRecording p) ;;
    Many (Any (fun c => Read (VCallback c) ;; Either (parser_log p ;; Write (VRecording p)) (maybe (Write (VEvents c))))))) ;; maybe (parser_log p)).
Definition halt_parser (p : nat) : code := under (LParser p) (Write (VRecording p)) ;; join (RParser p).   (* parser 134-139, tool 84-91 *)
Definition source : code :=
  Either (cb_source cb) (Either (Any native_start) (Either (Any (fun p => Any (native_finish p))) (Either (Any general_finish)
  (Either (Any (fun p => Any (lttng_start p))) (Either (Any lttng_stop) (Any (fun p => Any (lttng_finish p)))))))).
(** A provider may be the last to have the manager, and the manager the last to have transports. *)
Definition end_source : code := maybe (Any lttng_stop) ;; maybe (Any halt_parser) ;; maybe (Any stop_polling ;; Many end_transport).

(** *** scalopus_catapult/src *)
Definition have_incoming (s : nat) : code := under (LIncoming s) (Read (VIncoming s)).                     (* trace_session.cpp 58-62 *)
Definition session_thread (s : nat) : code :=                                                              (* 72-144; answers are handed to the server thread *)
  Many (Read (VSessionRunning s) ;;
        Many (have_incoming s ;; Read (VSessionRunning s) ;; under (LIncoming s) (Write (VIncoming s)) ;; cb_log cb ;; Many (Read (VSessionSources s) ;; maybe source)) ;;
        have_incoming s ;; Many (Read (VSessionSources s) ;; cb_source cb)).                                (* [work] of the sources of the library does nothing *)
Definition backend_log (b : nat) : code := Read (VBackendLogger b) ;; cb_log cb.
Definition end_session : code := Any (fun s => Write (VSessionRunning s) ;; join (RSession s)) ;; Many end_source.   (* trace_session.cpp 41-45 *)
Definition server_thread (b : nat) : code :=                                                               (* catapult_backend.cpp 92-177 *)
  Many (Either (backend_log b)
   (Either (backend_log b ;; under (LSession b) (Read (VSessions b) ;; maybe (Read (VBackendLogger b) ;;
              Any (fun s => Many (Read (VProviders b) ;; make_source ;; Write (VSessionSources s))) ;; Write (VSessions b))))   (* 92-96, 144-177 *)
   (Either (under (LSession b) (Read (VSessions b)) ;; Either (backend_log b) (Any (fun s => under (LIncoming s) (Write (VIncoming s)))))   (* 103-114 *)
   (Either (under (LSession b) (Read (VSessions b) ;; maybe (Write (VSessions b) ;; end_session)))         (* 134-142 *)
           (under (LSession b) (Read (VSessions b))))))).                                                  (* 154-163 *)
Definition recorder_sources (r : nat) : code := under (LRecorder r) (Many (Read (VRecSources r) ;; source)).   (* catapult_recorder.cpp 60-76, 106-120 *)
Definition recorder_thread (r : nat) : code := Many (under (LRecorder r) (Many (Read (VRecSources r) ;; cb_source cb))).   (* 36-52 *)

(** endpoint_native_trace_sender.cpp 75-113, tracepoint_collector_native.cpp 100-111. *)
Definition sender_thread (e : nat) : code :=
  Many (Read (VSenderRunning e) ;; under LOrphans (Write VOrphans) ;; Any tracker_read ;; maybe (Read (VTransport e) ;; maybe (Any broadcast))).

(** *** What the user calls *)
Definition trace_point : code :=                                                                           (* trace_macro.h 47-53, trace_configurator.cpp 40-66, tracepoint_collector_native.cpp 53-93 *)
  Any (fun n => Read (VRegistered n) ;; maybe (Write (VRegistered n) ;; Any tracker_write)) ;;
  maybe (under LConfig (Write VThreads)) ;; maybe (Any (fun k => tracker_read k ;; Either (tracker_read k) (tracker_write k))).
Definition thread_ends : code :=                                                                           (* trace_configurator.cpp 67-71, tracepoint_collector_native.cpp 59-77 *)
  maybe (under LConfig (Write VThreads)) ;; maybe (Any (fun k => tracker_read k ;; maybe (tracker_read k ;; under LOrphans (Write VOrphans)) ;; tracker_write k)).
Definition transport_call (t : nat) : code :=
  Either (request t) (Either (pending t) (Either (is_connected t) (Either (broadcast t) (Either (add_endpoint t true) (Either (add_endpoint t false)
 (Either (endpoints_of t true) (Either (endpoints_of t false) (transport_logger t)))))))).
Definition manager_call (m : nat) : code :=
  Either (manage m) (Either (endpoints m) (Either (add_factory m) (Either (stop_polling m) (manager_logger m)))).
Definition server_call (b : nat) : code :=
  Either (Write (VProviders b)) (Either (Write (VBackendLogger b))                                         (* addProvider, setLogger *)
         (join (RServer b) ;; Many end_session)).
Definition provider_call (p : nat) : code := Either (Write (VProviderLogger p)) (Write (VParserLogger p)). (* setLogger of the two providers *)
Definition endpoint_call (e : nat) : code := Either (Write (VProcessName e)) (Write (VTransport e)).       (* setProcessName, setTransport *)
Definition api : code :=
  Either (Any transport_call) (Either (Any manager_call) (Either (Any server_call) (Either (Any provider_call) (Either (Any endpoint_call)
 (Either (Any recorder_sources) (Either (Any (fun r => join (RRecorder r))) (Either source (Either make_source (Either serve (Either connect_to (Either discover
 (Either end_transport (Either end_source (Either ask (Either trace_point thread_ends))))))))))))))).
(** A thread of the user: library calls, and variables of the user's own. *)
Definition user_thread : code := Many (Either api (Any (fun n => Either (Read (VUser n)) (Write (VUser n))))).

Definition thread_code (t : nat) : code :=
  match roles t with
  | RServer b => server_thread b | RSession s => session_thread s | RRecorder r => recorder_thread r | RPoll m => poll_thread m
  | RTransport i => transport_thread i | RSender e => sender_thread e | RParser p => parser_thread p | RUser => user_thread
  end.
End Library.
