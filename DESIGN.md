# A Rocq model of iwanders/scalopus

The subject is the C++/Python source in `/repo`, read as text. Everything below is about a model written in Gallina
(Coq 8.16.1); the tie between the model and the code is the citation (file and lines) on each definition.

## Method

* Every component is a small set of total, computable functions, in `rocq/theories/<Component>_model.v`.
  Each definition cites the lines it models and states its simplifications.
* What a property *means* is written in `<Component>_spec.v` where it needs vocabulary of its own; the specification
  does not use the helpers of the model.
* Proofs are in `<Component>_proofs.v` (counterexamples that need work in `<Component>_witness.v`); the property theorems
  are in `Properties_<Component>.v`, each closed by `exact` and followed by `Print Assumptions`. `Example`s beside them
  show that the hypotheses are met by a non-trivial case.
* Undefined behaviour, uncaught exceptions in worker threads and `std::terminate` are distinct outcomes of the model.
* Concurrency is modelled as interleaving of atomic steps: one step is one atomic access, or one critical section, or
  one message hand-over. A schedule is a list of steps (or an inductive reachability relation), and theorems quantify over it.
* A statement that is false of the code gets a theorem `..._refuted` with a witness, and the strongest true part gets a
  theorem with suffix `_partial` (or an unconditional companion theorem).
* Theorems are tested against wrong programs: `seeded/LOG.jsonl` lists edits of the model, the claim each breaks and the
  theorems that failed.

## Trusted base

* Coq's kernel (8.16.1), with its virtual machine (`vm_compute` is used for finite computations), and the reading of the
  C++/Python source that the citations document.
* `Print Assumptions` says "Closed under the global context" for every property theorem except eight. `C26_time`, `C62_partial`, `C39_time`,
  `C39_order`, `C110_two`, `C110_thread_partial`, `C110_thread_refuted` and `C110_blocks_partial` speak about floating point times and use Flocq on the real numbers of the standard library; they list
  `ClassicalDedekindReals.sig_forall_dec`, `ClassicalDedekindReals.sig_not_dec`, `Classical_Prop.classic` and
  `FunctionalExtensionality.functional_extensionality_dep`, all from the standard library. (A listing of everything that is
  loaded, such as `coqchk -o`, also names fields of module types of the standard library and of ssreflect; no theorem uses them.)
* No axioms, admitted proofs, functors or module types of our own; no kernel check is switched off.
* The memory model. The ring buffer (C14, C15) is modelled with release/acquire semantics: a load may return any store not
  yet known to be overwritten, and "full"/"empty" mean as far as is visible to the thread. Everything else is a sequentially
  consistent interleaving of critical sections or single accesses; C74 says for which variables that is justified
  (no data race) and for which it is not.
* Behaviour of things that are not in `/repo` (the third party directories are empty there), taken from their documentation:
  nlohmann/json (parsing, printing, BSON; UTF-8 checks; exceptions), the cbor library (RFC 8949), seasocks (one server
  thread runs the tasks handed to it in order), pybind11 and CPython (conversions, interpreter lock, attribute look-up,
  dictionary order), the C++ standard library (mutexes, promises, `std::stoll`, `std::map`), POSIX sockets, `select`,
  `/proc/net/unix`, and babeltrace's text output.

## What is modelled and what is not

| component (files `rocq/theories/<component>_*.v`) | code | properties |
|---|---|---|
| Protocol, Framing | `scalopus_transport/src/protocol.*`: framing over a byte stream; the same system call by system call with several senders | C01–C03, C76 |
| Ended | the end of a traced process during a recording: manager, providers, sources and sessions together | C77, C78 |
| Record | the Python command `record`: entries as JSON values, their conversion to Python, `json.dumps`, the text that is printed | C79 |
| Commands | the Python commands `discover` and `trace_configure`: one cycle of the manager, the requests to each process, the sort, what is printed | C80, C81 |
| Tool | `BabeltraceTool::init/halt`, the start and end of `BabeltraceParser::process`, `subprocess.hpp`: threads, child processes, pipes, signals | C82, C83, C84 |
| Inherit | `transport_unix.cpp`: the sockets behind servers and connections, as held by processes and their children | C85 |
| Program | `scalopus_catapult_server.cpp` `main`, `CatapultServer::start`, the command line made by `BabeltraceTool::init`, `run_catapult_server` of `__main__.py` | C86 |
| Startup | Registry and Manager composed: a server that adds its endpoints while a manager connects and asks; `DefaultExposer` of `common.py` | C87 |
| Duplex | `TransportUnix::work` and `request` of a server and its clients, over connections that hold a bounded number of cells: who waits for whom | C88 |
| Http | `CatapultBackend::handle`, the web socket paths and start/destruction of `CatapultServer` | C89 |
| Memory | what stays in memory of ended threads (on the Collector model), of ended subscriptions (on the Delivery model) and of ended loopback clients and servers | C90 |
| Toggle | `scope_trace_raii.cpp` and the tracepoints of Config: the events a program of nested blocks leaves when tracing is switched at any moment, and how a reader pairs them | C91 |
| File | composition of EndToEnd, Record, Session and Toggle: the text of the recorder's file and of the viewer's messages, and a reader of it who pairs begins and ends | C92, C93 |
| Flow | LTTng recordings: pipe, reading thread, callbacks and any number of sources in one machine | C94 |
| PyTrace | Python programs with traced blocks and functions: calls, exceptions, generators, threads, interrupts, backends | C95 |
| Expose | Python programs that use `DefaultExposer`, seen by `discover` and `trace_configure` | C96 |
| PyLife | references between Python objects, wrappers and transports; reference counting, the collector, casts of the bindings | C97 |
| Fork | a process that forks: collectors, buffers and the table's mutex are copied, the sender's thread is not; tracepoints, senders, what receivers are shown, threads that wait for ever | C98 |
| PyWait | waiting for an answer from Python: any threads, time limits and the clock, the future whose answer is taken out once | C99 |
| Switch | switching tracing from outside while the program runs: every access of the tracepoints, the scoped changes and any number of requests at once to the shared switches | C100 |
| Rings | the collector and the sender with the ring buffer of every thread, one memory access at a time, loads that may return older values | C101 |
| Tracers | `lttng_tracepoint.cpp`, `scope_tracepoint_lttng_definition.h`, `nop_tracepoint.cpp`: a program with the trace points of LTTng or with none next to the one of Config; the line printed for an event of LTTng; the recordings of both sources of the same happenings | C102 |
| PySource | `PyTraceEventProvider`, `PyTraceEventSource` of `scalopus_interface.cpp` in the sessions of `trace_session.cpp`: classes with any behaviour, what their methods return or raise, null pointers | C103 |
| Whole | Switch, Rings, UnixSystem, Cbor and Provider joined into one machine: any number of processes from the load of the flags in front of a tracepoint to the finished interval, one memory access at a time | C104 |
| Linear | endpoints with a state behind the Unix transport: the worker calls `handle`, which changes the state of the process and answers, does not, or throws; the process changes the state too; endpoints in Python | C105 |
| Foreign | no code of its own: any bytes through the handler of the trace configurator and through the clients of `Wire_model.v` | C106 |
| Flush | no new model: the whole path of Whole, run on by the library's own threads only (sender, broadcast worker, receiving client, calls of `incoming`) | C107 |
| Starve | the worker loop of the Unix and the loopback transport, step by step among threads that broadcast, requests that come in and the destructor: the flag `running_`, one message of each connection in a pass, the queue emptied from its end | C108 |
| Exit | the objects of the library with static and thread storage (the instances, the objects in the tracepoint functions, the three callbacks at the end of a thread) and the C++ rules for making and destroying them, with thread-local and static objects of the program whose destructors use the library | C109 |
| Clock | the clock the tracepoints read (the time of day, which can be set), real time, and the finished interval made of the recorded events | C110 |
| Viewers | the thread of the viewer server, the queue of what it has to handle, the workers of the sessions with the time they take, the destruction of a session | C111 |
| Polling | startPolling, stopPolling and the destructor of the endpoint manager step by step, called by any threads and from within a poll, with the polling threads and the time they take | C112 |
| Still | the polling of the endpoint manager among processes that stand still, with the queue of connections of each server and the time | C113 |
| Dump | a recorder with its sources (native and LTTng) and the files it writes, which may not open, take only part of the text, or be left half written | C114 |
| Owners | who owns whom among managers, providers, sources, recorders, servers, sessions; reference counting; Python functions given to a manager | C115 |
| Rate | which events a thread can lose, on the machine of Rings: histories in which at most so many are traced while one pass ends, and loads that are up to date | C116 |
| PyAdd | endpoints written in Python with any subset of the methods, added to transports, and the messages for them | C117 |
| CmdLine | the command line of `trace_configure` as `argparse` (Python 3.5 to 3.11) takes it, in front of the command of C80 (`__main__.py` 272-293) | C118 |
| UnixSystem, UnixPass | `transport_unix.cpp`: requests, answers, broadcasts, connections, one pass of the worker over blocking system calls | C04–C09, C49, C50 |
| UnixLife | creation, destruction, descriptors, signals, destruction order of transports and endpoints | C46, C53, C55–C57 |
| Loopback | `transport_loopback.cpp` | C10, C51–C53 |
| OMap, Registry, Manager | `transport.cpp`, `endpoint_introspect.cpp`, `endpoint_manager_poll.cpp` | C11–C13, C54 |
| Discover | `transport_unix.cpp` `discover`, over the text of the kernel's table | C37 |
| RingBuffer | `spsc_ringbuffer.h` | C14, C15 |
| Collector, TwoSenders | `tracepoint_collector_native.cpp`, `endpoint_native_trace_sender.cpp` | C16, C17, C58 |
| TraceEvent, Config | trace points, `trace_configurator.cpp`, `scope_trace_raii.*`, `trace_configuration_raii.*`, `endpoint_trace_configurator.cpp` | C18–C21, C59, C60 |
| Crc, Names | `trace_macro.h`, `compile_time_crc.hpp`, `static_string_tracker.*`, scope mapping, `scope_tracing_provider.cpp` | C22–C25, C61 |
| Native, FloatTime | `native_trace_source.cpp` `finishInterval`, its floating point times | C26–C28, C62 |
| Provider | `native_trace_provider.cpp`, life of sources, interleaved calls | C29, C30, C63 |
| Json, JsonRead | JSON values, their printing and reading | C31–C35, C64 |
| Session, Backend, Recorder | `trace_session.cpp`, `catapult_backend.cpp`, `catapult_recorder.cpp` | C31–C36, C64, C65 |
| Str, Ctf, Lines, Delivery, Lttng | `babeltrace_tool.cpp`/`babeltrace_parser.cpp` (lines, events, subscriptions), `lttng_source.cpp` | C38–C40, C66 |
| Tracker, Info | `map_tracker.h`, thread names, `endpoint_process_info.cpp`, `general_provider.cpp` | C43, C44 |
| Bson, Wire, Cbor | binary forms of messages; endpoints on arbitrary bytes | C45, C67–C69, C73 |
| PyJson, PyText, PySwitch, PyIds, PyGil | `scalopus_python`: conversions, `tracing.py`, the interpreter lock in the bindings | C41, C42, C48, C70, C71, C75 |
| EndToEnd | Collector, UnixSystem, Provider, Native composed in one machine | C47 |
| Locks | every mutex and join of the library | C72 |
| Races | every access to shared variables of the library | C74 |

Not modelled: the programs LTTng and babeltrace (their effect on an event is stated in Tracers: the fields of the tracepoint definition come out in the printed line); the files the web server serves and the
parts of `catapult_server.cpp` that only forward to the backend; the argument parsing (by `argparse`) of
`scalopus_python/__main__.py`; the examples, tests and build system; performance, memory exhaustion, and clock behaviour.

## Per property

Status and exact theorem names are in `MANIFEST.json`.

| id | model | proof |
|----|-------|-------|
| C01 | `protocol::send/receive/readData` over a byte stream with an oracle for the size of each `read()` result | round trip by induction over messages and over 4096 byte chunks |
| C02 | same, arbitrary oracle; a read past the received bytes is the outcome `UB` | refuted by witness; partial theorem for streams where no read is short |
| C03 | same, with the `uint16`/`uint32` casts written as `mod` | refuted by witness (symbolic in the length, no 4 GiB literal); partial theorem below the limits |
| C04 | clients, server, FIFO message channels as a step machine with request ids | invariant over all reachable states; refutation with an answering `unsolicited` handler |
| C05 | same machine, request split in its two critical sections | refuted by a schedule; partial theorem for booked requests; an invariant for the connection staying up |
| C06 | client bookkeeping: request, answer, drop, cleanup, failed send | invariant: pending map = live unanswered requests |
| C07, C08 | broadcast queue (`emplace_back`/`pop_back`), connections, dispatch | multiset equality of deliveries; order refuted by witness |
| C09 | server machine with several connections | non-interference: projection on one connection |
| C10 | loopback `request`/`work` with outcomes `Value`, `Error`, `BrokenPromise`, `UB` | functional characterisation; refuted for unknown endpoints |
| C11 | registry as ordered association list | refinement to last-write-wins; sortedness and set equality |
| C12, C13 | `manage`/`connect` as functions of an environment (discovery, connect outcome, introspection answer) | invariant over cycles; refutations for null transport and timeout |
| C14, C15 | ring buffer, one memory access per step, release/acquire with stale loads | invariant relating indices, views, slots and ghost history |
| C16, C17 | threads, active map, orphan list, sender program counter | invariant "emitted = sent ++ in buffers" per thread; refutations for the loss cases |
| C18 | tracepoint functions and configurator | functional characterisation by induction over histories |
| C19, C20 | a small language of structured programs with exceptions | structural induction; refutation for overlapping scopes of two threads |
| C21 | `EndpointTraceConfigurator::handle` on a configuration record | equations for every thread and the process |
| C22 | table driven CRC with the 256 literals of the source | finite sweep for the table lifted by linearity, induction over the string |
| C23 | id arithmetic mod 2^32 | line ids distinct proved; collisions refuted by witness |
| C24, C25 | mapping lookups, hex printing, split at first '/' | equations; 'count' refuted |
| C26, C27, C28 | `finishInterval`: decode, convert, stable sort, counter fill | permutation, sortedness, stability; counter statement refuted for out of order arrival, proved in order; bad chunk refuted |
| C29, C30 | provider with sources, start/stop/finish/incoming | trace semantics by induction over histories; release refuted |
| C31, C32, C33 | session message queue, `processMessage`, `chunkedTransmit` | list equations for every length; malformed input refuted |
| C34 | backend session table with asynchronous answers | invariant; connection object reuse examined |
| C35, C36 | recorder output and life cycle | parse-back of the array; life cycle refuted |
| C37 | parser of the lines of `/proc/net/unix` | soundness/completeness for printed tables; refuted for foreign sockets |
| C38, C39, C40 | CTF line parser with exceptions as outcomes, event conversion, callback list | print-parse round trip; refutations for out-of-range numbers, unknown events, process mixing |
| C41 | Python values and JSON values as inductive types | normalisation round trip by structural induction |
| C42 | `ThreadStateSwitcher` as shared mutable record | refuted for recursion; partial for one level |
| C43 | name tracker, process info, general source | history semantics; refuted for the timeout path |
| C44 | `MapTracker` under a shared mutex, one step per acquisition, access and release | linearizability: refinement to an atomic map |
| C45 | mapping endpoint | UB for the empty payload, otherwise total |
| C46 | transport life cycle with system call outcomes | refuted: join of a thread never started |
| C47 | one machine: processes, threads, buffers, sender passes, sockets, provider, sources | invariants: sent = prefix of traced; composition of C16, C07, C29, C26 through a permutation and order argument |
| C48 | id counter and helper cache | invariant |
| C49, C50 | one pass of the Unix worker with blocking and interrupted system calls | refuted by schedules; the part that holds is C09's |
| C51, C52 | loopback broadcasts, clients added during an iteration | exactly once by induction over the clients; refuted for a change during the iteration |
| C53, C55–C57 | life of transports: descriptors as numbers of the process, dangling back references | invariants over histories; refutations for descriptor 0, late shutdown, dead transports |
| C54 | start/stop of polling | induction over call sequences |
| C58 | two senders, one buffer | refuted by schedule; partial for senders in turn |
| C59, C60 | scoped process changes of several threads; late calls of dying threads | stack discipline; refutations |
| C61 | registration and display of names through ids | partial for distinct ids; refuted by a collision |
| C62 | conversion of times to `double` | monotonicity by Flocq error bounds above 1 µs; refuted below |
| C63 | sources outliving the provider | refuted; partial |
| C64, C65 | recordings with arbitrary bytes as names; dump at destruction | exact characterisation by UTF-8 validity; refutations |
| C66 | the line splitter over a pipe | simulation of the printed lines; refuted for long and unfinished lines |
| C67 | BSON documents on bytes | round trip by induction over values |
| C68, C69 | endpoints on bytes | refinement to the value-level model; malformed payloads characterised |
| C70 | suppression in recursion | invariant per thread; refuted when shared |
| C71 | payloads written in Python | equations for all values |
| C72 | lock/join traces of all library functions, all threads | lock order (rank) argument over all reachable states; refutations by schedules |
| C73 | CBOR items of the event messages on bytes | round trip, prefix rejection, injectivity; any bytes that are accepted give values within the ranges of the fields |
| C74 | accesses, exclusive and shared locks of all library functions | guard table; a schedule for each unguarded variable |
| C75 | uses of the interpreter, taking and giving away its lock in the bindings, to any depth of nested calls | ownership invariant; two refutations; progress |
| C76 | senders under the write lock and the receiver, one system call per step, a kernel that takes `limit` bytes at once | invariant over the parts in the pipe; refuted for larger parts (every `limit`) and for cut sends |
| C77 | processes, transports, the manager's cycle and the viewers' requests, one per step | invariant that everything still to be asked is there, given timely ends; projection to the provider model (C29) for the data; invariants of both collecting loops for names and threads; refuted in three timings, and in general once a dead transport is in the copy |
| C78 | the same histories with several viewers | as C77 for the data; refuted for the names by two crossing `updateMapping` |
| C79 | the histories of C77 up to the text on the standard output (`json.dumps` is Python's documented behaviour; how it writes floating point numbers is a parameter) | `C79_text`: for all values the printed text parses back to them (grammar of Json_spec, any spelling of strings); invariant along the history that all text is UTF-8 and all numbers fit, so `C79_partial`; `C79_lost` for every history with an ended process that is still held; refuted by such a history and by a name that is not UTF-8 |
| C80 | `trace_configure` on a list of servers, each with any reachable configuration (Config) and a behaviour for each request: in time, late, failing, carried out nevertheless | `C80_partial` from `remote_change`/`remote_query` of Config and the correctness of the sort; `C80_safe_partial` over all behaviours; `C80_late_partial`: the report with late processes, and exactly when it is missing (a sort of entries with equal numbers); refuted by five cases |
| C81 | `discover` on the same servers | `C81_partial`: sorted permutation with exact data; `C81_late_partial`: the same with late processes, and exactly when nothing is listed; refuted by a server without `process_info` and by late answers |
| C82 | the thread that calls `init`/`halt`, the reading thread (with the pipe of Lines) and any number of child processes with any scripts, as a step machine; `fork` failing and children being waited for by the program are steps of the environment | invariant (pipe contents, who is joinable, table of processes); progress within two steps of the reading thread; refuted by four histories |
| C83 | programs as lists of actions; `popen` returning in the child when `execvp` fails | induction over the program: one process if all tools are found, 2^n otherwise |
| C84 | the machine of C82; writes to the pipe of the standard error wait for room | invariant: the script done so far and its diagnostics; stall for every script with too many |
| C85 | processes with the sets of sockets they hold; starting, forking, ending, `serve`, `connect` (refused, blocking, made), accepting, hanging up, destroying; the kernel frees a socket with its last holder | invariant relating holders to makers, clients and descent; steps bring nothing back; an heir keeps what it inherited; refuted by histories with a child that outlives the server |
| C86 | the arguments as lists of byte strings, `atoi` as in glibc; which ports can be listened on is the environment's choice | for all numbers in range through the decimal round trip; refuted for every port but 9222 |
| C87 | the steps of the servers (`serve`, `addEndpoint`), of the manager (next destination, 200 ms over) and of the server's thread (lookup, reading the names) in any order, over any number of processes | invariant over all histories; exact characterisation from the step that reads the names, frozen afterwards by induction; refuted for every prefix of the endpoints of `DefaultExposer` |
| C88 | every piece written or read by the server's worker, by the clients' workers and by requesting threads is a step; connections hold at most `cap` pieces | invariant and measure over all runs: a run that cannot go on is finished or is a ring of two workers; counts of what is received by a potential; refuted for every capacity and all larger sizes by induction on the pieces |
| C89 | the pages as JSON values built as the library builds them, the request uri, a reader for links, the registered web socket paths; calls of start and destruction | characterisation over all uris; pages read back by the round trip of C35; link refuted for every port |
| C90 | the collector and delivery models of C16 and C40; the weak lists of the loopback transport | exact counts by induction over histories; release by a pass or a line proved; unbounded growth otherwise refuted for every number |
| C91 | structured programs of C19 with tracing switched by anyone at any moment; a reader that lets an end close the last open begin | the record is the program's events under a mask (refinement of C18); induction on the program for the reader's stack; one stretch proved, exact condition otherwise, refuted with two stretches |
| C92 | the machine of C47, its entries as JSON, the recorder's text and the viewer's messages | every chunk given to a source holds values that can be written, so C47, C35 and C31 compose |
| C93 | a reader of the parsed file that pairs B and E entries of a thread | simulation between this reader and the reader of the record in C91 along C92 |
| C94 | The machines of C66 and C40 with the sources' state; parsing as in C38, conversion as in C39 | Invariants over all histories (subscriptions and owners; what a recording source has and still gets; nothing after its stop), with the line reader's invariant |
| C95 | A stack machine for the programs, with the steps inside `__enter__` and `__exit__`; a tree semantics as specification | Invariant: the blocks a reader finds open are those on the stack; refinement of the tree semantics for programs without generators |
| C96 | Histories of processes that import, construct and drop exposers, with the registry (Registry), the failing constructor of a transport (UnixLife) and the commands (Commands); the specification reads names off the history | `C96_partial` by an invariant that ties each process to the history; `C96_configure_refuted` for all histories and arguments; second exposer: abort for all histories |
| C97 | reference graph with operations of program, manager, messages and collector; pybind11's rules stated in the model | invariants over all histories: soundness of references, each object counted once, the endpoint last added; rank argument for acyclic graphs; witnesses for circles, the message that terminates and the transport that is not kept |
| C98 | processes with their buffers, sender, mutex and threads; a fork copies all but the other threads; events say who has made them, and what is shown says under which process and thread | invariant over all histories: who holds what, and each event at most once per process; with forks only while nothing waits, a number-to-maker map shows each event at most once altogether; invariant that nothing is inherited locked or without its thread if only processes without a sender fork; witnesses for the double events, the silent child, the locked table and the destructor |
| C99 | threads in and out of wait_for, the shared state of the future, time, the returned results; an undefined use of the future ends the run as Bad | invariant: the state agrees with what the history has set and every entry of the log is right; at most one thread inside if calls do not overlap, hence never Bad; witnesses for a second call, two threads and a limit out of range |
| C100 | threads with their place inside a tracepoint and their list of open scoped changes, requests with the list of accesses still to be made, the map from thread numbers to switches, the answers | simulation of a request's accesses against the switches while nobody else switches; invariants for an off or on switch over any run; for the answer under interference, an invariant over the moments passed; witness runs for the late event, the two separate checks, the answer that never was, the undone change and the reused number |
| C101 | Collector_model and RingBuffer_model in one machine: [push], [size] and [pop_into] go one access at a time, orphaned buffers are handed over under a mutex | simulation: every run shows what a run of Collector_model shows, with the invariant of the ring buffer for each thread; counting of accesses; a pass whose loads are up to date is followed through the stages of one buffer; refuted: refusal only when full, delivery by the next pass of a thread that runs on |
| C102 | the program of Config with the other trace points in place of the native ones; happenings with times in nanoseconds, as the native source receives them and as lines printed for LTTng | simulation of the two programs; lines read by the parser of C38; both sources sort the happenings into the same order because times a microsecond apart stay in order through both roundings; counters by C27 and C39 |
| C103 | a session whose sources are of the library or of Python classes that are arbitrary functions of their state; conversion of PyJson, texts of Session | refinement of the calls by induction over the sources; invariants over runs; `nothing_lost` of C41 and the writer and parser of C35 for what is sent |
| C104 | each traced process is the machine of Switch joined with the one of Rings, the events passed on as in EndToEnd; the history of the switches is a projection of the labels; the text of the file as in File | simulation by EndToEnd through the simulation of Rings by Collector, an invariant that links threads, buffers and events, and the theorems of Switch and File; counterexamples computed |
| C105 | `Linear_model` puts a state and a handler behind the server of `UnixSystem_model`; the handler decides what the server answers | the order is that of the calls; at most once and only if made by the counting invariant of C04 (a call that threw still has its message on the way), time by what the requests of a prefix of the run are, the order of a client by an invariant of the messages on the way; two counterexamples |
| C106 | `conf_handle`, `mapping_client`, `info_client`, `conf_client` on arbitrary bytes; what a document says is stated as relations on its members (`Foreign_spec.v`) | the conversion of lists of pairs into maps is characterised once (induction over the list); the effect of a request by C21; unknown commands and merging numbers refuted by concrete documents |
| C107 | any state of Whole; steps of the sender other than its end, of the server's worker, of the receiving client and of the provider | every pass of the sender can be finished and a fresh one takes all that is in the rings (the staleness a load may have does not stop it), queues and sockets can be emptied, the calls of `incoming` return; measures for each; with C104 the file then has all of it; two refutations for a sender that has ended and a process that died |
| C108 | steps of the worker between its looks at the flag, the sockets and the queue, any interleaving with `broadcast`, requests and the destructor | an exact account of the worker's steps (4 for a pass, 3 for a broadcast); from it bounds for a broadcast, a request and the end which grow by 3 for each broadcast made meanwhile, and histories for every length in which all three wait; a broadcast lost at destruction |
| C109 | thread-local and static objects as stacks per thread and for the program; passing or using a destroyed object is undefined | refuted four ways (a thread-local object made before the first tracepoint, a static object, a thread still running, a thread with a name that outlives main); for all programs: invariants over every run that such objects are never destroyed in a defined way, that every push goes to a known buffer, that an ended thread leaves its buffer aside once; programs that take care are always defined |
| C110 | histories of passing time, settings of the clock and tracepoints of any threads; each event carries the reading; the events of each thread arrive in order and go through `finishInterval` (Native) | the readings of two tracepoints differ by the time passed plus the settings in between; rounding from FloatTime; stable sorting keeps a thread's events if its readings do not fall; blocks as in C91; counterexamples computed |
| C111 | `Viewers_model`: steps of the server's thread and of the workers, time passes only when nobody can go on at once | potential: the rest of the worker that is waited for plus (D + W + 10) for each viewer that leaves before; refutation for every length of a message |
| C112 | `Polling_model`: one step per access to the members, join, creation of threads; exceptions, termination and undefined behaviour as outcomes | invariant of the histories without overlapping calls, with a potential for the time; concrete histories for what goes wrong, for every interval |
| C113 | `Still_model`: one step per connect, question and answer, with the kernel's limit on connections not accepted | potential for the time of a poll that is not blocked; invariant of the blocked manager; concrete history for any time |
| C114 | `Dump_model`: intervals, arrivals, collections, writes, destruction and death in a write; the text is that of `Session_model` | conservation by a permutation invariant over histories in which nothing goes wrong; what is nowhere stays nowhere by induction; general theorems for each way of losing a recording |
| C115 | the objects, the owning references and those of the program as lists, counting as repeated sweeps | invariant: made = existing + destroyed, as a permutation; ranks of kinds for C++; a set of two objects that nothing outside refers to is left alone by every operation |
| C116 | `Rings_model`; the rate as a bound on the calls in every part of the history with at most one end of a pass | a refusal after an up-to-date load means a full buffer; what was accepted before the last but one end of a pass has been sent (C101_current); counting; concrete histories for older values and for the bound |
| C117 | objects with a class (functions on a state) and the map of each transport; what is expected is said of the visible calls | invariant that relates map, states and transports to the trace; concrete classes for what is refuted |
| C118 | words are classified and consumed as `argparse` does for one option and two arguments with optional values; `int` is a parameter; help and refusal are one outcome | an invariant of the parser (what is taken is a subsequence of the words), and symbolic evaluation for well-written lines; C80's theorems for the effect |

## What the model found

The `_refuted` theorems are defects of the code at this commit (or limits of the statement), each with a concrete run. The notes
in `MANIFEST.json` name them; the ones with the widest effect:

* a message cut short by the death of its sender is accepted, a cut header is undefined behaviour, over-long names and payloads are
  silently truncated on the wire (C02, C03);
* an answer that arrives before the request is booked is lost, requests to unknown endpoints never resolve (C05), a loopback
  request to an unknown endpoint calls through a null pointer (C10);
* broadcasts are delivered newest first (C08), so what one thread traced can be shown out of order (C47);
* a stalled peer, a signal or a lack of descriptors stops the whole transport (C09, C49, C50); a failed `serve` or `connect` ends the process (C46);
* events collected before the endpoint has a transport, and the last ones at exit, are lost (C17);
* trace ids collide (C23, C61); a counter series is never called `count` (C25); one bad chunk costs all later data (C28);
* malformed viewer messages and payloads end the process (C33, C45, C68); so does a recorder destroyed while stopped (C36, C65);
* endpoints and factories written in Python deadlock with the poller and the transports (C72), and two binding functions use
  the interpreter without its lock (C75);
* 20 kinds of variables are accessed by several threads without synchronisation (C74);
* sockets are inherited by child processes, which keep ended servers listed and connected (C85);
* a process that a manager meets before all its endpoints are added stays without the missing ones for ever (C87);
* two workers that send to each other more than the socket holds wait for each other for ever, and the server with them (C88);
* the link in the page list of the viewer server leads nowhere: its path is not served and its port is always 9222; starting the server twice ends the process (C89);
* buffers of ended threads are kept as long as no sender makes a pass, without bound; ended subscriptions until the next line; loopback clients and servers for ever (C90);
* when tracing is switched off and on again inside a block, the end of an inner block closes the enclosing one for a reader that pairs by nesting, so its duration is shown too short; with one stretch of tracing all durations are right (C91);
* one name that is not UTF-8 means that no file is written although all events arrived; and tracing switched off for a moment inside a block makes the file show that block shorter than it was (C92, C93);
* of two lines printed at once the second is missing from the LTTng recording during which it was printed and turns up in the next one; stopping a recording while a line is handed over, or a line with a number of twenty digits, ends the program (C94);
* in Python a generator suspended inside a traced block, a generator function with the decorator, an interrupt inside the context manager and a change of the backend inside a block give records that are not nested, or not complete (C95);
* a Python program that makes itself known with `DefaultExposer` cannot be configured: the exposer serves the introspection, the process information, the mapping and the recorder, but not the trace configurator, although it is documented to serve all endpoints that are natively supported; `trace_configure` leaves such a process as it is and says nothing. Constructing a second exposer while the first is there ends the program with `std::terminate`; the default name is that of the moment of the import (`-m` for a package run with `python -m`), and without `sys.argv` the module cannot be imported (C96);
* a Python endpoint reachable through a manager's connection terminates the process with the first message for it, unless the transport was kept in Python, in which case the lost connection is never released; a server whose endpoint refers to it is never destroyed (C97);
* a traced process that forks: events that are waiting at the fork are sent twice if the child makes a sender too, the second time under the child's process number; without a sender of its own the child is never seen; a fork while the sender reads the table of buffers leaves it locked in the child, where the next new thread stops at its first tracepoint; the destructor of the inherited sender waits in the child for a thread that is not there (C98);
* wait_for of a response in Python can return an answer once only: a second call, or a second thread that waits for the same answer, uses a future without state; a limit that does not fit the clock, such as float('inf'), is undefined (C99);
* after tracing has been switched off and the answer has come, each thread can still record the event it had already decided on; process and thread switch are read one after the other, so that an event can be recorded though never both were on; the answer need not be a state there ever was; a scoped change in the program undoes a change from outside when it ends; a thread number that has been reused means another thread (C100);
* a tracepoint can drop its event although the buffer of its thread is empty, and an accepted event of a thread that runs on is sent by no particular pass, because the loads of the indices may return older values (C101);
* a counter name used by two processes shows the series of both in a recording through LTTng, while a native recording keeps them apart; happenings less than a microsecond apart can be shown in opposite orders by the two sources; with the tracer that does nothing, a thread that only ran into trace points is not known to the configuration (C102);
* a source written in Python that raises, returns nothing from `finishInterval`, or returns an integer beyond 64 bits ends the server, and the events already taken from the other sources are lost; a provider that returns None is undefined behaviour as soon as a viewer connects (C103);
* an event is shown in a recording although the answer to the request that switched the process off had come before the event was put in the buffer; an event is in no file although everything was on and its buffer was empty, as the load in `push` may return an old index (C104);
* an endpoint written in Python that returns a number leaves the request it was called for unanswered for ever, and one that raises for one client ends the server for all of them (C105);
* the trace configurator answers a command it does not know as if it had been a question, and an answer with numbers wider than their type loses names without an error (C106);
* a recording cannot be completed once the sender of a process has ended or the process has died with something queued: no continuation of any kind brings what is left in the buffers or the queue to the recorder; in every other state the library's own threads can bring all of it (C107);
* while broadcasts are made as fast as they are sent, the worker of a transport never leaves the loop that empties the queue, so requests, older broadcasts (the queue is emptied from its end) and the destructor wait without bound; a broadcast made after the queue was seen empty and before the destructor begins is never sent (C108);
* a tracepoint in the destructor of a thread-local object made before the thread's first tracepoint, or of any static object once main has traced, uses destroyed objects, contrary to the comment in `getBuffer` that such events are still collected; a thread that gave itself a name and ends after main has returned uses the destroyed map of names, because the callback holds `this` and not a weak pointer as the other two do (C109);
* the tracepoints use `high_resolution_clock`, which with the GNU library is the settable time of day: if it is set back inside a block the end is listed before the begin and no block is shown; if it is set back between two blocks the second is shown inside the first with both lengths wrong; if it is set ahead in a block the block is shown too long by that much (C110);
* the thread of the viewer server waits for the worker of a viewer that leaves, so that a page, a new viewer and the answers for all other viewers wait until the worker has ended its command (n + 10 ms for a command of n ms, for every n) (C111);
* two threads that stop the polling at the same time join the same thread, two that start it or a logger or factory that stops it end the program, a stop during a start throws and leaves a thread whose manager ends the program when it is destroyed; stopping can take the whole poll interval (C112);
* a manager that comes to a stopped process with six connections not accepted (also those of programs that have ended) waits in connect and holds its mutex until that process goes on: no other process is connected and endpoints() does not return; if the process is killed, the manager's program ends (C113);
* a recorder that cannot open its file returns as if it had written it, and the events are gone; one that writes the file it also has set up for its destruction leaves an empty recording in it; a write that is cut short destroys the old recording too; a source for LTTng gives its events again with each collection (C114);
* a native provider does not keep its manager while a general provider does: a recorder with a native provider only goes on and records nothing once the program lets go of the manager; in Python, `weak_provider_endpoint_factory` uses `weakref`, which general.py does not import, so it always raises, and a provider registered without it stays for ever together with its manager (C115);
* an event of a thread that traces slowly enough can still be lost, because the index the thread or the sender loads may be an old one; with up-to-date loads none is, with one event fewer than the buffer has places in any two passes (C116);
* `addEndpoint` can raise and still have replaced the endpoint of that name, if the Python class has a `setTransport` that raises; and any `setTransport` in Python leaves the endpoint without a transport, as the one of the library cannot be called from there (C117);
* the command line of `trace_configure` is refused if the numbers do not stand right after the state (`on -u off 7`), and if numbers are given without a state (`7`); `-u on` switches all processes, `on -u` nothing (C118).
