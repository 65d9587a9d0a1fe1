{"id": "C01", "title": "Wire round trip over the Unix socket transport", "statement": "A message (request id, endpoint name, payload) written to a socket is read back at the other end as exactly the same request id, endpoint name and payload, and a sequence of messages written one after the other is read back as the same sequence with no byte left over or missing, provided every name is shorter than 64 KiB, every payload shorter than 4 GiB and the kernel satisfies every read in full.", "quantifier": "all request ids below 2^64, all endpoint names shorter than 2^16 bytes, all payloads shorter than 2^32 bytes, all finite sequences of such messages and all trailing bytes", "why_tests_cant": "tests only send a handful of short payloads; the claim ranges over every byte content, every length (including the 4096-byte chunk boundaries) and every sequence.", "anchors": ["scalopus_transport/src/protocol.cpp: protocol::send, protocol::receive, protocol::readData", "scalopus_transport/src/protocol.h: Msg"]}
{"id": "C02", "title": "No message is invented from an incomplete transmission", "statement": "Whatever way the operating system splits the byte stream into read results, and wherever the sending process dies, the receiving side either yields a message the peer completely sent, or reports failure; it never reports success for a message of which only part was transmitted.", "quantifier": "all byte streams, all segmentations of the stream into read() results, all crash points of the sender", "why_tests_cant": "segmentation and crash points depend on kernel scheduling; a test sees one segmentation.", "anchors": ["scalopus_transport/src/protocol.cpp: protocol::readData, protocol::receive", "scalopus_transport/src/transport_unix.cpp: TransportUnix::work"]}
{"id": "C03", "title": "Oversized messages are refused, not corrupted", "statement": "When an endpoint name or a payload does not fit the length fields of the wire format, sending fails; the receiver never decodes such a message as a different message and never loses the framing of the messages behind it.", "quantifier": "all names of any length and all payloads of any length", "why_tests_cant": "needs 4 GiB payloads or a systematic argument over the length arithmetic.", "anchors": ["scalopus_transport/src/protocol.cpp: protocol::send", "scalopus_transport/src/transport_unix.cpp: TransportUnix::request"]}
{"id": "C04", "title": "A response reaches exactly the request that asked for it", "statement": "For any number of clients each with any number of outstanding requests to one server, a future that becomes ready with a value holds exactly the answer the addressed server endpoint gave to that request's own payload; a future is given a value at most once; responses never cross between requests or between clients.", "quantifier": "all schedules of client threads, client workers and the server worker; all numbers of clients and requests; all endpoint behaviours on the server; all drops of futures and connection losses at message boundaries", "why_tests_cant": "interleavings of requests, responses, broadcasts and abandoned futures are unbounded.", "anchors": ["scalopus_transport/src/transport_unix.cpp: TransportUnix::request, TransportUnix::work, TransportUnix::processMsg", "scalopus_transport/src/transport_unix.h: ongoing_requests_, request_counter_"]}
{"id": "C05", "title": "Every answered request resolves", "statement": "If the server answers a request and the connection stays up, the caller's future becomes ready once the client worker has processed the answer; and a request that can never be answered (unknown endpoint, connection lost) does not leave its future unresolved forever while the transport exists.", "quantifier": "all schedules of the requesting thread, the client worker and the server", "why_tests_cant": "the loss needs the response to arrive between sending and book-keeping; a test practically never hits that window.", "anchors": ["scalopus_transport/src/transport_unix.cpp: TransportUnix::request, TransportUnix::work, TransportUnix::processMsg"]}
{"id": "C06", "title": "pendingRequests counts only live unanswered requests", "statement": "After the client worker has completed a pass, the number of pending requests equals the number of requests that were successfully sent and booked, are not yet answered, and whose future is still held by the caller; abandoning futures therefore never leaks entries, and a request whose transmission fails yields a future that is immediately ready with a communication error and is never pending.", "quantifier": "all histories of requests, answers, dropped futures and send failures", "why_tests_cant": "leaks only show in long histories mixing drops and answers.", "anchors": ["scalopus_transport/src/transport_unix.cpp: TransportUnix::request, TransportUnix::work, TransportUnix::pendingRequests"]}
{"id": "C07", "title": "Broadcasts reach every connected client exactly once", "statement": "Each broadcast queued on a server is delivered exactly once to the endpoint of that name of every client connected when it is dispatched, is delivered to nobody else, and never completes an outstanding request.", "quantifier": "all sequences of broadcasts, connects, disconnects and worker passes; any number of clients", "why_tests_cant": "duplicate or missed deliveries depend on the interleaving of queueing, connecting and dispatching.", "anchors": ["scalopus_transport/src/transport_unix.cpp: TransportUnix::work", "scalopus_interface/src/transport.cpp: Transport::broadcast, popBroadcast, haveBroadcast"]}
{"id": "C08", "title": "Broadcasts are delivered in the order they were made", "statement": "Two broadcasts made one after the other by the same thread on the same server arrive at every client in that order.", "quantifier": "all sequences of broadcasts and all schedules of the worker", "why_tests_cant": "the order only differs when several broadcasts are queued between two worker passes.", "anchors": ["scalopus_interface/src/transport.cpp: Transport::broadcast, Transport::popBroadcast", "scalopus_transport/src/transport_unix.cpp: TransportUnix::work", "scalopus_transport/src/transport_loopback.cpp: TransportLoopback::work"]}
{"id": "C09", "title": "One client cannot disturb another", "statement": "A client that disconnects, sends garbage that is refused, or calls an unknown endpoint has no effect on which messages any other client receives from the server for its own requests, nor on whether the server keeps accepting clients.", "quantifier": "all numbers of clients, all schedules, all client failures detected as failed receives", "why_tests_cant": "requires a non-interference argument over whole histories.", "anchors": ["scalopus_transport/src/transport_unix.cpp: TransportUnix::work, TransportUnix::processMsg"]}
{"id": "C10", "title": "Loopback requests behave like function calls", "statement": "Requests made on a loopback client are served in the order made, each held future of a request to an existing endpoint ends with that endpoint's answer to that payload, or with an error if the endpoint declines to answer or does not exist; abandoned requests are not executed; after a worker pass no request is pending.", "quantifier": "all sequences of requests, drops and worker passes, all endpoint behaviours", "why_tests_cant": "ranges over all histories and includes the non-existing endpoint case.", "anchors": ["scalopus_transport/src/transport_loopback.cpp: TransportLoopback::request, TransportLoopback::work, TransportLoopback::pendingRequests"]}
{"id": "C11", "title": "Endpoint registry and introspection", "statement": "After any sequence of addEndpoint calls, looking up a name returns the endpoint most recently added under that name and nothing for names never added; endpoint introspection reports exactly the set of registered names, each once, in ascending order.", "quantifier": "all sequences of addEndpoint calls, all names", "why_tests_cant": "set equality over arbitrary registration histories.", "anchors": ["scalopus_interface/src/transport.cpp: Transport::addEndpoint, getEndpoint, endpoints", "scalopus_general/src/endpoint_introspect.cpp: EndpointIntrospect::handle"]}
{"id": "C12", "title": "The endpoint manager holds one connection per live server", "statement": "After any history of polling cycles the manager holds at most one transport per destination, every transport it reports endpoints for is one it holds and vice versa, after a cycle no transport that was disconnected at the start of the cycle is still held, every discovered server that accepts the connection is held, and the endpoints reported for a transport are exactly those both offered by the server and having a registered factory that returned an endpoint.", "quantifier": "all discovery results, connection outcomes, introspection answers, disconnects and factory sets over any number of cycles", "why_tests_cant": "histories of servers appearing, disappearing and reappearing are unbounded.", "anchors": ["scalopus_general/src/endpoint_manager_poll.cpp: EndpointManagerPoll::manage, EndpointManagerPoll::connect"]}
{"id": "C13", "title": "A failed or slow connection attempt is survivable and retried", "statement": "If connecting to a discovered server yields no transport, or the server does not answer the endpoint query in time, the manager keeps running and a later polling cycle gives that server's endpoints once it answers.", "quantifier": "all connection outcomes and answer delays in any cycle", "why_tests_cant": "needs a race between discovery and server exit, or a stalled server.", "anchors": ["scalopus_general/src/endpoint_manager_poll.cpp: EndpointManagerPoll::connect", "scalopus_general/src/endpoint_introspect.cpp: EndpointIntrospect::supported", "scalopus_transport/src/transport_loopback.cpp: TransportLoopbackFactory::connect"]}
{"id": "C14", "title": "The ring buffer is a bounded FIFO for one producer and one consumer", "statement": "For every interleaving of the individual memory accesses of one pushing and one popping thread, the values popped are exactly a prefix of the values accepted by push, in order, with nothing lost, duplicated or altered; the buffer never holds more than size-1 values; push fails only when size-1 values were in the buffer at some moment during the call; pop fails only when the buffer was empty at some moment during the call.", "quantifier": "all buffer sizes, all value sequences, all interleavings of the two threads at the granularity of single loads and stores", "why_tests_cant": "interleavings and wrap-arounds are unbounded; tests run single threaded.", "anchors": ["scalopus_tracing/src/spsc_ringbuffer.h: SPSCRingBuffer::push, pop, pop_into, size, available, empty"]}
{"id": "C15", "title": "The ring buffer has no data race on its elements", "statement": "While the producer writes an element the consumer never reads or moves that same element, and vice versa.", "quantifier": "all buffer sizes, all interleavings", "why_tests_cant": "data races are not observable by functional tests.", "anchors": ["scalopus_tracing/src/spsc_ringbuffer.h: SPSCRingBuffer::push, pop, pop_into"]}
{"id": "C16", "title": "Collected trace events are sent exactly once and in thread order", "statement": "Every trace event accepted by a thread's buffer is put in exactly one broadcast, with the thread's id, in the order the thread emitted them, however tracing threads are created, emit, exit (also between the steps of a collection round) and reuse thread ids; nothing that was not emitted is sent.", "quantifier": "all numbers of threads, all schedules of emission, thread exit and collection steps, thread id reuse", "why_tests_cant": "the thread-exit hand-over window is a few instructions wide.", "anchors": ["scalopus_tracing/src/native/tracepoint_collector_native.cpp: TracePointCollectorNative::getBuffer, getActiveMap, retrieveAndClearOrphanedBuffers", "scalopus_tracing/src/native/endpoint_native_trace_sender.cpp: EndpointNativeTraceSender::work"]}
{"id": "C17", "title": "Events emitted before the sender has a transport, or after the thread's buffer is retired, are not lost", "statement": "An event accepted by a thread's trace buffer is eventually sent to the connected receivers: also when it was emitted before the sending endpoint was attached to a transport, during the teardown of the thread, or just before the sender shuts down.", "quantifier": "all schedules of attaching the endpoint, emission, thread exit and shutdown", "why_tests_cant": "depends on start-up and shutdown timing.", "anchors": ["scalopus_tracing/src/native/endpoint_native_trace_sender.cpp: EndpointNativeTraceSender::work", "scalopus_tracing/src/native/tracepoint_collector_native.cpp: TracePointCollectorNative::getBuffer"]}
{"id": "C18", "title": "Tracepoints are emitted exactly when process and thread tracing are enabled", "statement": "A scope, mark or count tracepoint puts exactly one event with its own id (and kind, level and value) in the calling thread's buffer if the process state and the state of the calling thread are both enabled and the buffer has room, and does nothing otherwise; both states start enabled; changing the state of one thread never affects another.", "quantifier": "all sequences of tracepoints and state changes over any number of threads, made by threads that are not yet destroying their thread-local objects (see C60)", "why_tests_cant": "ranges over histories of configuration changes on many threads.", "anchors": ["scalopus_tracing/src/native/native_tracepoint.cpp: native::scope_entry, scope_exit, mark_event, count_event", "scalopus_tracing/src/trace_configurator.cpp: TraceConfigurator"]}
{"id": "C19", "title": "Scoped tracing yields properly nested begin/end events", "statement": "In any program that uses only scoped tracepoints and scoped configuration changes for its own thread, with arbitrary nesting and early exits by exception, the events of the thread form a properly nested sequence of begin/end pairs with matching ids, in spite of tracing being disabled and enabled in inner scopes.", "quantifier": "all structured programs built from scoped tracepoints, scoped thread/process configuration, marks, counts, sequencing, nesting and exceptions", "why_tests_cant": "ranges over all programs.", "anchors": ["scalopus_tracing/src/scope_trace_raii.cpp: TraceRAII", "scalopus_tracing/src/trace_configuration_raii.cpp: TraceConfigurationRAII", "scalopus_tracing/include/scalopus_tracing/internal/trace_macro.h"]}
{"id": "C20", "title": "Scoped tracing configuration is undone on scope exit", "statement": "When a scoped thread or process configuration change goes out of scope, the state it changed has the value it had before the scope was entered, for arbitrary nesting and also when several threads use process-wide scoped changes at the same time.", "quantifier": "all nestings on one thread; all interleavings of scopes of several threads", "why_tests_cant": "overlapping scopes of different threads need specific timing.", "anchors": ["scalopus_tracing/src/trace_configuration_raii.cpp: TraceConfigurationRAII", "scalopus_tracing/src/trace_configurator.cpp: TraceConfigurator::setThreadState, setProcessState"]}
{"id": "C21", "title": "Remote trace configuration does what was asked and reports the truth", "statement": "A remote configuration request changes the process state only when flagged to do so, changes exactly the listed threads that exist, creates no threads, changes nothing else, and is answered with success and the complete resulting state; a query changes nothing.", "quantifier": "all configuration requests and all current states", "why_tests_cant": "ranges over all states and requests.", "anchors": ["scalopus_tracing/src/endpoint_trace_configurator.cpp: EndpointTraceConfigurator::handle, setTraceState, getTraceState"]}
{"id": "C22", "title": "Trace identifiers are CRC-32 based", "statement": "The compile-time checksum of every string equals the standard CRC-32 (reflected polynomial 0xEDB88320, initial value and final inversion all ones) defined bit by bit, and checksumming a concatenation equals continuing the checksum of the first part over the second.", "quantifier": "all byte strings of any length, all split points", "why_tests_cant": "tests compare a few strings; a single wrong table entry out of 256 is easily missed.", "anchors": ["scalopus_tracing/include/scalopus_tracing/internal/compile_time_crc.hpp: crcdetail::compute, crcdetail::table"]}
{"id": "C23", "title": "Different tracepoints have different identifiers", "statement": "Tracepoints of one file at different lines have different ids; tracepoints with different names in one file, tracepoints identified by line and tracepoints identified by name, and tracepoints of different files do not share an id.", "quantifier": "all files, lines and names", "why_tests_cant": "collisions are rare for tested names but must be excluded for all.", "anchors": ["scalopus_tracing/include/scalopus_tracing/internal/trace_macro.h: SCALOPUS_TRACKED_TRACE_ID_CREATOR, SCALOPUS_TRACKED_TRACE_ID_STRING", "scalopus_tracing/README.md"]}
{"id": "C24", "title": "Every trace id is shown under the name registered for it", "statement": "In the output an event is named by the name registered in its own process for its id, and by 'Unknown 0x' followed by the hexadecimal id when there is none; names of one process never show up for another; a counter name with a series separator is split at the first separator into counter and series such that gluing them gives the name back.", "quantifier": "all mappings of any number of processes, all ids, all names", "why_tests_cant": "all strings and maps.", "anchors": ["scalopus_tracing/src/scope_tracing_provider.cpp: ScopeTracingProvider::updateMapping, getScopeName, splitCounterSeriesName"]}
{"id": "C25", "title": "A counter without a series shows up as series 'count'", "statement": "A value traced with the single-series count macro under a name shows up as the series 'count' of the counter of that name.", "quantifier": "all counter names and values", "why_tests_cant": "the tests check only the counter name.", "anchors": ["scalopus_tracing/include/scalopus_tracing/trace_macro.h: TRACE_COUNT", "scalopus_tracing/src/scope_tracing_provider.cpp: splitCounterSeriesName", "scalopus_tracing/README.md"]}
{"id": "C26", "title": "The recorded interval is complete, correctly labelled and time ordered", "statement": "When a native recording interval is finished, the result holds exactly one entry per event received during the interval, with the phase, scope, name, process and thread of that event, ordered by non-decreasing time stamp (as shown: microseconds in double precision), events of equal time stamp in order of arrival.", "quantifier": "all sequences of received chunks, processes, threads and events", "why_tests_cant": "ranges over all recordings.", "anchors": ["scalopus_tracing/src/native/native_trace_source.cpp: NativeTraceSource::finishInterval, addData"]}
{"id": "C27", "title": "Counter entries carry a consistent value of every series", "statement": "Every counter entry of a finished interval lists every series of that counter of that process seen in the interval; the series the event set has exactly the event's value, and every other series has the latest value set at or before that moment, or the first later one if there is none.", "quantifier": "all recordings, all orders in which chunks arrive", "why_tests_cant": "depends on the arrival order of chunks from several threads.", "anchors": ["scalopus_tracing/src/native/native_trace_source.cpp: NativeTraceSource::finishInterval"]}
{"id": "C28", "title": "One undecodable chunk does not cost other data", "statement": "If a received chunk cannot be decoded or holds an event of unknown kind, all other chunks of the interval still appear in the result.", "quantifier": "all recordings and positions of bad chunks", "why_tests_cant": "requires injected corruption in every position.", "anchors": ["scalopus_tracing/src/native/native_trace_source.cpp: NativeTraceSource::finishInterval"]}
{"id": "C29", "title": "Recording intervals are independent and exact", "statement": "A source's finished interval holds exactly the data received by the provider between its start and its stop, in order; sources of the same provider do not influence each other; data received while a source is not recording never appears in it; starting anew forgets the previous interval.", "quantifier": "all histories of source creation, start, stop, finish and incoming data over any number of sources", "why_tests_cant": "histories are unbounded.", "anchors": ["scalopus_tracing/src/native/native_trace_provider.cpp: NativeTraceProvider::makeSource, incoming", "scalopus_tracing/src/native/native_trace_source.cpp: startInterval, stopInterval, isRecording, addData, finishInterval"]}
{"id": "C30", "title": "Released sources stop costing", "statement": "When the last user of a source releases it (for instance a viewer disconnecting in the middle of a recording), the provider stops collecting data for it.", "quantifier": "all histories of creation, recording and release", "why_tests_cant": "memory growth is invisible to functional tests.", "anchors": ["scalopus_tracing/src/native/native_trace_provider.cpp: NativeTraceProvider::makeSource", "scalopus_tracing/src/native/native_trace_source.cpp: NativeTraceSource::~NativeTraceSource", "scalopus_catapult/src/catapult_backend.cpp: CatapultBackend::delSession"]}
{"id": "C31", "title": "The viewer receives the whole recording in bounded pieces, in protocol order", "statement": "Ending a recording stops every source, answers the request with its own id, sends all events of all sources in order in pieces of at most 1000 events whose concatenation is the complete recording, and then sends exactly one completion notice, nothing after it.", "quantifier": "all numbers of events and sources", "why_tests_cant": "boundaries at multiples of the piece size and every length.", "anchors": ["scalopus_catapult/src/trace_session.cpp: TraceSession::processMessage, chunkedTransmit, formatEvents", "scalopus_catapult/src/trace_session.h"]}
{"id": "C32", "title": "Viewer messages are handled in order, one answer each", "statement": "Each well-formed category, start and end request is answered exactly once with its own id, in the order received; messages with other methods cause no answer; start and end reach every source.", "quantifier": "all message sequences and all interleavings of arrival and processing", "why_tests_cant": "unbounded histories.", "anchors": ["scalopus_catapult/src/trace_session.cpp: TraceSession::incoming, popIncoming, loop, processMessage"]}
{"id": "C33", "title": "A malformed viewer message does not take the server down", "statement": "Whatever text a connected viewer sends, the server process keeps running and other sessions are unaffected.", "quantifier": "all byte strings", "why_tests_cant": "all inputs.", "anchors": ["scalopus_catapult/src/trace_session.cpp: TraceSession::processMessage", "scalopus_catapult/src/catapult_backend.cpp: CatapultBackend::onData"]}
{"id": "C34", "title": "Viewer sessions are isolated", "statement": "Every connected viewer has exactly one session, created on connect and removed on disconnect; text from a viewer reaches only its own session; an answer of a session is only ever sent to the viewer it belongs to, and only while that viewer is connected.", "quantifier": "all histories of connects, disconnects, data and queued answers, including reuse of connection objects", "why_tests_cant": "asynchronous answers after disconnect depend on timing.", "anchors": ["scalopus_catapult/src/catapult_backend.cpp: CatapultBackend::onConnect, onData, onDisconnect, makeSession, delSession, getSession"]}
{"id": "C35", "title": "The recorder's file is the complete recording as one JSON array", "statement": "The file written by the recorder is a JSON array whose elements are exactly the events of all sources in order, for every number of events including none.", "quantifier": "all event lists", "why_tests_cant": "separator handling at every list length.", "anchors": ["scalopus_catapult/src/catapult_recorder.cpp: CatapultRecorder::collectEvents, writeToFile"]}
{"id": "C36", "title": "The recorder can be started and stopped freely", "statement": "Every sequence of start, stop and destruction of a recorder is safe; starting twice records with one set of sources; after stop the sources are cleared.", "quantifier": "all operation sequences", "why_tests_cant": "all sequences including those ending in destruction in any state.", "anchors": ["scalopus_catapult/src/catapult_recorder.cpp: CatapultRecorder::start, stop, ~CatapultRecorder", "scalopus_catapult/include/scalopus_catapult/catapult_recorder.h"]}
{"id": "C37", "title": "Discovery lists exactly the running servers", "statement": "Server discovery returns the process id of every process having a bound scalopus server socket, and nothing else; the destination obtained from an address has as hash the process id, so that two destinations are equal exactly when they denote the same process.", "quantifier": "all contents of the kernel's socket table", "why_tests_cant": "ranges over all socket tables, including unrelated sockets with similar names.", "anchors": ["scalopus_transport/src/transport_unix.cpp: TransportUnix::getTransportServers, TransportUnixFactory::discover, DestinationUnix::hash_code"]}
{"id": "C38", "title": "LTTng text events are parsed faithfully", "statement": "Every well-formed event line printed by babeltrace is parsed to the time, domain, name, process id, thread id and field values printed in it, including negative values; and no text line whatsoever makes the parser fail with an error or read outside the line.", "quantifier": "all well-formed lines, respectively all byte strings", "why_tests_cant": "all strings.", "anchors": ["scalopus_tracing/src/lttng/ctfevent.cpp: CTFEvent::CTFEvent", "scalopus_tracing/src/lttng/babeltrace_parser.cpp: BabeltraceParser::process"]}
{"id": "C39", "title": "LTTng recordings are converted like native recordings", "statement": "A finished LTTng interval has one entry per recorded scalopus event with the right phase, name, process and thread in time order; counters of different processes are kept apart; events of other kinds do not make the conversion fail.", "quantifier": "all recordings", "why_tests_cant": "ranges over all recordings and mixes of processes.", "anchors": ["scalopus_tracing/src/lttng/lttng_source.cpp: LttngSource::convertEvents, finishInterval"]}
{"id": "C40", "title": "Event subscribers get every event while subscribed and none after", "statement": "Each event parsed from the LTTng stream is delivered once, in order, to every callback subscribed and active at that time; a callback whose subscription was dropped or disabled is never called again; other subscribers are not affected by it.", "quantifier": "all sequences of subscribe, disable, drop and lines", "why_tests_cant": "histories of subscription changes.", "anchors": ["scalopus_tracing/src/lttng/babeltrace_parser.cpp: BabeltraceParser::process, setCallback"]}
{"id": "C41", "title": "Python values survive the trip through JSON", "statement": "Converting a Python value made of None, booleans, integers, floats, strings, lists and string-keyed dictionaries to JSON and back gives an equal value; tuples, sets and bytes come back as lists with the same elements; JSON values converted to Python and back are unchanged.", "quantifier": "all such values of any depth", "why_tests_cant": "all nestings and integer magnitudes.", "anchors": ["scalopus_python/lib/json_util.cpp: jsonToPy, pyToJson"]}
{"id": "C42", "title": "The Python suppression helper restores the tracing state", "statement": "After any use of the suppression helper of the Python bindings as decorator or context manager, including nested and recursive use, the tracing state of the thread is what it was before.", "quantifier": "all nestings and recursions", "why_tests_cant": "recursion depth and sharing of the one helper object.", "anchors": ["scalopus_python/scalopus/tracing.py: ThreadStateSwitcher, suppressed"]}
{"id": "C43", "title": "Thread and process names are reported for live threads only", "statement": "The process information of a server lists exactly the names last set by threads that are still running, and process and thread metadata entries are produced for exactly those; a request that gets no answer produces no entry.", "quantifier": "all histories of naming and thread exit, all processes", "why_tests_cant": "histories, and the timeout path.", "anchors": ["scalopus_general/src/thread_name_tracker.cpp: ThreadNameTracker", "scalopus_general/src/endpoint_process_info.cpp: EndpointProcessInfo", "scalopus_general/src/general_provider.cpp: GeneralProvider::updateMapping", "scalopus_general/src/general_source.cpp: GeneralSource::finishInterval"]}
{"id": "C44", "title": "Shared lookup tables behave as maps", "statement": "The string and thread tables return for every key the value last inserted and not erased since; concurrent operations have the effect of some sequential order.", "quantifier": "all operation sequences and interleavings", "why_tests_cant": "all histories.", "anchors": ["scalopus_general/include/scalopus_general/map_tracker.h: MapTracker"]}
{"id": "C45", "title": "The trace mapping endpoint answers every request", "statement": "Any payload sent to the trace mapping endpoint is either answered with the complete mapping of the process or not answered; no payload makes the server misbehave, and the mapping decoded by the client equals the table of the server.", "quantifier": "all payloads, all tables", "why_tests_cant": "all byte strings including the empty one.", "anchors": ["scalopus_tracing/src/endpoint_trace_mapping.cpp: EndpointTraceMapping::handle, mapping"]}
{"id": "C46", "title": "Transports can always be created and destroyed", "statement": "Creating a server or a connection that fails reports the failure and releases the transport without terminating the process; destroying a transport in any state is safe.", "quantifier": "all outcomes of the system calls involved", "why_tests_cant": "needs every failing system call.", "anchors": ["scalopus_transport/src/transport_unix.cpp: TransportUnix::serve, connect, ~TransportUnix, TransportUnixFactory::serve, connect"]}
{"id": "C47", "title": "From tracepoint to viewer, end to end", "statement": "If recording is on, a receiver is connected, tracing is enabled and no buffer overflows, then every tracepoint executed in the interval by any thread of any traced process appears exactly once in the finished interval with the right process, thread and name, events of one thread with increasing time stamps in program order.", "quantifier": "all programs, all schedules of threads, collection rounds and broadcasts", "why_tests_cant": "whole-system histories.", "anchors": ["scalopus_tracing/src/native/native_tracepoint.cpp", "scalopus_tracing/src/native/endpoint_native_trace_sender.cpp: EndpointNativeTraceSender::work", "scalopus_interface/src/transport.cpp: Transport::broadcast", "scalopus_tracing/src/native/native_trace_provider.cpp: incoming", "scalopus_tracing/src/native/native_trace_source.cpp: finishInterval"]}
{"id": "C48", "title": "Python tracepoints get unique ids and keep their names", "statement": "Every trace context obtained in Python has an id no other context of the process has, asking for the same name again through the helper gives the same id, and the name registered for the id is the name asked for.", "quantifier": "all sequences of context requests", "why_tests_cant": "all histories.", "anchors": ["scalopus_python/lib/scalopus_tracing.cpp: uniqueTraceId", "scalopus_python/scalopus/tracing.py: TraceContext, TraceContextHelper, traced"]}
{"id": "C49", "title": "A slow or silent client cannot stop the server", "statement": "A client that stops in the middle of a message, or that does not read what it is sent, does not keep the server from serving its other clients.", "quantifier": "all states of the other clients, all points within a message at which a client may stop", "why_tests_cant": "Blocking needs a peer that stops at a particular byte or a full socket buffer; tests use well behaved peers.", "anchors": ["scalopus_transport/src/transport_unix.cpp: TransportUnix::work", "scalopus_transport/src/protocol.cpp: readData, send"]}
{"id": "C50", "title": "A signal does not stop the service", "statement": "A signal that interrupts the server thread while it waits for input does not keep the server from serving its clients afterwards.", "quantifier": "all server states, all moments at which a signal may arrive", "why_tests_cant": "Needs a signal handler to run in the worker thread within the wait; tests do not send signals.", "anchors": ["scalopus_transport/src/transport_unix.cpp: TransportUnix::work (select)"]}
{"id": "C51", "title": "Loopback broadcasts reach every live client exactly once", "statement": "Every broadcast made on a loopback server is handed exactly once to every live client that has an endpoint of that name, to no other client, and whatever the client endpoint does with it, the server keeps running.", "quantifier": "all sets of clients, alive or not, all registered endpoints, all sequences of broadcasts, all endpoint answers", "why_tests_cant": "The set of clients, their endpoints and their answers is unbounded; the existing tests use one client with one endpoint that does not answer.", "anchors": ["scalopus_transport/src/transport_loopback.cpp:TransportLoopback::work", "scalopus_interface/src/transport.cpp:Transport::popBroadcast"]}
{"id": "C52", "title": "Clients may connect while the server is broadcasting", "statement": "Connecting a loopback client to a server is safe at any moment, also while the server delivers a broadcast.", "quantifier": "all interleavings of connecting clients and delivering broadcasts", "why_tests_cant": "The failure needs a particular interleaving of the connecting thread and the worker thread of the server.", "anchors": ["scalopus_transport/src/transport_loopback.cpp:TransportLoopback::addClient", "scalopus_transport/src/transport_loopback.cpp:TransportLoopback::work"]}
{"id": "C53", "title": "A request on a transport without connection fails cleanly", "statement": "Making a request on a server transport, or on a client transport whose connection is lost, gives a future that holds an error; it does not hang and does not harm the process.", "quantifier": "all transports without connection, however they came to be so", "why_tests_cant": "Ranges over all histories that leave a transport without connection, and the failure is undefined behaviour in another thread.", "anchors": ["scalopus_transport/src/transport_unix.cpp:TransportUnix::request", "scalopus_transport/src/transport_loopback.cpp:TransportLoopback::work", "scalopus_transport/src/protocol.cpp:send"]}
{"id": "C54", "title": "Polling of the endpoint manager can be switched on and off at will", "statement": "After any sequence of startPolling and stopPolling calls made by one thread the manager is polling exactly if the last call was startPolling, and it can be destroyed without terminating the process.", "quantifier": "all sequences of calls", "why_tests_cant": "Ranges over all call sequences; a std::thread destroyed or assigned while joinable terminates the process.", "anchors": ["scalopus_general/src/endpoint_manager_poll.cpp:EndpointManagerPoll::startPolling, EndpointManagerPoll::stopPolling, EndpointManagerPoll::~EndpointManagerPoll"]}
{"id": "C55", "title": "An endpoint outliving its transport reports an error", "statement": "Using an endpoint object that has no transport, or whose transport has been destroyed, reports an error instead of accessing the destroyed transport.", "quantifier": "all histories of creating and destroying transports and attaching and using endpoints", "why_tests_cant": "Depends on the order of destruction; access to freed memory often goes unnoticed.", "anchors": ["scalopus_interface/src/endpoint.cpp:Endpoint::setTransport", "scalopus_interface/src/transport.cpp:Transport::addEndpoint", "scalopus_general/src/endpoint_introspect.cpp:EndpointIntrospect::supported"]}
{"id": "C56", "title": "Transports work with every file descriptor number", "statement": "A server or client transport works whichever descriptor numbers the system hands out, also in a process that was started with its standard input closed.", "quantifier": "all descriptor numbers, all worker passes", "why_tests_cant": "Tests run with standard input open, so that descriptor 0 is never handed out.", "anchors": ["scalopus_transport/src/transport_unix.cpp:TransportUnix::work, TransportUnix::isConnected", "scalopus_transport/src/protocol.cpp:send"]}
{"id": "C57", "title": "Dropping a connection affects nothing else in the process", "statement": "When a transport drops a connection, no other file or socket of the process is affected, whatever other threads open at that moment.", "quantifier": "all descriptor tables, all interleavings with other threads opening descriptors", "why_tests_cant": "Needs another thread to obtain the descriptor number in a window of two consecutive system calls.", "anchors": ["scalopus_transport/src/transport_unix.cpp:TransportUnix::~TransportUnix, TransportUnix::work"]}
{"id": "C58", "title": "Several sending endpoints in one process", "statement": "When a process has more than one native trace sender (for example one on each of two transports), every accepted event is still put in exactly one broadcast, and no event is duplicated or sent again.", "quantifier": "all schedules of the worker threads of two senders and of the tracing thread", "why_tests_cant": "the senders wake up every ten milliseconds; the overlap of two collections of one buffer is rare.", "anchors": ["scalopus_tracing/src/native/endpoint_native_trace_sender.cpp: EndpointNativeTraceSender::work", "scalopus_tracing/src/spsc_ringbuffer.h: SPSCRingBuffer::pop_into", "scalopus_tracing/src/native/tracepoint_collector_native.cpp: TracePointCollectorNative::getInstance"]}
{"id": "C59", "title": "When all scoped changes have ended, the process state is what it was before", "statement": "If threads use only scoped process-wide configuration changes, then once all of them have gone out of scope tracing of the process is enabled exactly if it was enabled before the first of them.", "quantifier": "all interleavings of scoped process-wide changes of any number of threads", "why_tests_cant": "needs overlapping scopes of several threads.", "anchors": ["scalopus_tracing/src/trace_configuration_raii.cpp: TraceConfigurationRAII"]}
{"id": "C60", "title": "A new thread starts with tracing enabled whatever earlier threads did", "statement": "A thread that never changed its own state and was not configured remotely has tracing enabled, whatever earlier threads did at any time of their life, including while their thread-local objects are destroyed.", "quantifier": "all histories of threads, including calls from destructors of thread-local objects and reuse of thread ids", "why_tests_cant": "needs reuse of a thread id and a particular order of destruction.", "anchors": ["scalopus_tracing/src/trace_configurator.cpp: TraceConfigurator::getThreadStatePtr, removeThread"]}
{"id": "C61", "title": "An event is shown under the name given at its trace point", "statement": "Once control has passed a trace point with a given name, every event it emits is shown under that name in the output.", "quantifier": "all programs (sets of trace points in files), all orders in which they are passed", "why_tests_cant": "The id of a trace point is a checksum of file and name or line; a clash needs two particular texts, and which name wins depends on the order in which the trace points are first passed.", "anchors": ["scalopus_tracing/include/scalopus_tracing/internal/trace_macro.h: TRACE_TRACKED_MAPPING_REGISTER_ONCE", "scalopus_tracing/src/scope_tracing_provider.cpp: getScopeName", "scalopus_general/include/scalopus_general/map_tracker.h: MapTracker::insert"]}
{"id": "C62", "title": "Events are listed in the order in which they were recorded", "statement": "In a finished native recording, an event whose recorded time (nanoseconds) is earlier is listed before one whose recorded time is later.", "quantifier": "all recordings, all 64 bit times", "why_tests_cant": "The order is computed on times converted to double precision, which loses the last digits only for times as large as today's clock; a test with small numbers never sees it.", "anchors": ["scalopus_tracing/src/native/native_trace_source.cpp: NativeTraceSource::finishInterval"]}
{"id": "C63", "title": "A recording outlives its provider safely", "statement": "A source handed out by a provider can be finished, with its events or without any, also when the provider has been released in the meantime; in no case is the behaviour undefined.", "quantifier": "all histories of creating, starting, stopping, finishing and releasing sources and of releasing the provider", "why_tests_cant": "the order in which provider and sources are destroyed depends on shutdown order; tests keep the provider alive.", "anchors": ["scalopus_tracing/src/native/native_trace_source.cpp: NativeTraceSource::finishInterval", "scalopus_tracing/src/native/native_trace_provider.cpp: NativeTraceProvider::makeSource"]}
{"id": "C64", "title": "Every recording can be shown, whatever its names", "statement": "Whatever names were given to scopes, threads and processes, a recording of them is delivered to the viewer and written to the file of the recorder.", "quantifier": "all events with all names", "why_tests_cant": "names are arbitrary byte strings; tests use plain ASCII.", "anchors": ["scalopus_catapult/src/trace_session.cpp: TraceSession::processMessage, formatEvents", "scalopus_catapult/src/catapult_recorder.cpp: CatapultRecorder::collectEvents"]}
{"id": "C65", "title": "The recorder writes its dump file when destroyed", "statement": "If a dump file was set up, destroying the recorder stops and finishes every source and writes the events of all of them as one JSON array to the file that was set up last, whatever calls were made before.", "quantifier": "all histories of calls on a recorder, all recordings", "why_tests_cant": "all histories; the failing ones end the test process.", "anchors": ["scalopus_catapult/src/catapult_recorder.cpp: CatapultRecorder::~CatapultRecorder, stop, setupDumpFile, writeToFile"]}
{"id": "C66", "title": "Every line babeltrace prints reaches the parser as it was printed, without waiting for more", "statement": "Every line babeltrace prints is handed to the parser as exactly one line, in the order printed, none lost, torn or repeated, and no later line has to be printed for that.", "quantifier": "all byte streams and all ways in which they are cut into writes and interleaved with the reading loop", "why_tests_cant": "cutting of the stream into writes is chosen by the operating system; all of them have to be covered.", "anchors": ["scalopus_tracing/src/lttng/babeltrace_parser.cpp: BabeltraceParser::process"]}
{"id": "C67", "title": "Messages between the endpoints survive their binary form", "statement": "Every message the endpoints send is decoded by the other side to the same value, at every depth and size that can be sent; every byte string is either decoded to a value that could have been sent or rejected; a message begins with its length.", "quantifier": "all JSON values made of objects, arrays, strings, 64-bit integers, floats, booleans and null; all byte strings", "why_tests_cant": "all nestings, integer magnitudes and byte strings.", "anchors": ["scalopus_tracing/src/endpoint_trace_mapping.cpp: to_bson, from_bson", "scalopus_general/src/endpoint_process_info.cpp: to_bson, from_bson", "scalopus_tracing/src/endpoint_trace_configurator.cpp: to_bson, from_bson"]}
{"id": "C68", "title": "No payload makes the process information or configurator endpoint misbehave", "statement": "Any payload sent to the process information or trace configurator endpoint is answered or ignored; the request of the client is answered with the id, name and thread names of the process; no payload terminates the traced process.", "quantifier": "all payloads, all thread tables", "why_tests_cant": "all byte strings.", "anchors": ["scalopus_general/src/endpoint_process_info.cpp: EndpointProcessInfo::handle", "scalopus_tracing/src/endpoint_trace_configurator.cpp: EndpointTraceConfigurator::handle", "scalopus_transport/src/transport_unix.cpp: TransportUnix::processMsg"]}
{"id": "C69", "title": "Remote changes of the trace state survive the wire", "statement": "A change of the process and thread states sent by the client is carried out by the traced process as if it were made there, and the client receives exactly the resulting states; asking changes nothing.", "quantifier": "all histories of the process, all requested states", "why_tests_cant": "composition of encoding, decoding and all states.", "anchors": ["scalopus_tracing/src/endpoint_trace_configurator.cpp: setTraceState, getTraceState, handle"]}
{"id": "C70", "title": "The Python suppression helper suppresses", "statement": "While a thread is inside code wrapped by the suppression helper of the Python bindings, at any depth of nesting and recursion, none of its trace points emits an event; outside, every trace point does if tracing is on.", "quantifier": "all nestings and recursions, all interleavings of threads", "why_tests_cant": "interleavings of threads in one decorated function and recursion depth are unbounded.", "anchors": ["scalopus_python/scalopus/tracing.py: ThreadStateSwitcher, suppressed"]}
{"id": "C71", "title": "Payloads of Python endpoints are exactly what the Python value says", "statement": "If a handler or a request of an endpoint written in Python gives bytes, text or a list of integers as payload, exactly those bytes (the text in UTF-8) are sent; anything else sends nothing or raises; the Python side receives the exact bytes.", "quantifier": "all Python values", "why_tests_cant": "all texts and byte values.", "anchors": ["scalopus_python/lib/scalopus_interface.cpp: pyToData, dataToPy, PyEndpoint::handle, PyEndpoint::unsolicited"]}
{"id": "C72", "title": "No deadlock", "statement": "Whatever functions of the library the threads of a program call, from C++ or Python, and whatever the library's own threads do, there is never a state in which everything waits for a lock or for the end of a thread; this holds also if handlers, factories, sources and loggers of the user call the library or are written in Python.", "quantifier": "all programs of any number of threads, all interleavings", "why_tests_cant": "deadlocks depend on the interleaving.", "anchors": ["scalopus_transport/src/transport_unix.cpp: request, work, ~TransportUnix", "scalopus_transport/src/transport_loopback.cpp: work", "scalopus_interface/src/transport.cpp", "scalopus_general/src/endpoint_manager_poll.cpp: manage, endpoints, stopPolling", "scalopus_general/src/general_provider.cpp", "scalopus_tracing/src/native/native_trace_provider.cpp", "scalopus_catapult/src/catapult_backend.cpp", "scalopus_catapult/src/catapult_recorder.cpp", "scalopus_python/lib/scalopus_interface.cpp"]}
{"id": "C73", "title": "What a traced process sends is what the recorder reads", "statement": "The message a traced process broadcasts with its collected events is decoded by the recorder to exactly the same process id, thread ids and events, with every time stamp, trace id, type and counter value unchanged; different contents give different messages; and a message that was cut short anywhere is recognised as bad instead of being read as other events.", "quantifier": "all process ids, all numbers of threads and events, all time stamps, ids, types and 64-bit counter values, all points at which a message is cut", "why_tests_cant": "Encodings change form at many value boundaries, and a truncated message may happen to decode; tests use a few values.", "anchors": ["scalopus_tracing/src/native/endpoint_native_trace_sender.cpp: process_events", "scalopus_tracing/src/native/tracepoint_collector_native.h: to_cbor, from_cbor", "scalopus_tracing/src/native/native_trace_source.cpp: finishInterval"]}
{"id": "C74", "title": "No data races inside the library", "statement": "Whatever library functions are called from whatever threads, together with the library's own threads (transports, poller, sender of events, sessions, recorder, web server, parser of babeltrace output), no variable inside the library is ever accessed by two threads at once with one of them writing it, unless it is atomic or the accesses exclude one another by a mutex.", "quantifier": "every number of threads of every kind, every number of objects, every sequence of library calls, every callback the user can write, every interleaving", "why_tests_cant": "a race shows in a test only if two threads hit the same variable within nanoseconds; a test run covers one interleaving of one set of calls", "anchors": ["scalopus_interface/src/transport.cpp:Transport::addEndpoint", "scalopus_transport/src/transport_unix.cpp:TransportUnix::processMsg", "scalopus_transport/src/transport_unix.cpp:TransportUnix::work", "scalopus_transport/src/transport_loopback.cpp:TransportLoopback::addClient", "scalopus_general/src/endpoint_manager_poll.cpp:EndpointManagerPoll::stopPolling", "scalopus_general/src/endpoint_process_info.cpp:EndpointProcessInfo::setProcessName", "scalopus_catapult/src/trace_session.cpp:TraceSession::addSource", "scalopus_catapult/src/catapult_backend.cpp:CatapultBackend::addProvider", "scalopus_tracing/src/native/endpoint_native_trace_sender.cpp:EndpointNativeTraceSender::work", "scalopus_tracing/include/scalopus_tracing/internal/trace_macro.h:TRACE_TRACKED_MAPPING_REGISTER_ONCE", "scalopus_tracing/src/lttng/lttng_source.cpp:LttngSource::finishInterval", "scalopus_general/include/scalopus_general/map_tracker.h:MapTracker"]}
{"id": "C75", "title": "The Python interpreter is used under its lock", "statement": "Whatever endpoints, factories, providers, sources and loggers are written in Python and whatever library threads call them, the interpreter and its objects (including their reference counts) are only ever touched by the thread that holds the interpreter lock, so never by two threads at once; and no thread waits for that lock because of itself.", "quantifier": "every number of Python and library threads, every nesting of calls between Python and C++, every interleaving", "why_tests_cant": "touching the interpreter without the lock usually works; it corrupts a reference count only when another thread runs Python code in the same few nanoseconds", "anchors": ["scalopus_python/lib/scalopus_interface.cpp:PendingResponse::wait_for", "scalopus_python/lib/scalopus_interface.cpp:PyEndpoint::handle", "scalopus_python/lib/scalopus_interface.cpp:PyEndpoint::unsolicited", "scalopus_python/lib/scalopus_interface.cpp:PySource::finishInterval", "scalopus_python/lib/scalopus_catapult.cpp:setLogger", "scalopus_python/lib/pybind_fix.h", "scalopus_catapult/src/catapult_backend.cpp:CatapultBackend::makeSession"]}
{"id": "C76", "title": "Messages of several threads do not mix on the connection", "statement": "When several threads of a process send requests, answers and broadcasts over one connection, the other side receives exactly the messages whose sending was reported successful, whole, unmixed, each thread's in its order, whatever system calls of senders and receiver interleave, however large the messages are, and even if some sends fail.", "quantifier": "every number of threads and messages, every message size within the length fields, every interleaving of the single system calls of senders and receiver, every failing send", "why_tests_cant": "whether a receiver overtakes a sender in the middle of a message, or a signal interrupts a send half way, is a matter of microseconds and buffer sizes that a test does not control", "anchors": ["scalopus_transport/src/protocol.cpp:send", "scalopus_transport/src/protocol.cpp:receive", "scalopus_transport/src/protocol.cpp:readData", "scalopus_transport/src/transport_unix.cpp:TransportUnix::request", "scalopus_transport/src/transport_unix.cpp:TransportUnix::work"]}
{"id": "C77", "title": "A recording survives the end of a traced process", "statement": "When a traced process ends while it is being recorded, the recording program keeps running and every viewer that stops its recording is sent the events of all data received during its interval, those of the ended process included, under the names the processes have registered; processes that are still there are shown with their names and threads.", "quantifier": "every number of processes, viewers and transports, every moment at which processes start and end, connections are seen to be lost, the manager goes through a cycle and data arrives, also between two requests of a viewer that is stopping", "why_tests_cant": "a process has to end in the at most one second between two cycles of the manager and a viewer has to stop recording in that time; tests end processes in an orderly manner", "anchors": ["scalopus_general/src/endpoint_manager_poll.cpp:EndpointManagerPoll::manage", "scalopus_tracing/src/scope_tracing_provider.cpp:ScopeTracingProvider::updateMapping", "scalopus_tracing/src/native/native_trace_source.cpp:NativeTraceSource::finishInterval", "scalopus_general/src/general_provider.cpp:GeneralProvider::updateMapping", "scalopus_catapult/src/trace_session.cpp:TraceSession::loop"]}
{"id": "C78", "title": "What a viewer is sent does not depend on other viewers", "statement": "Several viewers record at the same time and stop in any order; each is sent exactly the events of the data that came in during its own interval, under the names the processes have registered, as if it were alone.", "quantifier": "every number of viewers, every interleaving of their starting, stopping and single requests with each other, with arriving data and with the manager", "why_tests_cant": "tests record with one viewer; two have to be between the same two statements at the same time", "anchors": ["scalopus_tracing/src/scope_tracing_provider.cpp:ScopeTracingProvider::updateMapping", "scalopus_tracing/src/scope_tracing_provider.cpp:ScopeTracingProvider::getMapping", "scalopus_tracing/src/native/native_trace_source.cpp:NativeTraceSource::finishInterval"]}
{"id": "C79", "title": "The record command prints what was recorded", "statement": "After Ctrl-C the command `record` of the Python module prints one complete JSON list that a viewer can load; it holds exactly the events of the data that came in from the start to the Ctrl-C, under the names the processes have registered, and the names of the processes and threads.", "quantifier": "every history of processes, connections, data and requests; every name and number; every way a process ends before or during the stop", "why_tests_cant": "a test prints a few events with plain names; the text must be valid for every name, and the events must be there whatever the traced processes did just before", "anchors": ["scalopus_python/scalopus/__main__.py:run_record", "scalopus_tracing/src/native/native_trace_source.cpp:NativeTraceSource::finishInterval", "scalopus_general/src/general_source.cpp:GeneralSource::finishInterval", "scalopus_python/lib/json_util.cpp:jsonToPy"]}
{"id": "C80", "title": "The trace_configure command switches what is listed and reports the result", "statement": "`trace_configure STATE id...` of the Python module switches exactly the processes and threads whose numbers are listed to STATE (with `-u` also the processes that are not listed, to the state given there), and prints for each process that can be configured the state its process and threads then really have.", "quantifier": "every set of traced processes with every history of their configuration, every list of numbers, every value of -u, every way requests are answered, late or failing", "why_tests_cant": "a test configures one process that answers at once; which process a request goes to, and what is done after one of them is late, must be right for every set of processes and every timing", "anchors": ["scalopus_python/scalopus/__main__.py:run_trace_configure", "scalopus_tracing/src/endpoint_trace_configurator.cpp:EndpointTraceConfigurator::setTraceState", "scalopus_general/src/endpoint_process_info.cpp:EndpointProcessInfo::processInfo", "scalopus_general/src/endpoint_manager_poll.cpp:EndpointManagerPoll::manage"]}
{"id": "C81", "title": "The discover command lists every process", "statement": "`discover` of the Python module lists, in order of their numbers, every process with a running server: its number, name, named threads and the endpoints it serves.", "quantifier": "every set of processes with servers, every set of endpoints they serve, every way requests are answered, late or failing", "why_tests_cant": "a test looks at one process with all endpoints; the listing must not depend on what other processes serve or how fast they answer", "anchors": ["scalopus_python/scalopus/__main__.py:run_discover", "scalopus_general/src/endpoint_introspect.cpp:EndpointIntrospect::supported", "scalopus_general/src/endpoint_process_info.cpp:EndpointProcessInfo::processInfo", "scalopus_general/src/endpoint_manager_poll.cpp:EndpointManagerPoll::manage"]}
{"id": "C82", "title": "An LTTng provider can be made and destroyed at any time, and cleans up", "statement": "Making and destroying a provider of LTTng events (the babeltrace tool's `init` and `halt`) may be done at any time and repeatedly: destroying it returns, ends the babeltrace process it has started, sends a signal to no other process, and leaves no process behind.", "quantifier": "every interleaving of the calls, the reading thread and the babeltrace process, every output of babeltrace, fork failing or not, children waited for by the program or not", "why_tests_cant": "the failing interleavings are short and depend on the start of a thread or on where a line is cut; a test makes a provider, waits, and destroys it", "anchors": ["scalopus_tracing/src/lttng/babeltrace_tool.cpp:BabeltraceTool::init", "scalopus_tracing/src/lttng/babeltrace_tool.cpp:BabeltraceTool::halt", "scalopus_tracing/src/lttng/babeltrace_parser.cpp:BabeltraceParser::process", "scalopus_tracing/src/lttng/lttng_provider.cpp:LttngProvider", "scalopus_tracing/include_consumer/scalopus_tracing/subprocess.hpp:popen"]}
{"id": "C83", "title": "A missing LTTng tool does no harm", "statement": "If the program `lttng` or `babeltrace` cannot be executed, making an LTTng provider returns once, in the one process that has made it, and there are simply no events.", "quantifier": "every program that makes any number of providers, each with its tool installed or not, and whatever the program does afterwards", "why_tests_cant": "what follows the call is the whole rest of the user's program; tests run where the tool is installed", "anchors": ["scalopus_tracing/include_consumer/scalopus_tracing/subprocess.hpp:popen::run", "scalopus_tracing/include_consumer/scalopus_tracing/subprocess.hpp:popen::child", "scalopus_tracing/src/lttng/babeltrace_tool.cpp:BabeltraceTool::init"]}
{"id": "C84", "title": "Diagnostics of babeltrace do not stop the events", "statement": "Every event babeltrace prints on its standard output gets to the library, no matter how many diagnostics it writes on its standard error meanwhile.", "quantifier": "every sequence of output and diagnostics of any size, every schedule", "why_tests_cant": "the limit is reached only after tens of kilobytes of warnings, in long sessions with lost packets", "anchors": ["scalopus_tracing/include_consumer/scalopus_tracing/subprocess.hpp:popen", "scalopus_tracing/src/lttng/babeltrace_parser.cpp:BabeltraceParser::process"]}
{"id": "C85", "title": "A server disappears when its process ends or destroys it", "statement": "When the process of a server ends, or the server's transport is destroyed, discovery does not list the process any more, every connected client notices the loss, connecting to it fails, and a process that gets the same number can serve; likewise the server notices the loss of a client whose process ends or whose transport is destroyed. This holds also if the process has started other programs.", "quantifier": "all histories of processes starting, forking, ending, serving, connecting, accepting, hanging up and destroying transports, with any number of processes, servers and connections", "why_tests_cant": "it depends on which processes are alive when, and on descriptors inherited over any number of generations; a test has no child process", "anchors": ["scalopus_transport/src/transport_unix.cpp: TransportUnix::serve, connect, work, ~TransportUnix, getTransportServers", "scalopus_tracing/include_consumer/scalopus_tracing/subprocess.hpp"]}
{"id": "C86", "title": "The viewer's server listens on the port it is given", "statement": "The server program given a port number on its command line listens on this port, and on 9222 without one; an LTTng session or path given after it is the one that is read; a port on which it cannot listen is reported. The same holds for the Python command.", "quantifier": "all command lines, all port numbers, and all sets of ports that are taken", "why_tests_cant": "the program is not tested, and ports range over all numbers", "anchors": ["scalopus_catapult/src/scalopus_catapult_server.cpp: main", "scalopus_catapult/src/catapult_server.cpp: CatapultServer::start", "scalopus_tracing/src/lttng/babeltrace_tool.cpp: BabeltraceTool::init", "scalopus_python/scalopus/__main__.py: run_catapult_server"]}
{"id": "C87", "title": "A process that is starting becomes known with all its endpoints", "statement": "Once a process has created its server and added its endpoints, an endpoint manager connected to it offers every one of these endpoints for which the manager has a factory; it never offers an endpoint the process does not have.", "quantifier": "all interleavings of serving, adding endpoints, discovery, requests, answers and timeouts, over any number of processes, endpoints and factories", "why_tests_cant": "the tests add all endpoints before the manager looks; the window between listening and the last added endpoint is a race of two processes", "anchors": ["scalopus_python/scalopus/common.py: DefaultExposer.__init__", "scalopus_general/src/endpoint_manager_poll.cpp: EndpointManagerPoll::manage, EndpointManagerPoll::connect", "scalopus_general/src/endpoint_introspect.cpp: EndpointIntrospect::handle, EndpointIntrospect::supported", "scalopus_interface/src/transport.cpp: Transport::addEndpoint, Transport::getEndpoint, Transport::endpoints"]}
{"id": "C88", "title": "A server and its clients can send to each other at the same time", "statement": "All requests, answers and broadcasts that a server and its clients have to send are received in the end, whatever their number and sizes, and in whatever order the threads run.", "quantifier": "all capacities of the connections, all numbers of clients, all lists of requests, answers and broadcasts of all sizes, and all interleavings of the threads", "why_tests_cant": "messages of tests fit into the socket buffers; whether two blocking writers wait for each other depends on sizes, capacities and schedules", "anchors": ["scalopus_transport/src/transport_unix.cpp: TransportUnix::work, TransportUnix::request, TransportUnix::broadcast", "scalopus_transport/src/protocol.cpp: send, receive"]}
{"id": "C89", "title": "The pages of the viewer's server lead to it", "statement": "The server answers requests for its version and its list of pages with JSON text; the addresses and links in them lead to this server, on whatever port it listens; other requests are not answered by it. The server can be started and destroyed in any order.", "quantifier": "all request uris, all ports, all sequences of start and destruction", "why_tests_cant": "there are no tests of the web server; ports and uris range over all values", "anchors": ["scalopus_catapult/src/catapult_backend.cpp: CatapultBackend::handle", "scalopus_catapult/src/catapult_server.cpp: CatapultServer::start, CatapultServer::~CatapultServer"]}
{"id": "C90", "title": "What has ended does not stay in memory", "statement": "The memory a process keeps for tracing threads, for subscribers to events and for clients and servers of the loopback transport is that of those that have not ended: threads that come and go, one after the other, do not make a program grow.", "quantifier": "all histories of threads that start, trace and end and of passes of the sender; all histories of subscriptions and lines; all histories of loopback clients and servers", "why_tests_cant": "growth shows over unbounded histories, and tests end before it does harm", "anchors": ["scalopus_tracing/src/native/tracepoint_collector_native.cpp: TracePointCollectorNative::getBuffer, retrieveAndClearOrphanedBuffers", "scalopus_tracing/src/native/endpoint_native_trace_sender.cpp: EndpointNativeTraceSender::work", "scalopus_tracing/src/lttng/babeltrace_parser.cpp: BabeltraceParser::process, setCallback", "scalopus_transport/src/transport_loopback.cpp: TransportLoopback::addClient, TransportLoopbackFactory::serve"]}
{"id": "C91", "title": "Durations of blocks stay right when tracing is switched while they run", "statement": "However tracing is switched on and off while a program is inside traced blocks (for the process, for a thread, by scoped settings, remotely), each block whose begin and end are both in the record is shown from its own begin to its own end by a reader that lets an end close the last open begin, and no pair is shown that is not a block of the program.", "quantifier": "for all programs of nested traced blocks with exceptions, all interleavings with other threads and remote requests, all moments of switching and all dropped events", "why_tests_cant": "The moments of switching relative to the blocks are unlimited; tests switch outside of blocks.", "anchors": ["scalopus_tracing/src/scope_trace_raii.cpp: TraceRAII", "scalopus_tracing/src/native/native_tracepoint.cpp: scope_entry, scope_exit", "scalopus_tracing/src/trace_configurator.cpp: setProcessState, setThreadState", "scalopus_tracing/src/endpoint_trace_configurator.cpp: handle"]}
{"id": "C92", "title": "From the tracepoint to the text: the file and the viewer get each event once", "statement": "After an interval of recording, the text the recorder writes (and the messages a viewer gets) is JSON which, read back, shows each event of the connected processes traced during the interval exactly once, with its process, thread, time, phase and name, in program order if the times shown increase, and nothing that was not traced.", "quantifier": "All processes, threads, histories of tracepoints, passes of the sender, broadcasts, receptions and source calls; all contents, names and entries of other sources.", "why_tests_cant": "It composes buffers, sender, encoding, transport, source, session and JSON text under all interleavings; tests look at each part on a few values.", "anchors": ["scalopus_tracing/src/native/endpoint_native_trace_sender.cpp: EndpointNativeTraceSender::work", "scalopus_tracing/src/native/native_trace_source.cpp: NativeTraceSource::finishInterval", "scalopus_catapult/src/catapult_recorder.cpp: CatapultRecorder", "scalopus_catapult/src/trace_session.cpp: TraceSession::processMessage"]}
{"id": "C93", "title": "Someone who reads the file finds the blocks of a thread as they ran", "statement": "For a thread whose tracing is on during one stretch of its program, pairing the begin and end entries of that thread in the recorded file gives exactly the blocks of which both ends were recorded, each with its name, begin and end time.", "quantifier": "All structured programs (nesting, exceptions, handlers), all histories of the recording system, all other threads and processes, all entries with names from other sources.", "why_tests_cant": "The claim is about every program and every interleaving of buffers, passes and messages, and about what a reader makes of the text, not about single calls.", "anchors": ["scalopus_tracing/src/scope_trace_raii.cpp: TraceRAII", "scalopus_tracing/src/native/native_tracepoint.cpp: scope_entry, scope_exit", "scalopus_tracing/src/native/native_trace_source.cpp: NativeTraceSource::finishInterval", "scalopus_catapult/src/catapult_recorder.cpp: CatapultRecorder"]}
{"id": "C94", "title": "An LTTng recording holds what was traced during it", "statement": "A recording through LTTng, from the moment it is started to the moment it is stopped, gives exactly one entry for each trace event of scalopus which babeltrace printed in between, with its process, thread, time, kind, name and value, whatever other recordings run at the same time.", "quantifier": "All outputs of babeltrace in any portions, all interleavings of the reading thread with any number of recordings starting and stopping, all names.", "why_tests_cant": "It composes a pipe, buffered reading, a parser, a callback set shared between threads and the conversion, under all schedules and all portions in which lines arrive.", "anchors": ["scalopus_tracing/src/lttng/babeltrace_parser.cpp: BabeltraceParser::run, process", "scalopus_tracing/src/lttng/babeltrace_tool.cpp: BabeltraceTool::addCallback", "scalopus_tracing/src/lttng/lttng_source.cpp: LttngSource::startInterval, stopInterval, finishInterval"]}
{"id": "C95", "title": "Traced blocks and functions in Python nest", "statement": "In Python, a block traced with the context manager and a call of a function decorated with traced put one begin and one end into the record, around everything that is traced inside, however the block or the call ends; so the record of each thread is well nested, and complete when the thread has finished.", "quantifier": "All programs made of calls, traced blocks, exceptions, handlers, returns and generators, all numbers of threads and interleavings, all points at which an interrupt comes.", "why_tests_cant": "Tests trace a few blocks in one thread; the claim ranges over all programs, recursion depths, schedules and interrupt points.", "anchors": ["scalopus_python/scalopus/tracing.py: TraceContext, traced, setBackend"]}
{"id": "C96", "title": "A program that uses the default exposer can be found and configured", "statement": "A Python program that constructs a DefaultExposer is listed by discover from then on, once, with its process number, the name it gave (or the name of the program if it gave none), the names of its threads and all endpoints that are natively supported, until the exposer is destroyed; trace_configure can switch its tracing; and constructing another exposer does no harm.", "quantifier": "All histories of any number of processes that start, import the module, assign to sys.argv, construct and drop exposers, name threads, trace and end; all orders in which the processes are met; all arguments of trace_configure.", "why_tests_cant": "A test constructs one exposer in one process and looks at its own record; the claim is about every combination of processes, names, moments of import and repeated construction, and about what another command can do with them.", "anchors": ["scalopus_python/scalopus/common.py: DefaultExposer", "scalopus_python/scalopus/__main__.py: discover, trace_configure", "scalopus_transport/src/transport_unix.cpp: TransportUnixFactory::serve", "scalopus_general/src/endpoint_process_info.cpp"]}
{"id": "C97", "title": "Endpoints written in Python live as long as they are needed, and no longer", "statement": "An endpoint written in Python that was added to a transport answers the messages for its name as long as the transport exists, also if the program keeps no reference to it; a transport exists as long as Python or the manager can get at it; whatever nobody can get at any more is destroyed, once; no use of them by a program or by a message harms the process.", "quantifier": "All histories in which a program makes endpoints and servers, assigns and deletes variables and attributes, adds endpoints under any names, asks endpoints for their transport and a manager for its connections, in which a manager connects and loses connections, messages arrive and Python's collector runs.", "why_tests_cant": "A test keeps its endpoint and its server in local variables for its whole duration; the claim is about every way references can be held and dropped on both sides, including ones that only show as a process that never goes away.", "anchors": ["scalopus_python/lib/pybind_fix.h: type_caster", "scalopus_python/lib/scalopus_interface.cpp: PyEndpoint::handle, PyEndpoint::unsolicited, add_scalopus_interface", "scalopus_interface/src/transport.cpp: addEndpoint", "scalopus_general/src/endpoint_manager_poll.cpp: connect, manage"]}
{"id": "C98", "title": "Processes that fork are traced as processes of their own", "statement": "When a traced process forks, each event is shown once at most, under the process and the thread that have made it; the events of the child are shown like those of its parent; neither the child's tracepoints nor its end are held up by what it has inherited.", "quantifier": "All histories in which programs start, start threads, pass tracepoints, make and destroy senders, fork at any moment, also while the sender's thread is at work, and end, and in which the senders take and send any part of what is waiting.", "why_tests_cant": "Whether an event is sent twice, or a mutex is left locked in the child, depends on what the sender's thread is doing at the moment of the fork; the project's tests do not fork at all.", "anchors": ["scalopus_tracing/src/native/tracepoint_collector_native.cpp: getBuffer, getActiveMap", "scalopus_tracing/src/native/endpoint_native_trace_sender.cpp: work, process_events, ~EndpointNativeTraceSender", "scalopus_tracing/src/native/native_tracepoint.cpp: scope_entry", "scalopus_general/include/scalopus_general/map_tracker.h: MapTracker"]}
{"id": "C99", "title": "Waiting for an answer from Python", "statement": "wait_for of a response returns the answer if it has come by then, raises if it will never come, and returns None only after the time it was given, with no answer so far; it may be called any number of times, from any threads, with any time limit, and it always returns.", "quantifier": "All numbers of threads, all sequences and overlaps of calls with all time limits, all times at which the answer comes or is lost.", "why_tests_cant": "The project's test waits once, in one thread, for an answer that comes at once; two waiting threads collide only if both are woken before either takes the answer.", "anchors": ["scalopus_python/lib/scalopus_interface.cpp: PendingResponse::wait_for, add_scalopus_interface", "scalopus_interface/include/scalopus_interface/transport.h: Transport::PendingResponse", "scalopus_transport/src/transport_unix.cpp: request, processMsg", "scalopus_transport/src/transport_loopback.cpp: request, work"]}
{"id": "C100", "title": "Switching tracing from outside while the program runs", "statement": "When the answer to a request that changes the trace configuration arrives, process and threads are as asked and as the answer says; from then on a thread that is switched off, or whose process is, records nothing, and one that is switched on records every tracepoint it comes to, in order.", "quantifier": "All numbers of threads that start, trace, switch themselves, open and close scoped changes and end, all numbers of requests being handled at the same time, all interleavings of their single accesses to the shared switches.", "why_tests_cant": "The project's tests change the configuration while no tracepoint is being executed; an event after the acknowledgement needs a thread between the check of the switch and the push.", "anchors": ["scalopus_tracing/src/native/native_tracepoint.cpp: scope_entry, scope_exit, mark_event_raw", "scalopus_tracing/src/trace_configurator.cpp: TraceConfigurator", "scalopus_tracing/src/trace_configuration_raii.cpp: TraceConfigurationRAII", "scalopus_tracing/src/endpoint_trace_configurator.cpp: EndpointTraceConfigurator::handle"]}
{"id": "C101", "title": "From the tracepoint through the ring buffers to the broadcast", "statement": "Every event a tracepoint accepts is broadcast once, whole, in order and under the number of its thread, although threads and sender use the ring buffers at the same time without locks; tracing never waits, an event is only refused when the buffer of its thread is full, what a thread leaves behind is sent by the next pass, and so is every event accepted before that pass.", "quantifier": "All buffer sizes, all numbers of threads that start, trace, end and have their number used again, all interleavings of the single memory accesses of threads and sender, all values a load may return under release and acquire.", "why_tests_cant": "A test on one machine sees a few interleavings of a strongly ordered processor; the claim is about every interleaving and every value the C++ memory model lets a load return.", "anchors": ["scalopus_tracing/src/spsc_ringbuffer.h: SPSCRingBuffer", "scalopus_tracing/src/native/tracepoint_collector_native.cpp: TracePointCollectorNative::getBuffer, retrieveAndClearOrphanedBuffers", "scalopus_tracing/src/native/endpoint_native_trace_sender.cpp: EndpointNativeTraceSender::work"]}
{"id": "C102", "title": "Native, LTTng or no trace points: the same program, the same recording", "statement": "A program linked with the native tracer, with the LTTng tracer or with the one that does nothing is configured in the same way; the first two record the same trace points of the same threads, and a recording made through either of them shows the same scopes, marks and counters with the same names and values, in the same order and with times that agree to a microsecond. The third records nothing.", "quantifier": "All sequences of starts and ends of threads, trace points, local and remote changes of the configuration, all process, thread and trace ids, all times in nanoseconds up to 73 years after 1970 that are a microsecond apart, all orders in which the events reach the two sources, all tables of names.", "why_tests_cant": "The tests only run the native tracer, LTTng needs its daemon; the claim is about all programs and recordings, and involves rounding of times to doubles in two different ways.", "anchors": ["scalopus_tracing/src/lttng/lttng_tracepoint.cpp: scope_entry, scope_exit, mark_event, count", "scalopus_tracing/src/lttng/scope_tracepoint_lttng_definition.h", "scalopus_tracing/src/nop/nop_tracepoint.cpp", "scalopus_tracing/src/native/native_tracepoint.cpp", "scalopus_tracing/src/lttng/lttng_source.cpp: LttngSource::finishInterval", "scalopus_tracing/src/native/native_trace_source.cpp: NativeTraceSource::finishInterval"]}
{"id": "C103", "title": "Trace event sources written in Python", "statement": "A source written in Python takes part in the recordings of a viewer like any other: for each request its methods are called once, in the order of the sources, on the state the calls before left; what finishInterval returns is sent to the viewer, complete and in order, as events that are the same values if read by Python again; methods that are not there do nothing. A source or provider that raises or returns something unusable affects only its own events.", "quantifier": "All classes with any behaviour depending on any state, all numbers and orders of sources of the library and in Python, all texts a viewer sends, all interleavings of arrivals, handling, work rounds and other Python code that changes the state.", "why_tests_cant": "The only test with a source in Python calls one method that returns an empty list, outside of any session; what is claimed ranges over all classes, values and schedules, and one uncaught exception anywhere ends the process.", "anchors": ["scalopus_python/lib/scalopus_interface.cpp: PyTraceEventProvider::makeSource, PyTraceEventSource::startInterval, stopInterval, finishInterval", "scalopus_catapult/src/trace_session.cpp: TraceSession::loop, processMessage", "scalopus_catapult/src/catapult_backend.cpp: CatapultBackend::makeSession", "scalopus_python/lib/json_util.cpp: pyToJson"]}
{"id": "C104", "title": "From the switch in front of a tracepoint to the text of the file", "statement": "A thread comes to tracepoints while its process and the thread itself can be switched on and off by requests; a recorder is connected and writes a file. While both are on, the file shows every tracepoint the thread came to during the recording, once, with its time, process, thread and name, and in order; after a request that switched the process or the thread off has been answered, the file shows none that came later; and it never shows anything no thread came to.", "quantifier": "All numbers of processes, threads and buffers, all interleavings of single memory accesses of tracepoints, of the sender, of requests, of the transports and of the recorder, all values a load may return under the memory model, all events, names and contents of other sources.", "why_tests_cant": "The path crosses two flags, a lock-free buffer with stale loads, a sender thread, a socket, a provider and a JSON writer; the tests check each link for a few values with one thread on one schedule.", "anchors": ["scalopus_tracing/src/native/native_tracepoint.cpp: scope_entry, scope_exit, mark_event_raw", "scalopus_tracing/src/trace_configurator.cpp: TraceConfigurator", "scalopus_tracing/src/endpoint_trace_configurator.cpp: EndpointTraceConfigurator::handle", "scalopus_tracing/src/spsc_ringbuffer.h: SPSCRingBuffer", "scalopus_tracing/src/native/endpoint_native_trace_sender.cpp: EndpointNativeTraceSender::work", "scalopus_tracing/src/native/native_trace_provider.cpp: NativeTraceProvider::incoming", "scalopus_tracing/src/native/native_trace_source.cpp: NativeTraceSource::finishInterval", "scalopus_catapult/src/catapult_recorder.cpp: CatapultRecorder"]}
{"id": "C105", "title": "A server's endpoints behave as if everything happened one after the other", "statement": "Whatever state the endpoints of a process keep, and however many clients talk to it over Unix sockets while the process itself also changes that state: there is one order of all calls and of the process's own operations such that each answer a client has is the one its endpoint gives in the state at that place; each request is in it at most once and only if it was made; whatever was finished when something else began comes before it; the requests of one client come in the order in which it sent them. Every request whose endpoint was called gets an answer. The same holds for endpoints written in Python.", "quantifier": "All states, all handlers (also ones that do not answer or throw), all operations of the process, any number of clients (which may stop at any moment), all interleavings of their threads, of the server and of the process.", "why_tests_cant": "A test sees a handful of interleavings of a few clients with one endpoint; that no interleaving mixes up answers or states is a statement about all of them.", "anchors": ["scalopus_transport/src/transport_unix.cpp: TransportUnix::work, processMsg, request", "scalopus_interface/include/scalopus_interface/endpoint.h: handle", "scalopus_python/lib/scalopus_interface.cpp: PyEndpoint::handle, pyToData"]}
{"id": "C106", "title": "Whatever bytes arrive, they do what they say, or nothing", "statement": "A payload that arrives at the trace configurator's endpoint either is no request, and then nothing of the trace state changes; or it is exactly one request, and then the process flag and the flags of exactly the threads it names become what it says, and the answer shows the flags of all threads the configurator knows, as they are afterwards. What a client takes from an answer (names, process information, trace state) is what the answer says: for a key that is there more than once the first entry counts, and numbers are cut to the width of their type; answers that do not say it are refused as a whole.", "quantifier": "All payloads and all answers (any bytes), all states the configurator can be in.", "why_tests_cant": "The tests send the requests the library itself makes; here any program may send anything, and there are unboundedly many byte strings.", "anchors": ["scalopus_tracing/src/endpoint_trace_configurator.cpp: handle, setTraceState, getTraceState, from_json", "scalopus_tracing/src/endpoint_trace_mapping.cpp: mapping", "scalopus_general/src/endpoint_process_info.cpp: processInfo"]}
{"id": "C107", "title": "A recording can always be brought to its end", "statement": "However far a recording has come and whatever the traced threads, the sender, the server and the clients are in the middle of: the library's own threads can, without any further step of the traced program, of a requester or of the user, bring everything that is in the buffers to the recording source, and return from every call of incoming; the file that is written then has every event that was put in the buffers since the recording began. Nothing in the library gets stuck for good.", "quantifier": "All histories of all processes and threads, every state they lead to (every point of every pass of a sender, every content of the queues and sockets), all sets of processes that are to be flushed.", "why_tests_cant": "The tests wait a while and look at what has come; that no reachable state is a dead end is a statement about all states.", "anchors": ["scalopus_tracing/src/native/endpoint_native_trace_sender.cpp: work", "scalopus_tracing/src/native/tracepoint_collector_native.cpp", "scalopus_transport/src/transport_unix.cpp: work, processMsg", "scalopus_tracing/src/native/native_trace_provider.cpp: incoming", "scalopus_tracing/src/native/native_trace_source.cpp: addData, finishInterval"]}
{"id": "C108", "title": "Broadcasting does not hold up the rest of a transport", "statement": "However many broadcasts the threads of a program make on a transport, and whenever they make them: each broadcast made earlier is sent, each request that has come in is handled, and the destruction of the transport comes to its end, after a number of steps of the transport's thread that does not depend on what is broadcast meanwhile; every broadcast made before the transport is destroyed is sent, once.", "quantifier": "All interleavings of broadcasting threads, incoming requests, the destructor and the transport's own thread, for Unix and loopback transports; all numbers of connections, queued requests and broadcasts.", "why_tests_cant": "Starvation needs a producer that is as fast as the transport's thread for as long as one looks; a test sees some finite piece of one schedule.", "anchors": ["scalopus_interface/src/transport.cpp: broadcast, popBroadcast, haveBroadcast", "scalopus_transport/src/transport_unix.cpp: work, ~TransportUnix", "scalopus_transport/src/transport_loopback.cpp: work, ~TransportLoopback"]}
{"id": "C109", "title": "Tracing is possible until the end of threads and of the program", "statement": "A program may trace, name its threads and switch tracing anywhere: in destructors of its thread-local objects, in destructors of its static objects and in threads that are still running when main returns. Nothing undefined happens, every event traced goes to a buffer the collector will look at, and a thread that has ended leaves its buffer among the buffers of ended threads exactly once and no name behind.", "quantifier": "All programs with any threads, thread-local and static objects with destructors that use the library, and all interleavings of uses, constructions, ends of threads, the return of main and the destruction of static objects.", "why_tests_cant": "What is undefined depends on the order of construction of objects in different libraries and on the schedule at exit; a destroyed object usually still looks alive, so a test passes.", "anchors": ["scalopus_tracing/src/native/native_tracepoint.cpp: scope_entry, scope_exit, mark_event, count_event", "scalopus_tracing/src/native/tracepoint_collector_native.cpp: getInstance, getBuffer", "scalopus_tracing/src/trace_configurator.cpp: getInstance, getThreadStatePtr", "scalopus_tracing/src/static_string_tracker.cpp: getInstance", "scalopus_general/src/thread_name_tracker.cpp: getInstance, setCurrentName"]}
{"id": "C110", "title": "Setting the clock of the computer does not disturb a recording", "statement": "If the clock of the computer is set while events are recorded, the recording still shows the events of each thread in the order in which they were traced and its blocks nested as they were, and each block with the time it really took.", "quantifier": "All histories of passing time, settings of the clock (ahead or back, by any amount) and tracepoints of any threads of any processes, all programs, all groupings of the events into messages.", "why_tests_cant": "Nobody sets the clock during a test run, and a time service steps it at moments nobody chooses; which blocks are hurt depends on where the step falls.", "anchors": ["scalopus_tracing/src/native/native_tracepoint.cpp: nativeGetChrono, scope_entry, scope_exit, mark_event, count_event", "scalopus_tracing/src/native/native_trace_source.cpp: finishInterval"]}
{"id": "C111", "title": "A viewer that leaves does not hold up the others", "statement": "The viewer server handles what the viewers send, new viewers, pages and the answers for the viewers at the moment they arrive, also while a viewer leaves in the middle of a command that takes long (a recording of processes that do not answer); commands of the viewer that left and that were not begun are not begun any more.", "quantifier": "All histories of viewers that connect, send commands that take any time, and leave, pages asked for, all timings and interleavings of the server's thread with the viewers' workers, all times the sources need.", "why_tests_cant": "How long the server is held up depends on what the worker is doing at the moment its viewer leaves and on how long that takes; a test with one viewer and processes that answer never sees it.", "anchors": ["scalopus_catapult/src/catapult_backend.cpp: onConnect, onData, onDisconnect, delSession, makeSession, handle", "scalopus_catapult/src/trace_session.cpp: ~TraceSession, loop, processMessage"]}
{"id": "C112", "title": "Polling can be started and stopped by any thread at any time", "statement": "startPolling, stopPolling and the destructor of the endpoint manager may be called by any threads at any time, also by a logger or a factory the manager itself calls: none of them throws or ends the program, at most one thread polls, between the calls the servers are polled exactly if the last call was startPolling and then at least once per interval plus the length of a poll, and stopping does not wait for the interval to pass.", "quantifier": "All histories of calls of any number of threads and from within polls, all interleavings with the polling threads, all intervals and all lengths of polls.", "why_tests_cant": "What happens when calls overlap depends on which step of one falls between which steps of the other; the tests start and stop from one thread.", "anchors": ["scalopus_general/src/endpoint_manager_poll.cpp: startPolling, stopPolling, work, ~EndpointManagerPoll"]}
{"id": "C113", "title": "A process that stands still does not keep the manager from the others", "statement": "A process that is stopped, sits in a debugger or is held up in a handler costs the endpoint manager at most the 200 ms it waits for its answer in a poll: the poll ends, the endpoints of all other processes are found and endpoints() returns, and if the process is then killed the manager only drops it.", "quantifier": "All histories of polls, of processes that stop, go on and end, and of connections other processes make to them, with any number of servers and any order of discovery.", "why_tests_cant": "It takes a stopped process and a number of connections it has not accepted, from whichever programs; the tests only use servers that run.", "anchors": ["scalopus_general/src/endpoint_manager_poll.cpp: manage, connect, endpoints", "scalopus_transport/src/transport_unix.cpp: serve, connect, TransportUnixFactory::connect"]}
{"id": "C114", "title": "What a recorder has recorded is not lost", "statement": "Everything that reaches the sources of a recorder in its intervals ends up exactly once in a text it returns or in a file it writes, or can still be collected: a call that cannot write the file says so and the events can be written elsewhere, a file that holds a recording keeps it until a complete new one replaces it, also if the disk is full or the program dies, and destroying a recorder whose recording has been written leaves the file as it is.", "quantifier": "All histories of intervals, arriving events, collections, writes and the destruction of the recorder; all files that can or cannot be opened or take only part of the text; all points at which the program dies.", "why_tests_cant": "The tests write small recordings to files that can be written and do not look at what is left of a recording after a write that failed, was cut short or was made twice.", "anchors": ["scalopus_catapult/src/catapult_recorder.cpp: collectEvents, writeToFile, setupDumpFile, ~CatapultRecorder", "scalopus_tracing/src/native/native_trace_source.cpp: startInterval, finishInterval", "scalopus_tracing/src/lttng/lttng_source.cpp: startInterval, finishInterval"]}
{"id": "C115", "title": "Managers, providers, recorders and servers exist as long as they are needed, and no longer", "statement": "A manager, provider, source, recorder or server exists as long as the program has it or something that needs it exists; when the program has let go of everything and no viewer is left, all of them are destroyed, each once, so that polling ends, connections are closed and threads are gone. This holds for programs in C++ and in Python; for providers written in Python that have to refer to their manager, the function the library offers for this breaks the circle of references.", "quantifier": "All histories in which a program makes managers, providers, sources, recorders and servers, adds providers and factories to them, copies and drops references, in Python also has objects and functions that refer to any of these, and viewers come and go.", "why_tests_cant": "A test keeps everything in local variables until it ends, and does not see what is still there afterwards; the claim is about every way in which references can be shared and dropped, and what remains after it shows only as a process which goes on polling, or as a recording that is empty.", "anchors": ["scalopus_interface/include_consumer/scalopus_interface/endpoint_manager.h: EndpointManager::addEndpointFactory", "scalopus_general/include_consumer/scalopus_general/general_provider.h: GeneralProvider::manager_", "scalopus_tracing/include_consumer/scalopus_tracing/scope_tracing_provider.h: ScopeTracingProvider::manager_", "scalopus_tracing/include_consumer/scalopus_tracing/native_trace_provider.h: NativeTraceProvider::sources_", "scalopus_catapult/src/catapult_backend.cpp: CatapultBackend::onData, CatapultBackend::onDisconnect", "scalopus_python/lib/scalopus_interface.cpp: addEndpointFactory", "scalopus_python/scalopus/general.py: weak_provider_endpoint_factory"]}
{"id": "C116", "title": "A thread that traces no faster than its buffer is emptied loses nothing", "statement": "If a thread traces fewer events than its ring buffer has places in every stretch of time in which at most one pass of the sender ends, then none of its events is lost, however long it runs and whatever the other threads do; once the thread has ended and the next pass is done, what was broadcast of it is everything it traced, in order.", "quantifier": "All buffer sizes, numbers of threads and events, all orders of the single memory accesses of threads and sender, all histories in which the thread keeps to this rate.", "why_tests_cant": "Whether an event is dropped depends on how the accesses of the thread to the indices fall between those of the sender; a test sees some of these orders, on one processor, and for a limited time, while the claim is a bound that has to hold for ever.", "anchors": ["scalopus_tracing/src/spsc_ringbuffer.h: push, size, pop_into", "scalopus_tracing/src/native/tracepoint_collector_native.cpp: getBuffer, setRingbufferSize", "scalopus_tracing/src/native/endpoint_native_trace_sender.cpp: work"]}
{"id": "C117", "title": "Adding an endpoint written in Python is all or nothing, and its methods serve the messages", "statement": "addEndpoint of an endpoint written in Python either returns, and from then on the endpoint serves the messages for the name getName gave, at this transport, and getTransport gives this transport; or it raises, and then nothing has changed. A message is handed to the endpoint added last under its name, in the state the calls before have left it; exactly the bytes it returns are sent back; methods that are not there do nothing; no class does harm to the process.", "quantifier": "All classes with any subset of the methods, whose behaviour depends on any state; all histories of making and adding endpoints to any number of transports and of messages with any names and payloads.", "why_tests_cant": "The project's tests have one well-behaved class with all methods; what is left behind by a call that raises half way shows only in later messages, for each combination of methods and each order of calls.", "anchors": ["scalopus_python/scalopus/interface.py: Endpoint", "scalopus_python/lib/scalopus_interface.cpp: PyEndpoint::getName, PyEndpoint::handle, PyEndpoint::unsolicited, PyEndpoint::setTransport, add_scalopus_interface", "scalopus_interface/src/transport.cpp: addEndpoint", "scalopus_interface/src/endpoint.cpp: setTransport, getTransport", "scalopus_transport/src/transport_unix.cpp: processMsg, work"]}
{"id": "C118", "title": "trace_configure does what its command line says", "statement": "On the command line of trace_configure the state, the numbers and the option -u may be given in any order and each of them may be left out: the processes and threads with the numbers given get the state given, other processes get that of the last -u, and nothing that is not written is switched. A command line with a mistake in it changes nothing.", "quantifier": "All lists of words, including abbreviated, joined and repeated options, negative numbers and --; all sets of processes, in time, late or failing.", "why_tests_cant": "What a word means depends on all words around it, and there are infinitely many command lines; the project has no test of its commands at all.", "anchors": ["scalopus_python/scalopus/__main__.py: trace_configure_parser, run_trace_configure, __main__"]}
