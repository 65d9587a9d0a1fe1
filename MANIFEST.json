{"claims": [
 {"property": "C01", "status": "proved", "theorems": ["C01_round_trip", "C01_send_succeeds", "C01_failed_send_is_prefix"], "note": ""},
 {"property": "C02", "status": "partial", "theorems": ["C02_success_is_complete_partial", "C02_truncated_payload_exact", "C02_statement_refuted", "C02_crash_refuted", "C02_short_read_refuted", "C02_header_refuted"], "note": "The statement is false of the code (C02_statement_refuted): a payload cut off by the death of the sender, or by a short read, is accepted; a cut header is undefined behaviour. Proved: with full reads and more bytes following, success implies the complete message was sent; exact characterisation of accepted truncated payloads."},
 {"property": "C03", "status": "partial", "theorems": ["C03_within_limits_partial", "C03_oversize_refuted", "C03_long_name_refuted", "C03_long_payload_refuted"], "note": "The statement is false of the code: send truncates the length fields silently. Proved for every oversized name/payload what the receiver gets; within the limits nothing is corrupted."},
 {"property": "C04", "status": "partial", "theorems": ["C04_response_of_request_partial", "C04_never_twice", "C04_value_stays", "C04_unsolicited_answer_refuted", "C04_dying_server_refuted"], "note": "Full statement is false of the code in two situations, shown by the _refuted theorems: an endpoint of the client itself answers unsolicited messages, or the server dies while sending the answer. Proved for every schedule without those two for the client concerned (any number of clients and requests)."},
 {"property": "C05", "status": "partial", "theorems": ["C05_answered_resolves_partial", "C05_answered_request_partial", "C05_not_missed_after_booking", "C05_stays_connected", "C05_early_answer_refuted", "C05_unknown_endpoint_refuted", "C05_connection_lost_refuted", "C05_stuck_forever"], "note": "Full statement is false: an answer processed before request() has booked the promise is lost forever; requests to unknown endpoints and requests outstanding at connection loss are never resolved. Proved: every other answered request resolves once the worker has taken what is on the wire. Also proved: while the server lives and a client using the library is not destroyed, neither side ends the connection."},
 {"property": "C06", "status": "proved", "theorems": ["C06_pending_exact", "C06_pending_sound", "C06_failed_request", "C06_failed_never_pending", "C06_fails_when_lost"], "note": "For all schedules, including hostile ones."},
 {"property": "C07", "status": "proved", "theorems": ["C07_complete", "C07_content", "C07_once", "C07_nobody_else", "C07_conserved", "C07_fifo", "C07_handed_over", "C07_never_answer", "C07_backlog_misses"], "note": "Connected means accepted by the server; C07_backlog_misses shows that a client whose connect() returned but which is not accepted yet gets nothing."},
 {"property": "C08", "status": "partial", "theorems": ["C08_order_refuted", "C08_always_reversed", "C08_ordered_across_empty_queue_partial"], "note": "Full statement is false: the queue is a stack. What holds: order is kept across a moment at which the queue is empty."},
 {"property": "C09", "status": "partial", "theorems": ["C09_non_interference", "C09_pass_serves_partial", "C09_accept_failure_refuted"], "note": "Proved: non-interference for every schedule, and that a pass serves everybody when a descriptor is free. False without that: a failing accept starves everybody (C09_accept_failure_refuted)."},
 {"property": "C10", "status": "partial", "theorems": ["C10_served_in_order", "C10_outcome", "C10_value_is_answer", "C10_abandoned_not_executed", "C10_pass_empties", "C10_pass_completes_partial", "C10_unknown_endpoint_refuted", "C10_only_unknown_endpoint", "C10_never_added"], "note": "Order, execution exactly once, outcomes, abandonment and emptiness after a pass are proved for every schedule; the clause about endpoints that do not exist is false of the code (C10_unknown_endpoint_refuted: call through a null pointer), and completion of a pass therefore needs the endpoints to exist."},
 {"property": "C100", "status": "partial", "theorems": ["C100_done", "C100_off_partial", "C100_on", "C100_while_off", "C100_while_on", "C100_reported", "C100_straggler_refuted", "C100_between_refuted", "C100_answer_refuted", "C100_undone_refuted", "C100_reused_refuted"], "note": "Proved for every run: C100_done (as asked and as answered, if nobody else switches), C100_on and C100_while_on (everything is recorded), C100_reported (each reported value was true at some moment of the handling, under any interference). C100_off_partial/C100_while_off allow the one event that was already past its check; that it can come is C100_straggler_refuted. Also false: C100_between_refuted, C100_answer_refuted, C100_undone_refuted, C100_reused_refuted."},
 {"property": "C101", "status": "partial", "theorems": ["C101_exactly_once", "C101_called", "C101_only_whole", "C101_no_race", "C101_refines", "C101_ended", "C101_wait_free", "C101_pass", "C101_current", "C101_room_refuted", "C101_running_refuted"], "note": "Proved for all schedules and load values: accepted events are broadcast exactly once, in order, whole and under their thread, race-free and wait-free; ended threads are emptied by the next pass; the machine refines Collector_model. Refuted: an event may be refused with an empty buffer (C101_room_refuted), and no pass need send an accepted event of a running thread (C101_running_refuted); a pass whose loads are up to date does (C101_current)."},
 {"property": "C102", "status": "partial", "theorems": ["C102_same_program", "C102_nop", "C102_line", "C102_clock", "C102_recording_partial", "C102_any_partial", "C102_order_refuted", "C102_counters_refuted", "C102_nop_refuted"], "note": "Proved: the native and the LTTng program answer the same and record the same trace points per thread; the program without trace points records nothing; the line printed for a trace point, with its time to the nanosecond, is read as what happened (assuming strtod rounds correctly); both recordings have the same entries, times less than a microsecond apart (C102_any_partial), and if the happenings are a microsecond apart in the same order, own counter values equal, and all values equal for counters of one process that arrive in order (C102_recording_partial). Refuted: the same order for happenings a nanosecond apart (C102_order_refuted); counters of the same name in two processes (C102_counters_refuted); the nop program's answer lists the same threads (C102_nop_refuted)."},
 {"property": "C103", "status": "partial", "theorems": ["C103_session_partial", "C103_state", "C103_blame", "C103_survive", "C103_broken", "C103_make", "C103_none_refuted", "C103_raise_refuted", "C103_int_refuted", "C103_null_refuted", "C103_make_refuted"], "note": "Proved: while the session lives every request has exactly its effects and what is sent are the values returned (missing: values C41 does not bring back, such as sets with floats, and floats that are not finite); states; the server ends exactly with the first fault, and what is lost then. Refuted: that a faulty source affects only itself; None, an exception, or an integer beyond 64 bits ends the server, a provider returning None is undefined behaviour, one that raises leaves the viewer without session."},
 {"property": "C104", "status": "partial", "theorems": ["C104_sound", "C104_recorded", "C104_while_partial", "C104_asked_partial", "C104_room", "C104_late_refuted", "C104_room_refuted"], "note": "As stated false: a tracepoint that has passed the flags when a request is handled is shown although it is recorded after the answer (C104_late_refuted), and a push may find no room in an empty buffer (C104_room_refuted). Proved for all histories: the file shows nothing no thread came to (C104_sound), everything pushed (C104_recorded), everything come to while on and with room, nothing while off but the one tracepoint under way (C104_while_partial), the same after an answered request (C104_asked_partial); a thread with fewer tracepoints than places always finds room (C104_room)."},
 {"property": "C105", "status": "partial", "theorems": ["C105_linearizable", "C105_value", "C105_python", "C105_silent_refuted", "C105_raise_refuted"], "note": "Proved for all states, handlers, clients and interleavings (clients that use this library, see C04): one order of calls and own operations explains every answer, respects time and the order of each client. Refuted: a handler that returns nothing (in Python: anything but text, bytes or a list) leaves its request without an answer for ever; one that throws for one client ends the server for all."},
 {"property": "C106", "status": "partial", "theorems": ["C106_request", "C106_one", "C106_names", "C106_info", "C106_state", "C106_unknown_refuted", "C106_names_refuted"], "note": "Proved for all payloads and answers. Refuted: a command that is not known is refused (C106_unknown_refuted: it is answered like a question); the client shows every name of an answer (C106_names_refuted: numbers are cut to 32 bits). A payload that is no request ends the handler with an exception (C68)."},
 {"property": "C107", "status": "partial", "theorems": ["C107_flush", "C107_completes", "C107_sender_ended", "C107_ended_refuted", "C107_process_gone", "C107_died_refuted"], "note": "Without conditions false: when the sender of a process has ended with events in the buffers, or the process died with a broadcast queued, no continuation brings them to the recorder (C107_ended_refuted, C107_died_refuted; for all states C107_sender_ended, C107_process_gone). Proved for every other reachable state: steps of the library's own threads alone bring everything to the recorder and return from every call (C107_flush), and the file then has every event put in the buffers since the recording began (C107_completes). That fair scheduling must lead there is not stated."},
 {"property": "C108", "status": "partial", "theorems": ["C108_starved_refuted", "C108_last_refuted", "C108_broadcast", "C108_request", "C108_end", "C108_defined", "C108_goes_on", "C108_once", "C108_requests_once"], "note": "As stated false: for every number of steps there is a history in which broadcasts made later keep an older broadcast, a request and the destructor waiting (C108_starved_refuted), and a broadcast made before the destruction may never be sent (C108_last_refuted). Proved for all histories: the worker is held up by 3 of its steps for each broadcast made meanwhile and by nothing else, so broadcasts, requests and the end come after a number of steps that depends only on these (C108_broadcast, C108_request, C108_end); it never takes from an empty queue, is never stuck, sends each broadcast at most once and handles no request more often than it came in."},
 {"property": "C109", "status": "partial", "theorems": ["C109_early_refuted", "C109_static_refuted", "C109_running_refuted", "C109_named_refuted", "C109_early", "C109_static", "C109_after", "C109_named", "C109_careful", "C109_pushes", "C109_leaves", "C109_switches"], "note": "Refuted as stated (C109_early_refuted, C109_static_refuted, C109_running_refuted, C109_named_refuted), and shown to fail in every such program (C109_early, C109_static, C109_after, C109_named). Proved for all programs: every event traced goes to a known buffer (C109_pushes), an ended thread leaves no trace among running threads and names and its buffer aside once (C109_leaves). Programs that take care (objects made after what they use, no per-thread use in static destructors, threads joined) never do anything undefined (C109_careful)."},
 {"property": "C11", "status": "proved", "theorems": ["C11_lookup", "C11_introspection_exact", "C11_introspection_ascending", "C11_introspection_agrees", "C11_bound"], "note": "For every history of addEndpoint calls."},
 {"property": "C110", "status": "partial", "theorems": ["C110_two", "C110_thread_partial", "C110_thread_refuted", "C110_blocks_partial", "C110_back_refuted", "C110_between_refuted", "C110_ahead_refuted"], "note": "Proved for all histories: the times shown of any two tracepoints differ by the real time plus the settings in between, to a microsecond, and this decides their order; if the clock does not go back between tracepoints of a thread its order and its blocks are right, and so are the lengths of blocks in which it was not set. Refuted (C110_back_refuted, C110_between_refuted, C110_ahead_refuted, C110_thread_refuted): set back inside or between blocks, set ahead inside a block."},
 {"property": "C111", "status": "partial", "theorems": ["C111_prompt", "C111_bounded_partial", "C111_no_more", "C111_never_stuck", "C111_refuted"], "note": "Refuted as stated (C111_refuted: for every n, a viewer that leaves during a command of n ms keeps a page or a new viewer waiting n + 10 ms). Proved: what arrives while nobody is leaving is handled at once whatever the workers do (C111_prompt); otherwise within (D + W + 10) ms per viewer that is leaving (C111_bounded_partial, the bound is reached by the refutation); commands of a viewer that left are not begun any more; the server is never stuck. Not modelled: the time the server's own handlers take apart from the join."},
 {"property": "C112", "status": "partial", "theorems": ["C112_safe_partial", "C112_polls_partial", "C112_time_partial", "C112_fresh_partial", "C112_alive_partial", "C112_two_stops_refuted", "C112_start_stop_refuted", "C112_two_starts_refuted", "C112_inside_refuted", "C112_slow_refuted"], "note": "Refuted as stated: overlapping calls and calls from within a poll end the program, are undefined or throw (C112_two_stops_refuted, C112_start_stop_refuted, C112_two_starts_refuted, C112_inside_refuted), and stopping can take the whole interval, for every interval (C112_slow_refuted). Proved for all histories in which calls (of any threads) do not overlap and none is made from within a poll: nothing throws or ends the program, at most one thread polls, exactly the wanted one between calls, every call returns within one poll and one interval, polls begin at least once per interval plus the length of a poll, nothing gets stuck."},
 {"property": "C113", "status": "partial", "theorems": ["C113_time_partial", "C113_connects_partial", "C113_never_stuck_partial", "C113_for_ever_refuted", "C113_refuted", "C113_goes_on", "C113_killed_refuted", "C113_answers"], "note": "Proved: unless the manager comes to a standing server with six connections not accepted, a poll takes at most 200 ms per server found, nothing else holds it up, and when it ended each server found is connected. Refuted: with six such connections the manager waits for ever and connects nobody else (C113_refuted, C113_for_ever_refuted); killing the process then ends the manager's program (C113_killed_refuted)."},
 {"property": "C114", "status": "partial", "theorems": ["C114_partial", "C114_for_ever", "C114_unopened_refuted", "C114_threw_refuted", "C114_twice_refuted", "C114_begun_refuted", "C114_cut_refuted", "C114_again_refuted", "C114_destroyed", "C114_terminated_refuted", "C114_interval"], "note": "Proved: with native sources, if each file is written once, can be opened and takes the whole text, a new interval begins only after a collection and the program does not die, everything recorded is found exactly once in a file, a returned text or a source. Refuted: a file that cannot be opened (C114_unopened_refuted), a text that cannot be made (C114_threw_refuted), a file written and set up for the destruction (C114_twice_refuted), an interval begun before the last was collected (C114_begun_refuted), a write cut short or the program's death in it (C114_cut_refuted) lose recordings, for ever (C114_for_ever); LTTng sources give theirs again (C114_again_refuted). The destructor writes to the file asked for last (C114_destroyed), or ends the program if the text cannot be made (C114_terminated_refuted)."},
 {"property": "C115", "status": "partial", "theorems": ["C115_held", "C115_partial", "C115_cpp", "C115_manager_refuted", "C115_circle_refuted", "C115_python_refuted", "C115_helper_refuted", "C115_copy", "C115_yours"], "note": "Refuted: a recorder or server with a native provider does not keep the manager it needs, which ends (and with it the recording) when the program lets go of it, unless there is a general provider (C115_manager_refuted); in Python a manager and a function that keep each other stay for ever (C115_circle_refuted, C115_python_refuted), and the function of the library made for this case raises a NameError always (C115_helper_refuted). Proved: what is needed exists and nothing is destroyed twice (C115_held); without circles, exactly what is not needed is destroyed (C115_partial); programs in C++ whose own functions capture none of these objects never make a circle, and leave nothing behind (C115_cpp). Transports, and providers and sources written in Python, are not part of this model (see C97)."},
 {"property": "C116", "status": "partial", "theorems": ["C116_partial", "C116_all_partial", "C116_tight", "C116_push_refuted", "C116_take_refuted"], "note": "Proved for all sizes and schedules, if the loads of the indices by the thread and the sender return the last value stored: a thread with fewer events than places between the ends of every second pass loses none, and after its end all of them have been broadcast; the bound is the best possible (C116_tight). Refuted without that: loads that return older values, by the thread (C116_push_refuted) or the sender (C116_take_refuted), lose an event of a thread that is slow enough."},
 {"property": "C117", "status": "partial", "theorems": ["C117_partial", "C117_message_partial", "C117_where_refuted", "C117_own_refuted", "C117_refuted", "C117_raise_refuted"], "note": "Proved for all classes and histories: addEndpoint of a class that leaves setTransport to the library is all or nothing (C117_partial), and every message goes to the endpoint added last under its name, in its current state, with exactly the returned bytes as answer (C117_message_partial). Refuted: if setTransport of the class raises, addEndpoint raises and the endpoint has replaced the one before (C117_refuted); with a setTransport of its own an endpoint never has a transport (C117_where_refuted, C117_own_refuted); a method that raises ends the process (C117_raise_refuted)."},
 {"property": "C118", "status": "partial", "theorems": ["C118_partial", "C118_dashes", "C118_written", "C118_unlisted", "C118_query", "C118_places", "C118_first", "C118_help", "C118_value", "C118_refuted", "C118_option_refuted"], "note": "Refuted as stated (C118_refuted, C118_option_refuted): numbers have to stand right after the state, numbers without a state are refused, and an option without a value takes a state that follows it. Proved for all command lines: what runs was written (C118_written), without a word like the option nothing unlisted is switched (C118_unlisted) and without a state nothing changes (C118_query); well-written lines are carried out as written (C118_partial); lines with a double dash too (C118_dashes); which lines are always refused (C118_places, C118_first, C118_help, C118_value). argparse itself is modelled from its documented behaviour, not from this repository."},
 {"property": "C12", "status": "partial", "theorems": ["C12_one_transport_per_destination", "C12_one_destination_per_transport", "C12_held_iff_reported", "C12_cycle_partial", "C12_gentle_cycle_partial", "C12_late_factory_refuted"], "note": "All clauses are proved for every history, the last one with respect to the factories registered when the connection is made and the names the server answered then; endpoints are never added later (C12_late_factory_refuted)."},
 {"property": "C13", "status": "partial", "theorems": ["C13_null_transport_refuted", "C13_failed_query_refuted", "C13_never_asked_again_refuted", "C13_tried_again_partial", "C13_not_held_partial"], "note": "False of the code in three ways (refuted theorems). Proved: a server that does not accept, or whose connection broke, is tried again."},
 {"property": "C14", "status": "proved", "theorems": ["C14_fifo", "C14_push_false_only_when_full", "C14_pop_false_only_when_empty", "C14_size_exact", "C14_pop_into_count"], "note": ""},
 {"property": "C15", "status": "proved", "theorems": ["C15_no_data_race"], "note": ""},
 {"property": "C16", "status": "proved", "theorems": ["C16_exactly_once_in_order", "C16_accepted_is_emitted", "C16_only_emitted_under_its_thread", "C16_fresh_buffer"], "note": "Per thread instance; when a thread id is used again, the events of the two threads with that id may be broadcast in either order (C16_reused_id_example). Stated for a sender that has its transport; the time before that is C17."},
 {"property": "C17", "status": "partial", "theorems": ["C17_two_passes_partial", "C17_pass_possible_partial", "C17_teardown_partial", "C17_before_transport_refuted", "C17_shutdown_refuted", "C17_teardown_refuted"], "note": "False in three ways, each with a witness: events collected before the endpoint has a transport are dropped; there is no final pass at shutdown; a tracepoint in the destructor of an earlier thread-local object uses a destroyed pointer. Proved: with a transport, two passes of the sender deliver everything accepted before, whatever happens in between; later thread-local objects are safe."},
 {"property": "C18", "status": "proved", "theorems": ["C18_refines", "C18_emits", "C18_event_readable", "C18_independent", "C18_starts_enabled"], "note": "The model with flags on a heap, a map and cached pointers refines an abstract machine with one flag per thread; a tracepoint adds exactly its own event iff process, thread and buffer allow it. Threads that already run their thread-local destructors are C60."},
 {"property": "C19", "status": "partial", "theorems": ["C19_nested_partial", "C19_overflow_refuted"], "note": "Proved for all structured programs (scopes, scoped configuration, marks, counts, sequencing, exceptions, handlers) and all interleavings with other threads that leave the process state alone, if no push meets a full buffer. Refuted with a full buffer: the begin event may be dropped and the end event kept."},
 {"property": "C20", "status": "proved", "theorems": ["C20_restores"], "note": "For any program inside the scope and any steps of other threads, including process-wide scopes of theirs. What holds after overlapping scopes of several threads are all closed is C59."},
 {"property": "C21", "status": "proved", "theorems": ["C21_query", "C21_change"], "note": "For every reachable state and request. The handler is one step of the model; decoding of requests is C69, malformed ones C68."},
 {"property": "C22", "status": "proved", "theorems": ["C22_standard", "C22_polynomial", "C22_continues"], "note": "All byte strings; the 256 table entries are checked in the kernel and lifted to all strings by linearity."},
 {"property": "C23", "status": "partial", "theorems": ["C23_lines_partial", "C23_names_partial", "C23_names_refuted", "C23_line_name_refuted", "C23_files_refuted"], "note": "Lines of one file never collide, nor do names of equal length that differ within four consecutive bytes. Refuted in general: two names, a name and a line, and two files with the same id."},
 {"property": "C24", "status": "proved", "theorems": ["C24_shown", "C24_split", "C24_series"], "note": "For all processes, histories of registrations, transports (absent, silent or answering) and ids. The binary form of the mapping messages is C67."},
 {"property": "C25", "status": "partial", "theorems": ["C25_refuted", "C25_counter_partial"], "note": "False as stated: C25_refuted proves the series is never 'count' (it is the empty text), for every name; C25_counter_partial is the part that holds."},
 {"property": "C26", "status": "proved", "theorems": ["C26_interval", "C26_time"], "note": "For all chunks whose events are of the known kinds; the time compared is the one shown, which C26_time relates to the recorded one (that theorem rests on the standard library's axioms of the real numbers, via Flocq). The binary form of the chunks is C73."},
 {"property": "C27", "status": "partial", "theorems": ["C27_in_order_partial", "C27_own_partial", "C27_value_refuted", "C27_missing_refuted"], "note": "False as stated (two refutations, both with two threads); proved for counters whose events arrive in the order of their times, and for an event's own series in general."},
 {"property": "C28", "status": "partial", "theorems": ["C28_before_partial", "C28_unknown_partial", "C28_refuted", "C28_null_refuted"], "note": "False as stated: everything after the bad chunk is lost, and a counter event without value is undefined behaviour; what comes before the bad chunk is kept."},
 {"property": "C29", "status": "partial", "theorems": ["C29_interval_partial", "C29_finished_partial", "C29_fresh_partial", "C29_delivered_partial", "C29_complete_partial", "C29_early_refuted", "C29_late_refuted"], "note": "Proved for all histories of non-overlapping calls; for every interleaving a source holds exactly what was handed to it since it was cleared, each call once, only calls that ran while it was recording, and every call that ran its course within the interval. The full statement is refuted for overlapping calls: data received before the start can be in the interval (C29_early_refuted), data received before the stop can be missing (C29_late_refuted)."},
 {"property": "C30", "status": "partial", "theorems": ["C30_refuted", "C30_stopped_partial"], "note": "Refuted: a source released while recording is kept by the provider and collects everything for ever. Proved: a source stopped before its release collects nothing more."},
 {"property": "C31", "status": "proved", "theorems": ["C31_recording"], "note": "Of every end request handled by a session; the events' texts are UTF-8 (see C64) and their floating point numbers read back as written."},
 {"property": "C32", "status": "proved", "theorems": ["C32_request", "C32_order", "C32_progress"], "note": "For all texts that are JSON objects (or null), any interleaving of arrival and handling; other texts: C33."},
 {"property": "C33", "status": "partial", "theorems": ["C33_refuted", "C33_survived_partial", "C33_throws_partial", "C33_defined_partial"], "note": "False: any text that is not a JSON object or null makes an exception leave the worker thread, which ends the process (C33_refuted). Proved: exactly which texts are survived; the others throw before anything is sent; never undefined behaviour."},
 {"property": "C34", "status": "partial", "theorems": ["C34_sessions_partial", "C34_text_partial", "C34_closed_partial", "C34_answers_partial", "C34_reuse_refuted"], "note": "Proved: one session per connected viewer, text reaches its own session only, nothing is sent to a closed connection; answers reach the viewer they belong to and no other as long as the web server runs the tasks it holds for an address before using the address again. Without that an answer goes to the wrong viewer (C34_reuse_refuted)."},
 {"property": "C35", "status": "proved", "theorems": ["C35_file", "C35_text"], "note": "For events whose texts are UTF-8 (see C64)."},
 {"property": "C36", "status": "partial", "theorems": ["C36_refuted", "C36_safe_partial", "C36_destroy_partial", "C36_terminates_partial", "C36_twice_partial", "C36_sources_partial", "C36_interval_partial"], "note": "False: destroying a recorder that is not running ends the process, stopping twice throws, stop does not clear the sources (C36_refuted). Proved: exactly which histories are safe; starting twice changes nothing; one fresh source per provider from a start to the next stop."},
 {"property": "C37", "status": "partial", "theorems": ["C37_exact_partial", "C37_complete_partial", "C37_hash", "C37_refuted", "C37_throws_refuted"], "note": "Proved over the text of the kernel's socket table: when every name ending like a server's is a server's, discovery returns exactly the ids of processes with a server socket (C37_exact_partial); whatever other sockets there are no server is missed unless discovery fails (C37_complete_partial); equal hashes exactly for equal process ids (C37_hash). 'Nothing else' is false: a socket of any other program whose name ends in _scalopus is listed under a wrong process id (C37_refuted), and a name with a line break makes discovery throw std::out_of_range (C37_throws_refuted)."},
 {"property": "C38", "status": "partial", "theorems": ["C38_line", "C38_ids", "C38_inside", "C38_timed", "C38_total_partial", "C38_refuted"], "note": "Every well-formed line is read as printed and no line makes the parser read outside of it. That no line makes it fail is refuted (C38_refuted: a number too large for 64 bit escapes as an exception); C38_total_partial says when it does not."},
 {"property": "C39", "status": "partial", "theorems": ["C39_interval_partial", "C39_counters_partial", "C39_printed", "C39_window", "C39_idle", "C39_mixed_refuted", "C39_unknown_refuted", "C39_no_pid_refuted", "C39_time", "C39_order"], "note": "One entry per event with everything right and in time order, and just the events of the interval. Counters are right where no other process has one of that name; that those of different processes are kept apart is refuted (C39_mixed_refuted), as is that no event of another kind makes the conversion fail (C39_unknown_refuted, C39_no_pid_refuted). C39_time and C39_order relate the times shown to the printed ones (axioms of the real numbers)."},
 {"property": "C40", "status": "partial", "theorems": ["C40_line_partial", "C40_order", "C40_disabled", "C40_safe_partial", "C40_race_refuted", "C40_drop_refuted"], "note": "Once, in order, to those there and to no other; never after disable has returned. Refuted: disable racing with a call crashes (C40_race_refuted) and a subscription merely dropped is still served (C40_drop_refuted)."},
 {"property": "C41", "status": "partial", "theorems": ["C41_back_partial", "C41_plain", "C41_converts", "C41_json_partial", "C41_json_unchanged", "C41_int_refuted", "C41_str_refuted", "C41_set_refuted", "C41_nan_refuted", "C41_rounded_refuted", "C41_other_refuted"], "note": "Proved: every value that converts comes back equal (up to tuples, sets, bytes becoming lists) for all depths, exactly which values convert, JSON values with 64-bit integers and UTF-8 text are unchanged. Refuted: integers from 2^63 on raise (also ones that came from JSON), strings with surrogates raise, sets with floats or with a tuple and equal bytes lose elements, values of other types silently become null."},
 {"property": "C42", "status": "partial", "theorems": ["C42_restored_partial", "C42_recursion_exact", "C42_recursion_refuted", "C42_shared_refuted"], "note": "Proved for all nestings of different switchers and all interleavings with threads using other switchers. Refuted: recursion leaves tracing off (exact characterisation proved), and two threads sharing one decorated function can leave one of them off."},
 {"property": "C43", "status": "partial", "theorems": ["C43_names_partial", "C43_entries_partial", "C43_entries_say", "C43_ended_refuted", "C43_inherited_refuted", "C43_silent_refuted", "C43_hidden_refuted", "C43_garbled_refuted"], "note": "Exact when threads name themselves first and every process answers with a document. Refuted otherwise: names set for other threads outlive them, a request without an answer makes an entry with an uninitialised pid (which may replace a real one), one garbled answer loses all entries."},
 {"property": "C44", "status": "proved", "theorems": ["C44_linearizable", "C44_apart", "C44_progress"], "note": "Linearizability of the table under the shared mutex, for all schedules of steps inside the operations; no deadlock."},
 {"property": "C45", "status": "partial", "theorems": ["C45_answer_partial", "C45_empty_refuted"], "note": "All non-empty payloads; the empty payload reads data.front() of an empty vector (undefined)."},
 {"property": "C46", "status": "partial", "theorems": ["C46_serve_failure_refuted", "C46_connect_failure_refuted", "C46_destroy_partial", "C46_serve_success_partial", "C46_connect_success_partial"], "note": "False of the code: every failed serve or connect terminates the process. Proved: a transport that was handed out can be destroyed after any worker passes that return; a worker hanging in a system call (C49) makes destruction hang."},
 {"property": "C47", "status": "partial", "theorems": ["C47_sound", "C47_partial", "C47_reversed_refuted"], "note": "Proved for any number of processes, threads, collection passes and clients, every schedule: each entry of an interval is an event traced, none more than once, with the right process, thread, time, phase and name (C47_sound); of connected processes without overflow each event of the interval is there exactly once when the messages have come through, in program order if the times shown increase (C47_partial). The order is false for time stamps less than a rounding step of the displayed double apart (C47_reversed_refuted)."},
 {"property": "C48", "status": "partial", "theorems": ["C48_unique_partial", "C48_same_partial", "C48_same_refuted", "C48_attribute_refuted", "C48_id_refuted"], "note": "Proved for all interleavings: ids of contexts made without explicit id are unique and carry their names; one thread asking a helper gets one id per name. Refuted: concurrent requests for a new name get different ids; names that are attributes of the helper give no context; explicit ids collide and replace names."},
 {"property": "C49", "status": "partial", "theorems": ["C49_stalled_client_refuted", "C49_deaf_client_refuted", "C49_kept", "C49_waiting", "C09_pass_serves_partial"], "note": "False of the code: the server thread blocks in read or send. C09_pass_serves_partial and C49_kept (no client, place in the line or descriptor is lost, also when a pass blocks; C49_waiting: no broadcast but the one in whose sending it blocks) are the parts that hold."},
 {"property": "C50", "status": "partial", "theorems": ["C50_signal_refuted", "C09_pass_serves_partial"], "note": "False of the code: after a failed select all descriptors count as readable and the thread blocks in accept."},
 {"property": "C51", "status": "partial", "theorems": ["C51_each_client_once", "C51_delivered_partial", "C51_answer_refuted"], "note": "Exactly once delivery is proved for every pass that completes; a client endpoint answering a broadcast brings the server down (C51_answer_refuted), so completion is proved for endpoints that do not answer."},
 {"property": "C52", "status": "partial", "theorems": ["C52_connect_during_broadcast_refuted", "C52_calm_partial", "C52_iteration_partial"], "note": "False of the code: the list of clients is changed without a lock (C52_connect_during_broadcast_refuted). Proved when nobody connects during an iteration."},
 {"property": "C53", "status": "partial", "theorems": ["C53_unix_partial", "C53_unix_server", "C53_loopback_refuted", "C53_loopback_released"], "note": "Proved for Unix sockets (lost client connection, server); false for the loopback transport."},
 {"property": "C54", "status": "proved", "theorems": ["C54_start_stop"], "note": "For every sequence of calls from one thread."},
 {"property": "C55", "status": "partial", "theorems": ["C55_dangling_endpoint_refuted", "C55_unattached_partial", "C55_alive_partial"], "note": "False of the code after the transport is destroyed; proved for endpoints never attached and while transports stay alive."},
 {"property": "C56", "status": "partial", "theorems": ["C56_zero_server_refuted", "C56_zero_client_refuted", "C56_other_descriptors_partial"], "note": "False for descriptor 0; proved for a server and all other descriptors."},
 {"property": "C57", "status": "partial", "theorems": ["C57_shutdown_of_another_refuted", "C57_undisturbed_partial", "C57_others"], "note": "False of the code because shutdown follows close. Proved when no thread opens a descriptor in between; and for every history: other descriptors keep their meaning, everything opened is open, and at most one object opened in between is cut off."},
 {"property": "C58", "status": "partial", "theorems": ["C58_two_senders_refuted", "C58_in_turn_partial"], "note": "False: two senders that empty the same buffer at the same time send events twice and put the read position back. Proved for senders that do not overlap."},
 {"property": "C59", "status": "partial", "theorems": ["C59_last_opened_first_partial", "C59_overlap_refuted"], "note": "Holds if the process-wide scopes of all threads are closed in the reverse order of opening; refuted for overlapping scopes of two threads."},
 {"property": "C60", "status": "partial", "theorems": ["C60_late_call_refuted"], "note": "Refuted: a thread-local object destroyed after the clean-up callback can leave an entry which a later thread with the same id inherits. Without such calls it holds: C18_starts_enabled."},
 {"property": "C61", "status": "partial", "theorems": ["C61_unique_partial", "C61_refuted"], "note": "False as stated because ids collide; C61_unique_partial covers programs whose ids do not."},
 {"property": "C62", "status": "partial", "theorems": ["C62_partial", "C62_refuted"], "note": "False as stated below one microsecond; proved from one microsecond on, for times before 2^61 ns (year 2043). C62_partial rests on the standard library's axioms of the real numbers (via Flocq)."},
 {"property": "C63", "status": "partial", "theorems": ["C63_refuted", "C63_kept_partial"], "note": "Refuted: finishing after the provider is gone dereferences a null pointer. Proved: defined for every history as long as the provider is there."},
 {"property": "C64", "status": "partial", "theorems": ["C64_refuted", "C64_viewer_partial", "C64_file_partial", "C64_lost_refuted"], "note": "False: a name that is not UTF-8 makes the JSON library throw, in the worker of the session and in the recorder (C64_refuted). Proved: exactly the recordings whose texts are all UTF-8 are delivered and written. C64_lost_refuted says exactly what the viewer still gets: the answer and the whole pieces of 1000 events before the one with the bad text."},
 {"property": "C65", "status": "partial", "theorems": ["C65_refuted", "C65_written_partial", "C65_unmade_refuted"], "note": "False: a recorder stopped before it is destroyed ends the process without writing (C65_refuted), and so does one with events of which no text can be made (C65_unmade_refuted). Proved: if it is running when destroyed, the file is the array of all events of its sources."},
 {"property": "C66", "status": "partial", "theorems": ["C66_order_partial", "C66_end_partial", "C66_each_partial", "C66_refuted", "C66_long_refuted"], "note": "For lines of at most 1022 characters: order, no loss, and all delivered at the end. Refuted: of lines written at once only the first is delivered until more is printed (C66_refuted), and longer lines are split (C66_long_refuted)."},
 {"property": "C67", "status": "proved", "theorems": ["C67_roundtrip", "C67_decoded", "C67_written", "C67_size", "C67_steps"], "note": "All values and all depths; which values are written is exact."},
 {"property": "C68", "status": "partial", "theorems": ["C68_answer", "C68_info_partial", "C68_info_refuted", "C68_conf_refuted"], "note": "False of the code: exceptions of malformed payloads leave the handlers; the characterisation of the payloads is exact for the process information."},
 {"property": "C69", "status": "proved", "theorems": ["C69_set", "C69_query"], "note": "Refinement: the endpoint on bytes = the configurator of C20 on values."},
 {"property": "C70", "status": "partial", "theorems": ["C70_quiet_partial", "C70_shared_refuted", "C42_restored_partial"], "note": "Proved for all recursions and nestings of suppressed functions not shared with another thread at the time. Refuted: two threads in one recursive suppressed function can switch tracing on inside it."},
 {"property": "C71", "status": "proved", "theorems": ["C71_payload", "C71_received"], "note": "All values; lists of integers and UTF-8 text included."},
 {"property": "C72", "status": "partial", "theorems": ["C72_no_deadlock_partial", "C72_handler_refuted", "C72_loopback_refuted", "C72_factory_refuted", "C72_drop_refuted", "C72_python_request_refuted", "C72_python_factory_refuted", "C72_python_drop_refuted"], "note": "Proved for all programs if callbacks take no library lock beyond the broadcast queue, write lock and trace-point locks. Refuted: handlers of broadcasts (unix) or of requests (loopback) that send a request, factories or handlers that ask the manager, and any endpoint or factory written in Python (lock order inversion with the interpreter lock, also when a transport is dropped from Python)."},
 {"property": "C73", "status": "proved", "theorems": ["C73_round_trip", "C73_cut_short", "C73_distinct", "C73_any"], "note": "Byte-level model of the CBOR messages (RFC 8949; the cbor library is not in /repo): round trip for all contents, every proper prefix is rejected, encoding is injective; C73_any: whatever bytes are received, an accepted message has its fields within the ranges of their types."},
 {"property": "C74", "status": "partial", "theorems": ["C74_partial", "C74_refuted"], "note": "Proved for all threads, objects, callbacks and schedules: 16 kinds of variables (request tables, broadcast queues, endpoint tables of loopback transports, connection sets, manager tables, mappings, sources, recorded data, session tables and queues, name tables with shared locks, thread states, orphaned buffers, recording callbacks) have no race. Refuted for the 20 others, with a schedule for each (C74_refuted): endpoint table read by processMsg without the lock, client_fd_, plain running_/is_polling_ flags, clients_ and servers_ of the loopback, Endpoint::transport_, process name, loggers, session sources_ filled after its thread started, backend providers_, the static bool of a trace point, callbacks and events of the LTTng source."},
 {"property": "C75", "status": "partial", "theorems": ["C75_partial", "C75_progress", "C75_refuted"], "note": "Proved for every nesting depth and schedule as long as Python code does not call wait_for on a pending response and sets no logger on the web server; some thread can always go on in any case (with respect to this lock alone; C72 has all locks). False otherwise (C75_refuted): wait_for makes its result after releasing the lock, and the server thread copies the logger's Python object without it."},
 {"property": "C76", "status": "partial", "theorems": ["C76_partial", "C76_large_refuted", "C76_cut_refuted"], "note": "Proved for all threads, messages and interleavings of single system calls if the kernel takes each part of a message at once and no send fails in the middle of a message (failures before the first byte are covered). False otherwise: whatever the kernel takes at once, a message two bytes larger can be received with its end missing (C76_large_refuted); after a send that failed half way the next message is received as part of the failed one (C76_cut_refuted)."},
 {"property": "C77", "status": "partial", "theorems": ["C77_partial", "C77_events_partial", "C77_never_sent", "C77_refuted", "C77_names_refuted"], "note": "Refuted: a process that has ended and is still held by the manager, or ends between two requests, terminates the recorder (C77_refuted; C77_never_sent: in general the viewer that stops is never sent anything); names of ended processes are shown as unknown (C77_names_refuted). Proved: no termination if ends are dealt with before a viewer stops; all data of the interval is shown; names and threads of all connected processes still there."},
 {"property": "C78", "status": "partial", "theorems": ["C78_partial", "C77_events_partial", "C78_refuted"], "note": "Refuted for the names: another viewer's older mapping can replace the one just collected (C78_refuted). Proved: the events are those of the viewer's own interval in every interleaving; the names too when no other viewer puts a mapping in place in between (C77_events_partial)."},
 {"property": "C79", "status": "partial", "theorems": ["C79_partial", "C79_text", "C79_lost", "C79_refuted"], "note": "C79_refuted: a traced process that ended shortly before Ctrl-C makes the command print an empty list without a word (C79_lost: always, while the manager still holds it), and a name that is not UTF-8 cuts the output off after its first character or empties it. Proved otherwise: C79_partial (output parses to exactly the recorded entries and the names), C79_text (the text for all values)."},
 {"property": "C80", "status": "partial", "theorems": ["C80_partial", "C80_safe_partial", "C80_late_partial", "C80_refuted"], "note": "Proved when all processes answer in time and threads are named and have traced; without -u nothing that is not listed is ever switched, whatever goes wrong (number of a late process not a listed one). C80_refuted: nameless threads are not switched; a late listed process is switched the wrong way with -u; one process without information aborts half way; a late process is passed over in silence; two late ones prevent the report. C80_late_partial: the report with late processes, missing exactly if two different entries have the same number."},
 {"property": "C81", "status": "partial", "theorems": ["C81_partial", "C81_late_partial", "C81_refuted"], "note": "Proved when all processes answer in time and serve introspect and process_info. C81_refuted: one process that does not, or is late once, and nothing is listed; late answers give missing endpoints, arbitrary numbers and empty names. C81_late_partial: the list with late processes, missing exactly if two different entries have the same number."},
 {"property": "C82", "status": "partial", "theorems": ["C82_alive", "C82_partial", "C82_ended", "C82_own_partial", "C82_left", "C82_refuted"], "note": "Proved: never terminates; destroying returns if the reading thread had begun and babeltrace is between lines; only own children are signalled if fork works and the program does not wait for children. C82_left: every babeltrace stays in the process table (never waited for). C82_refuted: destroying hangs if it comes before the reading thread has begun or within a line; kill(-1) after a failed fork; a stranger is signalled after the program has waited."},
 {"property": "C83", "status": "partial", "theorems": ["C83_partial", "C83_copies", "C83_second", "C83_refuted"], "note": "Proved when the tool is found. Otherwise the child returns from popen and executes the rest of the program: C83_copies (2^n processes), C83_second, C83_refuted."},
 {"property": "C84", "status": "partial", "theorems": ["C84_partial", "C84_stalls", "C84_refuted"], "note": "Proved while all diagnostics fit into the pipe (65536 bytes); beyond, nothing further is ever printed, as nobody reads that pipe (C84_stalls, C84_refuted)."},
 {"property": "C85", "status": "partial", "theorems": ["C85_once", "C85_partial", "C85_client_partial", "C85_server_partial", "C85_again_partial", "C85_heirs", "C85_child", "C85_client_child", "C85_orphan", "C85_refuted"], "note": "Proved while the process concerned has no living descendants. Sockets are created without close-on-exec: C85_refuted (a child that outlives the server keeps it listed, its clients never notice, connecting hangs after six attempts, the number cannot serve again). C85_child, C85_client_child, C85_orphan: this happens with every such child; C85_heirs: and only with living descendants."},
 {"property": "C86", "status": "partial", "theorems": ["C86_partial", "C86_announced", "C86_path", "C86_usage", "C86_python", "C86_python_default", "C86_python_path", "C86_refuted"], "note": "The program calls start() without the port: C86_refuted (for every port but 9222 it announces the port and does not listen on it; a port that is taken is reported by neither program nor Python command). Proved: default port, announcement, usage, the path reaching the tool, and the Python command."},
 {"property": "C87", "status": "partial", "theorems": ["C87_partial", "C87_next", "C87_sound", "C87_exact", "C87_frozen", "C87_missed", "C87_silent", "C87_refuted", "C87_factory_refuted"], "note": "False as stated: C87_refuted (a manager that meets DefaultExposer after k of its 4 endpoints were added offers exactly these k for ever) and C87_factory_refuted (a factory added later). Proved: soundness, completeness for processes that had added everything before they are asked (without timeouts), the exact set offered in general and that it never changes."},
 {"property": "C88", "status": "partial", "theorems": ["C88_partial", "C88_fits_partial", "C88_received", "C88_bounded", "C88_goes_on", "C88_ring", "C88_forever", "C88_refuted", "C88_answer_refuted"], "note": "False in general: C88_refuted and C88_answer_refuted give, for every capacity, a run in which the server's and a client's worker wait for each other. Proved: it holds when clients neither broadcast nor answer broadcasts, or when one direction fits into the connection; every run ends; the ring of two workers is the only way to fail, and it is permanent."},
 {"property": "C89", "status": "partial", "theorems": ["C89_handled", "C89_json", "C89_partial", "C89_links", "C89_refuted", "C89_port_refuted", "C89_start"], "note": "The link of the listed page leads to no server (C89_refuted: path not served; C89_port_refuted: port always 9222), and starting twice terminates the process (C89_start, exact). Proved: which uris are answered, that the pages are JSON, and that the address in the version page is served on every port."},
 {"property": "C90", "status": "partial", "theorems": ["C90_active", "C90_partial", "C90_between", "C90_refuted", "C90_stays", "C90_stopped_refuted", "C90_line", "C90_subscriptions_refuted", "C90_loopback", "C90_found"], "note": "False in general: buffers of ended threads stay as long as no sender makes a pass (C90_refuted, C90_stays) and for ever once it has ended (C90_stopped_refuted); ended subscriptions stay until a line comes (C90_subscriptions_refuted); loopback entries stay for ever (C90_loopback). Proved: exact release by a pass of the sender, and by a line."},
 {"property": "C91", "status": "partial", "theorems": ["C91_recorded", "C91_whole", "C91_partial", "C91_inside", "C91_exact", "C91_none_halved", "C91_refuted", "C91_scoped_refuted"], "note": "Proved: the record is exactly the events at whose tracepoints tracing was on; with one stretch of tracing exactly the blocks inside it are shown; with any switching or dropping a block is shown right exactly if the recorded events inside it even out. Refuted (C91_refuted, C91_scoped_refuted): off and on again inside a block makes an enclosing block end at the end of an inner one."},
 {"property": "C92", "status": "partial", "theorems": ["C92_sound", "C92_partial", "C92_viewer_partial", "C92_refuted"], "note": "C92_sound and C92_partial carry C47 through the JSON text of the recorder's file, C92_viewer_partial through the messages of a viewer. Missing: names must be UTF-8; with one that is not there is no file at all (C92_refuted)."},
 {"property": "C93", "status": "partial", "theorems": ["C93_partial", "C93_refuted"], "note": "Proved for threads that start during the interval, whose numbers are not shared, with tracing on for one stretch of the program. C93_refuted: tracing off only when an inner block begins makes the outer block end too early in the file."},
 {"property": "C94", "status": "partial", "theorems": ["C94_partial", "C94_sound", "C94_refuted", "C94_race_refuted", "C94_garbage_refuted"], "note": "Proved for recordings at whose start and stop the reading thread has caught up, with lines that fit in its array and in which nothing crashes. C94_refuted: two lines printed at once. C94_race_refuted, C94_garbage_refuted: crashes."},
 {"property": "C95", "status": "partial", "theorems": ["C95_nests_partial", "C95_tree_partial", "C95_traced_partial", "C95_yield_refuted", "C95_threads_refuted", "C95_traced_refuted", "C95_interrupt_refuted", "C95_backend_refuted"], "note": "Proved for programs without a yield inside a traced block, with a fixed backend, and interrupts outside of the context manager's own methods; the tree form also without generators. The refuted theorems show each of these is needed."},
 {"property": "C96", "status": "partial", "theorems": ["C96_partial", "C96_configure_refuted", "C96_again_refuted", "C96_name_refuted", "C96_import_refuted"], "note": "Discovery proved for all histories in which no process makes an exposer while it has one, and names are given or sys.argv is left alone. Refuted: such processes cannot be configured (C96_configure_refuted, for all histories and arguments), a second exposer aborts the program, the default name is that of the import, no import without sys.argv."},
 {"property": "C97", "status": "partial", "theorems": ["C97_held", "C97_once", "C97_freed_partial", "C97_served_partial", "C97_safe_partial", "C97_circle_refuted", "C97_lost_refuted", "C97_message_refuted", "C97_transport_refuted", "C97_end"], "note": "Proved for all histories: what can be got at is never destroyed, nothing is destroyed twice; without circles of references what nobody can get at is destroyed; a server's messages go to the Python object added last under the name, kept by the program or not; programs without a manager are never terminated. Refuted: a server whose endpoint refers to it is never destroyed (the collector does not see the references of the library); the same for lost connections; a message for a Python endpoint on a connection of a manager terminates the process (the transport would have to be copied); a transport obtained with getTransport is not kept."},
 {"property": "C98", "status": "partial", "theorems": ["C98_sound", "C98_partial", "C98_sends", "C98_kept", "C98_waits_partial", "C98_twice_refuted", "C98_silent_refuted", "C98_lock_refuted", "C98_join_refuted", "C98_stands"], "note": "Proved for all histories: a process shows an event once at most, under the right thread and under its maker or a descendant of it (C98_sound), an event is kept until it is shown or the process ends (C98_kept), and a process with a running sender can send all it has (C98_sends). Proved if processes fork only while no events wait: once at most and under the right process (C98_partial); if only processes without a sender fork: nothing hangs (C98_waits_partial). The full statement is false: C98_twice_refuted (events waiting at the fork are sent by both), C98_silent_refuted (the child's events are never shown unless it makes its own sender), C98_lock_refuted (a fork during getActiveMap leaves the table locked in the child), C98_join_refuted (destroying the inherited sender never returns)."},
 {"property": "C99", "status": "partial", "theorems": ["C99_right", "C99_safe_partial", "C99_returns", "C99_again_refuted", "C99_both_refuted", "C99_limit_refuted"], "note": "Proved for all histories without undefined steps: every call returns what it should and one call at most gets the answer (C99_right); a call under way can return (C99_returns). Nothing undefined happens with one caller at a time, until something was returned, and limits the clock can take (C99_safe_partial). The full statement is false: C99_again_refuted (the answer can be asked for once only), C99_both_refuted (two threads), C99_limit_refuted (a limit beyond the range of the clock, as an infinite one)."}
]}
