(** Properties C04 to C09, C49 and C50: requests, responses and broadcasts over the Unix socket transport. *)
From Coq Require Import List Arith NArith Ascii Bool Permutation.
Import ListNotations.
From Verif Require Import Protocol_model UnixSystem_model UnixSystem_spec UnixSystem_proofs UnixSystem_witness UnixStay_proofs.
From Verif Require Import UnixPass_model UnixPass_spec UnixPass_proofs.

(** * C04 *)
(** A value in a future of client [c] is the answer given to that very request, which was handled exactly
    once.  The hypothesis [fair_to c] excludes what the two refutations below show. *)
Theorem C04_response_of_request_partial : forall c s r q d,
  reached (fair_to c) s -> request_of s c r q -> r_val q = Value d ->
  calls_for c (r_id q) s = [(msg_of q, Some d)].
Proof. exact response_of_request. Qed.
Print Assumptions C04_response_of_request_partial.

(** No promise is satisfied twice, whatever happens. *)
Theorem C04_never_twice : forall P s c, reached P s -> c_term (s_cl s c) = false.
Proof. exact never_twice. Qed.
Print Assumptions C04_never_twice.

(** A future that is ready keeps its value; the request keeps its content. *)
Theorem C04_value_stays : forall P ls s s' c r q, reached P s -> Forall P ls -> run ls s = Some s' -> request_of s c r q ->
  exists q', request_of s' c r q' /\ later q q'.
Proof. exact later_run. Qed.
Print Assumptions C04_value_stays.

(** With a client endpoint that answers unsolicited messages the value may belong to another call. *)
Theorem C04_unsolicited_answer_refuted : exists s q, reached (fun _ => True) s /\ request_of s 0 0 q /\ r_data q = b_p /\ r_val q = Value b_B /\
  In (0, {| req_id := r_id q; ep_name := b_e; payload := b_p |}, Some b_A) (s_calls s) /\
  ~ In (0, {| req_id := r_id q; ep_name := b_e; payload := b_p |}, Some b_B) (s_calls s).
Proof. exact race_witness. Qed.
Print Assumptions C04_unsolicited_answer_refuted.

(** When the server dies while sending, the value is an empty or a shortened answer. *)
Theorem C04_dying_server_refuted : forall j d, (j = 0 /\ d = []) \/ (j = 2 /\ d = ["B"; "2"]%char) ->
  exists s q, reached (fun _ => True) s /\ request_of s 0 0 q /\ r_val q = Value d /\
    In (0, msg_of q, Some b_B) (s_calls s) /\ d <> b_B.
Proof. exact dying_witness. Qed.
Print Assumptions C04_dying_server_refuted.

Example C04_example : reached (fair_to 0) (after sc_normal) /\ reached (fair_to 1) (after sc_normal) /\
  exists q0 q1, request_of (after sc_normal) 0 0 q0 /\ request_of (after sc_normal) 1 0 q1 /\
    r_id q0 = r_id q1 /\ r_val q0 = Value b_A /\ r_val q1 = Value b_B.
Proof. split; [reach|]. split; [reach|]. do 2 eexists. vm_compute. auto. Qed.

(** * C05 *)
(** A request that was booked before its answer was processed is resolved by it. *)
Theorem C05_answered_resolves_partial : forall c s r q d,
  reached (fair_to c) s -> request_of s c r q -> r_stage q = Booked -> r_held q = true ->
  c_open (s_cl s c) = true -> In (msg_of q, Some d) (calls_for c (r_id q) s) -> ~ missed (s_cl s c) q ->
  exists s' q', run (repeat (CliRecv c None) (length (c_in (s_cl s c)))) s = Some s' /\ request_of s' c r q' /\ r_val q' = Value d.
Proof. exact answered_resolves. Qed.
Print Assumptions C05_answered_resolves_partial.

(** At any time an answered request has its value, or the answer is under way, or it was missed. *)
Theorem C05_answered_request_partial : forall c s r q d,
  reached (fair_to c) s -> request_of s c r q -> In (msg_of q, Some d) (calls_for c (r_id q) s) ->
  c_open (s_cl s c) = true -> r_held q = true ->
  r_val q = Value d \/ (r_val q = Unready /\ (answered (s_cl s c) q d \/ missed (s_cl s c) q)).
Proof. exact answered_request. Qed.
Print Assumptions C05_answered_request_partial.

(** What is missed is missed before the request is booked. *)
Theorem C05_not_missed_after_booking : forall P ls s s' c r q q', reached P s -> Forall P ls -> run ls s = Some s' -> request_of s c r q ->
  r_stage q = Booked -> ~ missed (s_cl s c) q -> request_of s' c r q' -> r_val q' = Unready -> r_held q' = true -> ~ missed (s_cl s' c) q'.
Proof. exact not_missed. Qed.
Print Assumptions C05_not_missed_after_booking.

(** The connection stays up: as long as the server lives and client [c], which uses the library, is not destroyed, neither
    side ends the connection, whatever the others do. *)
Theorem C05_stays_connected : forall c ls s s', reached (uses_library c) s -> Forall (uses_library c) ls -> run ls s = Some s' ->
  s_up s' = true -> ~ In (CliClose c) ls -> c_open (s_cl s c) = true -> c_open (s_cl s' c) = true /\ s_conn s' c <> Closed.
Proof. exact stays_connected. Qed.
Print Assumptions C05_stays_connected.

(** The server answered, the connection stays up, and the future is never ready: the answer was processed
    before the request was booked. *)
Theorem C05_early_answer_refuted : exists s, reached (fair_to 0) s /\
  (exists q, request_of s 0 0 q /\ r_stage q = Booked /\ r_held q = true) /\
  never_ready 0 s 0 /\ s_up s = true /\ s_conn s 0 = Accepted /\ c_open (s_cl s 0) = true /\
  exists m, s_calls s = [(0, m, Some b_A)].
Proof. exact early_witness. Qed.
Print Assumptions C05_early_answer_refuted.

(** A request to an unknown endpoint is never resolved while the transport exists. *)
Theorem C05_unknown_endpoint_refuted : exists s, reached (fair_to 0) s /\
  (exists q, request_of s 0 0 q /\ r_stage q = Booked /\ r_held q = true) /\
  never_ready 0 s 0 /\ s_up s = true /\ s_conn s 0 = Accepted /\ c_open (s_cl s 0) = true.
Proof. exact unknown_witness. Qed.
Print Assumptions C05_unknown_endpoint_refuted.

(** A request outstanding when the connection is lost is never resolved while the transport exists. *)
Theorem C05_connection_lost_refuted : exists s, reached (fair_to 0) s /\
  (exists q, request_of s 0 0 q /\ r_stage q = Booked /\ r_held q = true) /\
  never_ready 0 s 0 /\ c_open (s_cl s 0) = false /\ c_run (s_cl s 0) = false.
Proof. exact lost_witness. Qed.
Print Assumptions C05_connection_lost_refuted.

(** In general: a request that is booked, not answered, and has nothing on the wire, or whose connection is
    lost, stays so until the transport is destroyed. *)
Theorem C05_stuck_forever : forall c ls s s' r q,
  reached (fair_to c) s -> request_of s c r q -> r_stage q = Booked -> r_val q = Unready ->
  c_run (s_cl s c) = false \/ ~ on_the_wire (s_cl s c) (r_id q) ->
  Forall (fair_to c) ls -> ~ In (CliClose c) ls -> run ls s = Some s' ->
  exists q', request_of s' c r q' /\ r_val q' = Unready.
Proof. exact stuck_forever. Qed.
Print Assumptions C05_stuck_forever.

(** * C06 *)
Theorem C06_pending_exact : forall P s c s', reached P s -> step (CliCleanup c) s = Some s' ->
  pending_requests s' c = length (filter waiting (c_reqs (s_cl s' c))).
Proof. exact pending_exact. Qed.
Print Assumptions C06_pending_exact.

Theorem C06_pending_sound : forall P s c, reached P s ->
  NoDup (map snd (c_pending (s_cl s c))) /\
  forall k r, In (k, r) (c_pending (s_cl s c)) ->
    exists q, request_of s c r q /\ r_stage q = Booked /\ r_val q = Unready.
Proof. exact pending_sound. Qed.
Print Assumptions C06_pending_sound.

Theorem C06_failed_request : forall s c r q ok s', request_of s c r q -> r_stage q = Taken ->
  c_open (s_cl s c) && ok = false -> step (ReqSend c r ok) s = Some s' ->
  exists q', request_of s' c r q' /\ r_val q' = CommError /\ r_stage q' = Failed.
Proof. exact failed_request. Qed.
Print Assumptions C06_failed_request.

Theorem C06_failed_never_pending : forall P s c r q, reached P s -> request_of s c r q -> r_stage q = Failed ->
  r_val q = CommError /\ forall k, ~ In (k, r) (c_pending (s_cl s c)).
Proof. exact failed_stays. Qed.
Print Assumptions C06_failed_never_pending.

Theorem C06_fails_when_lost : forall s c n d, c_born (s_cl s c) = true -> c_open (s_cl s c) = false ->
  forall ok, exists s' q, run [ReqTake c n d; ReqSend c (length (c_reqs (s_cl s c))) ok] s = Some s' /\
    request_of s' c (length (c_reqs (s_cl s c))) q /\ r_val q = CommError.
Proof. exact fails_when_lost. Qed.
Print Assumptions C06_fails_when_lost.

Example C06_example : exists s s', reached any_step s /\ step (CliCleanup 0) s = Some s' /\
  pending_requests s 0 = 2 /\ pending_requests s' 0 = 1 /\ length (c_reqs (s_cl s' 0)) = 4.
Proof. exact pending_witness. Qed.

(** * C07 *)
(** Between two moments, a client that is accepted at the first and still connected at the second is sent
    exactly the broadcasts dispatched in between, each once and in the order of their dispatch... *)
Theorem C07_complete : forall P ls s s' c, reached P s -> Forall P ls -> run ls s = Some s' ->
  s_conn s c = Accepted -> s_conn s' c = Accepted -> c_open (s_cl s' c) = true ->
  bcasts (c_rx (s_cl s' c)) = bcasts (c_rx (s_cl s c)) ++ seq (length (s_disp s)) (length (s_disp s') - length (s_disp s)).
Proof. exact bcast_complete. Qed.
Print Assumptions C07_complete.

(** ... with the name and the payload given to [broadcast], ... *)
Theorem C07_content : forall P s c m k, reached P s -> In (Full m (GBcast k)) (c_rx (s_cl s c)) ->
  nth_error (s_disp s) k = Some (ep_name m, payload m).
Proof. exact bcast_content. Qed.
Print Assumptions C07_content.

(** ... never twice, ... *)
Theorem C07_once : forall P s c, reached P s -> NoDup (bcasts (c_rx (s_cl s c))).
Proof. exact bcast_once. Qed.
Print Assumptions C07_once.

(** ... and nobody else is; *)
Theorem C07_nobody_else : forall s s' c, step DispBcast s = Some s' -> s_conn s c <> Accepted -> s_cl s' c = s_cl s c.
Proof. exact dispatch_only_accepted. Qed.
Print Assumptions C07_nobody_else.

(** every broadcast made is dispatched once, or still queued; *)
Theorem C07_conserved : forall P s, reached P s -> Permutation (s_made s) (s_disp s ++ s_queue s).
Proof. exact bcast_conserved. Qed.
Print Assumptions C07_conserved.

(** the client worker processes what it is sent in order and without loss; *)
Theorem C07_fifo : forall P s c, reached P s -> c_run (s_cl s c) = true ->
  processed_items (s_cl s c) ++ c_in (s_cl s c) = c_rx (s_cl s c).
Proof. exact fifo. Qed.
Print Assumptions C07_fifo.

(** it hands a broadcast to the endpoint of its name if there is one; *)
Theorem C07_handed_over : forall P ls s s' c n, reached P s -> Forall P ls -> run ls s = Some s' ->
  mem n (c_eps (s_cl s c)) = true ->
  exists new, c_log (s_cl s' c) = c_log (s_cl s c) ++ new /\
    forall m k o, In (m, GBcast k, o) new -> ep_name m = n -> o = Unsolicited.
Proof. exact bcast_handed_over. Qed.
Print Assumptions C07_handed_over.

(** and a broadcast never completes a request. *)
Theorem C07_never_answer : forall P s c m k o, reached P s -> In (m, GBcast k, o) (c_log (s_cl s c)) -> o = Unsolicited \/ o = Nobody.
Proof. exact bcast_never_answer. Qed.
Print Assumptions C07_never_answer.

(** "Connected" means accepted by the server: a client whose [connect] returned may still miss a broadcast. *)
Theorem C07_backlog_misses : exists s, reached any_step s /\ c_open (s_cl s 0) = true /\ s_disp s = [(b_e, b_A)] /\ c_rx (s_cl s 0) = [].
Proof. exact backlog_witness. Qed.
Print Assumptions C07_backlog_misses.

(** * C08 *)
Theorem C08_order_refuted : exists s, reached any_step s /\ s_made s = [(b_e, b_A); (b_e, b_B)] /\
  map (fun e => payload (fst (fst e))) (c_log (s_cl s 0)) = [b_B; b_A] /\
  Forall (fun e => snd e = Unsolicited) (c_log (s_cl s 0)).
Proof. exact lifo_witness. Qed.
Print Assumptions C08_order_refuted.

(** Whatever is queued is always sent in reverse. *)
Theorem C08_always_reversed : forall s, s_up s = true ->
  exists s', run (repeat DispBcast (length (s_queue s))) s = Some s' /\ s_queue s' = [] /\ s_disp s' = s_disp s ++ rev (s_queue s).
Proof. exact dispatch_all_reverses. Qed.
Print Assumptions C08_always_reversed.

(** Order is kept across a moment at which nothing is queued: the part of C08 that holds. *)
Theorem C08_ordered_across_empty_queue_partial : forall P ls s s', reached P s -> Forall P ls -> run ls s = Some s' -> s_queue s = [] ->
  exists later made_later, s_disp s' = s_disp s ++ later /\ s_made s' = s_made s ++ made_later /\
    Permutation (s_disp s) (s_made s) /\ Permutation made_later (later ++ s_queue s').
Proof. exact ordered_across_empty. Qed.
Print Assumptions C08_ordered_across_empty_queue_partial.

(** * C09 *)
(** Leaving out all steps of and for a set of clients changes nothing for the others and for the server. *)
Theorem C09_non_interference : forall D ls, (forall c d j, D c = true -> ~ In (SrvCrashSending c d j) ls) ->
  forall s, run ls sys0 = Some s ->
  exists t, run (filter (fun l => negb (about D l)) ls) sys0 = Some t /\ alike D s t.
Proof. exact non_interference. Qed.
Print Assumptions C09_non_interference.

Example C09_example : run sc_two sys0 <> None /\ (forall c d j, (c =? 1) = true -> ~ In (SrvCrashSending c d j) sc_two) /\
  length (filter (fun l => negb (about (fun c => c =? 1) l)) sc_two) = 8.
Proof. exact two_witness. Qed.

(** A pass of the server accepts a waiting client, answers every waiting message of every client according to
    that client's own input only, drops exactly the clients whose receive fails, and sends all broadcasts to
    the others, provided a descriptor is free and all connected clients complete their messages and read. *)
Theorem C09_pass_serves_partial : forall handle s, distinct s -> can_accept s -> Forall (fun e => well_behaved (snd e)) (v_conns s) ->
  Forall (fun e => p_deaf (snd e) = false) (v_backlog s) ->
  exists s', pass handle false s = Done s' /\ v_backlog s' = tl (v_backlog s) /\ v_queue s' = [] /\
    (forall c p, In (c, p) (v_conns s) ->
       sent_to c s' = sent_to c s ++ reply handle p ++ (if refused p then [] else casts s) /\
       (if refused p then ~ In c (map fst (v_conns s')) else In (c, consumed p) (v_conns s'))) /\
    (forall b bs, v_backlog s = b :: bs -> In b (v_conns s')).
Proof. exact pass_serves. Qed.
Print Assumptions C09_pass_serves_partial.

Example C09_pass_example : let s := {| v_conns := [(1, {| p_in := [Failing]; p_deaf := false |});
        (2, {| p_in := [Message {| req_id := 7; ep_name := b_e; payload := b_p |}]; p_deaf := false |})];
      v_backlog := [(3, {| p_in := []; p_deaf := false |})]; v_free := 1; v_queue := [(b_e, b_A)]; v_sent := [] |} in
  distinct s /\ can_accept s /\ Forall (fun e => well_behaved (snd e)) (v_conns s) /\ Forall (fun e => p_deaf (snd e) = false) (v_backlog s).
Proof.
  cbn. split; [repeat constructor; cbn; intuition discriminate|]. split; [right; discriminate|].
  split; repeat constructor; cbn; discriminate.
Qed.

(** When no descriptor is left, one client waiting to be accepted stops the service for everybody. *)
Theorem C09_accept_failure_refuted : forall handle s, v_free s = 0 -> v_backlog s <> [] -> forall n, passes handle n s = Done s.
Proof. exact accept_failure_starves. Qed.
Print Assumptions C09_accept_failure_refuted.

(** * C49 *)
Theorem C49_stalled_client_refuted : forall handle sig s c p r, In (c, p) (v_conns s) -> p_in p = Stalled :: r -> can_accept s ->
  exists s', pass handle sig s = Blocked s'.
Proof. exact stalled_blocks. Qed.
Print Assumptions C49_stalled_client_refuted.

Theorem C49_deaf_client_refuted : forall handle s c p, In (c, p) (v_conns s) -> p_in p = [] -> p_deaf p = true -> v_queue s <> [] -> can_accept s ->
  exists s', pass handle false s = Blocked s'.
Proof. exact deaf_blocks. Qed.
Print Assumptions C49_deaf_client_refuted.

(** What holds of any pass, also of one that blocks, with a signal or without: nobody leaves the connections but clients whose receive fails, at most the next message
    of a client is taken, the first of the waiting clients may be accepted and the others keep their places, nobody else appears, and no descriptor is lost. *)
Theorem C49_kept : forall handle sig s s', pass handle sig s = Done s' \/ pass handle sig s = Blocked s' ->
  (exists a, v_backlog s = a ++ v_backlog s' /\ length a <= 1 /\ forall x, In x a -> In x (v_conns s')) /\
  (forall c p, In (c, p) (v_conns s) -> refused p = false -> stays_with (v_conns s') c p) /\
  (forall c p', In (c, p') (v_conns s') -> In (c, p') (v_backlog s) \/ exists p, In (c, p) (v_conns s) /\ (p' = p \/ p' = consumed p)) /\
  v_free s' + length (v_conns s') = v_free s + length (v_conns s) /\ exists more, v_sent s' = v_sent s ++ more.
Proof. exact pass_keeps. Qed.
Print Assumptions C49_kept.

(** In a pass that blocks, all broadcasts keep waiting but the one in whose sending it blocks. *)
Theorem C49_waiting : forall handle sig s s', pass handle sig s = Blocked s' -> v_queue s' = v_queue s \/ exists b, v_queue s = v_queue s' ++ [b].
Proof. exact blocked_waiting. Qed.
Print Assumptions C49_waiting.
Example C49_waiting_example : exists s',
  pass (fun _ => None) false {| v_conns := [(1, {| p_in := []; p_deaf := false |}); (2, {| p_in := []; p_deaf := true |})]; v_backlog := []; v_free := 1;
    v_queue := [(b_e, b_B); (b_e, b_A)]; v_sent := [] |} = Blocked s' /\
  v_queue s' = [(b_e, b_B)] /\ v_sent s' = [(1, {| req_id := 0; ep_name := b_e; payload := b_A |})].
Proof. eexists. split; [reflexivity|]. split; reflexivity. Qed.

(** * C50 *)
Theorem C50_signal_refuted : forall handle s, v_backlog s = [] -> pass handle true s = Blocked s.
Proof. exact signal_blocks. Qed.
Print Assumptions C50_signal_refuted.

(** Such states exist: client 2 has a complete request waiting in each of them. *)
Example C49_example : let s p q f := {| v_conns := [(1, p); (2, {| p_in := [Message {| req_id := 7; ep_name := b_e; payload := b_p |}]; p_deaf := false |})];
      v_backlog := []; v_free := f; v_queue := q; v_sent := [] |} in
  (exists t, pass (fun _ => Some (Some b_A)) false (s {| p_in := [Stalled]; p_deaf := false |} [] 1) = Blocked t /\ sent_to 2 t = []) /\
  (exists t, pass (fun _ => Some (Some b_A)) false (s {| p_in := []; p_deaf := true |} [(b_e, b_B)] 1) = Blocked t) /\
  (exists t, pass (fun _ => Some (Some b_A)) true (s {| p_in := []; p_deaf := false |} [] 1) = Blocked t /\ sent_to 2 t = []).
Proof. vm_compute. repeat split; eexists; auto. Qed.
