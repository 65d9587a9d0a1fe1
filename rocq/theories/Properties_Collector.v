(** The property theorems about the collection of trace events: C16, C17, C58. *)
From Coq Require Import List Arith Bool.
Import ListNotations.
From Verif Require Import OMap_model Collector_model Collector_spec Collector_proofs TwoSenders_model TwoSenders_proofs.

(** * C16 *)
(** What a thread's buffer accepted is, in order: what was broadcast, what the sender holds, what is still in the buffer. *)
Theorem C16_exactly_once_in_order : forall cap ls s i t,
  crun cap ls c_attached = Some s -> nth_error (cs_threads s) i = Some t ->
  th_accepted t = of_thread i (all_events (cs_sent s)) ++ of_thread i (in_hand s) ++ th_buf t.
Proof. exact exactly_once. Qed.
Print Assumptions C16_exactly_once_in_order.

(** What it accepted is what the thread emitted, except for events that met a full buffer. *)
Theorem C16_accepted_is_emitted : forall cap ls s i t,
  crun cap ls c_attached = Some s -> nth_error (cs_threads s) i = Some t ->
  subseq (th_accepted t) (emissions i ls) /\ (length (emissions i ls) <= cap -> th_accepted t = emissions i ls).
Proof. exact accepted_emitted. Qed.
Print Assumptions C16_accepted_is_emitted.

(** Nothing else is sent, and each event is filed under the id of its thread. *)
Theorem C16_only_emitted_under_its_thread : forall cap ls s m k l e,
  crun cap ls c_attached = Some s -> In m (cs_sent s) -> In (k, l) m -> In e l ->
  In e (emissions (fst e) ls) /\ exists t, nth_error (cs_threads s) (fst e) = Some t /\ th_tid t = k.
Proof. exact only_emitted. Qed.
Print Assumptions C16_only_emitted_under_its_thread.

(** A thread which gets the id of one that is gone does not get its buffer. *)
Theorem C16_fresh_buffer : forall cap ls s tid, crun cap ls c0 = Some s \/ crun cap ls c_attached = Some s ->
  (forall i t, nth_error (cs_threads s) i = Some t -> th_tid t = tid -> th_phase t = TGone) -> mfind Nat.ltb tid (cs_active s) = None.
Proof. exact fresh_buffer. Qed.
Print Assumptions C16_fresh_buffer.

(** Two threads, one leaving between the halves of a collection, its id used again; everything arrives. *)
Example C16_example : exists s, crun 4 [TStart 7; TStart 9; TEmit 0 1; TEmit 1 2; TEmit 0 3; TOrphan 0; SSwap; TErase 0; TStart 7; TEmit 2 4; SSnapshot;
    SCollect 2; SCollect 1; SCollect 1; SSend] c_attached = Some s /\ cs_sent s = [[(7, [(0, 1); (0, 3); (2, 4)]); (9, [(1, 2)])]].
Proof. eexists. split; [vm_compute; reflexivity|]. reflexivity. Qed.

(** The order is per thread, not per thread id: the events of a later thread with the same id can be sent first. *)
Example C16_reused_id_example : exists s, crun 4 [TStart 7; TEmit 0 1; SSwap; TOrphan 0; TErase 0; TStart 7; TEmit 1 2; SSnapshot; SCollect 1; SSend;
    SSwap; SSnapshot; SCollect 1; SCollect 0; SSend] c_attached = Some s /\ cs_sent s = [[(7, [(1, 2)])]; [(7, [(0, 1)])]].
Proof. eexists. split; [vm_compute; reflexivity|]. reflexivity. Qed.

(** * C17 *)
(** The part that holds: with a transport attached, after two complete passes of the sender, in which any other steps may
    come in between, everything accepted before them has been sent. *)
Theorem C17_two_passes_partial : forall cap ls1 ls2 s s' i t ks1 ks2,
  crun cap ls1 c_attached = Some s -> cs_pc s = SIdle -> nth_error (cs_threads s) i = Some t ->
  crun cap ls2 s = Some s' -> exact_run cap ls2 s -> sender_steps ls2 = round ks1 ++ round ks2 ->
  exists more, of_thread i (all_events (cs_sent s')) = th_accepted t ++ more.
Proof. exact two_rounds. Qed.
Print Assumptions C17_two_passes_partial.

(** A pass can always be made. *)
Theorem C17_pass_possible_partial : forall cap ls s, crun cap ls c_attached = Some s -> cs_pc s = SIdle ->
  exists ks s', crun cap (round ks) s = Some s' /\ exact_run cap (round ks) s /\ cs_pc s' = SIdle.
Proof. exact round_possible. Qed.
Print Assumptions C17_pass_possible_partial.

(** One pass is not enough: a thread that leaves in the middle of it is seen only in the next. *)
Example C17_one_pass_example : exists s, crun 4 [TStart 7; TEmit 0 1; SSwap; TOrphan 0; TErase 0; SSnapshot; SSend] c_attached = Some s /\
  cs_sent s = [] /\ exists s', crun 4 (round [1]) s = Some s' /\ cs_sent s' = [[(7, [(0, 1)])]].
Proof. eexists. split; [vm_compute; reflexivity|]. split; [reflexivity|]. eexists. split; [vm_compute; reflexivity|]. reflexivity. Qed.

(** Objects of thread storage which were constructed after the thread had used the kinds of tracepoint their destructors
    use: their events are recorded. *)
Theorem C17_teardown_partial : forall ls, late_objects [] ls -> exists s s',
  live_run ls ex0 = ENext s /\ exit_run (length (ex_stack s)) s = ENext s' /\ ex_stack s' = [] /\
  ex_events s' = flat_map (fun l => match l with Trace _ x => [x] | _ => [] end) ls ++ flat_map (fun l => match l with Construct ks => ks | _ => [] end) (rev ls).
Proof. exact teardown_ok. Qed.
Print Assumptions C17_teardown_partial.

Example C17_teardown_example : late_objects [] [Trace 1 5; Construct [1]; Trace 2 6; Construct [2; 1]].
Proof. cbn. intuition. Qed.

(** Refuted: before there is a transport, what is collected is dropped, and never sent later. *)
Theorem C17_before_transport_refuted : exists ls s t, crun 4 ls c0 = Some s /\ nth_error (cs_threads s) 0 = Some t /\ th_accepted t = [(0, 5)] /\ cs_attached s = true /\
  forall ls' s', crun 4 ls' s = Some s' -> emissions 0 ls' = [] -> of_thread 0 (all_events (cs_sent s')) = [].
Proof. exact before_transport. Qed.
Print Assumptions C17_before_transport_refuted.

(** Refuted: what is accepted after the last pass is not sent when the endpoint is destroyed. *)
Theorem C17_shutdown_refuted : exists ls s t, crun 4 ls c_attached = Some s /\ nth_error (cs_threads s) 0 = Some t /\ th_accepted t = [(0, 5)] /\ cs_pc s = SStopped /\
  forall ls' s', crun 4 ls' s = Some s' -> cs_sent s' = [].
Proof. exact at_shutdown. Qed.
Print Assumptions C17_shutdown_refuted.

(** Refuted: a tracepoint in the destructor of a thread-local object constructed before the first use of that kind of
    tracepoint uses a pointer that has been destroyed. *)
Theorem C17_teardown_refuted : forall k x, exists s, live_run [Construct [k]; Trace k x] ex0 = ENext s /\ exit_run (length (ex_stack s)) s = EUB.
Proof. exact teardown_ub. Qed.
Print Assumptions C17_teardown_refuted.

(** * C58 *)
Theorem C58_two_senders_refuted :
  (exists ls, w_log (twrun ls tw0) = [(true, [7]); (false, [7])] /\ q_pushed (twrun ls tw0) = [7]) /\
  (exists ls, w_log (twrun ls tw0) = [(true, [7]); (true, [8]); (false, [7]); (true, [8])] /\ q_pushed (twrun ls tw0) = [7; 8]).
Proof. exact (conj sent_twice read_index_back). Qed.
Print Assumptions C58_two_senders_refuted.

(** What holds: if no two senders empty the buffer at the same time, each event is in one broadcast of one of them. *)
Theorem C58_in_turn_partial : forall ls, in_turn ls tw0 -> exists rest, q_pushed (twrun ls tw0) = concat (map snd (w_log (twrun ls tw0))) ++ rest.
Proof. exact in_turn_once. Qed.
Print Assumptions C58_in_turn_partial.

Example C58_example : let ls := [WPush 1; WA; WA; WPush 2; WA; WB; WB; WB] in in_turn ls tw0 /\ w_log (twrun ls tw0) = [(true, [1]); (false, [2])].
Proof. vm_compute. auto 10. Qed.
