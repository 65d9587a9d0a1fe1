(** The collection of trace events with the ring buffers themselves (C101): Collector_model and RingBuffer_model in one machine.

    Modelled: scalopus_tracing/src/native/tracepoint_collector_native.cpp 53-110 and endpoint_native_trace_sender.cpp 75-114 as in Collector_model, with
    scalopus_tracing/src/spsc_ringbuffer.h as in RingBuffer_model for the buffer of each thread: [push] by the thread, [size] and [pop_into] by the sender go one
    memory access at a time, and a load of an index may return any value that is not older than one the thread has seen.  The buffer of a thread that is
    gone is handed over under [orphaned_mutex_] (lines 70-73 and 106): everything the thread stored happens before the loads of the sender, so these return
    its last store.

    Simplifications: those of Collector_model, and of RingBuffer_model for the single buffer; all buffers have the same size. *)
From Coq Require Import List Arith Bool.
Import ListNotations.
From Verif Require RingBuffer_model.
From Verif Require Import UnixSystem_model OMap_model Collector_model.

Definition ring := RingBuffer_model.st event.
Record rthread := { r_tid : nat; r_phase : tphase; r_ring : ring }.

(** Where the sender is with the first buffer of its list: [size()] not called (line 97), called, returned [k]; [pop_into] called (line 100). *)
Inductive stage := Fresh | Sizing | Sized (k : nat) | Popping.
(** What was popped: a slot that was never written or was moved out already gives [None]. *)
Definition filed := list (nat * list (option event)).
Inductive rpc := RIdle | RSwapped (l : list (nat * nat)) | RCollecting (g : stage) (todo : list (nat * nat * bool)) (ev : filed) | RStopped.

Record rstate := {
  rs_threads : list rthread;
  rs_active : list (nat * nat);
  rs_orphans : list (nat * nat);
  rs_pc : rpc;
  rs_attached : bool;
  rs_sent : list filed;
  rs_lost : list filed
}.
Definition rstate0 (attached : bool) : rstate :=
  {| rs_threads := []; rs_active := []; rs_orphans := []; rs_pc := RIdle; rs_attached := attached; rs_sent := []; rs_lost := [] |}.

Inductive rlabel :=
  | RStart (tid : nat)                 (* first tracepoint of a new thread *)
  | RPush (i x : nat)                  (* thread [i] calls [push] *)
  | RAccess (i c : nat)                (* its next access; [c] selects what a load returns *)
  | ROrphan (i : nat) | RErase (i : nat)
  | RAttach | RSwap | RSnapshot
  | RCall                              (* the sender calls [size], or [pop_into] *)
  | RRead (c : nat)                    (* its next access *)
  | RSend | RStop.

Definition with_rthreads (l : list rthread) (s : rstate) : rstate :=
  {| rs_threads := l; rs_active := rs_active s; rs_orphans := rs_orphans s; rs_pc := rs_pc s; rs_attached := rs_attached s; rs_sent := rs_sent s; rs_lost := rs_lost s |}.
Definition with_rpc (p : rpc) (s : rstate) : rstate :=
  {| rs_threads := rs_threads s; rs_active := rs_active s; rs_orphans := rs_orphans s; rs_pc := p; rs_attached := rs_attached s; rs_sent := rs_sent s; rs_lost := rs_lost s |}.
Definition with_ring (q : ring) (t : rthread) : rthread := {| r_tid := r_tid t; r_phase := r_phase t; r_ring := q |}.
Definition with_phase (p : tphase) (t : rthread) : rthread := {| r_tid := r_tid t; r_phase := p; r_ring := r_ring t |}.

(** [events[thread_id]] and [std::back_inserter], sender lines 98-100. *)
Definition file_under (tid : nat) (vs : list (option event)) (m : filed) : filed :=
  minsert Nat.ltb tid (match mfind Nat.ltb tid m with Some old => old ++ vs | None => vs end) m.

(** What a load of the sender may return from the buffer of a thread that is gone. *)
Definition handed_over (orphan : bool) (q : ring) (c : nat) : bool :=
  match RingBuffer_model.cp q with
  | RingBuffer_model.CLd _ => if orphan then S c =? length (RingBuffer_model.whist q) else true
  | _ => true
  end.
(** What the call that has just ended returned: the last event of the trace. *)
Definition result (q : ring) : option (RingBuffer_model.event event) :=
  match RingBuffer_model.cp q with
  | RingBuffer_model.CIdle => match rev (RingBuffer_model.trace q) with e :: _ => Some e | [] => None end
  | _ => None
  end.

Section Size.
Variable size : nat.                   (* [ringbuffer_size_] *)

Definition rstep (l : rlabel) (s : rstate) : option rstate :=
  match l with
  | RStart tid =>
      if existsb (fun t => (r_tid t =? tid) && match r_phase t with TGone => false | _ => true end) (rs_threads s) then None
      else match mfind Nat.ltb tid (rs_active s), RingBuffer_model.init size with
           | None, Some q => Some {| rs_threads := rs_threads s ++ [{| r_tid := tid; r_phase := TRunning; r_ring := q |}];
                                     rs_active := minsert Nat.ltb tid (length (rs_threads s)) (rs_active s);
                                     rs_orphans := rs_orphans s; rs_pc := rs_pc s; rs_attached := rs_attached s; rs_sent := rs_sent s; rs_lost := rs_lost s |}
           | _, _ => None
           end
  | RPush i x =>
      match nth_error (rs_threads s) i with
      | Some t => match r_phase t, RingBuffer_model.step (r_ring t) (RingBuffer_model.APush (i, x)) with
                  | TRunning, Some q => Some (with_rthreads (set_nth i (with_ring q t) (rs_threads s)) s)
                  | _, _ => None
                  end
      | None => None
      end
  | RAccess i c =>
      match nth_error (rs_threads s) i with
      | Some t => match r_phase t, RingBuffer_model.step (r_ring t) (RingBuffer_model.AProd c) with
                  | TRunning, Some q => Some (with_rthreads (set_nth i (with_ring q t) (rs_threads s)) s)
                  | _, _ => None
                  end
      | None => None
      end
  | ROrphan i =>
      match nth_error (rs_threads s) i with
      | Some t => match r_phase t, RingBuffer_model.pp (r_ring t) with
                  | TRunning, RingBuffer_model.PIdle =>
                      Some {| rs_threads := set_nth i (with_phase TOrphaned t) (rs_threads s); rs_active := rs_active s;
                              rs_orphans := match mfind Nat.ltb (r_tid t) (rs_active s) with
                                            | Some b => rs_orphans s ++ [(r_tid t, b)]
                                            | None => rs_orphans s
                                            end;
                              rs_pc := rs_pc s; rs_attached := rs_attached s; rs_sent := rs_sent s; rs_lost := rs_lost s |}
                  | _, _ => None
                  end
      | None => None
      end
  | RErase i =>
      match nth_error (rs_threads s) i with
      | Some t => match r_phase t with
                  | TOrphaned => Some {| rs_threads := set_nth i (with_phase TGone t) (rs_threads s); rs_active := merase Nat.ltb (r_tid t) (rs_active s);
                                         rs_orphans := rs_orphans s; rs_pc := rs_pc s; rs_attached := rs_attached s; rs_sent := rs_sent s; rs_lost := rs_lost s |}
                  | _ => None
                  end
      | None => None
      end
  | RAttach => Some {| rs_threads := rs_threads s; rs_active := rs_active s; rs_orphans := rs_orphans s; rs_pc := rs_pc s; rs_attached := true; rs_sent := rs_sent s; rs_lost := rs_lost s |}
  | RSwap =>
      match rs_pc s with
      | RIdle => Some {| rs_threads := rs_threads s; rs_active := rs_active s; rs_orphans := []; rs_pc := RSwapped (rs_orphans s);
                         rs_attached := rs_attached s; rs_sent := rs_sent s; rs_lost := rs_lost s |}
      | _ => None
      end
  | RSnapshot =>
      match rs_pc s with
      | RSwapped l => Some (with_rpc (RCollecting Fresh (map (fun e => (e, true)) l ++ map (fun e => (e, false)) (rs_active s)) []) s)
      | _ => None
      end
  | RCall =>
      match rs_pc s with
      | RCollecting g ((tid, b, orphan) :: rest) ev =>
          match nth_error (rs_threads s) b with
          | Some t =>
              let call o g' := match RingBuffer_model.step (r_ring t) (RingBuffer_model.ACons o) with
                               | Some q => Some (with_rpc (RCollecting g' ((tid, b, orphan) :: rest) ev) (with_rthreads (set_nth b (with_ring q t) (rs_threads s)) s))
                               | None => None
                               end in
              match g with
              | Fresh => call RingBuffer_model.OSize Sizing
              | Sized k => call (RingBuffer_model.OPopInto k) Popping
              | _ => None
              end
          | None => None
          end
      | _ => None
      end
  | RRead c =>
      match rs_pc s with
      | RCollecting g ((tid, b, orphan) :: rest) ev =>
          match nth_error (rs_threads s) b with
          | Some t =>
              if handed_over orphan (r_ring t) c then
                match RingBuffer_model.step (r_ring t) (RingBuffer_model.AStep c) with
                | Some q =>
                    let s' := with_rthreads (set_nth b (with_ring q t) (rs_threads s)) s in
                    match g, result q with
                    | Sizing, None | Popping, None => Some s'
                    | Sizing, Some (RingBuffer_model.ERetSize k) => Some (with_rpc (RCollecting (Sized k) ((tid, b, orphan) :: rest) ev) s')
                    | Popping, Some (RingBuffer_model.ERetInto vs) => Some (with_rpc (RCollecting Fresh rest (file_under tid vs ev)) s')
                    | _, _ => None
                    end
                | None => None
                end
              else None
          | None => None
          end
      | _ => None
      end
  | RSend =>
      match rs_pc s with
      | RCollecting Fresh [] ev =>
          Some (if length (flat_map snd ev) =? 0 then with_rpc RIdle s
                else {| rs_threads := rs_threads s; rs_active := rs_active s; rs_orphans := rs_orphans s; rs_pc := RIdle; rs_attached := rs_attached s;
                        rs_sent := if rs_attached s then rs_sent s ++ [ev] else rs_sent s;
                        rs_lost := if rs_attached s then rs_lost s else rs_lost s ++ [ev] |})
      | _ => None
      end
  | RStop => match rs_pc s with RIdle => Some (with_rpc RStopped s) | _ => None end
  end.

Fixpoint rrun (ls : list rlabel) (s : rstate) : option rstate :=
  match ls with
  | [] => Some s
  | l :: ls' => match rstep l s with Some s' => rrun ls' s' | None => None end
  end.
End Size.
