(** Model of how trace events get from the buffers of the tracing threads into broadcasts:
    [scalopus_tracing/src/native/tracepoint_collector_native.cpp] and
    [scalopus_tracing/src/native/endpoint_native_trace_sender.cpp].

    A step is one access to shared state: [MapTracker] operations and the list of orphans are protected by mutexes; a
    buffer is a single-producer single-consumer queue (its own behaviour is C14/C15).  Threads are numbered in the order
    they start; each has a thread id ([pthread_self()], an address), which is used again only after the thread with that id
    is gone.  The buffer of a thread has the same number as the thread.  An event is what the thread passes to [push]; for
    the sake of the statements it carries the number of the thread that made it, which the code does not record.

    Simplifications: there is one sender in the process (several are the subject of C58); a thread's first tracepoint,
    which registers its buffer, is the step [TStart]; memory is not exhausted; the loop variable [running_] is read as
    last written; emission during the destruction of thread-local objects is in the second part of this file. *)
From Coq Require Import List Arith Bool.
Import ListNotations.
From Verif Require Import UnixSystem_model OMap_model.

Definition event := (nat * nat)%type.             (* the thread that made it, and its content *)

(** [TRunning]: has a buffer in [active_tid_buffers_]. [TOrphaned]: the exit callback has added the buffer to the orphans
    (lines 70-73) but not yet erased it from the active ones (line 75). *)
Inductive tphase := TRunning | TOrphaned | TGone.

Record tthread := { th_tid : nat; th_phase : tphase; th_buf : list event; th_accepted : list event }.   (* [th_accepted] is history *)

(** The sender: where it is in its loop (lines 80-113). An entry of its list is a thread id, a buffer, and whether it was
    retrieved from the orphans. *)
Inductive spc := SIdle | SSwapped (l : list (nat * nat)) | SCollecting (todo : list (nat * nat * bool)) (events : list (nat * list event)) | SStopped.

Record cstate := {
  cs_threads : list tthread;
  cs_active : list (nat * nat);                     (* [active_tid_buffers_]: thread id, buffer *)
  cs_orphans : list (nat * nat);                    (* [orphaned_tid_buffers_] *)
  cs_pc : spc;
  cs_attached : bool;                               (* [transport_ != nullptr] *)
  cs_sent : list (list (nat * list event));         (* broadcasts, oldest first *)
  cs_lost : list (list (nat * list event));         (* collected while there was no transport *)
}.

Definition c0 : cstate := {| cs_threads := []; cs_active := []; cs_orphans := []; cs_pc := SIdle; cs_attached := false; cs_sent := []; cs_lost := [] |}.

Inductive clabel :=
  | TStart (tid : nat)               (* first tracepoint of a new thread *)
  | TEmit (i : nat) (x : nat)        (* a tracepoint that passes the gate *)
  | TOrphan (i : nat)                (* thread exit, first half of the callback *)
  | TErase (i : nat)                 (* thread exit, second half *)
  | SAttach                          (* the endpoint gets its transport *)
  | SSwap                            (* retrieveAndClearOrphanedBuffers *)
  | SSnapshot                        (* getActiveMap and the loop over it *)
  | SCollect (k : nat)               (* size() and pop_into for one buffer *)
  | SSend                            (* broadcast, end of the loop body *)
  | SStop.                           (* [running_] is seen to be false at line 80 *)

Section Cap.
Variable cap : nat.                  (* the number of events a buffer holds *)

Definition tnth (i : nat) (s : cstate) : option tthread := nth_error (cs_threads s) i.

Definition with_threads (l : list tthread) (s : cstate) : cstate :=
  {| cs_threads := l; cs_active := cs_active s; cs_orphans := cs_orphans s; cs_pc := cs_pc s; cs_attached := cs_attached s; cs_sent := cs_sent s; cs_lost := cs_lost s |}.
Definition with_pc (p : spc) (s : cstate) : cstate :=
  {| cs_threads := cs_threads s; cs_active := cs_active s; cs_orphans := cs_orphans s; cs_pc := p; cs_attached := cs_attached s; cs_sent := cs_sent s; cs_lost := cs_lost s |}.

(** [events[thread_id]] with the events popped appended; the entry is created if it is not there (line 100). *)
Definition append_to (tid : nat) (es : list event) (m : list (nat * list event)) : list (nat * list event) :=
  minsert Nat.ltb tid (match mfind Nat.ltb tid m with Some old => old ++ es | None => es end) m.

(** [collected], lines 91 and 102. *)
Definition count_events (m : list (nat * list event)) : nat := length (flat_map snd m).

Definition cstep (l : clabel) (s : cstate) : option cstate :=
  match l with
  | TStart tid =>
      if existsb (fun t => (th_tid t =? tid) && match th_phase t with TGone => false | _ => true end) (cs_threads s) then None
      else match mfind Nat.ltb tid (cs_active s) with
           | Some _ => None                          (* lines 79-83: cannot happen here (C16_fresh_buffer); see [use_kind] below *)
           | None => Some {| cs_threads := cs_threads s ++ [{| th_tid := tid; th_phase := TRunning; th_buf := []; th_accepted := [] |}];
                             cs_active := minsert Nat.ltb tid (length (cs_threads s)) (cs_active s);            (* lines 86-91 *)
                             cs_orphans := cs_orphans s; cs_pc := cs_pc s; cs_attached := cs_attached s; cs_sent := cs_sent s; cs_lost := cs_lost s |}
           end
  | TEmit i x =>                                     (* native_tracepoint.cpp line 74 and the like; push drops when full *)
      match tnth i s with
      | Some t => match th_phase t with
                  | TRunning => Some (if length (th_buf t) <? cap
                                      then with_threads (set_nth i {| th_tid := th_tid t; th_phase := TRunning; th_buf := th_buf t ++ [(i, x)]; th_accepted := th_accepted t ++ [(i, x)] |} (cs_threads s)) s
                                      else s)
                  | _ => None
                  end
      | None => None
      end
  | TOrphan i =>                                     (* lines 63-73 *)
      match tnth i s with
      | Some t => match th_phase t with
                  | TRunning => Some {| cs_threads := set_nth i {| th_tid := th_tid t; th_phase := TOrphaned; th_buf := th_buf t; th_accepted := th_accepted t |} (cs_threads s);
                                        cs_active := cs_active s;
                                        cs_orphans := match mfind Nat.ltb (th_tid t) (cs_active s) with
                                                      | Some b => cs_orphans s ++ [(th_tid t, b)]
                                                      | None => cs_orphans s
                                                      end;
                                        cs_pc := cs_pc s; cs_attached := cs_attached s; cs_sent := cs_sent s; cs_lost := cs_lost s |}
                  | _ => None
                  end
      | None => None
      end
  | TErase i =>                                      (* line 75 *)
      match tnth i s with
      | Some t => match th_phase t with
                  | TOrphaned => Some {| cs_threads := set_nth i {| th_tid := th_tid t; th_phase := TGone; th_buf := th_buf t; th_accepted := th_accepted t |} (cs_threads s);
                                         cs_active := merase Nat.ltb (th_tid t) (cs_active s);
                                         cs_orphans := cs_orphans s; cs_pc := cs_pc s; cs_attached := cs_attached s; cs_sent := cs_sent s; cs_lost := cs_lost s |}
                  | _ => None
                  end
      | None => None
      end
  | SAttach => Some {| cs_threads := cs_threads s; cs_active := cs_active s; cs_orphans := cs_orphans s; cs_pc := cs_pc s; cs_attached := true; cs_sent := cs_sent s; cs_lost := cs_lost s |}
  | SSwap =>                                         (* sender line 83 *)
      match cs_pc s with
      | SIdle => Some {| cs_threads := cs_threads s; cs_active := cs_active s; cs_orphans := []; cs_pc := SSwapped (cs_orphans s); cs_attached := cs_attached s; cs_sent := cs_sent s; cs_lost := cs_lost s |}
      | _ => None
      end
  | SSnapshot =>                                     (* sender lines 85-88 *)
      match cs_pc s with
      | SSwapped l => Some (with_pc (SCollecting (map (fun e => (e, true)) l ++ map (fun e => (e, false)) (cs_active s)) []) s)
      | _ => None
      end
  | SCollect k =>                                    (* sender lines 91-103 *)
      match cs_pc s with
      | SCollecting ((tid, b, orphan) :: rest) ev =>
          match nth_error (cs_threads s) b with
          | Some t =>
              (* [size()] may lag behind a thread that is running; for an orphan the hand-over under the mutex makes all
                 its events visible *)
              if (if orphan then k =? length (th_buf t) else k <=? length (th_buf t))
              then Some (with_pc (SCollecting rest (append_to tid (firstn k (th_buf t)) ev))
                    (with_threads (set_nth b {| th_tid := th_tid t; th_phase := th_phase t; th_buf := skipn k (th_buf t); th_accepted := th_accepted t |} (cs_threads s)) s))
              else None
          | None => None
          end
      | _ => None
      end
  | SSend =>                                         (* sender lines 104-112 *)
      match cs_pc s with
      | SCollecting [] ev =>
          Some (if count_events ev =? 0 then with_pc SIdle s
                else {| cs_threads := cs_threads s; cs_active := cs_active s; cs_orphans := cs_orphans s; cs_pc := SIdle; cs_attached := cs_attached s;
                        cs_sent := if cs_attached s then cs_sent s ++ [ev] else cs_sent s;
                        cs_lost := if cs_attached s then cs_lost s else cs_lost s ++ [ev] |})
      | _ => None
      end
  | SStop => match cs_pc s with SIdle => Some (with_pc SStopped s) | _ => None end
  end.

Fixpoint crun (ls : list clabel) (s : cstate) : option cstate :=
  match ls with
  | [] => Some s
  | l :: ls' => match cstep l s with Some s' => crun ls' s' | None => None end
  end.
End Cap.

(** ** Tracing while a thread is torn down *)
(** Each kind of tracepoint (scope entry, scope exit, mark, count: native_tracepoint.cpp lines 62-138) keeps its own
    [thread_local] pointer to the buffer, made when that kind is first used on the thread; the exit callback is itself a
    [thread_local] (tracepoint_collector_native.cpp line 58), made on the first use of any kind, just before the pointer.
    Thread-local objects are destroyed in the reverse order of construction.  A user object may trace in its destructor.
    Using a pointer that has been destroyed is undefined. *)
Inductive tls := LPointer (kind : nat) | LCallback | LUser (kinds : list nat).

Record exit_state := {
  ex_stack : list tls;             (* alive, most recently constructed first *)
  ex_dead : list nat;              (* kinds whose pointer has been destroyed *)
  ex_callback : option bool;       (* [None]: not constructed yet; [Some true]: alive; [Some false]: destroyed *)
  ex_events : list nat;            (* events put in a buffer that will be collected *)
}.

Inductive eres := ENext (s : exit_state) | EUB.

Definition kmem (k : nat) (l : list nat) : bool := existsb (Nat.eqb k) l.
Definition has_pointer (k : nat) (l : list tls) : bool := existsb (fun t => match t with LPointer k' => k =? k' | _ => false end) l.

(** A tracepoint of kind [k] with content [x]. When the pointer is made after the callback has run, the buffer is a new one
    in the active map (lines 86-91), where it stays. *)
Definition use_kind (k x : nat) (s : exit_state) : eres :=
  if kmem k (ex_dead s) then EUB
  else if has_pointer k (ex_stack s) then ENext {| ex_stack := ex_stack s; ex_dead := ex_dead s; ex_callback := ex_callback s; ex_events := ex_events s ++ [x] |}
  else ENext {| ex_stack := LPointer k :: match ex_callback s with None => LCallback :: ex_stack s | _ => ex_stack s end;
                ex_dead := ex_dead s; ex_callback := match ex_callback s with None => Some true | c => c end; ex_events := ex_events s ++ [x] |}.

Fixpoint use_kinds (ks : list nat) (s : exit_state) : eres :=
  match ks with
  | [] => ENext s
  | k :: ks' => match use_kind k k s with ENext s' => use_kinds ks' s' | EUB => EUB end
  end.

(** While the thread runs: a tracepoint, or the construction of a user object with thread storage. *)
Inductive live := Trace (k x : nat) | Construct (kinds : list nat).
Fixpoint live_run (ls : list live) (s : exit_state) : eres :=
  match ls with
  | [] => ENext s
  | Trace k x :: ls' => match use_kind k x s with ENext s' => live_run ls' s' | EUB => EUB end
  | Construct ks :: ls' => live_run ls' {| ex_stack := LUser ks :: ex_stack s; ex_dead := ex_dead s; ex_callback := ex_callback s; ex_events := ex_events s |}
  end.

(** Thread exit: the object constructed last is destroyed first; [fuel] bounds the number of objects. *)
Fixpoint exit_run (fuel : nat) (s : exit_state) : eres :=
  match fuel with
  | 0 => ENext s
  | S f =>
      match ex_stack s with
      | [] => ENext s
      | LPointer k :: st => exit_run f {| ex_stack := st; ex_dead := k :: ex_dead s; ex_callback := ex_callback s; ex_events := ex_events s |}
      | LCallback :: st => exit_run f {| ex_stack := st; ex_dead := ex_dead s; ex_callback := Some false; ex_events := ex_events s |}
      | LUser ks :: st =>
          match use_kinds ks {| ex_stack := st; ex_dead := ex_dead s; ex_callback := ex_callback s; ex_events := ex_events s |} with
          | ENext s' => exit_run f s'
          | EUB => EUB
          end
      end
  end.

Definition ex0 : exit_state := {| ex_stack := []; ex_dead := []; ex_callback := None; ex_events := [] |}.
