(** From the switch in front of a tracepoint to the finished interval, one memory access at a time (C104).

    A traced process is here the machine of [Switch_model.v] (threads that come to tracepoints, the flags they load, requests that store
    them) joined with the one of [Rings_model.v] (the ring buffers, the sender); any number of such processes are joined, as in
    [EndToEnd_model.v], with the transports ([UnixSystem_model.v]), the encoding ([Cbor_model.v]) and the provider with its sources
    ([Provider_model.v]).  Here is only what connects them:
    - the first tracepoint of a thread gets its buffer before it looks at the flags, native_tracepoint.cpp lines 65-68;
    - a tracepoint that found both flags set calls [push], line 74, which takes up to three accesses to the buffer, spsc_ringbuffer.h lines 82-97;
    - at the end of a thread its flag is forgotten (trace_configurator.cpp lines 45-52) and its buffer handed over
      (tracepoint_collector_native.cpp lines 58-77), in the order in which the two were made or the other way round;
    - the sender ends a pass with a broadcast of what it popped, endpoint_native_trace_sender.cpp lines 104-109.

    Simplifications: those of the parts; the sender has its transport from the start (C17); no tracepoints while the thread-local objects of a
    thread are destroyed (C16, C60); a thread id is used again when the thread that had it is gone for good. *)
From Coq Require Import String List Arith NArith ZArith Bool.
Import ListNotations.
From Verif Require Import Protocol_model TraceEvent_model Names_model Native_model Cbor_model EndToEnd_model.
From Verif Require RingBuffer_model Switch_model Rings_model.
Local Notation length := List.length.
Module S := Switch_model.
Module R := Rings_model.

(** ** A traced process *)
Record process := {
  w_switch : S.state;
  w_rings : R.rstate;
  w_buffer : list (option nat)         (* the buffer of each thread, once it has one *)
}.
Definition process0 : process := {| w_switch := S.state0; w_rings := R.rstate0 true; w_buffer := [] |}.

Inductive wlabel :=
  | WStart (tid : nat) | WEnd (i : nat)          (* a thread begins; its flag is forgotten *)
  | WBuffer (i : nat)                            (* thread [i] gets its buffer, lines 65-66 *)
  | WEnter (i e : nat)                           (* it comes to a tracepoint for event [e] and has the pointer to its flag, line 68 *)
  | WSwitch (l : S.label)                        (* a load of a flag, line 69; the configurator, scoped changes, requests *)
  | WPush (i : nat)                              (* both flags were set: [push] is called, line 74 *)
  | WAccess (i c : nat)                          (* an access within [push]; [c] selects what a load returns *)
  | WReturn (i c : nat) (room : bool)            (* the last one; [push] returns [room] *)
  | WOrphan (i : nat) | WErase (i : nat)         (* the thread ends: its buffer is handed over, lines 70-73 and 75 *)
  | WSender (l : R.rlabel).                      (* a step of the sender *)

Definition of_switch (l : S.label) : bool :=
  match l with
  | S.LoadP _ | S.LoadT _ | S.SetT _ _ | S.SetP _ | S.Open _ _ _ | S.Close _ | S.Begin _ _ | S.Step _ | S.Answer _ => true
  | S.Start _ | S.End _ | S.Enter _ _ | S.Push _ _ => false
  end.
Definition of_sender (l : R.rlabel) : bool :=
  match l with R.RSwap | R.RSnapshot | R.RCall | R.RRead _ | R.RSend | R.RStop => true | _ => false end.

Definition switch_step (l : S.label) (w : process) : option process :=
  match S.step l (w_switch w) with
  | Some s => Some {| w_switch := s; w_rings := w_rings w; w_buffer := w_buffer w |}
  | None => None
  end.
(** The buffer of thread [i], the thread, and where it is. *)
Definition buffer_of (i : nat) (w : process) : option nat := match nth_error (w_buffer w) i with Some o => o | None => None end.
Definition pc_of (i : nat) (w : process) : option S.pc := option_map S.t_pc (nth_error (S.s_threads (w_switch w)) i).
(** Has the buffer's thread not ended? Is there a call of [push] under way? What has the last one returned? *)
Definition running (j : nat) (w : process) : bool :=
  match nth_error (R.rs_threads (w_rings w)) j with Some t => match R.r_phase t with Collector_model.TRunning => true | _ => false end | None => false end.
Definition pushing (j : nat) (r : R.rstate) : bool :=
  match nth_error (R.rs_threads r) j with Some t => match RingBuffer_model.pp (R.r_ring t) with RingBuffer_model.PIdle => false | _ => true end | None => false end.
Definition push_result (j : nat) (r : R.rstate) : option bool :=
  match nth_error (R.rs_threads r) j with
  | Some t => match rev (RingBuffer_model.trace (R.r_ring t)) with RingBuffer_model.EPushRet _ b :: _ => Some b | _ => None end
  | None => None
  end.

Section Size.
Variable size : nat.                   (* [ringbuffer_size_] *)

Definition rings_step (l : R.rlabel) (w : process) : option process :=
  match R.rstep size l (w_rings w) with
  | Some r => Some {| w_switch := w_switch w; w_rings := r; w_buffer := w_buffer w |}
  | None => None
  end.

Definition wstep (l : wlabel) (w : process) : option process :=
  match l with
  | WStart tid =>
      if existsb (fun t => (R.r_tid t =? tid) && match R.r_phase t with Collector_model.TGone => false | _ => true end) (R.rs_threads (w_rings w)) then None
      else match switch_step (S.Start tid) w with
           | Some w' => Some {| w_switch := w_switch w'; w_rings := w_rings w'; w_buffer := w_buffer w ++ [None] |}
           | None => None
           end
  | WEnd i => switch_step (S.End i) w
  | WBuffer i =>
      match nth_error (w_buffer w) i, S.idle i (w_switch w) with
      | Some None, Some t =>
          match rings_step (R.RStart (S.t_id t)) w with
          | Some w' => Some {| w_switch := w_switch w'; w_rings := w_rings w'; w_buffer := S.set_nth i (Some (length (R.rs_threads (w_rings w)))) (w_buffer w) |}
          | None => None
          end
      | _, _ => None
      end
  | WEnter i e =>
      match buffer_of i w with
      | Some j => if running j w then switch_step (S.Enter i e) w else None
      | None => None
      end
  | WSwitch a => if of_switch a then switch_step a w else None
  | WPush i =>
      match buffer_of i w, pc_of i w with
      | Some j, Some (S.AtPush e) => rings_step (R.RPush j e) w
      | _, _ => None
      end
  | WAccess i c =>
      match buffer_of i w with
      | Some j => match rings_step (R.RAccess j c) w with
                  | Some w' => if pushing j (w_rings w') then Some w' else None
                  | None => None
                  end
      | None => None
      end
  | WReturn i c room =>
      match buffer_of i w with
      | Some j => match rings_step (R.RAccess j c) w with
                  | Some w' => if pushing j (w_rings w') then None
                               else match push_result j (w_rings w') with
                                    | Some b => if Bool.eqb b room then switch_step (S.Push i room) w' else None
                                    | None => None
                                    end
                  | None => None
                  end
      | None => None
      end
  | WOrphan i =>
      match buffer_of i w, pc_of i w with
      | Some j, Some S.Idle => rings_step (R.ROrphan j) w
      | _, _ => None
      end
  | WErase i => match buffer_of i w with Some j => rings_step (R.RErase j) w | None => None end
  | WSender a => if of_sender a then rings_step a w else None
  end.
Fixpoint wrun (ls : list wlabel) (w : process) : option process :=
  match ls with
  | [] => Some w
  | l :: ls' => match wstep l w with Some w' => wrun ls' w' | None => None end
  end.

(** ** Processes, transports and the recording program *)
Record xsys := {
  x_proc : nat -> process;
  x_net : nat -> U.sys;
  x_prov : P.prov bytes
}.
Definition x0 : xsys := {| x_proc := fun _ => process0; x_net := fun _ => U.sys0; x_prov := P.prov0 |}.
Inductive xlabel := XProc (p : nat) (l : wlabel) | XNet (p : nat) (l : U.label) | XPrv (l : P.label bytes).

Variable pid : nat -> Z.                     (* process numbers *)
Variable what : nat -> nat -> tev.           (* the event a content (a number) stands for, by process *)

(** The message of a pass: [process_events], lines 63-73. An element that was popped but never written would be a default-constructed one. *)
Definition blank : tev := {| te_time := 0; te_id := 0; te_type := 0; te_value := None |}.
Definition filed_threads (p : nat) (m : R.filed) : list (N * list tev) :=
  map (fun q => (N.of_nat (fst q), map (fun o => match o with Some e => what p (snd e) | None => blank end) (snd q))) m.
Definition filed_packet (p : nat) (m : R.filed) : bytes := pack (pid p) (filed_threads p m).

Definition xstep (l : xlabel) (s : xsys) : option xsys :=
  match l with
  | XProc p a =>
      match wstep a (x_proc s p) with
      | Some w =>
          let new := skipn (length (R.rs_sent (w_rings (x_proc s p)))) (R.rs_sent (w_rings w)) in
          match U.run (map (fun m => U.MakeBcast receiver (filed_packet p m)) new) (x_net s p) with
          | Some n => Some {| x_proc := U.upd (x_proc s) p w; x_net := U.upd (x_net s) p n; x_prov := x_prov s |}
          | None => None
          end
      | None => None
      end
  | XNet p a =>
      if reserved a then None else
      match U.step a (x_net s p) with
      | Some n =>
          let new := heard (skipn (length (U.c_log (U.s_cl (x_net s p) 0))) (U.c_log (U.s_cl n 0))) in
          match P.lrun (map (fun x => P.LBegin (snd x)) new) (x_prov s) with
          | Some q => Some {| x_proc := x_proc s; x_net := U.upd (x_net s) p n; x_prov := q |}
          | None => None
          end
      | None => None
      end
  | XPrv a =>
      match a with
      | P.LBegin _ => None
      | _ => match P.lstep a (x_prov s) with
             | Some q => Some {| x_proc := x_proc s; x_net := x_net s; x_prov := q |}
             | None => None
             end
      end
  end.
Fixpoint xrun (ls : list xlabel) (s : xsys) : option xsys :=
  match ls with
  | [] => Some s
  | l :: ls' => match xstep l s with Some s' => xrun ls' s' | None => None end
  end.
End Size.

(** [finishInterval] of source [k], with the names [m]. *)
Definition finished (m : mapping) (k : nat) (s : xsys) : fres := finish m (map unpack (P.data_of k (x_prov s))).
