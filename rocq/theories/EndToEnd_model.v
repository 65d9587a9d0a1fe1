(** From the tracepoint to the finished interval: the collectors of any number of traced processes ([Collector_model.v]), the Unix socket
    transports by which the recording program is connected to them ([UnixSystem_model.v]), the encoding of the messages ([Cbor_model.v]),
    the provider with its sources ([Provider_model.v]) and the conversion of an interval ([Native_model.v]) put together into one machine.
    Here is only what connects them:
    - the worker of [EndpointNativeTraceSender] ends a pass with [broadcast("native_trace_receiver", process_events(events))],
      endpoint_native_trace_sender.cpp lines 104-109;
    - a message which the client's worker hands to the endpoint of that name is given to [NativeTraceProvider::incoming],
      endpoint_native_trace_receiver.cpp lines 45-49 and native_trace_provider.cpp lines 52-62;
    - [finishInterval] decodes the data the source has collected, native_trace_source.cpp lines 98-107.
    Simplifications: those of the parts; in each process the sending endpoint is added to its transport before the first tracepoint (otherwise
    see C17); the recording program is client number 0 of each process (other clients may come and go); the worker of a client may go
    on while a call of [incoming] is under way, which the code does not do. *)
From Coq Require Import String List Arith NArith ZArith Ascii Bool.
Import ListNotations.
From Verif Require Import Protocol_model OMap_model TraceEvent_model Names_model.
From Verif Require Collector_model UnixSystem_model Provider_model.
From Verif Require Import Native_model Cbor_model.
Local Notation length := List.length.
Module C := Collector_model.
Module U := UnixSystem_model.
Module P := Provider_model.

(** [EndpointNativeTraceReceiver::name]. *)
Definition receiver : bytes := text "native_trace_receiver".

Record esys := {
  e_col : nat -> C.cstate;                   (* of each process: its threads, buffers and sender *)
  e_net : nat -> U.sys;                      (* its server transport, and the clients *)
  e_prov : P.prov bytes;                     (* the recording program *)
  e_hist : list (P.label bytes);             (* history: the steps of the provider *)
  e_from : list (nat * (nat * bytes));       (* history: for each call of [incoming], the process, the number of the broadcast and the data *)
}.
Definition e0 : esys :=
  {| e_col := fun _ => {| C.cs_threads := []; C.cs_active := []; C.cs_orphans := []; C.cs_pc := C.SIdle; C.cs_attached := true; C.cs_sent := []; C.cs_lost := [] |};
     e_net := fun _ => U.sys0; e_prov := P.prov0; e_hist := []; e_from := [] |}.

Inductive elabel :=
  | Col (p : nat) (l : C.clabel)             (* a thread, or the sender, of process [p] *)
  | Net (p : nat) (l : U.label)              (* a step of the transport of process [p] or of a client of it *)
  | Prv (l : P.label bytes).                 (* a step of a call of [incoming], or of a source *)

Section Machine.
Variable pid : nat -> Z.                     (* process numbers *)
Variable what : nat -> nat -> tev.           (* the event a content (a number) stands for, by process *)
Variable cap : nat.                          (* the number of events a buffer holds *)

(** The message of a pass: [process_events], lines 63-73. *)
Definition threads_of (p : nat) (m : list (nat * list C.event)) : list (N * list tev) :=
  map (fun q => (N.of_nat (fst q), map (fun e => what p (snd e)) (snd q))) m.
Definition packet (p : nat) (m : list (nat * list C.event)) : bytes := pack (pid p) (threads_of p m).

(** What the endpoint of the recording program is given among the messages the worker of its client has processed. *)
Definition heard (log : list (msg * U.origin * U.outcome)) : list (nat * bytes) :=
  flat_map (fun e => match e with
                     | (m, g, U.Unsolicited) => if U.bytes_eqb (ep_name m) receiver then [(match g with U.GBcast k => k | _ => 0 end, payload m)] else []
                     | _ => []
                     end) log.

(** The traced processes use the name for the broadcasts of the sender only. *)
Definition reserved (l : U.label) : bool :=
  match l with
  | U.MakeBcast n _ | U.AddServerEp n => U.bytes_eqb n receiver
  | _ => false
  end.

Definition estep (l : elabel) (s : esys) : option esys :=
  match l with
  | Col p a =>
      match C.cstep cap a (e_col s p) with
      | Some c =>
          let new := skipn (length (C.cs_sent (e_col s p))) (C.cs_sent c) in
          match U.run (map (fun m => U.MakeBcast receiver (packet p m)) new) (e_net s p) with
          | Some n => Some {| e_col := U.upd (e_col s) p c; e_net := U.upd (e_net s) p n; e_prov := e_prov s; e_hist := e_hist s; e_from := e_from s |}
          | None => None
          end
      | None => None
      end
  | Net p a =>
      if reserved a then None else
      match U.step a (e_net s p) with
      | Some n =>
          let new := heard (skipn (length (U.c_log (U.s_cl (e_net s p) 0))) (U.c_log (U.s_cl n 0))) in
          let begins := map (fun x => P.LBegin (snd x)) new in
          match P.lrun begins (e_prov s) with
          | Some q => Some {| e_col := e_col s; e_net := U.upd (e_net s) p n; e_prov := q; e_hist := e_hist s ++ begins;
                              e_from := e_from s ++ map (pair p) new |}
          | None => None
          end
      | None => None
      end
  | Prv a =>
      match a with
      | P.LBegin _ => None
      | _ => match P.lstep a (e_prov s) with
             | Some q => Some {| e_col := e_col s; e_net := e_net s; e_prov := q; e_hist := e_hist s ++ [a]; e_from := e_from s |}
             | None => None
             end
      end
  end.
Fixpoint erun (ls : list elabel) (s : esys) : option esys :=
  match ls with
  | [] => Some s
  | l :: ls' => match estep l s with Some s' => erun ls' s' | None => None end
  end.

(** [finishInterval] of source [i] in state [s], with the names [m]. *)
Definition interval (m : mapping) (i : nat) (s : esys) : fres := finish m (map unpack (P.data_of i (e_prov s))).
End Machine.
