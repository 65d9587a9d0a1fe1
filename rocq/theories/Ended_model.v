(** The end of a traced process while it is being recorded: the processes, the transports the endpoint manager holds to them, the sessions
    of the viewers and what each of them does to finish an interval, request by request.
    scalopus_general/src/endpoint_manager_poll.cpp lines 53-122 and 149-153, scalopus_tracing/src/scope_tracing_provider.cpp lines 40-79,
    scalopus_tracing/src/native/native_trace_source.cpp lines 70-90, scalopus_general/src/general_provider.cpp lines 45-76,
    scalopus_general/src/general_source.cpp lines 40-73, scalopus_catapult/src/trace_session.cpp lines 72-143.
    Simplifications: a discovered server accepts the connection and answers which endpoints it has, among them those for the names, for the
    information about the process and for the data (otherwise see C12, C13); the names a process has registered and those of its threads
    do not change; a message with data is handed to the sources in one step (C29, C47 have the smaller steps); a viewer's sources are
    a native and a general one, in this order, as scalopus_catapult_server.cpp lines 135-136 adds them; one request is one step,
    so a process that ends after the request was sent and before it is answered is one that is late and ends afterwards; a viewer uses the
    information about processes it has collected itself (the general provider keeps it in one place for all viewers, as the native provider
    does with the names, where this is modelled). *)
From Coq Require Import String List Arith NArith ZArith Ascii Bool.
Import ListNotations.
From Verif Require Import OMap_model UnixSystem_model Names_model Native_model.
From Verif Require Provider_model Info_model.
Module P := Provider_model.
Module I := Info_model.
Local Notation length := List.length.

(** A traced process; whether it is still there. *)
Record peer := { pe_pid : Z; pe_names : names; pe_title : list ascii; pe_threads : list (N * list ascii); pe_up : bool }.
(** A transport to a process; [client_fd_] is 0 once its worker has seen that the connection is lost, transport_unix.cpp lines 264-269. *)
Record conn := { cn_peer : nat; cn_lost : bool }.

Definition imap := list (Z * (list ascii * list (N * list ascii))).

(** Where the worker of a session is in the handling of "Tracing.end". *)
Inductive wpc :=
| WIdle
| WNames (todo : list nat) (m : mapping)                  (* in the loop of [ScopeTracingProvider::updateMapping]: the transports still to ask *)
| WSwapped                                                (* behind it, before [getMapping], native_trace_source.cpp line 82 *)
| WInfo (todo : list nat) (m : imap) (es : list entry).   (* in the loop of [GeneralProvider::updateMapping], with the entries made of the data *)

(** The worker, and what it has sent at the end of each interval. *)
Record view := { vw_pc : wpc; vw_out : list (list entry * imap) }.

Inductive fate := Running | Terminated | Undefined.

Record world := {
  w_peers : list peer;
  w_conns : list conn;              (* all transports there ever were *)
  w_held : list nat;                (* those in the manager's [transport_endpoints_] *)
  w_prov : P.prov chunk;   (* the native provider; source [v] is that of viewer [v] *)
  w_map : mapping;                  (* its [mapping_] *)
  w_views : list view;
  w_fate : fate                     (* of the recording program *)
}.
Definition w0 : world :=
  {| w_peers := []; w_conns := []; w_held := []; w_prov := P.prov0; w_map := []; w_views := []; w_fate := Running |}.

Inductive label :=
| New (pid : Z) (nm : names) (title : list ascii) (threads : list (N * list ascii))   (* a process that traces starts *)
| End (i : nat)                     (* process [i] ends *)
| Notice (i : nat)                  (* the worker of the transport to it sees that *)
| Manage                            (* a cycle of the manager *)
| Deliver (t : nat) (c : chunk)     (* a message with data comes in by transport [t] *)
| Open                              (* a viewer connects *)
| Start (v : nat)                   (* its session handles "Tracing.start" *)
| Finish (v : nat)                  (* it begins to handle "Tracing.end" *)
| Ask (v : nat) (late : option Z)   (* one request; [Some]: not answered within the 200 ms, with what is in the uninitialised number *)
| Swap (v : nat)                    (* the end of [updateMapping]: the new mapping is put in place *)
| Convert (v : nat)                 (* [getMapping] and the conversion *)
| Send (v : nat).                   (* the interval is finished, the events are sent *)

Definition with_views (w : world) (vs : list view) : world :=
  {| w_peers := w_peers w; w_conns := w_conns w; w_held := w_held w; w_prov := w_prov w; w_map := w_map w; w_views := vs; w_fate := w_fate w |}.
Definition with_prov (w : world) (p : P.prov chunk) : world :=
  {| w_peers := w_peers w; w_conns := w_conns w; w_held := w_held w; w_prov := p; w_map := w_map w; w_views := w_views w; w_fate := w_fate w |}.
Definition with_fate (w : world) (f : fate) : world :=
  {| w_peers := w_peers w; w_conns := w_conns w; w_held := w_held w; w_prov := w_prov w; w_map := w_map w; w_views := w_views w; w_fate := f |}.
Definition goto (v : nat) (pc : wpc) (w : world) : world :=
  match nth_error (w_views w) v with
  | Some x => with_views w (set_nth v {| vw_pc := pc; vw_out := vw_out x |} (w_views w))
  | None => w
  end.

Definition up (i : nat) (w : world) : bool := match nth_error (w_peers w) i with Some p => pe_up p | None => false end.
Definition pid_of (i : nat) (w : world) : Z := match nth_error (w_peers w) i with Some p => pe_pid p | None => 0%Z end.
Definition lost (t : nat) (w : world) : bool := match nth_error (w_conns w) t with Some c => cn_lost c | None => true end.
Definition peer_of (t : nat) (w : world) : nat := match nth_error (w_conns w) t with Some c => cn_peer c | None => 0 end.

(** [manage]: the clean-up, lines 58-68; then [connect] for every server there is, lines 70-75 and 78-122. A destination is its process
    number. *)
Definition clean (w : world) : world :=
  {| w_peers := w_peers w; w_conns := w_conns w; w_held := filter (fun t => negb (lost t w)) (w_held w); w_prov := w_prov w;
     w_map := w_map w; w_views := w_views w; w_fate := w_fate w |}.
Definition connect (i : nat) (w : world) : world :=
  if up i w && negb (existsb (fun t => Z.eqb (pid_of (peer_of t w) w) (pid_of i w)) (w_held w))
  then {| w_peers := w_peers w; w_conns := w_conns w ++ [{| cn_peer := i; cn_lost := false |}]; w_held := w_held w ++ [length (w_conns w)];
          w_prov := w_prov w; w_map := w_map w; w_views := w_views w; w_fate := w_fate w |}
  else w.
Definition manage (w : world) : world := fold_left (fun w i => connect i w) (seq 0 (length (w_peers w))) (clean w).

(** What comes of a request by transport [t]: when the process has ended [send] fails (the kernel reports a broken connection, or the
    descriptor is 0), and [get()] throws the exception of transport_unix.cpp lines 151-155. *)
Definition names_answer (t : nat) (late : option Z) (w : world) : answer :=
  if lost t w || negb (up (peer_of t w) w) then ALost
  else match late, nth_error (w_peers w) (peer_of t w) with
       | None, Some p => AMap [(pe_pid p, pe_names p)]
       | _, _ => ASilent
       end.
(** The same for [processInfo]; [None]: an exception. *)
Definition info_answer (t : nat) (late : option Z) (w : world) : option I.info :=
  if lost t w || negb (up (peer_of t w) w) then None
  else match late, nth_error (w_peers w) (peer_of t w) with
       | None, Some p => Some (pe_pid p, pe_title p, pe_threads p)
       | Some junk, _ => Some (junk, [], [])
       | None, None => None
       end.

Definition step (l : label) (w : world) : option world :=
  match w_fate w with
  | Running =>
    match l with
    | New pid nm title threads =>                       (* a number in use is not given again *)
        if existsb (fun p => pe_up p && Z.eqb (pe_pid p) pid) (w_peers w) then None
        else Some {| w_peers := w_peers w ++ [{| pe_pid := pid; pe_names := nm; pe_title := title; pe_threads := threads; pe_up := true |}];
                     w_conns := w_conns w; w_held := w_held w; w_prov := w_prov w; w_map := w_map w; w_views := w_views w; w_fate := w_fate w |}
    | End i =>
        match nth_error (w_peers w) i with
        | Some p => if pe_up p
                    then Some {| w_peers := set_nth i {| pe_pid := pe_pid p; pe_names := pe_names p; pe_title := pe_title p;
                                                         pe_threads := pe_threads p; pe_up := false |} (w_peers w);
                                 w_conns := w_conns w; w_held := w_held w; w_prov := w_prov w; w_map := w_map w; w_views := w_views w;
                                 w_fate := w_fate w |}
                    else None
        | None => None
        end
    | Notice i =>
        if up i w || negb (i <? length (w_peers w)) then None
        else Some {| w_peers := w_peers w;
                     w_conns := map (fun c => if Nat.eqb (cn_peer c) i then {| cn_peer := i; cn_lost := true |} else c) (w_conns w);
                     w_held := w_held w; w_prov := w_prov w; w_map := w_map w; w_views := w_views w; w_fate := w_fate w |}
    | Manage => Some (manage w)
    | Deliver t c => if lost t w then None else Some (with_prov w (P.incoming c (w_prov w)))
    | Open => Some (with_views (with_prov w (P.make_source (w_prov w))) (w_views w ++ [{| vw_pc := WIdle; vw_out := [] |}]))
    | Start v =>
        match nth_error (w_views w) v with
        | Some x => match vw_pc x with WIdle => Some (with_prov w (P.start v (w_prov w))) | _ => None end
        | None => None
        end
    | Finish v =>                                       (* trace_session.cpp lines 124-127; then the copy of line 57 *)
        match nth_error (w_views w) v with
        | Some x => match vw_pc x with WIdle => Some (goto v (WNames (w_held w) []) (with_prov w (P.stop v (w_prov w)))) | _ => None end
        | None => None
        end
    | Ask v late =>
        match nth_error (w_views w) v with
        | Some x =>
            match vw_pc x with
            | WNames (t :: todo) m =>
                match gather [Some (names_answer t late w)] m with
                | MMap m' => Some (goto v (WNames todo m') w)
                | MThrows => Some (with_fate w Terminated)       (* nothing catches it: neither [finishInterval] nor [loop] *)
                end
            | WInfo (t :: todo) m es =>
                match info_answer t late w with
                | Some (pid, nm, ths) => Some (goto v (WInfo todo (minsert Z.ltb pid (nm, ths) m) es) w)
                | None => Some (with_fate w Terminated)
                end
            | _ => None
            end
        | None => None
        end
    | Swap v =>
        match nth_error (w_views w) v with
        | Some x => match vw_pc x with
                    | WNames [] m => Some (goto v WSwapped {| w_peers := w_peers w; w_conns := w_conns w; w_held := w_held w; w_prov := w_prov w;
                                                              w_map := m; w_views := w_views w; w_fate := w_fate w |})
                    | _ => None
                    end
        | None => None
        end
    | Convert v =>
        match nth_error (w_views w) v with
        | Some x => match vw_pc x with
                    | WSwapped =>
                        match P.finish_src v (w_prov w) with
                        | P.Fin ds p => match finish (w_map w) ds with
                                        | FEntries es => Some (goto v (WInfo (w_held w) [] es) (with_prov w p))
                                        | FUB => Some (with_fate w Undefined)
                                        end
                        | P.FinUB => Some (with_fate w Undefined)
                        end
                    | _ => None
                    end
        | None => None
        end
    | Send v =>
        match nth_error (w_views w) v with
        | Some x => match vw_pc x with
                    | WInfo [] m es => Some (with_views w (set_nth v {| vw_pc := WIdle; vw_out := vw_out x ++ [(es, m)] |} (w_views w)))
                    | _ => None
                    end
        | None => None
        end
    end
  | _ => None
  end.
Fixpoint run (ls : list label) (w : world) : option world :=
  match ls with
  | [] => Some w
  | l :: ls' => match step l w with Some w' => run ls' w' | None => None end
  end.
