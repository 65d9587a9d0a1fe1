(** Model of [scalopus_general/src/endpoint_manager_poll.cpp]: the endpoint manager.

    [manage] holds [mutex_] from line 55 to its end; [endpoints] (line 151) and [addEndpointFactory] (line 157) take the
    same mutex, so a history is a list of operations.  What the manager does not decide is in an environment: which
    transports are connected, what discovery returns, how connecting and introspection end, and what the endpoint
    factories return.

    A destination is represented by its [hash_code] (the process number for Unix sockets), a transport by a number.
    Transports are numbered in the order they are made: all transports the manager holds are alive, so their
    addresses, which the code uses as keys of [transport_endpoints_], differ.
    Simplifications: logging is left out; registering the new endpoint with the transport (line 110) is [Registry_model]; [factory_->discover()] does not throw; the value of [supported()] is
    the decoded list of names. *)
From Coq Require Import List Arith NArith Ascii Bool.
Import ListNotations.
From Verif Require Import Protocol_model OMap_model.

(** [EndpointIntrospect::supported], endpoint_introspect.cpp lines 58-75: the answer, nothing within 200 ms (then the
    empty list is returned, line 74), or an exception: the stored exception of the future (line 70, [get]) or one from
    decoding the answer (lines 70-71). *)
Inductive introspection := Answers (names : list bytes) | NoAnswer | Throws.

(** What a factory of endpoints does. *)
Inductive making := Makes (e : nat) | MakesNull | MakingThrows.

(** The result of [factory_->connect(destination)], line 86. For an actual transport: is it connected at line 87,
    how does introspection end, and what does the factory do for the [i]-th name reported. *)
Inductive attempt :=
  | NullTransport
  | ATransport (connected : bool) (intro : introspection) (mk : nat -> making).

Record manager := {
  mg_factories : list (bytes * nat);                   (* [endpoint_factories_]: name, factory *)
  mg_transports : list (nat * nat);                    (* [transports_]: hash code, transport *)
  mg_endpoints : list (nat * list (bytes * nat));      (* [transport_endpoints_] *)
  mg_next : nat;                                       (* the number of the next transport *)
}.

(** The outcome of a call: the state afterwards, an exception leaving the call with the state it leaves behind, or
    undefined behaviour. *)
Inductive mres := MDone (s : manager) | MThrown (s : manager) | MUB.

Definition tfind {V} := @mfind nat V Nat.ltb.
Definition tinsert {V} := @minsert nat V Nat.ltb.
Definition terase {V} := @merase nat V Nat.ltb.

(** The body of the loop at lines 99-121, for the names from the [i]-th on; the endpoints made so far in [eps]. The
    second component tells whether an exception leaves the loop. *)
Fixpoint make_all (factories : list (bytes * nat)) (mk : nat -> making) (i : nat) (names : list bytes) (eps : list (bytes * nat))
  : list (bytes * nat) * bool :=
  match names with
  | [] => (eps, false)
  | n :: names' =>
      match mfind str_ltb n factories with
      | Some _ =>                                                         (* line 102 *)
          match mk i with                                                 (* line 105 *)
          | Makes e => make_all factories mk (S i) names' (minsert str_ltb n e eps)    (* lines 108-110 *)
          | MakesNull => make_all factories mk (S i) names' eps           (* lines 112-115 *)
          | MakingThrows => (eps, true)
          end
      | None => make_all factories mk (S i) names' eps                    (* lines 117-120 *)
      end
  end.

(** [connect], lines 78-122. *)
Definition m_connect (h : nat) (a : attempt) (s : manager) : mres :=
  match tfind h (mg_transports s) with
  | Some _ => MDone s                                                     (* lines 80-83 *)
  | None =>
      match a with
      | NullTransport => MUB                                              (* line 87: call through null *)
      | ATransport connected intro mk =>
          if negb connected then MDone s                                  (* lines 87-91 *)
          else
            let t := mg_next s in
            let s1 eps := {| mg_factories := mg_factories s; mg_transports := tinsert h t (mg_transports s);
                             mg_endpoints := tinsert t eps (mg_endpoints s); mg_next := S t |} in    (* lines 92-93 *)
            match intro with                                              (* line 98 *)
            | Throws => MThrown (s1 [])
            | NoAnswer => MDone (s1 [])
            | Answers names =>
                let '(eps, thrown) := make_all (mg_factories s) mk 0 names [] in
                if thrown then MThrown (s1 eps) else MDone (s1 eps)
            end
      end
  end.

(** Lines 70-75: the destinations that were discovered, each with what happens if a connection is attempted. *)
Fixpoint connect_all (ds : list (nat * attempt)) (s : manager) : mres :=
  match ds with
  | [] => MDone s
  | (h, a) :: ds' => match m_connect h a s with MDone s' => connect_all ds' s' | r => r end
  end.

(** Lines 56-68: [snapshot] is the copy [current_transports], [alive] what [isConnected()] returns. [erase] of the end
    iterator (line 65-66, when no entry is found) is undefined. *)
Fixpoint clean (alive : nat -> bool) (snapshot : list (nat * nat)) (s : manager) : mres :=
  match snapshot with
  | [] => MDone s
  | (h, t) :: rest =>
      if alive t then clean alive rest s
      else match tfind t (mg_endpoints s) with
           | None => MUB
           | Some _ => clean alive rest {| mg_factories := mg_factories s; mg_transports := terase h (mg_transports s);
                                           mg_endpoints := terase t (mg_endpoints s); mg_next := mg_next s |}
           end
  end.

(** [manage], lines 53-76. *)
Definition manage (alive : nat -> bool) (ds : list (nat * attempt)) (s : manager) : mres :=
  match clean alive (mg_transports s) s with
  | MDone s' => connect_all ds s'
  | r => r
  end.

(** [addEndpointFactory], lines 155-159. *)
Definition add_factory (n : bytes) (f : nat) (s : manager) : manager :=
  {| mg_factories := minsert str_ltb n f (mg_factories s); mg_transports := mg_transports s; mg_endpoints := mg_endpoints s; mg_next := mg_next s |}.

(** The constructor, lines 40-46: the factory of introspection endpoints is number 0. *)
Definition manager0 (introspect_name : bytes) : manager :=
  {| mg_factories := [(introspect_name, 0)]; mg_transports := []; mg_endpoints := []; mg_next := 0 |}.

(** A history of operations; a caller of [manage] that catches the exception goes on with the state it left. *)
Inductive mop := OManage (alive : nat -> bool) (ds : list (nat * attempt)) | OFactory (n : bytes) (f : nat) | OConnect (h : nat) (a : attempt).

Definition mstep (o : mop) (s : manager) : mres :=
  match o with
  | OManage alive ds => manage alive ds s
  | OFactory n f => MDone (add_factory n f s)
  | OConnect h a => m_connect h a s
  end.

Fixpoint mrun (os : list mop) (s : manager) : option manager :=
  match os with
  | [] => Some s
  | o :: os' => match mstep o s with MDone s' | MThrown s' => mrun os' s' | MUB => None end
  end.

(** ** Polling *)
(** The polling thread, lines 140-147, with [startPolling] 124-130, [stopPolling] 132-139 and the destructor 48-51.
    [pl_joinable]: [thread_] refers to a thread that has not been joined. *)
Record polling := { pl_on : bool; pl_joinable : bool }.
Inductive pres := PDone (p : polling) | PTerminate.

Definition stop_polling (p : polling) : pres :=
  if pl_on p then if pl_joinable p then PDone {| pl_on := false; pl_joinable := false |}
                  else PTerminate                       (* [join] of a thread that is not joinable throws *)
  else PDone p.

Definition start_polling (p : polling) : pres :=
  match stop_polling p with
  | PDone p' => if pl_joinable p' then PTerminate       (* assignment to a joinable thread *)
                else PDone {| pl_on := true; pl_joinable := true |}
  | r => r
  end.

(** The destructor: [stopPolling], then the destruction of [thread_]. *)
Definition destroy_polling (p : polling) : pres :=
  match stop_polling p with
  | PDone p' => if pl_joinable p' then PTerminate else PDone p'
  | r => r
  end.

Definition polling0 : polling := {| pl_on := false; pl_joinable := false |}.

Fixpoint poll_calls (starts : list bool) (p : polling) : pres :=
  match starts with
  | [] => PDone p
  | b :: bs => match (if b then start_polling p else stop_polling p) with PDone p' => poll_calls bs p' | r => r end
  end.

(** The polling thread runs [manage] again and again: an exception ends the process. *)
Inductive wres := WState (s : manager) | WTerminate | WUB.
Fixpoint poll (cycles : list ((nat -> bool) * list (nat * attempt))) (s : manager) : wres :=
  match cycles with
  | [] => WState s
  | (alive, ds) :: cs => match manage alive ds s with MDone s' => poll cs s' | MThrown _ => WTerminate | MUB => WUB end
  end.
