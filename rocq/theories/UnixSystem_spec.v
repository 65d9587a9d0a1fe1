(** Vocabulary for C04-C09. *)
From Coq Require Import List Arith NArith Ascii Bool.
Import ListNotations.
From Verif Require Import Protocol_model UnixSystem_model.

(** A state reached from the initial one (a server, nobody connected) by a schedule all of whose steps satisfy [P]. *)
Definition reached (P : label -> Prop) (s : sys) : Prop :=
  exists ls, Forall P ls /\ run ls sys0 = Some s.

Definition any_step (l : label) : Prop := True.

(** Client [c] uses this library, its own endpoints do not answer unsolicited messages, and the server
    does not die while answering it.  Nothing is asked of other clients. *)
Definition fair_to (c : nat) (l : label) : Prop :=
  match l with
  | CliRaw c' _ => c' <> c
  | CliRecv c' (Some _) => c' <> c
  | SrvCrashSending c' _ _ => c' <> c
  | _ => True
  end.

(** The message a request stands for. *)
Definition msg_of (q : req) : msg := {| req_id := r_id q; ep_name := r_name q; payload := r_data q |}.

(** The calls of server endpoints on behalf of client [c] for request id [i]: request and answer. *)
Definition calls_for (c : nat) (i : N) (s : sys) : list (msg * option bytes) :=
  map (fun e => (snd (fst e), snd e))
      (filter (fun e => (fst (fst e) =? c) && (req_id (snd (fst e)) =? i)%N) (s_calls s)).

(** A request of client [c], by number. *)
Definition request_of (s : sys) (c r : nat) (q : req) : Prop := nth_error (c_reqs (s_cl s c)) r = Some q.

Definition pending_requests (s : sys) (c : nat) : nat := length (c_pending (s_cl s c)).

(** The dispatch numbers of the broadcasts among messages put on the wire for a client. *)
Definition bcasts (l : list item) : list nat :=
  flat_map (fun i => match i with Full _ (GBcast k) => [k] | _ => [] end) l.

(** The messages the client worker processed. *)
Definition processed_items (x : client) : list item := map (fun e => Full (fst (fst e)) (snd (fst e))) (c_log x).

(** A request that was sent and booked, is not answered, and whose future the caller still holds. *)
Definition waiting (q : req) : bool :=
  match r_stage q, r_val q with Booked, Unready => r_held q | _, _ => false end.

(** The answer [d] to request [q] is on its way to the client. *)
Definition answered (x : client) (q : req) (d : bytes) : Prop :=
  exists g, In (Full {| req_id := r_id q; ep_name := r_name q; payload := d |} g) (c_in x).

(** A message that came before the request was booked. *)
Definition missed (x : client) (q : req) : Prop :=
  exists m g o, In (m, g, o) (c_log x) /\ req_id m = r_id q /\ ep_name m = r_name q /\ (o = Unsolicited \/ o = Nobody).

(** A request keeps its content, a booked one stays booked, a value stays, a released future stays released. *)
Definition later (q q' : req) : Prop := msg_of q' = msg_of q /\ (r_stage q = Booked -> r_stage q' = Booked) /\
  (r_val q <> Unready -> r_val q' = r_val q) /\ (r_held q = false -> r_held q' = false).

(** A message with request id [i] is between client and server, in either direction. *)
Definition on_the_wire (x : client) (i : N) : Prop := exists m g, In (Full m g) (c_in x ++ c_out x) /\ req_id m = i.

(** The steps of and for the clients in [D]. *)
Definition about (D : nat -> bool) (l : label) : bool :=
  match l with
  | Connect c | Accept c | AddClientEp c _ | ReqTake c _ _ | ReqSend c _ _ | ReqBook c _ | Drop c _ | CliRecv c _ | CliCleanup c
  | CliCast c _ _ | CliRaw c _ | CliClose c | SrvRecv c _ | SrvLost c | SrvCrashSending c _ _ => D c
  | AddServerEp _ | MakeBcast _ _ | DispBcast | SrvCrash => false
  end.

(** Two states that agree on the server and on every client outside [D]. *)
Record alike (D : nat -> bool) (s t : sys) : Prop := {
  al_up : s_up t = s_up s; al_eps : s_eps t = s_eps s; al_queue : s_queue t = s_queue s; al_made : s_made t = s_made s;
  al_disp : s_disp t = s_disp s;
  al_conn : forall c, D c = false -> s_conn t c = s_conn s c;
  al_cl : forall c, D c = false -> s_cl t c = s_cl s c;
  al_calls : filter (fun e => negb (D (fst (fst e)))) (s_calls t) = filter (fun e => negb (D (fst (fst e)))) (s_calls s);
}.

(** Client [c] is a client of this library. *)
Definition uses_library (c : nat) (l : label) : Prop := match l with CliRaw c' _ => c' <> c | _ => True end.
