(** Vocabulary for C09, C49 and C50. *)
From Coq Require Import List Arith NArith Ascii Bool.
Import ListNotations.
From Verif Require Import Protocol_model UnixSystem_model UnixPass_model.

(** The messages sent to client [c]. *)
Definition sent_to (c : nat) (s : server) : list msg := map snd (filter (fun e => fst e =? c) (v_sent s)).

(** A peer that neither stops in the middle of a message nor stops reading. *)
Definition well_behaved (p : peer) : Prop := p_deaf p = false /\ forall r, p_in p <> Stalled :: r.

(** A client the server will drop: its next input is a failed receive. *)
Definition refused (p : peer) : bool := match p_in p with Failing :: _ => true | _ => false end.

(** The answer, if any, to the next message of a peer. *)
Definition reply (handle : msg -> option (option bytes)) (p : peer) : list msg :=
  match p_in p with
  | Message m :: _ => match handle m with
                      | Some (Some d) => [{| req_id := req_id m; ep_name := ep_name m; payload := d |}]
                      | _ => [] end
  | _ => []
  end.

(** The peer after its next message was taken. *)
Definition consumed (p : peer) : peer := {| p_in := tl (p_in p); p_deaf := p_deaf p |}.

(** The queued broadcasts as messages, in the order in which they are sent. *)
Definition casts (s : server) : list msg :=
  map (fun b => {| req_id := 0; ep_name := fst b; payload := snd b |}) (rev (v_queue s)).

(** Each connected client is represented once. *)
Definition distinct (s : server) : Prop := NoDup (map fst (v_conns s ++ v_backlog s)).

Definition can_accept (s : server) : Prop := v_backlog s = [] \/ v_free s <> 0.

(** [c] is still connected, and at most its next message was taken. *)
Definition stays_with (l : list (nat * peer)) (c : nat) (p : peer) : Prop :=
  exists p', In (c, p') l /\ (p' = p \/ p' = consumed p).
