(** What C105 says: there is one order in which everything happened. *)
From Coq Require Import List Arith NArith Bool.
Import ListNotations.
From Verif Require Import Protocol_model UnixSystem_model UnixSystem_spec Linear_model.

Section Spec.
Context {St Op : Type}.
Variable handle : bytes -> bytes -> St -> St * result.
Variable own : Op -> St -> St.

(** Something done to the state of the server: a call for a message of client [c], or an operation of its own. *)
Inductive entry := Call (c : nat) (m : msg) (r : result) | Did (o : Op).
(** One after the other, with these results. *)
Inductive legal : St -> list entry -> St -> Prop :=
  | le_nil st : legal st [] st
  | le_call st st1 st2 c m r l : handle (ep_name m) (payload m) st = (st1, r) -> legal st1 l st2 -> legal st (Call c m r :: l) st2
  | le_did st st2 o l : legal (own o st) l st2 -> legal st (Did o :: l) st2.

(** The calls for request id [i] of client [c]; the operations of the process itself. *)
Definition calls_of (c : nat) (i : N) (l : list entry) : list (msg * result) :=
  flat_map (fun e => match e with Call c' m r => if (c' =? c) && (req_id m =? i)%N then [(m, r)] else [] | Did _ => [] end) l.
Definition dids (l : list entry) : list Op := flat_map (fun e => match e with Did o => [o] | _ => [] end) l.
Definition own_ops (ls : list (llabel Op)) : list Op := flat_map (fun l => match l with Own o => [o] | _ => [] end) ls.

(** Client [c] uses this library, its endpoints do not answer unsolicited messages, and the server is not killed while it answers it (see C04). *)
Definition fair (c : nat) (l : llabel Op) : Prop :=
  match l with
  | Net a => fair_to c a
  | Die c' _ => c' <> c
  | _ => True
  end.
Definition out (q : req) : Prop := r_stage q = Sent \/ r_stage q = Booked.
Definition never_made (s : lsys St) (c r : nat) : Prop := length (c_reqs (s_cl (l_net s) c)) <= r.
Definition before (l : list entry) (a b : entry) : Prop := exists x y, l = x ++ y /\ In a x /\ In b y.

(** [order] is an order for what happened in [ls], from [st] to [s]. *)
Record linear (st : St) (ls : list (llabel Op)) (s : lsys St) (order : list entry) : Prop := {
  (* it is a sequence of calls and operations, one after the other; *)
  ln_legal : legal st order (l_state s);
  ln_own : dids order = own_ops ls;
  (* each call is for a request that was made; *)
  ln_made : forall c m r, Forall (fair c) ls -> In (Call c m r) order -> req_id m <> 0%N -> exists k q, request_of (l_net s) c k q /\ out q /\ msg_of q = m;
  (* no request is in it twice, *)
  ln_once : forall c k q, Forall (fair c) ls -> request_of (l_net s) c k q -> calls_of c (r_id q) order = [] \/ exists r, calls_of c (r_id q) order = [(msg_of q, r)];
  (* and a value is the answer of that call; *)
  ln_value : forall c k q d, Forall (fair c) ls -> request_of (l_net s) c k q -> r_val q = Value d -> calls_of c (r_id q) order = [(msg_of q, Answer d)];
  (* at any moment: what is done by then comes first, what begins later comes later; *)
  ln_time : forall ls1 ls2 s1, ls = ls1 ++ ls2 -> lrun handle own ls1 (lsys0 st) = Some s1 -> exists o1 o2, order = o1 ++ o2 /\
    legal st o1 (l_state s1) /\ dids o1 = own_ops ls1 /\ dids o2 = own_ops ls2 /\
    (forall c k q d, Forall (fair c) ls -> request_of (l_net s1) c k q -> r_val q = Value d -> calls_of c (r_id q) o1 = [(msg_of q, Answer d)] /\ calls_of c (r_id q) o2 = []) /\
    (forall c k q, Forall (fair c) ls -> never_made s1 c k -> request_of (l_net s) c k q -> calls_of c (r_id q) o1 = []);
  (* and the requests of one client come in the order in which it sent them. *)
  ln_fifo : forall ls1 ls2 s1 c k1 q1 k2 q2 r1 r2, ls = ls1 ++ ls2 -> lrun handle own ls1 (lsys0 st) = Some s1 -> Forall (fair c) ls ->
    request_of (l_net s1) c k1 q1 -> out q1 -> never_made s1 c k2 -> request_of (l_net s) c k2 q2 ->
    In (Call c (msg_of q1) r1) order -> In (Call c (msg_of q2) r2) order -> before order (Call c (msg_of q1) r1) (Call c (msg_of q2) r2)
}.
End Spec.
Arguments entry : clear implicits.
