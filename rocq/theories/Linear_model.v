(** Endpoints with a state, served over the Unix socket transport (C105).

    Modelled: the server of [UnixSystem_model.v] with endpoints whose answers are computed: [processMsg], transport_unix.cpp lines 392-406, calls
    [Endpoint::handle] of the endpoint of that name, in the worker thread, for one message at a time (lines 318-338); [handle] may change the state of the
    process, and answers, does not ([false]), or throws, which nobody catches and which ends the process.  The state stands for all that the endpoints
    of the process use; other threads of it change it too ([Own]), one operation at a time (the endpoints of the library do so under a mutex or on atomics).
    Endpoints written in Python: scalopus_interface.cpp lines 86-101 and 42-66, on a server the Python program made (for others see C97).

    Simplifications: those of [UnixSystem_model.v]. *)
From Coq Require Import List Arith NArith Bool.
Import ListNotations.
From Verif Require Import Protocol_model UnixSystem_model.
From Verif Require PyJson_model.

(** What a call of [handle] does. *)
Inductive result := Answer (d : bytes) | NoAnswer | Throws.

Section Machine.
Context {St Op : Type}.
Variable handle : bytes -> bytes -> St -> St * result.      (* by the name of the endpoint and the payload *)
Variable own : Op -> St -> St.

Record lsys := { l_net : sys; l_state : St }.
Definition lsys0 (st : St) : lsys := {| l_net := sys0; l_state := st |}.
Inductive llabel :=
  | Net (l : label)                          (* any step but those of the server with a message *)
  | Serve (c : nat)                          (* the worker of the server receives what client [c] sent *)
  | Die (c j : nat)                          (* the same, and the process is killed after [j] bytes of the answer *)
  | Own (o : Op).
Definition serving (l : label) : bool := match l with SrvRecv _ _ | SrvCrashSending _ _ _ => true | _ => false end.

(** The message that is next, if it is for an endpoint of the server. *)
Definition next_call (c : nat) (s : sys) : option msg :=
  match s_up s, s_conn s c, c_out (s_cl s c) with
  | true, Accepted, Full m _ :: _ => if mem (ep_name m) (s_eps s) then Some m else None
  | _, _, _ => None
  end.
Definition on_net (o : option sys) (st : St) : option lsys := match o with Some n => Some {| l_net := n; l_state := st |} | None => None end.
Definition lstep (l : llabel) (s : lsys) : option lsys :=
  match l with
  | Net a => if serving a then None else on_net (step a (l_net s)) (l_state s)
  | Serve c =>
      match next_call c (l_net s) with
      | Some m =>
          let '(st, r) := handle (ep_name m) (payload m) (l_state s) in
          match r with
          | Answer d => on_net (step (SrvRecv c (Some d)) (l_net s)) st
          | NoAnswer => on_net (step (SrvRecv c None) (l_net s)) st
          | Throws => on_net (step SrvCrash (l_net s)) st
          end
      | None => on_net (step (SrvRecv c None) (l_net s)) (l_state s)
      end
  | Die c j =>
      match next_call c (l_net s) with
      | Some m => let '(st, r) := handle (ep_name m) (payload m) (l_state s) in
                  match r with Answer d => on_net (step (SrvCrashSending c d j) (l_net s)) st | _ => None end
      | None => None
      end
  | Own o => if s_up (l_net s) then Some {| l_net := l_net s; l_state := own o (l_state s) |} else None
  end.
Fixpoint lrun (ls : list llabel) (s : lsys) : option lsys :=
  match ls with
  | [] => Some s
  | l :: r => match lstep l s with Some s' => lrun r s' | None => None end
  end.
End Machine.
Arguments lsys : clear implicits.
Arguments llabel : clear implicits.

(** ** An endpoint written in Python *)
(** [PyEndpoint::handle], scalopus_interface.cpp lines 86-101: the payload is given to the method as bytes; what the method does: it raises ([None]) or
    returns a value, which is converted (lines 42-66). *)
Definition py_handle {F St} (method : bytes -> PyJson_model.py F -> St -> St * option (PyJson_model.py F)) (name data : bytes) (st : St) : St * result :=
  let '(st', v) := method name (PyJson_model.of_data data) st in
  (st', match v with
        | None => Throws
        | Some p => match PyJson_model.to_data p with PyJson_model.PData d => Answer d | PyJson_model.PNothing => NoAnswer | PyJson_model.PRaise => Throws end
        end).
