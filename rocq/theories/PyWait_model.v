(** Waiting for an answer from Python (C99).

    Modelled: [PendingResponse.wait_for], scalopus_python/lib/scalopus_interface.cpp 123-135 (the only thing Python can do with what
    [Transport.request] returns, 178-187): [wait_for] of the [std::future] the transport has made (scalopus_interface/include/scalopus_interface/transport.h 48)
    for so many seconds, then [get] if it is ready, None otherwise. Any number of threads of Python may call it, the interpreter lock is released meanwhile (129).
    The rules of the standard library: [get] takes the answer out of the future, which has no state after that; [wait_for] and [get] of a future
    without state are undefined, and so is waiting for a state that is taken away meanwhile; the time limit is added to the clock, a signed number of 64 bits.

    Simplifications: times are whole nanoseconds; the conversion of the answer is in PyText_model and Wire_model, the interpreter lock in PyGil_model. *)
From Coq Require Import List ZArith Bool.
Import ListNotations.
Open Scope Z_scope.

(** The shared state: the transport sets an answer, or destroys the promise with the answer missing (transport_unix.cpp 146-161, 274-282, 366-379; transport_loopback.cpp 88-116). *)
Inductive content := Waiting | Answer (d : nat) | Lost.
(** The argument: seconds, as nanoseconds; or the infinite one. *)
Inductive limit := For (ns : Z) | Inf.
Inductive result := RNone | RData (d : nat) | RError.

Inductive phase :=
| Out
| In (called : Z) (l : Z)          (* in [std::future::wait_for], line 130 *)
| Got (called : Z) (l : Z).        (* it has seen that the answer is there; [get] comes next, line 132 *)
Record entry := { en_thread : nat; en_called : Z; en_limit : Z; en_returned : Z; en_result : result }.
Record state := { now : Z; value : content; arrived : Z;          (* when it was set *)
                  taken : bool; th : nat -> phase; log : list entry }.
Definition start (t0 : Z) : state := {| now := t0; value := Waiting; arrived := t0; taken := false; th := fun _ => Out; log := [] |}.
(** [Bad]: undefined. [No]: not possible now. *)
Inductive outcome := Next (s : state) | Bad | No.

Definition set (f : nat -> phase) (t : nat) (p : phase) : nat -> phase := fun u => if Nat.eqb u t then p else f u.
Definition in_range (z : Z) : bool := (- 2 ^ 63 <=? z) && (z <? 2 ^ 63).

Inductive label :=
| Pass (d : Z)               (* time passes *)
| Reply (d : nat) | Break    (* the transport sets the answer; or never will *)
| Call (t : nat) (l : limit)
| TimeOut (t : nat) | Ready (t : nat) | Get (t : nat).

Definition step (a : label) (s : state) : outcome :=
  match a with
  | Pass d => if 0 <? d then Next {| now := now s + d; value := value s; arrived := arrived s; taken := taken s; th := th s; log := log s |} else No
  | Reply d => match value s with
               | Waiting => Next {| now := now s; value := Answer d; arrived := now s; taken := taken s; th := th s; log := log s |}
               | _ => No
               end
  | Break => match value s with
             | Waiting => Next {| now := now s; value := Lost; arrived := now s; taken := taken s; th := th s; log := log s |}
             | _ => No
             end
  | Call t l =>
      match th s t with
      | Out => if taken s then Bad
               else match l with
                    | Inf => Bad
                    | For ns => if in_range (now s + ns)
                                then Next {| now := now s; value := value s; arrived := arrived s; taken := taken s; th := set (th s) t (In (now s) ns); log := log s |}
                                else Bad
                    end
      | _ => No
      end
  | TimeOut t =>
      match th s t with
      | In c ns => if taken s then Bad
                   else match value s with
                        | Waiting => if c + ns <=? now s
                                     then Next {| now := now s; value := value s; arrived := arrived s; taken := taken s; th := set (th s) t Out;
                                                  log := log s ++ [{| en_thread := t; en_called := c; en_limit := ns; en_returned := now s; en_result := RNone |}] |}
                                     else No
                        | _ => No
                        end
      | _ => No
      end
  | Ready t =>
      match th s t with
      | In c ns => if taken s then Bad
                   else match value s with
                        | Waiting => No
                        | _ => Next {| now := now s; value := value s; arrived := arrived s; taken := taken s; th := set (th s) t (Got c ns); log := log s |}
                        end
      | _ => No
      end
  | Get t =>
      match th s t with
      | Got c ns => if taken s then Bad
                    else Next {| now := now s; value := value s; arrived := arrived s; taken := true; th := set (th s) t Out;
                                 log := log s ++ [{| en_thread := t; en_called := c; en_limit := ns; en_returned := now s;
                                                     en_result := match value s with Answer d => RData d | _ => RError end |}] |}
      | _ => No
      end
  end.
Fixpoint run (h : list label) (s : state) : outcome :=
  match h with [] => Next s | a :: r => match step a s with Next s' => run r s' | o => o end end.
