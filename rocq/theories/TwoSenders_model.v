(** Two sending endpoints in one process (one on each of two transports), both emptying the same thread's buffer:
    [EndpointNativeTraceSender::work] (endpoint_native_trace_sender.cpp lines 91-103) calling
    [SPSCRingBuffer::pop_into] (spsc_ringbuffer.h lines 128-141).

    The collector is a singleton ([TracePointCollectorNative::getInstance]), so every sender sees the same buffers.  The
    queue is given by all events ever pushed ([q_pushed]) and the number taken ([q_read], which stands for [read_index_]
    without wrap-around; the container is large enough).  A sender loads both indices (lines 130-131), moves the elements
    (134-137) and stores [read_index_] (139).  The events are of scopes and marks, which carry no dynamic data: a moved-from
    element keeps its time, id and type.
    Simplification: memory is sequentially consistent, and the copying is one step; that the copying by two threads is a
    data race in C++ is not what is shown here, only what happens when every access takes effect at once. *)
From Coq Require Import List Arith Bool.
Import ListNotations.

Inductive twpc := WIdle | WLoaded (r w : nat) | WCopied (r' : nat) (out : list nat).

Record twstate := { q_pushed : list nat; q_read : nat; w_a : twpc; w_b : twpc; w_log : list (bool * list nat) }   (* [w_log]: broadcasts in order, [true] for the first sender *).

Definition tw0 : twstate := {| q_pushed := []; q_read := 0; w_a := WIdle; w_b := WIdle; w_log := [] |}.

Definition slice (r w : nat) (l : list nat) : list nat := firstn (w - r) (skipn r l).

(** The next step of a sender: new program counter, new [read_index_], broadcast made. *)
Definition wstep (s : twstate) (p : twpc) : twpc * nat * list nat :=
  match p with
  | WIdle => (WLoaded (q_read s) (length (q_pushed s)), q_read s, [])
  | WLoaded r w => (WCopied w (slice r w (q_pushed s)), q_read s, [])
  | WCopied r' out => (WIdle, r', out)
  end.

Definition sent (who : bool) (o : list nat) : list (bool * list nat) := match o with [] => [] | _ => [(who, o)] end.

Inductive twlabel := WPush (x : nat) | WA | WB.

Definition twstep (s : twstate) (l : twlabel) : twstate :=
  match l with
  | WPush x => {| q_pushed := q_pushed s ++ [x]; q_read := q_read s; w_a := w_a s; w_b := w_b s; w_log := w_log s |}
  | WA => let '(p, r, o) := wstep s (w_a s) in {| q_pushed := q_pushed s; q_read := r; w_a := p; w_b := w_b s; w_log := w_log s ++ sent true o |}
  | WB => let '(p, r, o) := wstep s (w_b s) in {| q_pushed := q_pushed s; q_read := r; w_a := w_a s; w_b := p; w_log := w_log s ++ sent false o |}
  end.

Definition twrun (ls : list twlabel) (s : twstate) : twstate := fold_left twstep ls s.
