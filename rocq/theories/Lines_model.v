(** How lines come out of babeltrace: scalopus_tracing/src/lttng/babeltrace_parser.cpp lines 54-131. The loop waits with [select] until the pipe
    can be read, and then calls [fgets] once, which reads through the buffer of the C library. Not modelled: [halt], the exceptional
    condition of the descriptor (a pipe has none), errors of [read]. *)
From Coq Require Import List Arith NArith Ascii Bool.
Import ListNotations.
From Verif Require Import Str_model.

Definition nl : ascii := ascii_of_N 10.
(** [q_pipe]: written and not read yet. [q_closed]: the other end is closed. [q_buf]: the library's buffer. [q_part]: within [fgets], what
    it has got so far. [q_stop]: [processing_] is false. *)
Record stream := { q_pipe : str; q_closed : bool; q_buf : str; q_part : option str; q_stop : bool }.
Definition stream0 : stream := {| q_pipe := []; q_closed := false; q_buf := []; q_part := None; q_stop := false |}.
(** What the library reads at once, and line 66: [fgets] gives at most one character less than the array has. *)
Definition block : nat := 4096.
Definition room : nat := 1023.

(** [fgets]: [n] characters may still come. *)
Inductive got := GLine (piece : str) (buf pipe : str) | GWait (part : str) | GEnd (piece : str).
Fixpoint fgets (n : nat) (part buf pipe : str) (closed : bool) : got :=
  match n with
  | 0 => GLine part buf pipe
  | S n =>
      match buf with
      | c :: buf => if Ascii.eqb c nl then GLine (part ++ [c]) buf pipe else fgets n (part ++ [c]) buf pipe closed
      | [] => match firstn block pipe with
              | c :: buf => if Ascii.eqb c nl then GLine (part ++ [c]) buf (skipn block pipe) else fgets n (part ++ [c]) buf (skipn block pipe) closed
              | [] => if closed then GEnd part else GWait part
              end
      end
  end.
(** [Print]: babeltrace writes. [Close]: it ends. [Work]: the loop goes on as far as it can, at most to the end of one [fgets]. *)
Inductive qlabel := Print (bs : str) | Close | Work.
Definition handle (piece : str) : list str := match c_str piece with [] => [] | line => [line] end.      (* 88-93 *)
Definition qstep (x : qlabel) (q : stream) : stream * list str :=
  match x with
  | Print bs => if q_closed q then (q, []) else ({| q_pipe := q_pipe q ++ bs; q_closed := false; q_buf := q_buf q; q_part := q_part q; q_stop := q_stop q |}, [])
  | Close => ({| q_pipe := q_pipe q; q_closed := true; q_buf := q_buf q; q_part := q_part q; q_stop := q_stop q |}, [])
  | Work =>
      if q_stop q then (q, [])
      else
        let ready := match q_part q with Some _ => true | None => match q_pipe q with [] => q_closed q | _ => true end end in      (* 80, 85 *)
        if ready then
          let part := match q_part q with Some p => p | None => [] end in
          match fgets (room - length part) part (q_buf q) (q_pipe q) (q_closed q) with
          | GLine piece buf pipe => ({| q_pipe := pipe; q_closed := q_closed q; q_buf := buf; q_part := None; q_stop := false |}, handle piece)
          | GWait part' => ({| q_pipe := []; q_closed := q_closed q; q_buf := []; q_part := Some part'; q_stop := false |}, [])
          | GEnd piece => ({| q_pipe := []; q_closed := q_closed q; q_buf := []; q_part := None; q_stop := true |}, handle piece)   (* 119-123 *)
          end
        else (q, [])
  end.
Fixpoint qrun (xs : list qlabel) (q : stream) : stream * list str :=
  match xs with
  | [] => (q, [])
  | x :: xs' => let (q', o) := qstep x q in let (q'', os) := qrun xs' q' in (q'', o ++ os)
  end.
