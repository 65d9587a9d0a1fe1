(** What a record says of the blocks of a thread when tracing is switched on and off while they are open.

    The program is the one of [Config_model.v]: its tracepoints ask, each time, whether tracing is on for the process and for
    the thread ([native_tracepoint.cpp] lines 62-92), and [TraceRAII] ([scope_trace_raii.cpp] lines 35-43) runs into one
    tracepoint when a block begins and into another when it ends, without remembering whether the first was recorded. *)
From Coq Require Import List Arith NArith ZArith Bool.
Import ListNotations.
From Verif Require Import UnixSystem_model TraceEvent_model Config_model Config_spec.

(** The tracepoints of a program are numbered as they are run into, from [k].  The blocks of the program as pairs of numbers
    (begin, end), the number after the last, and whether it ends with an exception. *)
Fixpoint blocks_from (k : nat) (p : sprog) : list (nat * nat) * nat * bool :=
  match p with
  | SSkip => ([], k, false)
  | SPoint _ _ => ([], S k, false)
  | SSeq p q => let '(l, k1, x) := blocks_from k p in
                if x then (l, k1, true) else let '(l', k2, x') := blocks_from k1 q in (l ++ l', k2, x')
  | SScope _ _ _ p => let '(l, k1, x) := blocks_from (S k) p in ((k, k1) :: l, S k1, x)
  | SConfig _ _ p => blocks_from k p
  | SThrow => ([], k, true)
  | STry p q => let '(l, k1, x) := blocks_from k p in
                if x then let '(l', k2, x') := blocks_from k1 q in (l ++ l', k2, x') else (l, k1, false)
  end.
Definition blocks (p : sprog) : list (nat * nat) := fst (fst (blocks_from 0 p)).

(** The event of each of these tracepoints. *)
Definition points (ls : list cfg_label) : list tev :=
  flat_map (fun l => match l with GTrace _ t time _ => [event_of t time] | _ => [] end) ls.
Definition events_of (p : sprog) : list tev := points (fst (calls_of 0 p)).

(** [m] tells of each tracepoint whether it is recorded. *)
Fixpoint recorded (k : nat) (m : list bool) (l : list tev) : list (nat * tev) :=
  match m, l with
  | b :: m', e :: l' => if b then (k, e) :: recorded (S k) m' l' else recorded (S k) m' l'
  | _, _ => []
  end.
Definition in_record (m : list bool) (j : nat) : Prop := nth j m false = true.

(** How a reader of the record pairs begins and ends: an end closes the last begin that is still open; an end is ignored if none
    is.  (That is what the format of the trace viewer says of [B] and [E].) [st] are the open ones. *)
Fixpoint shown (st : list nat) (l : list (nat * tev)) : list (nat * nat) :=
  match l with
  | [] => []
  | (k, e) :: l' =>
      if N.eqb (te_type e) SCOPE_ENTRY then shown (k :: st) l'
      else if N.eqb (te_type e) SCOPE_EXIT then match st with [] => shown [] l' | b :: st' => (b, k) :: shown st' l' end
      else shown st l'
  end.

(** Exactly one of the two tracepoints of the block is in the record. *)
Definition halved (m : list bool) (b : nat * nat) : Prop := nth (fst b) m false <> nth (snd b) m false.

(** The events between tracepoints [x] and [y] of the record even out: no end without a begin, no begin without an end, whichever
    block they belong to. *)
Fixpoint depth (d : nat) (l : list (nat * tev)) : option nat :=
  match l with
  | [] => Some d
  | (_, e) :: l' =>
      if N.eqb (te_type e) SCOPE_ENTRY then depth (S d) l'
      else if N.eqb (te_type e) SCOPE_EXIT then match d with 0 => None | S d' => depth d' l' end
      else depth d l'
  end.
Definition between (x y : nat) (l : list (nat * tev)) : list (nat * tev) := filter (fun q => (x <? fst q) && (fst q <? y)) l.
Definition evens_out (x y : nat) (l : list (nat * tev)) : Prop := depth 0 (between x y l) = Some 0.

(** Tracing was on during one stretch: off, then on, then off. *)
Definition one_stretch (m : list bool) : Prop := exists a b c, m = repeat false a ++ repeat true b ++ repeat false c.

(** Whether tracing is on for the process and for thread [i]. *)
Definition tracing (s : cfg) (i : nat) : bool :=
  g_process s && match nth_error (g_threads s) i with Some t => thread_state s t | None => false end.

(** Of each tracepoint thread [i] runs into: was tracing on at that moment, and was there room in the buffer? *)
Fixpoint marks (i : nat) (ls : list cfg_label) (s : cfg) : list bool :=
  match ls with
  | [] => []
  | l :: ls' =>
      match gstep l s with
      | Some s' => (match l with GTrace j _ _ room => if j =? i then [tracing s i && room] else [] | _ => [] end) ++ marks i ls' s'
      | None => []
      end
  end.

(** The call, leaving aside whether the buffer has room. *)
Definition call (l : cfg_label) : cfg_label := match l with GTrace i t time _ => GTrace i t time true | _ => l end.

(** Thread [i] runs program [p] in the history [ls], whatever anyone else does. *)
Definition runs_program (i : nat) (p : sprog) (ls : list cfg_label) : Prop := map call (steps_of i ls) = fst (calls_of i p).
