(** A recorder, its sources and the files it writes (C114).
    /repo/scalopus_catapult/src/catapult_recorder.cpp lines 60-76 (intervals), 101-153 ([setupDumpFile], [collectEvents], [writeToFile], the destructor);
    /repo/scalopus_tracing/src/native/native_trace_source.cpp lines 46-59, 70-89 ([finishInterval] takes the data out of the source) and
    /repo/scalopus_tracing/src/lttng/lttng_source.cpp lines 45-69 (there it does not: only [startInterval] clears [events_]).

    The files: [std::ofstream] opens a file for writing, which empties it, or cannot and is then in a failed state in which [<<] does nothing; a write
    may be cut short (no space, a limit). No exception is thrown, as none is asked for with [exceptions], and nothing looks at the state of the stream.
    Simplified: the recorder is running from its start to its destruction (see C36 for all else); what a source records is one list of entries, made when the data comes in
    (the names of processes and threads are not among them, they are asked for again each time); the file is written at once, or the program dies in it. *)
From Coq Require Import List Arith Bool.
Import ListNotations.

Section Dump.
(** Entries, characters, and [collectEvents] from line 121 on; [None]: an exception (C64). *)
Context {E A : Type} (render : list E -> option (list A)).

(** [k_keeps]: a source for LTTng. *)
Record source := { k_keeps : bool; k_on : bool; k_data : list E }.
Definition begin (x : source) : source := {| k_keeps := k_keeps x; k_on := true; k_data := [] |}.
Definition halt (x : source) : source := {| k_keeps := k_keeps x; k_on := false; k_data := k_data x |}.
Definition arrive (e : E) (x : source) : source := {| k_keeps := k_keeps x; k_on := k_on x; k_data := if k_on x then k_data x ++ [e] else k_data x |}.
Definition finish (x : source) : source := {| k_keeps := k_keeps x; k_on := false; k_data := if k_keeps x then k_data x else [] |}.

(** What the caller sees. *)
Inductive seen := Text (t : list A) | Returned | Threw | Terminated | Destroyed | Died.
Record state := { sources : list source; dump : option nat; gone : bool; can : nat -> bool; files : nat -> option (list A); log : list seen }.
Definition state0 (kinds : list bool) : state :=
  {| sources := map (fun k => {| k_keeps := k; k_on := false; k_data := [] |}) kinds; dump := None; gone := false; can := fun _ => true; files := fun _ => None; log := [] |}.

Inductive label :=
  | Begin | Halt                       (* startInterval, stopInterval *)
  | Arrive (i : nat) (e : E)           (* something to record reaches source [i] *)
  | Setup (p : nat)                    (* setupDumpFile *)
  | Collect                            (* collectEvents *)
  | Write (p n : nat)                  (* writeToFile; the file takes [n] characters at most *)
  | Destroy (n : nat)                  (* the destructor; the same *)
  | Dies (p n : nat)                   (* the program ends in writeToFile, when [n] characters are in the file *)
  | Allow (p : nat) (b : bool).        (* from now on the file can, or cannot, be opened *)

Definition pending (s : state) : list E := flat_map k_data (sources s).
Definition put (i : nat) (x : source) (l : list source) : list source := firstn i l ++ x :: skipn (S i) l.
Definition set_file (p : nat) (t : list A) (f : nat -> option (list A)) : nat -> option (list A) := fun q => if Nat.eqb q p then Some t else f q.
Definition with_sources (l : list source) (s : state) : state := {| sources := l; dump := dump s; gone := gone s; can := can s; files := files s; log := log s |}.
Definition see (x : seen) (s : state) : state := {| sources := sources s; dump := dump s; gone := gone s; can := can s; files := files s; log := log s ++ [x] |}.
Definition end_it (x : seen) (s : state) : state := {| sources := []; dump := dump s; gone := true; can := can s; files := files s; log := log s ++ [x] |}.
(** Lines 106-137: all sources are stopped and finished before the text is made. *)
Definition taken (s : state) : state := with_sources (map finish (sources s)) s.
(** Lines 142-143. *)
Definition written (p n : nat) (t : list A) (s : state) : state :=
  {| sources := sources s; dump := dump s; gone := gone s; can := can s; files := if can s p then set_file p (firstn n t) (files s) else files s; log := log s |}.

Definition step (l : label) (s : state) : option state :=
  if gone s then None else
  match l with
  | Begin => Some (with_sources (map begin (sources s)) s)
  | Halt => Some (with_sources (map halt (sources s)) s)
  | Arrive i e => match nth_error (sources s) i with Some x => Some (with_sources (put i (arrive e x) (sources s)) s) | None => None end
  | Setup p => Some {| sources := sources s; dump := Some p; gone := gone s; can := can s; files := files s; log := log s |}
  | Collect => Some match render (pending s) with Some t => see (Text t) (taken s) | None => see Threw (taken s) end
  | Write p n => Some match render (pending s) with Some t => see Returned (written p n t (taken s)) | None => see Threw (taken s) end
  | Destroy n => Some match dump s with
                      | None => end_it Destroyed s
                      | Some p => match render (pending s) with Some t => end_it Destroyed (written p n t (taken s)) | None => end_it Terminated (taken s) end
                      end
  | Dies p n => Some match render (pending s) with Some t => end_it Died (written p n t (taken s)) | None => end_it Died (taken s) end
  | Allow p b => Some {| sources := sources s; dump := dump s; gone := gone s; can := fun q => if Nat.eqb q p then b else can s q; files := files s; log := log s |}
  end.
Fixpoint run (ls : list label) (s : state) : option state :=
  match ls with [] => Some s | l :: ls' => match step l s with Some s' => run ls' s' | None => None end end.
End Dump.
Arguments source : clear implicits.
Arguments label : clear implicits.
Arguments state : clear implicits.
Arguments seen : clear implicits.
