(** Reading a line printed by babeltrace, scalopus_tracing/src/lttng/ctfevent.cpp lines 34-222. *)
From Coq Require Import String List Arith NArith Ascii Bool.
Import ListNotations.
From Verif Require Import Str_model.
Local Notation length := List.length.

Definition txt (s : string) : str := list_ascii_of_string s.
(** The [std::map]s of fields, newest entry first. *)
Definition ids := list (str * N).
Fixpoint lookup (k : str) (m : ids) : option N :=
  match m with [] => None | (k', v) :: m' => if list_eq_dec ascii_dec k k' then Some v else lookup k m' end.

(** [std::stod]: the number at the start of a text as [strtod] reads it; what the numbers are is left open. *)
Inductive real_result {V} := DValue (v : V) | DInvalid | DOutOfRange.
Arguments real_result : clear implicits.

(** How the constructor ends: [Threw]: the [std::out_of_range] of a number too large. [Broken]: that of [substr]. *)
Inductive outcome {A} := Done (a : A) | Threw | Broken.
Arguments outcome : clear implicits.
Definition obind {A B} (x : outcome A) (f : A -> outcome B) : outcome B := match x with Done a => f a | Threw => Threw | Broken => Broken end.
Definition sub {A} (s : str) (p : nat) (count : pos) (f : str -> outcome A) : outcome A := match substr s p count with Some t => f t | None => Broken end.

(** [processContext], lines 128-171. The statement [res[key] = std::stoull(value)] may evaluate [res[key]] first, up to C++14, and then a
    text that is no number leaves the key with zero: [early]. [fuel] bounds the number of rounds; it is shown that
    [process_context] gives enough. *)
Fixpoint process (early : bool) (fuel : nat) (csv : str) (start last : nat) (res : ids) : outcome ids :=
  match fuel with
  | 0 => Broken
  | S fuel =>
      if last =? length csv then Done res                                        (* 133 *)
      else
        let potential := find_from (txt ", ") csv start in                     (* 135-148 *)
        let last := match potential with None => length csv | Some p => p end in
        let shift := match potential with None => 0 | Some _ => 2 end in
        sub csv start (minus last start) (fun kvpair =>                         (* 149 *)
        let start := last + shift in
        if length kvpair <=? 4 then Done res                                    (* 152-155 *)
        else
          let split := find_from (txt " = ") kvpair 0 in
          sub kvpair 0 split (fun key =>                                        (* 159 *)
          sub kvpair (plus split 3) None (fun value =>                          (* 160 *)
          match stoull value with
          | NValue v => process early fuel csv start last ((key, v) :: res)
          | NInvalid => process early fuel csv start last (if early then match lookup key res with None => (key, 0%N) :: res | Some _ => res end else res)
          | NOutOfRange => Threw                                                (* only [invalid_argument] is caught, line 166 *)
          end)))
  end.
Definition process_context (early : bool) (csv : str) : outcome ids := process early (S (length csv)) csv 0 0 [].

(** The object. The time is not initialised until line 60. *)
Record event {V} := { c_line : str; c_time : option V; c_host : str; c_domain : str; c_name : str; c_stream : ids; c_context : ids; c_data : ids }.
Arguments event : clear implicits.

Section Parse.
Context {V : Type} (strtod : str -> real_result V) (early : bool).
Definition event0 (line : str) : event V :=
  {| c_line := line; c_time := None; c_host := []; c_domain := []; c_name := []; c_stream := []; c_context := []; c_data := [] |}.

(** The next text between curly braces at or after a position, and where it ends; lines 98-105, 108-115, 118-125. *)
Definition braces {A} (line : str) (from : nat) (stop : outcome A) (f : str -> nat -> outcome A) : outcome A :=
  let start := find_from (txt "{") line from in
  match start, find_from (txt "}") line (plus start 1) with
  | Some b, Some e => sub line (b + 2) (match minus e b with Some d => minus d 3 | None => None end) (fun t => f t e)
  | _, _ => stop
  end.
(** The next text between two spaces. [cut] is how much is cut off; lines 68-75, 78-86. *)
Definition word {A} (line : str) (from : nat) (cut : nat) (stop : outcome A) (f : str -> nat -> outcome A) : outcome A :=
  let start := find_from (txt " ") line from in
  match start, find_from (txt " ") line (plus start 1) with
  | Some b, Some e => sub line (b + 1) (match minus e b with Some d => minus d cut | None => None end) (fun t => f t e)
  | _, _ => stop
  end.
Definition parse (line : str) : outcome (event V) :=
  let e := event0 line in
  match line with
  | [] => Done e                                                                 (* 42-46 *)
  | _ =>
  match find_from (txt "[") line 0, find_from (txt "]") line 0 with          (* 51-56 *)
  | Some start, Some last =>
  sub line (start + 1) (match last with 0 => None | S n => Some n end) (fun timestamp =>
  match strtod timestamp with
  | DInvalid => Done e                                                           (* 62-65 *)
  | DOutOfRange => Threw
  | DValue t =>
  let e1 := {| c_line := line; c_time := Some t; c_host := []; c_domain := []; c_name := []; c_stream := []; c_context := []; c_data := [] |} in
  word line last 1 (Done e1) (fun host last =>
  let e2 := {| c_line := line; c_time := Some t; c_host := host; c_domain := []; c_name := []; c_stream := []; c_context := []; c_data := [] |} in
  word line last 2 (Done e2) (fun point last =>
  match find_from (txt ":") point 0 with
  | None => Done e2
  | Some split =>
  sub point 0 (Some split) (fun domain =>
  sub point (split + 1) (minus (length point) split) (fun name =>
  let e3 := {| c_line := line; c_time := Some t; c_host := host; c_domain := domain; c_name := name; c_stream := []; c_context := []; c_data := [] |} in
  braces line last (Done e3) (fun stream last =>
  braces line last (Done e3) (fun context last =>
  braces line last (Done e3) (fun data _ =>
  obind (process_context early stream) (fun stream =>
  obind (process_context early context) (fun context =>
  obind (process_context early data) (fun data =>
  Done {| c_line := line; c_time := Some t; c_host := host; c_domain := domain; c_name := name; c_stream := stream; c_context := context; c_data := data |}))))))))
  end))
  end)
  | _, _ => Done e
  end
  end.
(** [pid] and [tid], lines 184-192: [std::map::at]; [None]: an exception. *)
Definition pid (e : event V) : option N := lookup (txt "vpid") (c_context e).
Definition tid (e : event V) : option N := lookup (txt "pthread_id") (c_context e).
End Parse.
