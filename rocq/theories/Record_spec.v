(** What C79 says of the command [record]. *)
From Coq Require Import String List Arith NArith ZArith Ascii Bool Floats.SpecFloat.
Import ListNotations.
From Verif Require Import OMap_model Json_model Json_spec TraceEvent_model Names_model Native_model Ended_model.

Section Fits.
(** How Python writes floating point numbers and how the reader of the file reads them. *)
Context (fw : spec_float -> bytes) (fr : bytes -> option spec_float).

Definition word (n : N) : Prop := (n < 18446744073709551616)%N.
Definition int32 (z : Z) : Prop := (-2147483648 <= z <= 2147483647)%Z.
Definition int64 (z : Z) : Prop := (-9223372036854775808 <= z <= 9223372036854775807)%Z.

(** Data as the tracer sends it: numbers of the sizes they have there; the time stamp can be written and read back. *)
Definition event_fits (e : tev) : Prop :=
  float_ok fw fr (ts_of (te_time e)) /\ match te_value e with Some z => int64 z | None => True end.
Definition chunk_fits (c : chunk) : Prop :=
  match c with
  | CBad => True
  | CGood c => int32 (nc_pid c) /\ Forall (fun t => word (fst t) /\ Forall event_fits (snd t)) (nc_threads c)
  end.
(** All text is UTF-8, all numbers have the size of their C++ type. *)
Definition label_fits (l : label) : Prop :=
  match l with
  | New pid nm title ths => int32 pid /\ Forall (fun e => utf8 (snd e) = true) nm /\ utf8 title = true /\ Forall (fun t => word (fst t) /\ utf8 (snd t) = true) ths
  | Deliver _ c => chunk_fits c
  | Ask _ (Some junk) => int32 junk
  | _ => True
  end.
End Fits.

(** ** What a viewer reads off the list, by the Trace Event Format. *)
Definition member {F} (k : string) (j : json F) : option (json F) :=
  match j with
  | JObj m => option_map snd (find (fun kv => if list_eq_dec ascii_dec (fst kv) (list_ascii_of_string k) then true else false) m)
  | _ => None
  end.
Definition is_text {F} (o : option (json F)) (s : bytes) : Prop := o = Some (JStr s).
(** An event: its phase, time, process, thread and name; the scope of a mark; the series of a counter. *)
Definition event_shown (e : entry) (j : json spec_float) : Prop :=
  is_text (member "ph" j) [en_ph e] /\ is_text (member "name" j) (en_name e) /\ is_text (member "cat" j) (list_ascii_of_string "PERF") /\
  member "ts" j = Some (JFloat (en_ts e)) /\ member "pid" j = Some (JInt (en_pid e)) /\ member "tid" j = Some (JInt (Z.of_N (en_tid e))) /\
  member "s" j = option_map (fun s => JStr [s]) (en_s e) /\ member "args" j = option_map (fun a => JObj (map (fun kv => (fst kv, JInt (snd kv))) a)) (en_args e).
(** What is known of processes and threads: the kind, the process, the thread and the name. *)
Definition name_shown (kind : string) (pid tid : Z) (nm : bytes) (j : json spec_float) : Prop :=
  is_text (member "ph" j) ["M"%char] /\ is_text (member "name" j) (list_ascii_of_string kind) /\ member "pid" j = Some (JInt pid) /\ member "tid" j = Some (JInt tid) /\
  exists a, member "args" j = Some a /\ is_text (member "name" a) nm.
Definition about (im : imap) (kind : string) (pid tid : Z) (nm : bytes) : Prop :=
  exists title ths, In (pid, (title, ths)) im /\
    ((kind = "process_name"%string /\ tid = 0%Z /\ nm = title) \/ (kind = "thread_name"%string /\ exists t, In (t, nm) ths /\ tid = Z.of_N t)).
Definition names_shown (im : imap) (js : list (json spec_float)) : Prop :=
  (forall kind pid tid nm, about im kind pid tid nm -> exists j, In j js /\ name_shown kind pid tid nm j) /\
  (forall j, In j js -> exists kind pid tid nm, about im kind pid tid nm /\ name_shown kind pid tid nm j).
