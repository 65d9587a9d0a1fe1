(** From the tracepoint to the text of the file (C92), and what a reader of that text sees of the blocks of a thread (C93).

    Everything here is made of earlier parts: the machine of [EndToEnd_model.v] (tracepoints, buffers, senders, transports, encoding, sources), the
    entries as JSON values ([entry_json] in [Record_model.v], native_trace_source.cpp lines 110-160), the file as the recorder writes it
    ([collect_text] in [Session_model.v], catapult_recorder.cpp lines 106-144) and the reader of texts ([parse] in [Json_model.v]). *)
From Coq Require Import String List Arith NArith ZArith Ascii Bool Floats.SpecFloat.
Import ListNotations.
From Verif Require Import OMap_model Json_model Json_spec TraceEvent_model Names_model Native_model Native_spec Record_spec EndToEnd_model EndToEnd_spec.

(** The times can be written and read back as floating point numbers. *)
Definition times_written (fw : spec_float -> bytes) (fr : bytes -> option spec_float) (what : nat -> nat -> tev) : Prop :=
  forall p x, float_ok fw fr (ts_of (te_time (what p x))).
(** The names are UTF-8. *)
Definition names_utf8 (m : mapping) : Prop := forall pid l id name, In (pid, l) m -> In (id, name) l -> utf8 name = true.

(** The JSON value [j] shows event [o] (process, thread, content). *)
Definition read_as (pid : nat -> Z) (what : nat -> nat -> tev) (m : mapping) (s : esys) (o : origin) (j : json spec_float) : Prop :=
  exists e, shown pid what m s o e /\ event_shown e j.

(** ** A reader of the file *)
(** Which of the entries belong to thread [tid] of process [pid]; their phase. *)
Definition is_of (pid tid : Z) (j : json spec_float) : bool :=
  match member "pid" j, member "tid" j with
  | Some (JInt a), Some (JInt b) => (a =? pid)%Z && (b =? tid)%Z
  | _, _ => false
  end.
Definition phase_of (j : json spec_float) : ascii := match member "ph" j with Some (JStr [c]) => c | _ => " "%char end.

(** The pairs of a begin and an end of the thread: an end closes the last begin that is open. *)
Fixpoint pairs (pid tid : Z) (st : list (json spec_float)) (l : list (json spec_float)) : list (json spec_float * json spec_float) :=
  match l with
  | [] => []
  | j :: l' =>
      if is_of pid tid j then
        if (phase_of j =? "B")%char then pairs pid tid (j :: st) l'
        else if (phase_of j =? "E")%char then match st with [] => pairs pid tid [] l' | b :: st' => (b, j) :: pairs pid tid st' l' end
        else pairs pid tid st l'
      else pairs pid tid st l'
  end.

(** Entry [j] has the name and the time of event [e] of process [pid]. *)
Definition tells (m : mapping) (pid : Z) (e : tev) (j : json spec_float) : Prop :=
  is_text (member "name" j) (scope_name m pid (te_id e)) /\ member "ts" j = Some (JFloat (ts_of (te_time e))).

(** What other sources add: the names of processes and threads. *)
Definition only_names (l : list (json spec_float)) : Prop := Forall (fun j => phase_of j = "M"%char) l.

(** Thread [j] of process [p] can be told from all others by the numbers shown. *)
Definition distinct (pid : nat -> Z) (s : esys) (p j tid : nat) : Prop :=
  (forall q, pid q = pid p -> q = p) /\
  (exists t, nth_error (C.cs_threads (e_col s p)) j = Some t /\ C.th_tid t = tid) /\
  (forall k t, nth_error (C.cs_threads (e_col s p)) k = Some t -> C.th_tid t = tid -> k = j).
