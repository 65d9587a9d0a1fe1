(** The session of one viewer, scalopus_catapult/src/trace_session.cpp, and the text the recorder writes,
    catapult_recorder.cpp lines 106-137. What the sources do is left open: the events each of them returns when it is finished are
    an argument. [finishInterval] is taken not to throw (see C28, C63 for when it does not return). *)
From Coq Require Import String List Arith NArith ZArith Ascii Bool.
Import ListNotations.
From Verif Require Import OMap_model Json_model.

Section Session.
(** The floating point numbers of the JSON library, and what it makes of the empty braces of line 112. *)
Context {F : Type} (fw : F -> bytes) (fr : bytes -> option F) (braces : json F).
Notation json := (json F).

(** What a session does to the outside: calls of [startInterval], [stopInterval], [finishInterval] of its sources, and texts given to
    the response function. *)
Inductive effect := EStart (i : nat) | EStop (i : nat) | EFinish (i : nat) | ESend (t : bytes).
(** Effects so far, and whether an exception or undefined behaviour ended it. *)
Inductive outcome := Done (es : list effect) | Throws (es : list effect) | Undefined.
Definition before (es : list effect) (o : outcome) : outcome :=
  match o with Done es' => Done (es ++ es') | Throws es' => Throws (es ++ es') | Undefined => Undefined end.
Definition andthen (a b : outcome) : outcome := match a with Done es => before es b | _ => a end.

Definition jtext (s : string) : json := JStr (text s).
Definition pair_of (k : string) (v : json) : bytes * json := (text k, v).

(** [msg[key]]: on null it becomes an object, a missing key is null; on anything else [type_error]. *)
Definition member (j : json) (key : string) : option json :=
  match j with
  | JNull => Some JNull
  | JObj m => match mfind str_ltb (text key) m with Some v => Some v | None => Some JNull end
  | _ => None
  end.
Fixpoint beq (a b : bytes) : bool :=
  match a, b with [], [] => true | x :: a', y :: b' => Ascii.eqb x y && beq a' b' | _, _ => false end.
Definition is_text (j : json) (s : string) : bool := match j with JStr t => beq t (text s) | _ => false end.

(** [outgoing], lines 164-168, of [res.dump()]. *)
Definition send (j : json) : outcome := match dump fw j with Some t => Done [ESend t] | None => Throws [] end.

(** [formatEvents], lines 170-186: the events joined. *)
Fixpoint join (sep : bytes) (ts : list bytes) : bytes :=
  match ts with [] => [] | [t] => t | t :: ts' => t ++ sep ++ join sep ts' end.
Fixpoint dump_all (es : list json) : option (list bytes) :=
  match es with
  | [] => Some []
  | e :: es' => match dump fw e, dump_all es' with Some t, Some ts => Some (t :: ts) | _, _ => None end
  end.
Definition newline : ascii := ch 10.
Definition q (s : string) : bytes := quote :: text s ++ [quote].
Definition format_head : bytes :=
  text "{ " ++ q "method" ++ text ": " ++ q "Tracing.dataCollected" ++ text ", " ++ q "params" ++ text ": { " ++ q "value" ++ text ": [" ++ [newline].
Definition format_tail : bytes := text "]}}".
Definition format_events (es : list json) : option bytes :=
  option_map (fun ts => format_head ++ join (","%char :: [newline]) ts ++ format_tail) (dump_all es).

(** [chunkedTransmit], lines 146-162, CHUNK_SIZE of trace_session.h line 51. A slice that starts behind the last event would be outside
    of the vector. *)
Definition chunk_size : nat := 1000.
Definition chunks_needed (n : nat) : nat := n / chunk_size + 1.
Definition slice (i : nat) (es : list json) : list json :=
  let start := i * chunk_size in firstn (Nat.min chunk_size (length es - start)) (skipn start es).
Fixpoint transmit (is : list nat) (es : list json) : outcome :=
  match is with
  | [] => Done []
  | i :: is' => if length es <? i * chunk_size then Undefined else
                match format_events (slice i es) with
                | Some t => before [ESend t] (transmit is' es)
                | None => Throws []
                end
  end.
Definition chunked_transmit (es : list json) : outcome := transmit (seq 0 (chunks_needed (length es))) es.

(** [processMessage], lines 94-144. [ev]: what each source returns when finished. *)
Definition on_sources (e : nat -> effect) (ev : list (list json)) : list effect := map e (seq 0 (length ev)).
Definition process (ev : list (list json)) (incoming : bytes) : outcome :=
  match parse fr incoming with
  | None => Throws []
  | Some msg =>
      match member msg "method" with
      | None => Throws []
      | Some method =>
          let id := match member msg "id" with Some v => v | None => JNull end in
          if is_text method "Tracing.getCategories" then
            send (JObj [pair_of "id" id;
                        pair_of "result" (JObj [pair_of "categories" (JArr [jtext "!foo"; jtext "!bar"; jtext "disabled-by-default-buz"])])])
          else if is_text method "Tracing.start" then
            before (on_sources EStart ev) (send (JObj [pair_of "id" id; pair_of "result" braces]))
          else if is_text method "Tracing.end" then
            before (on_sources EStop ev)
              (andthen (send (JObj [pair_of "id" id; pair_of "result" JNull]))
                 (before (on_sources EFinish ev)
                    (andthen (chunked_transmit (concat ev))
                       (send (JObj [pair_of "method" (jtext "Tracing.tracingComplete"); pair_of "params" (JArr [])])))))
          else Done []
      end
  end.

(** The queue between the server thread ([incoming], lines 52-56) and the worker ([loop], lines 72-92): a text arrives; the worker
    takes the first one ([popIncoming], lines 64-70) and handles it. An exception in the worker ends the process. *)
Record sess := { q_in : list bytes; q_log : list effect; q_dead : bool }.
Definition sess0 : sess := {| q_in := []; q_log := []; q_dead := false |}.
Inductive slabel := Arrive (t : bytes) | Handle (ev : list (list json)).
Definition sstep (l : slabel) (s : sess) : option sess :=
  if q_dead s then None else
  match l with
  | Arrive t => Some {| q_in := q_in s ++ [t]; q_log := q_log s; q_dead := false |}
  | Handle ev =>
      match q_in s with
      | [] => None
      | t :: rest => match process ev t with
                     | Done es => Some {| q_in := rest; q_log := q_log s ++ es; q_dead := false |}
                     | Throws es => Some {| q_in := rest; q_log := q_log s ++ es; q_dead := true |}
                     | Undefined => None
                     end
      end
  end.
Fixpoint srun (ls : list slabel) (s : sess) : option sess :=
  match ls with
  | [] => Some s
  | l :: ls' => match sstep l s with Some s' => srun ls' s' | None => None end
  end.

(** The recorder, catapult_recorder.cpp lines 122-136: what [collectEvents] makes of the events; [None]: an exception. *)
Definition collect_text (es : list json) : option bytes :=
  option_map (fun ts => "["%char :: newline :: join (","%char :: [newline]) ts ++ newline :: "]"%char :: [newline]) (dump_all es).
End Session.
