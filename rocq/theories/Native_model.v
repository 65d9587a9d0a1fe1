(** From received chunks to the entries of a recording: [NativeTraceSource::finishInterval],
    scalopus_tracing/src/native/native_trace_source.cpp lines 70-207.
    Not modelled: the CBOR form of a chunk. A chunk whose decoding throws ([cbor::error], or [std::out_of_range] from [at]) is
    [CBad]; any other chunk is given by its process number and its [ThreadedEvents] (a [std::map], so in ascending order of the
    thread numbers). Members of an entry that never vary ("cat" is "PERF") are left out. *)
From Coq Require Import String List Arith NArith ZArith Ascii Bool Floats.SpecFloat.
Import ListNotations.
From Verif Require Import OMap_model TraceEvent_model Names_model.

Record nchunk := { nc_pid : Z; nc_threads : list (N * list tev) }.
Inductive chunk := CBad | CGood (c : nchunk).

(** A json entry, lines 110-160: "ts", "tid", "pid", "name", "ph", "s" (marks only), "args" (counters only). *)
Record entry := { en_ts : spec_float; en_tid : N; en_pid : Z; en_name : list ascii; en_ph : ascii; en_s : option ascii;
                  en_args : option (list (list ascii * Z)) }.

(** Line 111: [static_cast<double>(ns) / 1e3], in IEEE double precision, rounding to nearest even. *)
Definition to_double (z : Z) : spec_float := binary_normalize 53 1024 z 0 false.
Definition ts_of (ns : N) : spec_float := SFdiv 53 1024 (to_double (Z.of_N ns)) (to_double 1000).

(** [ProcessCounter], lines 92-95. *)
Definition series_map := list (list ascii * Z).
Definition counter_map := list (list ascii * series_map).
Definition process_counter := list (Z * counter_map).
(** [m[pid]] and [m[pid][name]]; a missing element is made, empty. *)
Definition of_pid (pid : Z) (c : process_counter) : counter_map := match mfind Z.ltb pid c with Some x => x | None => [] end.
Definition of_name (pid : Z) (name : list ascii) (c : process_counter) : series_map :=
  match mfind str_ltb name (of_pid pid c) with Some x => x | None => [] end.
Definition set_name (pid : Z) (name : list ascii) (s : series_map) (c : process_counter) : process_counter :=
  minsert Z.ltb pid (minsert str_ltb name s (of_pid pid c)) c.

(** The body of the innermost loop, lines 104-163: undefined behaviour for a counter event without data (line 153 follows a null
    pointer), an exception for an unknown type (line 161), else the entry and the counters. *)
Inductive eres := EUB | EThrow | EOk (e : entry) (c : process_counter).
Definition conv_event (m : mapping) (pid : Z) (tid : N) (ev : tev) (cv : process_counter) : eres :=
  let label := scope_name m pid (te_id ev) in
  let mk (ph : ascii) (s : option ascii) := {| en_ts := ts_of (te_time ev); en_tid := tid; en_pid := pid; en_name := label; en_ph := ph; en_s := s; en_args := None |} in
  if (te_type ev =? SCOPE_ENTRY)%N then EOk (mk "B"%char None) cv
  else if (te_type ev =? SCOPE_EXIT)%N then EOk (mk "E"%char None) cv
  else if (te_type ev =? MARK_GLOBAL)%N then EOk (mk "i"%char (Some "g"%char)) cv
  else if (te_type ev =? MARK_PROCESS)%N then EOk (mk "i"%char (Some "p"%char)) cv
  else if (te_type ev =? MARK_THREAD)%N then EOk (mk "i"%char (Some "t"%char)) cv
  else if (te_type ev =? COUNTER)%N then
    let (counter, series) := split_series label in
    match te_value ev with
    | None => EUB
    | Some z =>
        let sm := minsert str_ltb series z (of_name pid counter cv) in
        EOk {| en_ts := ts_of (te_time ev); en_tid := tid; en_pid := pid; en_name := counter; en_ph := "C"%char; en_s := None; en_args := Some sm |}
            (set_name pid counter sm cv)
    end
  else EThrow.

(** The loops, lines 99-165: stopped by undefined behaviour, stopped by an exception with what was made so far, or done. *)
Inductive pass := PassUB | PassStop (res : list entry) | PassOn (res : list entry) (cv : process_counter).
Fixpoint conv_events (m : mapping) (pid : Z) (tid : N) (evs : list tev) (res : list entry) (cv : process_counter) : pass :=
  match evs with
  | [] => PassOn res cv
  | ev :: evs' => match conv_event m pid tid ev cv with
                  | EUB => PassUB
                  | EThrow => PassStop res
                  | EOk e cv' => conv_events m pid tid evs' (res ++ [e]) cv'
                  end
  end.
Fixpoint conv_threads (m : mapping) (pid : Z) (ths : list (N * list tev)) (res : list entry) (cv : process_counter) : pass :=
  match ths with
  | [] => PassOn res cv
  | (tid, evs) :: ths' => match conv_events m pid tid evs res cv with
                          | PassOn res' cv' => conv_threads m pid ths' res' cv'
                          | p => p
                          end
  end.
Fixpoint conv_chunks (m : mapping) (cs : list chunk) (res : list entry) (cv : process_counter) : pass :=
  match cs with
  | [] => PassOn res cv
  | CBad :: _ => PassStop res
  | CGood c :: cs' => match conv_threads m (nc_pid c) (nc_threads c) res cv with
                      | PassOn res' cv' => conv_chunks m cs' res' cv'
                      | p => p
                      end
  end.

(** [std::stable_sort] by "ts", lines 182-184 (the result is determined: sorted, elements that compare equal in their order). *)
Definition ts_ltb (a b : entry) : bool := SFltb (en_ts a) (en_ts b).
Section Sort.
Context {A : Type}.
Variable ltb : A -> A -> bool.
Fixpoint place (x : A) (l : list A) : list A :=
  match l with
  | [] => [x]
  | y :: l' => if ltb y x then y :: place x l' else x :: l
  end.
Definition stable_sort (l : list A) : list A := fold_right place [] l.
End Sort.

(** [values.insert(begin, end)], lines 198-199: keys that are there are kept. *)
Definition add_series (m : series_map) (e : list ascii * Z) : series_map :=
  match mfind str_ltb (fst e) m with Some _ => m | None => minsert str_ltb (fst e) (snd e) m end.
Definition merge_series (values future : series_map) : series_map := fold_left add_series future values.

(** The reverse pass, lines 187-204. *)
Definition with_args (e : entry) (a : series_map) : entry :=
  {| en_ts := en_ts e; en_tid := en_tid e; en_pid := en_pid e; en_name := en_name e; en_ph := en_ph e; en_s := en_s e; en_args := Some a |}.
Fixpoint fill (res : list entry) : list entry * process_counter :=
  match res with
  | [] => ([], [])
  | e :: res' =>
      let (r, all) := fill res' in
      if Ascii.eqb (en_ph e) "C"%char
      then match en_args e with
           | Some a => let values := merge_series a (of_name (en_pid e) (en_name e) all) in
                       (with_args e values :: r, set_name (en_pid e) (en_name e) values all)
           | None => (e :: r, all)          (* cannot happen: "C" entries have "args" *)
           end
      else (e :: r, all)
  end.

(** [finishInterval], lines 70-207, given the names and the chunks. *)
Inductive fres := FUB | FEntries (res : list entry).
Definition finish (m : mapping) (cs : list chunk) : fres :=
  match conv_chunks m cs [] [] with
  | PassUB => FUB
  | PassStop res | PassOn res _ => FEntries (fst (fill (stable_sort ts_ltb res)))
  end.
