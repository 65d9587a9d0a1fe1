(** From LTTng events to the entries of a recording: [LttngSource], scalopus_tracing/src/lttng/lttng_source.cpp lines 36-177.
    The events are those of [Ctf_model.v]; the texts of the entries that never vary ("cat" is "PERF") are left out, as in
    [Native_model.v]. Not modelled: that the thread which reads events may be within the callback when [disable] returns (see
    [Delivery_model.v]); copying an uninitialised time, which is done for every event that could not be parsed, counts as harmless
    here, using it in an entry does not. *)
From Coq Require Import String List Arith NArith ZArith Ascii Bool Floats.SpecFloat.
Import ListNotations.
From Verif Require Import OMap_model Names_model Native_model Str_model Ctf_model.

(** Line 98: [time * 1e6], in IEEE double precision. *)
Definition lts (t : spec_float) : spec_float := SFmul 53 1024 t (to_double 1000000).
(** Line 111: [static_cast<int>] and line 148: [static_cast<std::int64_t>] of an [unsigned long long]; both keep the low bits. *)
Definition to_int (bits : Z) (n : N) : Z := let r := (Z.of_N n mod 2 ^ bits)%Z in if (r <? 2 ^ (bits - 1))%Z then r else (r - 2 ^ bits)%Z.

(** [CounterMap], lines 77-79: the counters by name, whatever the process. *)
Definition cm_of (name : list ascii) (c : counter_map) : series_map := match mfind str_ltb name c with Some x => x | None => [] end.
Definition cm_set (name : list ascii) (s : series_map) (c : counter_map) : counter_map := minsert str_ltb name s c.

Definition is_named (e : event spec_float) (s : string) : bool := if list_eq_dec ascii_dec (c_name e) (txt s) then true else false.
Definition in_domain (e : event spec_float) : bool := if list_eq_dec ascii_dec (c_domain e) (txt "scalopus_scope_id") then true else false.

(** The body of the loop for an event of the domain, lines 90-151. [LThrow]: [std::map::at] throws, or [json::at]. [LUse]: the time was never
    set. [LBare]: an entry without "ph". *)
Inductive lres := LThrow | LUse | LBare | LOk (e : entry) (c : counter_map).
Definition lconv (m : mapping) (e : event spec_float) (cv : counter_map) : lres :=
  match c_time e with
  | None => LUse
  | Some time =>
  match tid e, pid e with
  | Some t, Some p =>
      let id := match lookup (txt "id") (c_data e) with Some n => (n mod 2 ^ 32)%N | None => 0%N end in        (* 104-108 *)
      let label := scope_name m (to_int 32 p) id in
      let mk (ph : ascii) (s : option ascii) :=
        LOk {| en_ts := lts time; en_tid := t; en_pid := Z.of_N p; en_name := label; en_ph := ph; en_s := s; en_args := None |} cv in
      if is_named e "scope_entry" then mk "B"%char None
      else if is_named e "scope_exit" then mk "E"%char None
      else if is_named e "mark_event_global" then mk "i"%char (Some "g"%char)
      else if is_named e "mark_event_process" then mk "i"%char (Some "p"%char)
      else if is_named e "mark_event_thread" then mk "i"%char (Some "t"%char)
      else if is_named e "count_event" then                                       (* 139-149 *)
        let (counter, series) := split_series label in
        match lookup (txt "value") (c_data e) with
        | None => LThrow
        | Some v =>
            let sm := minsert str_ltb series (to_int 64 v) (cm_of counter cv) in
            LOk {| en_ts := lts time; en_tid := t; en_pid := Z.of_N p; en_name := counter; en_ph := "C"%char; en_s := None; en_args := Some sm |}
                (cm_set counter sm cv)
        end
      else LBare
  | _, _ => LThrow
  end
  end.

(** The loop, lines 83-154; [bare]: whether there is an entry without "ph". *)
Inductive lpass := LPThrow | LPUse | LPOn (res : list entry) (bare : bool).
Fixpoint lloop (m : mapping) (es : list (event spec_float)) (cv : counter_map) (res : list entry) (bare : bool) : lpass :=
  match es with
  | [] => LPOn res bare
  | e :: es' =>
      if in_domain e then
        match lconv m e cv with
        | LThrow => LPThrow
        | LUse => LPUse
        | LBare => lloop m es' cv res true
        | LOk x cv' => lloop m es' cv' (res ++ [x]) bare
        end
      else lloop m es' cv res bare
  end.

(** The reverse pass, lines 163-176. *)
Fixpoint lfill (res : list entry) : list entry * counter_map :=
  match res with
  | [] => ([], [])
  | e :: res' =>
      let (r, all) := lfill res' in
      if Ascii.eqb (en_ph e) "C"%char
      then match en_args e with
           | Some a => let values := merge_series a (cm_of (en_name e) all) in (with_args e values :: r, cm_set (en_name e) values all)
           | None => (e :: r, all)          (* cannot happen: "C" entries have "args" *)
           end
      else (e :: r, all)
  end.

(** [convertEvents], lines 67-180. The sorting compares numbers that must not be NaN; that is a condition of the theorems. The reverse pass
    meets every entry, so that one without "ph" makes it throw (line 167). *)
Inductive lfinal := FThrows | FUse | FDone (res : list entry).
Definition lconvert (m : mapping) (es : list (event spec_float)) : lfinal :=
  match lloop m es [] [] false with
  | LPThrow => FThrows
  | LPUse => FUse
  | LPOn res bare => if bare then FThrows else FDone (fst (lfill (stable_sort ts_ltb res)))
  end.

(** The object: whether [callback_] is set, and [events_]. [LStart], [LStop], [LFinish]: its functions, lines 45-66. [LEvent]: the callback is
    called, if there is one that is active. [m]: the names known then. *)
Record lsource := { l_on : bool; l_events : list (event spec_float) }.
Definition lsource0 : lsource := {| l_on := false; l_events := [] |}.
Inductive llabel := LStart | LStop | LEvent (e : event spec_float) | LFinish (m : mapping).
Definition lstep (x : llabel) (s : lsource) : lsource * list lfinal :=
  match x with
  | LStart => ({| l_on := true; l_events := [] |}, [])
  | LStop => ({| l_on := false; l_events := l_events s |}, [])
  | LEvent e => (if l_on s then {| l_on := true; l_events := l_events s ++ [e] |} else s, [])
  | LFinish m => ({| l_on := false; l_events := l_events s |}, [lconvert m (l_events s)])
  end.
Fixpoint lrun (xs : list llabel) (s : lsource) : lsource * list lfinal :=
  match xs with
  | [] => (s, [])
  | x :: xs' => let (s', o) := lstep x s in let (s'', os) := lrun xs' s' in (s'', o ++ os)
  end.
