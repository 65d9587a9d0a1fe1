(** C92, C93. Concrete cases and the counterexamples are in [File_witness.v]. *)
From Coq Require Import String List Arith NArith ZArith Floats.SpecFloat Sorting.Permutation.
Import ListNotations.
From Verif Require Import Protocol_model Json_model Json_spec Session_model Session_spec TraceEvent_model Native_model Collector_spec Record_model Record_spec EndToEnd_model EndToEnd_spec EndToEnd_witness File_spec File_proofs File_witness.
From Verif Require Config_spec Toggle_spec.

(** C92: at any moment, the file the recorder would write is a JSON list; besides what other sources add ([before], [after]) each member shows an
    event of a thread of a traced process, none more often than it was traced, and in program order if the times shown increase. *)
Theorem C92_sound : forall fw fr pid what cap ls s i m before after,
  sensible pid what ls -> times_written fw fr what -> names_utf8 m -> erun pid what cap ls e0 = Some s ->
  Forall (wf fw fr) before -> Forall (wf fw fr) after ->
  exists res t js os, interval m i s = FEntries res /\ collect_text fw (before ++ map entry_json res ++ after) = Some t /\
  parse fr t = Some (JArr (before ++ js ++ after)) /\ Forall2 (read_as pid what m s) os js /\
  forall p j, (exists l, subseq l (traced p j ls) /\ Permutation (of_origin p j os) l) /\
              (increasing what p (traced p j ls) -> subseq (of_origin p j os) (traced p j ls)).
Proof. exact file_sound. Qed.
Print Assumptions C92_sound.

(** C92: the file shows every event traced while the source recorded, once, of each process which is connected, whose buffers do not overflow and
    whose messages have come through. Missing: the names must be UTF-8 (see C92_refuted). *)
Theorem C92_partial : forall fw fr pid what cap ls1 s1 ls2 s2 i m live before after,
  sensible pid what (ls1 ++ ls2) -> times_written fw fr what -> names_utf8 m ->
  erun pid what cap ls1 e0 = Some s1 -> erun pid what cap ls2 s1 = Some s2 ->
  recording i s1 -> undisturbed i ls2 -> settled s2 ->
  (forall p, live p = true -> connected p s1 /\ connected p s2 /\ drained p s2 /\ roomy cap (steps_of p ls2) (e_col s1 p)) ->
  Forall (wf fw fr) before -> Forall (wf fw fr) after ->
  exists res t js os, interval m i s2 = FEntries res /\ collect_text fw (before ++ map entry_json res ++ after) = Some t /\
  parse fr t = Some (JArr (before ++ js ++ after)) /\ Forall2 (read_as pid what m s2) os js /\
  forall p j, live p = true -> exists old, subseq old (traced p j ls1) /\ Permutation (of_origin p j os) (old ++ traced p j ls2) /\
    (increasing what p (traced p j (ls1 ++ ls2)) -> of_origin p j os = old ++ traced p j ls2).
Proof. exact file_complete. Qed.
Print Assumptions C92_partial.

(** C92: the same for a viewer that ends the recording: the answer, then the pieces, which together show every event once, then the completion. *)
Theorem C92_viewer_partial : forall fw fr pid what cap braces ls1 s1 ls2 s2 i m live t id,
  (forall t f, fr t = Some f -> float_ok fw fr f) -> wf fw fr braces ->
  sensible pid what (ls1 ++ ls2) -> times_written fw fr what -> names_utf8 m ->
  erun pid what cap ls1 e0 = Some s1 -> erun pid what cap ls2 s1 = Some s2 ->
  recording i s1 -> undisturbed i ls2 -> settled s2 ->
  (forall p, live p = true -> connected p s1 /\ connected p s2 /\ drained p s2 /\ roomy cap (steps_of p ls2) (e_col s1 p)) ->
  message fr t (name_of REnd) id ->
  exists res es a pieces c groups os, interval m i s2 = FEntries res /\ process fw fr braces [map entry_json res] t = Done es /\
  es = [EStop 0; ESend a; EFinish 0] ++ map ESend pieces ++ [ESend c] /\ Session_spec.answer fr a id JNull /\ Forall2 (data_piece fr) pieces groups /\
  Forall (fun g => List.length g <= 1000) groups /\ completion fr c /\ Forall2 (read_as pid what m s2) os (concat groups) /\
  forall p j, live p = true -> exists old, subseq old (traced p j ls1) /\ Permutation (of_origin p j os) (old ++ traced p j ls2) /\
    (increasing what p (traced p j (ls1 ++ ls2)) -> of_origin p j os = old ++ traced p j ls2).
Proof. exact viewer_complete. Qed.
Print Assumptions C92_viewer_partial.

(** C92 fails with one name that is not UTF-8: all events are there, and there is no file, whatever else would be in it. *)
Theorem C92_refuted : exists s1 s2 res, sensible pidx whaty (starty ++ ally) /\ times_written fwy fry whaty /\
  erun pidx whaty 2 starty e0 = Some s1 /\ erun pidx whaty 2 ally s1 = Some s2 /\ recording 0 s1 /\ undisturbed 0 ally /\ settled s2 /\
  (forall p, (p =? 0) = true -> connected p s1 /\ connected p s2 /\ drained p s2 /\ roomy 2 (steps_of p ally) (e_col s1 p)) /\
  interval names_bad 0 s2 = FEntries res /\ List.length res = 4 /\ forall fw before after, collect_text fw (before ++ map entry_json res ++ after) = None.
Proof. exact file_none. Qed.
Print Assumptions C92_refuted.

(** C93: thread [j] of a connected process starts while the source records and runs program [prog]; tracing is on for one stretch of it ([mask]).
    Someone who reads the file and pairs the begins and ends of that thread finds each block of which both ends were recorded, with its name, begin
    and end, and finds nothing else. Missing: switching more than once (see C93_refuted), threads of the same number. *)
Theorem C93_partial : forall fw fr pid what cap ls1 s1 ls2 s2 i m live before after p j tid prog mask,
  sensible pid what (ls1 ++ ls2) -> times_written fw fr what -> names_utf8 m ->
  erun pid what cap ls1 e0 = Some s1 -> erun pid what cap ls2 s1 = Some s2 ->
  recording i s1 -> undisturbed i ls2 -> settled s2 ->
  (forall p, live p = true -> connected p s1 /\ connected p s2 /\ drained p s2 /\ roomy cap (steps_of p ls2) (e_col s1 p)) ->
  Forall (wf fw fr) before -> Forall (wf fw fr) after -> only_names before -> only_names after ->
  live p = true -> distinct pid s2 p j tid -> traced p j ls1 = [] -> increasing what p (traced p j (ls1 ++ ls2)) ->
  Config_spec.scoped_only prog -> Toggle_spec.one_stretch mask -> List.length mask = List.length (Toggle_spec.events_of prog) ->
  map (fun c => what p (snd c)) (traced p j ls2) = map snd (Toggle_spec.recorded 0 mask (Toggle_spec.events_of prog)) ->
  exists res t js, interval m i s2 = FEntries res /\ collect_text fw (before ++ map entry_json res ++ after) = Some t /\ parse fr t = Some (JArr js) /\
    let evs := Toggle_spec.events_of prog in
    (forall x y, In (x, y) (Toggle_spec.blocks prog) -> Toggle_spec.in_record mask x -> Toggle_spec.in_record mask y ->
       exists b e ex ey, In (b, e) (pairs (pid p) (Z.of_nat tid) [] js) /\ nth_error evs x = Some ex /\ nth_error evs y = Some ey /\ tells m (pid p) ex b /\ tells m (pid p) ey e) /\
    (forall b e, In (b, e) (pairs (pid p) (Z.of_nat tid) [] js) ->
       exists x y ex ey, In (x, y) (Toggle_spec.blocks prog) /\ nth_error evs x = Some ex /\ nth_error evs y = Some ey /\ tells m (pid p) ex b /\ tells m (pid p) ey e).
Proof. exact blocks_in_file. Qed.
Print Assumptions C93_partial.
Example C93_example : exists s1 s2, sensible pidx whaty (starty ++ ally) /\ times_written fwy fry whaty /\ names_utf8 namesy /\
  erun pidx whaty 2 starty e0 = Some s1 /\ erun pidx whaty 2 ally s1 = Some s2 /\ recording 0 s1 /\ undisturbed 0 ally /\ settled s2 /\
  (forall p, (p =? 0) = true -> connected p s1 /\ connected p s2 /\ drained p s2 /\ roomy 2 (steps_of p ally) (e_col s1 p)) /\
  Forall (wf fwy fry) [namey] /\ only_names [namey] /\ distinct pidx s2 0 0 7 /\ traced 0 0 starty = [] /\ increasing whaty 0 (traced 0 0 (starty ++ ally)) /\
  Config_spec.scoped_only inner_outer /\ Toggle_spec.one_stretch [true; true; true; true] /\ List.length (Toggle_spec.events_of inner_outer) = 4 /\
  map (fun c => whaty 0 (snd c)) (traced 0 0 ally) = map snd (Toggle_spec.recorded 0 [true; true; true; true] (Toggle_spec.events_of inner_outer)) /\
  exists res t, interval namesy 0 s2 = FEntries res /\ List.length res = 4 /\ collect_text fwy (map entry_json res ++ [namey]) = Some t /\
    match parse fry t with Some (JArr js) => List.length (pairs 100 7 [] js) = 2 | _ => False end.
Proof. exact file_example. Qed.

(** C93 fails if tracing is off only when an inner block begins: both ends of the outer block are recorded, and the file shows it with the end of
    the inner one (30 us instead of 40 us). *)
Theorem C93_refuted : exists s1 s2 res t js b e, sensible pidx whaty (starty ++ somey) /\ times_written fwy fry whaty /\ names_utf8 namesy /\
  erun pidx whaty 2 starty e0 = Some s1 /\ erun pidx whaty 2 somey s1 = Some s2 /\ recording 0 s1 /\ undisturbed 0 somey /\ settled s2 /\
  (forall p, (p =? 0) = true -> connected p s1 /\ connected p s2 /\ drained p s2 /\ roomy 2 (steps_of p somey) (e_col s1 p)) /\
  distinct pidx s2 0 0 7 /\ traced 0 0 starty = [] /\ Config_spec.scoped_only inner_outer /\
  map (fun c => whaty 0 (snd c)) (traced 0 0 somey) = map snd (Toggle_spec.recorded 0 [true; false; true; true] (Toggle_spec.events_of inner_outer)) /\
  In (0, 3) (Toggle_spec.blocks inner_outer) /\ option_map te_time (nth_error (Toggle_spec.events_of inner_outer) 3) = Some (at_time 40000) /\
  interval namesy 0 s2 = FEntries res /\ collect_text fwy (map entry_json res) = Some t /\ parse fry t = Some (JArr js) /\
  pairs 100 7 [] js = [(b, e)] /\ member "name" b = Some (JStr (text "outer")) /\ member "ts" b = Some (JFloat (ts_of (at_time 10000))) /\ member "ts" e = Some (JFloat (ts_of (at_time 30000))) /\
  ts_of (at_time 30000) <> ts_of (at_time 40000).
Proof. exact file_wrong. Qed.
Print Assumptions C93_refuted.
