(** What C39 says. *)
From Coq Require Import String List Arith NArith ZArith Ascii Bool Floats.SpecFloat Sorting.Permutation Sorting.Sorted.
Import ListNotations.
From Verif Require Import OMap_model Names_model Native_model Native_spec Str_model Ctf_model Ctf_spec Lttng_model.

(** What a traced process did. *)
Inductive kind := KBegin | KEnd | KGlobal | KProcess | KThread | KCount (value : Z).
Record deed := { d_time : spec_float; d_pid : N; d_tid : N; d_id : N; d_kind : kind }.
Definition kind_name (k : kind) : string :=
  match k with
  | KBegin => "scope_entry" | KEnd => "scope_exit" | KGlobal => "mark_event_global" | KProcess => "mark_event_process"
  | KThread => "mark_event_thread" | KCount _ => "count_event"
  end.
(** The event [e] tells of the deed [d]. *)
Record tells (e : event spec_float) (d : deed) : Prop := {
  t_time : c_time e = Some (d_time d);
  t_number : d_time d <> S754_nan;
  t_pid : pid e = Some (d_pid d); t_pid_range : (d_pid d < 2 ^ 31)%N;
  t_tid : tid e = Some (d_tid d);
  t_id : lookup (txt "id") (c_data e) = Some (d_id d); t_id_range : (d_id d < 2 ^ 32)%N;
  t_name : c_name e = txt (kind_name (d_kind d));
  t_value : forall z, d_kind d = KCount z -> (- 2 ^ 63 <= z < 2 ^ 63)%Z /\ lookup (txt "value") (c_data e) = Some (Z.to_N (z mod 2 ^ 64)) }.
(** The events of scalopus among all of them: those in its domain. *)
Definition scalopus_domain : str := txt "scalopus_scope_id".
Definition ours (es : list (event spec_float)) : list (event spec_float) :=
  filter (fun e => if list_eq_dec ascii_dec (c_domain e) scalopus_domain then true else false) es.

Definition kind_phase (k : kind) : ascii * option ascii :=
  match k with
  | KBegin => ("B"%char, None) | KEnd => ("E"%char, None) | KGlobal => ("i"%char, Some "g"%char) | KProcess => ("i"%char, Some "p"%char)
  | KThread => ("i"%char, Some "t"%char) | KCount _ => ("C"%char, None)
  end.
Definition label_of (m : mapping) (d : deed) : list ascii := scope_name m (Z.of_N (d_pid d)) (d_id d).
(** The entry [e] is the one of deed [d]. *)
Record portrays (m : mapping) (d : deed) (e : entry) : Prop := {
  po_time : en_ts e = lts (d_time d);
  po_pid : en_pid e = Z.of_N (d_pid d);
  po_tid : en_tid e = d_tid d;
  po_phase : (en_ph e, en_s e) = kind_phase (d_kind d);
  po_name : en_name e = match d_kind d with KCount _ => fst (split_series (label_of m d)) | _ => label_of m d end;
  po_own : match d_kind d with
          | KCount z => exists a, en_args e = Some a /\ mfind str_ltb (snd (split_series (label_of m d))) a = Some z
          | _ => en_args e = None
          end }.

(** Ordered by the time shown, and in order of arrival where that is the same. *)
Definition earlier (a b : deed) : bool := SFltb (lts (d_time a)) (lts (d_time b)).
Definition level (a b : deed) : bool := negb (earlier a b) && negb (earlier b a).
Definition timely (order l : list deed) : Prop :=
  Permutation order l /\ StronglySorted (fun a b => earlier b a = false) order /\ (forall a, In a l -> filter (level a) order = filter (level a) l).

(** Whether [d] sets a value of the counter [name], and the value it gives to the series [s] of that counter of process [p]. *)
Definition counts (m : mapping) (name : list ascii) (d : deed) : bool :=
  match d_kind d with KCount _ => str_eqb (fst (split_series (label_of m d))) name | _ => false end.
Definition gives_to (m : mapping) (p : N) (name s : list ascii) (d : deed) : option Z :=
  if (d_pid d =? p)%N && counts m name d && str_eqb (snd (split_series (label_of m d))) s
  then match d_kind d with KCount z => Some z | _ => None end else None.
(** The entry of [d], with [before] and [after] it in time, has all the series of that counter of that process, each with its value then. *)
Definition faithful (m : mapping) (before : list deed) (d : deed) (after : list deed) (e : entry) : Prop :=
  exists a, en_args e = Some a /\ NoDup (map fst a) /\
    forall s, mfind str_ltb s a = value_at (gives_to m (d_pid d) (en_name e) s) (before ++ [d]) after.
(** No process but [p] has this counter. *)
Definition sole (m : mapping) (p : N) (name : list ascii) (l : list deed) : Prop := Forall (fun d => counts m name d = true -> d_pid d = p) l.

(** What the trace points of scope_tracepoint_lttng_definition.h print for a deed, with the contexts vpid and pthread_id. *)
Definition prints (d : deed) (p : printed) : Prop :=
  p_domain p = txt "scalopus_scope_id" /\ p_name p = txt (kind_name (d_kind d)) /\
  In (txt "vpid", FInt (Z.of_N (d_pid d))) (p_context p) /\ In (txt "pthread_id", FInt (Z.of_N (d_tid d))) (p_context p) /\
  In (txt "id", FInt (Z.of_N (d_id d))) (p_data p) /\ (d_pid d < 2 ^ 31)%N /\ (d_id d < 2 ^ 32)%N /\
  (forall z, d_kind d = KCount z -> (- 2 ^ 63 <= z < 2 ^ 63)%Z /\ In (txt "value", FInt z) (p_data p)).

(** What was recorded: the events up to the end of the interval. *)
Definition only_events (xs : list llabel) : Prop := forall x, In x xs -> exists e, x = LEvent e.
Definition events_in (xs : list llabel) : list (event spec_float) := flat_map (fun x => match x with LEvent e => [e] | _ => [] end) xs.
(** The interval is still going on, or it was ended and none was started after that. *)
Definition ends (xs : list llabel) : Prop :=
  xs = [] \/ exists x ys, xs = x :: ys /\ (x = LStop \/ exists m, x = LFinish m) /\ ~ In LStart ys.
