(** What C26, C27 and C28 say. *)
From Coq Require Import String List Arith NArith ZArith Ascii Bool Floats.SpecFloat Sorting.Permutation Sorting.Sorted.
Import ListNotations.
From Verif Require Import OMap_model TraceEvent_model Names_model Native_model.

(** A received event: the process, the thread and the event; all the events of the chunks in order of arrival. *)
Definition rev_t := (Z * N * tev)%type.
Definition r_pid (r : rev_t) : Z := fst (fst r).
Definition r_tid (r : rev_t) : N := snd (fst r).
Definition r_ev (r : rev_t) : tev := snd r.
Definition events_of (c : nchunk) : list rev_t := flat_map (fun p => map (fun ev => (nc_pid c, fst p, ev)) (snd p)) (nc_threads c).
Definition received (cs : list nchunk) : list rev_t := flat_map events_of cs.

(** The events the tracepoints of this code base make: a known type, and a value if it is a counter. *)
Definition proper (ev : tev) : Prop := (1 <= te_type ev <= 6)%N /\ (te_type ev = COUNTER -> te_value ev <> None).

(** A chunk with such events only. *)
Definition good_chunk (c : nchunk) : Prop := Forall (fun p => Forall proper (snd p)) (nc_threads c).

(** Phase and scope, in the terms of the trace event format. *)
Inductive phase : N -> ascii -> option ascii -> Prop :=
  | ph_begin : phase SCOPE_ENTRY "B" None
  | ph_end : phase SCOPE_EXIT "E" None
  | ph_global : phase MARK_GLOBAL "i" (Some "g"%char)
  | ph_process : phase MARK_PROCESS "i" (Some "p"%char)
  | ph_thread : phase MARK_THREAD "i" (Some "t"%char)
  | ph_counter : phase COUNTER "C" None.

(** The entry [e] is the one of event [r]. *)
Record shows (m : mapping) (r : rev_t) (e : entry) : Prop := {
  sh_time : en_ts e = ts_of (te_time (r_ev r));
  sh_pid : en_pid e = r_pid r;
  sh_tid : en_tid e = r_tid r;
  sh_phase : phase (te_type (r_ev r)) (en_ph e) (en_s e);
  sh_name : en_name e = if (te_type (r_ev r) =? COUNTER)%N then fst (split_series (scope_name m (r_pid r) (te_id (r_ev r))))
                        else scope_name m (r_pid r) (te_id (r_ev r));
  sh_args : en_args e <> None <-> te_type (r_ev r) = COUNTER }.

(** [order] is [l] ordered by the time shown, events with the same time shown in order of arrival. *)
Definition shown_before (a b : rev_t) : bool := SFltb (ts_of (te_time (r_ev a))) (ts_of (te_time (r_ev b))).
Definition same_time (a b : rev_t) : bool := negb (shown_before a b) && negb (shown_before b a).
Definition time_order (order l : list rev_t) : Prop :=
  Permutation order l /\ StronglySorted (fun a b => shown_before b a = false) order /\
  (forall a, filter (same_time a) order = filter (same_time a) l).

(** The value event [r] gives to series [s] of counter [name] of process [pid], if it does. *)
Definition str_eqb (a b : list ascii) : bool := if list_eq_dec ascii_dec a b then true else false.
Definition is_counter (m : mapping) (pid : Z) (name : list ascii) (r : rev_t) : bool :=
  (r_pid r =? pid)%Z && (te_type (r_ev r) =? COUNTER)%N && str_eqb (fst (split_series (scope_name m pid (te_id (r_ev r))))) name.
Definition sets (m : mapping) (pid : Z) (name s : list ascii) (r : rev_t) : option Z :=
  if is_counter m pid name r && str_eqb (snd (split_series (scope_name m pid (te_id (r_ev r))))) s then te_value (r_ev r) else None.

Fixpoint latest {A} (f : A -> option Z) (l : list A) : option Z :=
  match l with
  | [] => None
  | x :: l' => match latest f l' with Some v => Some v | None => f x end
  end.
Fixpoint earliest {A} (f : A -> option Z) (l : list A) : option Z :=
  match l with
  | [] => None
  | x :: l' => match f x with Some v => Some v | None => earliest f l' end
  end.
(** The value to show at a moment: the latest one up to it, else the first one after it. *)
Definition value_at {A} (f : A -> option Z) (upto after : list A) : option Z :=
  match latest f upto with Some v => Some v | None => earliest f after end.

(** The counter's entry for event [r], with [before] and [after] it in time. *)
Definition consistent (m : mapping) (before : list rev_t) (r : rev_t) (after : list rev_t) (e : entry) : Prop :=
  exists a, en_args e = Some a /\ NoDup (map fst a) /\
    forall s, mfind str_ltb s a = value_at (sets m (r_pid r) (en_name e) s) (before ++ [r]) after.

(** The entry of a counter event has the value the event set. *)
Definition own (m : mapping) (r : rev_t) (e : entry) : Prop :=
  te_type (r_ev r) = COUNTER -> forall v, te_value (r_ev r) = Some v ->
  exists a, en_args e = Some a /\ mfind str_ltb (snd (split_series (scope_name m (r_pid r) (te_id (r_ev r))))) a = Some v.
