(** What C102 says. *)
From Coq Require Import String List Arith NArith ZArith Ascii Bool Reals Floats.SpecFloat.
Import ListNotations.
From Flocq Require Import Core.Core IEEE754.BinarySingleNaN.
From Verif Require Import OMap_model TraceEvent_model Names_model Config_model Native_model Native_spec Str_model Ctf_model Ctf_spec Lttng_model Lttng_spec LttngTime_proofs Tracers_model.
Local Open Scope nat_scope.
Local Open Scope list_scope.

(** What is seen of the configuration of a program: the answer to every request. *)
Definition same_switches (a b : cfg) : Prop :=
  g_process a = g_process b /\ g_flags a = g_flags b /\ g_map a = g_map b /\ forall r, snd (c_handle r a) = snd (c_handle r b).
(** A trace point that was recorded, with its time. *)
Definition recorded_natively (c : cfg) (i : nat) (l : list (tpoint * N)) : Prop :=
  exists t, nth_error (g_threads c) i = Some t /\ t_events t = map (fun e => event_of (fst e) (snd e)) l.
Definition recorded_by_lttng (s : lprog) (i : nat) (l : list (tpoint * N)) : Prop :=
  nth_error (lp_out s) i = Some (map (fun e => lttng_event_of (fst e) (snd e)) l).

(** Something traced: process, thread, time in nanoseconds and trace point. *)
Record happening := { h_pid : N; h_tid : N; h_time : N; h_point : tpoint }.
Definition point_id (p : tpoint) : N := match p with TpEntry id | TpExit id | TpMark _ id | TpCount id _ => id end.
Definition point_kind (p : tpoint) : kind :=
  match p with
  | TpEntry _ => KBegin | TpExit _ => KEnd | TpMark LGlobal _ => KGlobal | TpMark LProcess _ => KProcess | TpMark LThread _ => KThread | TpCount _ v => KCount v
  end.
(** As the native source receives it, and as an event of LTTng tells of it, its time read to the nearest double. *)
Definition natively (h : happening) : rev_t := (Z.of_N (h_pid h), h_tid h, event_of (h_point h) (h_time h)).
Record by_lttng (h : happening) (d : deed) : Prop := {
  bl_pid : d_pid d = h_pid h; bl_tid : d_tid d = h_tid h; bl_id : d_id d = point_id (h_point h); bl_kind : d_kind d = point_kind (h_point h);
  bl_time : double_of (d_time d) (IZR (Z.of_N (h_time h)) / 1000000000)%R }.
(** At least a microsecond between any two. *)
Definition apart (hs : list happening) : Prop := ForallOrdPairs (fun a b => (h_time a + 1000 <= h_time b \/ h_time b + 1000 <= h_time a)%N) hs.

(** Two entries that differ in nothing but less than a microsecond, and in the other series of a counter. *)
Record alike (e f : entry) : Prop := {
  al_tid : en_tid e = en_tid f; al_pid : en_pid e = en_pid f; al_name : en_name e = en_name f; al_ph : en_ph e = en_ph f; al_s : en_s e = en_s f;
  al_ts : (Rabs (SF2R radix2 (en_ts e) - SF2R radix2 (en_ts f)) < 1)%R;
  al_args : en_args e = None <-> en_args f = None }.
(** They give the same values. *)
Definition same_values (e f : entry) : Prop :=
  exists a b, en_args e = Some a /\ en_args f = Some b /\ forall s, mfind str_ltb s a = mfind str_ltb s b.
(** Both give the value of the event itself. *)
Definition own_values (m : mapping) (h : happening) (e f : entry) : Prop :=
  forall v, point_kind (h_point h) = KCount v ->
  exists a b, en_args e = Some a /\ en_args f = Some b /\
    let s := snd (split_series (scope_name m (Z.of_N (h_pid h)) (point_id (h_point h)))) in mfind str_ltb s a = Some v /\ mfind str_ltb s b = Some v.
Definition told (e : event spec_float) (h : happening) : Prop := exists d, by_lttng h d /\ tells e d.
(** Numbers as the types in the code have them; times up to 73 years after 1970. *)
Definition sensible (h : happening) : Prop :=
  (h_pid h < 2 ^ 31 /\ h_tid h < 2 ^ 64 /\ h_time h < 2 ^ 61 /\ point_id (h_point h) < 2 ^ 32)%N /\
  forall id v, h_point h = TpCount id v -> (- 2 ^ 63 <= v < 2 ^ 63)%Z.
(** The events of a counter of a process come in the order of their times. *)
Definition native_counter (m : mapping) (p : N) (name : list ascii) (h : happening) : bool := is_counter m (Z.of_N p) name (natively h).
Definition in_time (f : happening -> bool) (hs : list happening) : Prop := Sorted.StronglySorted (fun a b => (h_time a <= h_time b)%N) (filter f hs).
(** No other process has a counter of the name. *)
Definition only_process (m : mapping) (p : N) (name : list ascii) (hs : list happening) : Prop :=
  Forall (fun h => native_counter m (h_pid h) name h = true -> h_pid h = p) hs.
(** The number that a text of digits is. *)
Definition number_of (ds : list ascii) : N := fold_left (fun a c => (10 * a + (N_of_ascii c - 48))%N) ds 0%N.
