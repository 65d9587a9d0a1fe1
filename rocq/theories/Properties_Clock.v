(** C110: lengths and order in a recording while the clock of the computer is set. A case that meets the hypotheses: [clock_example] in [Clock_witness.v]. *)
From Coq Require Import List Arith NArith ZArith Ascii Bool Floats.SpecFloat Reals.
From Flocq Require Import Core.Core IEEE754.BinarySingleNaN.
Import ListNotations.
From Verif Require Import TraceEvent_model Names_model Native_model Native_spec Config_spec Toggle_spec Clock_model Clock_spec Clock_proofs Clock_witness.
Local Open Scope Z_scope.

(** Any two tracepoints of the computer, of whichever threads and processes, however the clock is set: both are shown; the times shown differ by
    the time that really passed plus what the clock was set by in between (to a microsecond); the entries are in the order of the tracepoints if
    that sum is a microsecond or more, and in the other order if it is minus a microsecond or less. *)
Theorem C110_two : forall m c ls cs, sound ls -> dated c ls -> arrived (record c ls) cs ->
  exists res, finish m (map CGood cs) = FEntries res /\
  forall l1 a l2 b l3 ra rb, ls = l1 ++ a :: l2 ++ b :: l3 -> is_point a = true -> is_point b = true ->
  nth_error (record c ls) (points l1) = Some ra -> nth_error (record c ls) (points l1 + 1 + points l2) = Some rb ->
  (exists ea, In ea res /\ shows m ra ea) /\ (exists eb, In eb res /\ shows m rb eb) /\
  (forall ea eb, shows m ra ea -> shows m rb eb ->
    (Rabs (SF2R radix2 (en_ts eb) - SF2R radix2 (en_ts ea) - IZR (elapsed l2 + shifts l2) / 1000) < 1)%R) /\
  (1000 <= elapsed l2 + shifts l2 -> forall r1 eb r2 ea r3, res = r1 ++ eb :: r2 ++ ea :: r3 -> shows m ra ea -> ~ shows m rb eb) /\
  (elapsed l2 + shifts l2 <= -1000 -> forall r1 ea r2 eb r3, res = r1 ++ ea :: r2 ++ eb :: r3 -> shows m ra ea -> ~ shows m rb eb).
Proof. exact two_points. Qed.
Print Assumptions C110_two.

(** If the clock does not go back from one tracepoint of a thread to a later one, the entries of that thread are in the order of its tracepoints.
    Missing: a clock that goes back (next theorem, C110_back_refuted). *)
Theorem C110_thread_partial : forall m c ls cs pid tid,
  sound ls -> dated c ls -> arrived (record c ls) cs -> never_back pid tid ls ->
  exists res, finish m (map CGood cs) = FEntries res /\
  Forall2 (shows m) (filter (of_thread pid tid) (record c ls)) (filter (entry_of pid tid) res).
Proof. exact thread_order. Qed.
Print Assumptions C110_thread_partial.

(** If it goes back by a microsecond or more, they never are. *)
Theorem C110_thread_refuted : forall m c ls cs pid tid l1 a l2 b l3,
  sound ls -> dated c ls -> arrived (record c ls) cs ->
  ls = l1 ++ a :: l2 ++ b :: l3 -> is_own pid tid a = true -> is_own pid tid b = true -> elapsed l2 + shifts l2 <= -1000 ->
  exists res, finish m (map CGood cs) = FEntries res /\
  ~ Forall2 (shows m) (filter (of_thread pid tid) (record c ls)) (filter (entry_of pid tid) res).
Proof. exact thread_broken. Qed.
Print Assumptions C110_thread_refuted.

(** A thread runs program [p] and the clock does not go back between its tracepoints: a reader finds exactly the blocks of the program, each with
    its name, and with a length that is the time it took plus what the clock was set by in it, to a microsecond; so exact if it was not set. *)
Theorem C110_blocks_partial : forall m c ls cs pid tid p,
  sound ls -> dated c ls -> arrived (record c ls) cs -> never_back pid tid ls ->
  scoped_only p -> runs pid tid p ls ->
  exists res, finish m (map CGood cs) = FEntries res /\
  let own := filter (entry_of pid tid) res in
  length own = length (events_of p) /\
  (forall x y, In (x, y) (read [] 0 own) <-> In (x, y) (blocks p)) /\
  forall x y, In (x, y) (blocks p) ->
    exists l1 a l2 b l3 ea eb ex, ls = l1 ++ a :: l2 ++ b :: l3 /\ is_own pid tid a = true /\ is_own pid tid b = true /\
      own_points pid tid l1 = x /\ y = (x + 1 + own_points pid tid l2)%nat /\
      nth_error own x = Some ea /\ nth_error own y = Some eb /\ nth_error (events_of p) x = Some ex /\ en_name ea = scope_name m pid (te_id ex) /\
      (Rabs (SF2R radix2 (en_ts eb) - SF2R radix2 (en_ts ea) - IZR (elapsed l2 + shifts l2) / 1000) < 1)%R.
Proof. exact thread_blocks. Qed.
Print Assumptions C110_blocks_partial.

(** A block of 300 us in which the clock is set back by a millisecond: its end is listed before its begin, and a reader finds no block. *)
Theorem C110_back_refuted : exists res, sound back /\ dated start back /\ scoped_only block /\ runs 100 7 block back /\ elapsed back = 300000 /\
  arrived (record start back) (one_by_one (record start back)) /\
  finish [] (map CGood (one_by_one (record start back))) = FEntries res /\
  map en_ph res = ["E"%char; "B"%char] /\ blocks block = [(0, 1)%nat] /\ read [] 0 (filter (entry_of 100 7) res) = [].
Proof. exact set_back. Qed.
Print Assumptions C110_back_refuted.

(** Two blocks of 100 us one after the other, and the clock is set back by 60 us between them, in neither: a reader finds the second inside the
    first, the first with 150 us and the second with 50 us. *)
Theorem C110_between_refuted : exists res, sound between_blocks /\ dated start between_blocks /\ scoped_only two_blocks /\ runs 100 7 two_blocks between_blocks /\
  arrived (record start between_blocks) (one_by_one (record start between_blocks)) /\
  (forall l1 a l2 b l3, between_blocks = l1 ++ a :: l2 ++ b :: l3 -> (a = enter 1 /\ b = leave 1) \/ (a = enter 2 /\ b = leave 2) ->
     elapsed l2 = 100000 /\ shifts l2 = 0) /\
  finish [(100, [(1%N, ["1"%char]); (2%N, ["2"%char])])] (map CGood (one_by_one (record start between_blocks))) = FEntries res /\
  map (fun e => (en_ph e, en_name e)) res = [("B", ["1"]); ("B", ["2"]); ("E", ["1"]); ("E", ["2"])]%char /\
  map en_ts res = map (fun t => ts_of (Z.to_N (start + t))) [0; 50000; 100000; 150000] /\
  read [] 0 (filter (entry_of 100 7) res) = [(1, 2); (0, 3)]%nat /\ blocks two_blocks = [(0, 1); (2, 3)]%nat.
Proof. exact set_back_between. Qed.
Print Assumptions C110_between_refuted.

(** A block of 300 us in which the clock is set ahead by an hour is shown with more than an hour. *)
Theorem C110_ahead_refuted : exists res, sound ahead /\ dated start ahead /\ never_back 100 7 ahead /\ scoped_only block /\ runs 100 7 block ahead /\ elapsed ahead = 300000 /\
  arrived (record start ahead) (one_by_one (record start ahead)) /\
  finish [] (map CGood (one_by_one (record start ahead))) = FEntries res /\
  read [] 0 (filter (entry_of 100 7) res) = [(0, 1)%nat] /\
  map en_ts res = map (fun t => ts_of (Z.to_N (start + t))) [0; 3600000300000].
Proof. exact set_ahead. Qed.
Print Assumptions C110_ahead_refuted.
