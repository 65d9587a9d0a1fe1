(** Concrete recordings: the cases in which C27, C28 and C62 fail, and cases that meet the hypotheses of the theorems. *)
From Coq Require Import String List Arith NArith ZArith Ascii Bool Lia Floats.SpecFloat Sorting.Permutation Sorting.Sorted.
Import ListNotations.
From Verif Require Import OMap_model OMap_proofs TraceEvent_model Names_model Crc_proofs Native_model Native_spec Native_proofs.
Local Open Scope nat_scope.

Definition evt (ty t id : N) : tev := {| te_time := t; te_id := id; te_type := ty; te_value := None |}.
Definition cnt (t id : N) (v : Z) : tev := {| te_time := t; te_id := id; te_type := COUNTER; te_value := Some v |}.
(** Process 7 has the series a and b of the counter m, and a scope. *)
Definition names7 : mapping := [(7%Z, [(1%N, str "m/a"); (2%N, str "m/b"); (3%N, str "scope")])].

(** Two threads set a series each; the chunk holds the events thread by thread. *)
Definition two_threads : nchunk := {| nc_pid := 7; nc_threads := [(1%N, [cnt 10000 1 1; cnt 30000 1 2]); (2%N, [cnt 20000 2 5])] |}.
Definition order_of (m : mapping) (l : list rev_t) : list rev_t := map fst (stable_sort pair_ltb (combine l (fst (fwd m l [])))).

Lemma good_evt ty t id : (1 <= ty <= 5)%N -> proper (evt ty t id).
Proof. intros H. split; cbn; [lia|]. unfold COUNTER. intros ->. lia. Qed.
Lemma good_cnt t id v : proper (cnt t id v).
Proof. split; cbn; [unfold COUNTER; lia|discriminate]. Qed.
Ltac goods := repeat (apply Forall_cons || apply Forall_nil); unfold good_chunk; cbn [nc_threads];
  repeat (apply Forall_cons || apply Forall_nil); cbn [snd]; repeat (apply Forall_cons || apply Forall_nil); try apply good_cnt; apply good_evt; unfold SCOPE_ENTRY, SCOPE_EXIT, MARK_PROCESS; lia.
Lemma two_threads_good : Forall good_chunk [two_threads].
Proof. unfold two_threads. goods. Qed.

Theorem counters_wrong : exists m cs res order, Forall good_chunk cs /\ finish m (map CGood cs) = FEntries res /\
  time_order order (received cs) /\ Forall2 (shows m) order res /\
  exists o1 r o2 e1 e e2, order = o1 ++ r :: o2 /\ res = e1 ++ e :: e2 /\ length e1 = length o1 /\ te_type (r_ev r) = COUNTER /\
  exists a, en_args e = Some a /\ mfind str_ltb (str "a") a = Some 2%Z /\
    value_at (sets m (r_pid r) (en_name e) (str "a")) (o1 ++ [r]) o2 = Some 1%Z.
Proof.
  exists names7, [two_threads], (fst (fill (stable_sort ts_ltb (fst (fwd names7 (received [two_threads]) []))))), (order_of names7 (received [two_threads])).
  pose proof two_threads_good as HG. pose proof (goods_propers _ HG) as HP.
  split; [exact HG|]. split; [now apply finish_good|]. split; [now apply order_time|]. split; [now apply order_shows|].
  exists [(7%Z, 1%N, cnt 10000 1 1)], (7%Z, 2%N, cnt 20000 2 5), [(7%Z, 1%N, cnt 30000 1 2)].
  eexists [_], _, [_]. split; [vm_compute; reflexivity|]. split; [vm_compute; reflexivity|]. split; [reflexivity|]. split; [reflexivity|].
  eexists. split; [reflexivity|]. split; vm_compute; reflexivity.
Qed.

(** The later of two events does not list the series the earlier one set. *)
Definition swapped : nchunk := {| nc_pid := 7; nc_threads := [(1%N, [cnt 30000 1 2]); (2%N, [cnt 20000 2 5])] |}.
Lemma swapped_good : Forall good_chunk [swapped].
Proof. unfold swapped. goods. Qed.
Theorem counters_missing : exists m cs res order, Forall good_chunk cs /\ finish m (map CGood cs) = FEntries res /\
  time_order order (received cs) /\ Forall2 (shows m) order res /\
  exists o1 r o2 e1 e e2, order = o1 ++ r :: o2 /\ res = e1 ++ e :: e2 /\ length e1 = length o1 /\ te_type (r_ev r) = COUNTER /\
  exists a, en_args e = Some a /\ mfind str_ltb (str "b") a = None /\
    value_at (sets m (r_pid r) (en_name e) (str "b")) (o1 ++ [r]) o2 = Some 5%Z.
Proof.
  exists names7, [swapped], (fst (fill (stable_sort ts_ltb (fst (fwd names7 (received [swapped]) []))))), (order_of names7 (received [swapped])).
  pose proof swapped_good as HG. pose proof (goods_propers _ HG) as HP.
  split; [exact HG|]. split; [now apply finish_good|]. split; [now apply order_time|]. split; [now apply order_shows|].
  exists [(7%Z, 2%N, cnt 20000 2 5)], (7%Z, 1%N, cnt 30000 1 2), [].
  eexists [_], _, []. split; [vm_compute; reflexivity|]. split; [vm_compute; reflexivity|]. split; [reflexivity|]. split; [reflexivity|].
  eexists. split; [reflexivity|]. split; vm_compute; reflexivity.
Qed.

(** One bad chunk in front: the recording is empty, whatever follows. *)
Theorem bad_first m rest : finish m (CBad :: rest) = FEntries [].
Proof. reflexivity. Qed.
Theorem bad_loses : exists m cs res, Forall good_chunk cs /\ finish m (map CGood cs) = FEntries res /\ res <> [] /\ finish m (CBad :: map CGood cs) = FEntries [].
Proof.
  exists names7, [two_threads]. eexists. split; [apply two_threads_good|]. split; [now apply finish_good, two_threads_good|].
  split; [vm_compute; discriminate|apply bad_first].
Qed.
(** A counter event without a value. *)
Theorem null_value : exists m c, Forall (fun p => Forall (fun ev => (1 <= te_type ev <= 6)%N) (snd p)) (nc_threads c) /\ finish m [CGood c] = FUB.
Proof.
  exists names7, {| nc_pid := 7; nc_threads := [(1%N, [evt COUNTER 1000 1])] |}. split; [|reflexivity].
  repeat constructor; cbn; lia || discriminate.
Qed.

(** Fifty nanoseconds apart at a time of our days: shown in the order of the threads. *)
Definition close : nchunk :=
  {| nc_pid := 7; nc_threads := [(1%N, [evt SCOPE_ENTRY 1600000000000000100 3]); (2%N, [evt SCOPE_ENTRY 1600000000000000050 3])] |}.
Lemma close_good : Forall good_chunk [close].
Proof. unfold close. goods. Qed.
Theorem not_recorded_order : exists m cs res order, Forall good_chunk cs /\ finish m (map CGood cs) = FEntries res /\ Forall2 (shows m) order res /\
  time_order order (received cs) /\
  exists o1 a o2 b o3, order = o1 ++ a :: o2 ++ b :: o3 /\ (te_time (r_ev b) < te_time (r_ev a))%N.
Proof.
  exists names7, [close], (fst (fill (stable_sort ts_ltb (fst (fwd names7 (received [close]) []))))), (order_of names7 (received [close])).
  pose proof close_good as HG. pose proof (goods_propers _ HG) as HP.
  split; [exact HG|]. split; [now apply finish_good|]. split; [now apply order_shows|]. split; [now apply order_time|].
  exists [], (7%Z, 1%N, evt SCOPE_ENTRY 1600000000000000100 3), [], (7%Z, 2%N, evt SCOPE_ENTRY 1600000000000000050 3), [].
  split; [vm_compute; reflexivity|]. reflexivity.
Qed.

(** ** A recording that meets the hypotheses *)
Definition chunk1 : nchunk := {| nc_pid := 7; nc_threads := [(1%N, [evt SCOPE_ENTRY 5000 3; cnt 10000 1 1; evt SCOPE_EXIT 40000 3]); (2%N, [cnt 20000 2 5; evt MARK_PROCESS 20000 9])] |}.
Definition chunk2 : nchunk := {| nc_pid := 8; nc_threads := [(1%N, [cnt 15000 1 7])] |}.
Definition chunk3 : nchunk := {| nc_pid := 7; nc_threads := [(1%N, [cnt 50000 1 3])] |}.
Example case_good : Forall good_chunk [chunk1; chunk2; chunk3].
Proof. unfold chunk1, chunk2, chunk3. goods. Qed.
Example case_counter_in_order : StronglySorted (fun a b => shown_before b a = false) (filter (is_counter names7 7 (str "m")) (received [chunk1; chunk2; chunk3])).
Proof.
  replace (filter (is_counter names7 7 (str "m")) (received [chunk1; chunk2; chunk3]))
    with [(7%Z, 1%N, cnt 10000 1 1); (7%Z, 2%N, cnt 20000 2 5); (7%Z, 1%N, cnt 50000 1 3)] by (vm_compute; reflexivity).
  repeat (apply SSorted_cons || apply SSorted_nil || apply Forall_cons || apply Forall_nil); vm_compute; reflexivity.
Qed.
Example case_result : exists res, finish names7 (map CGood [chunk1; chunk2; chunk3]) = FEntries res /\
  map (fun e => (en_ph e, en_pid e, en_tid e, en_s e, en_args e)) res =
  [("B"%char, 7%Z, 1%N, None, None);
   ("C"%char, 7%Z, 1%N, None, Some [(str "a", 1%Z); (str "b", 5%Z)]);
   ("C"%char, 8%Z, 1%N, None, Some [(str "count", 7%Z)]);
   ("C"%char, 7%Z, 2%N, None, Some [(str "a", 1%Z); (str "b", 5%Z)]);
   ("i"%char, 7%Z, 2%N, Some "p"%char, None);
   ("E"%char, 7%Z, 1%N, None, None);
   ("C"%char, 7%Z, 1%N, None, Some [(str "a", 3%Z); (str "b", 5%Z)])].
Proof. eexists. split; [vm_compute; reflexivity|]. vm_compute. reflexivity. Qed.
