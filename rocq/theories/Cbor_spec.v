(** What can be in a message: C73. *)
From Coq Require Import List NArith ZArith.
Import ListNotations.
From Verif Require Import OMap_model TraceEvent_model.

(** An event as [StaticTraceEvent] can hold it, tracepoint_collector_native.h lines 48-61: 64, 32 and 8 bits, and a 64-bit number. *)
Record fits (e : tev) : Prop := {
  ft_time : (te_time e < 2 ^ 64)%N;
  ft_id : (te_id e < 2 ^ 32)%N;
  ft_type : (te_type e < 2 ^ 8)%N;
  ft_value : forall z, te_value e = Some z -> (- 2 ^ 63 <= z < 2 ^ 63)%Z }.
(** The events of threads, as a [std::map] from 64-bit thread numbers to vectors of events. *)
Fixpoint ascending_from (lo : N) (ths : list (N * list tev)) : Prop :=
  match ths with
  | [] => True
  | (tid, _) :: ths' => (lo <= tid)%N /\ ascending_from (tid + 1) ths'
  end.
Record event_map (ths : list (N * list tev)) : Prop := {
  em_order : ascending_from 0 ths;
  em_size : (N.of_nat (length ths) < 2 ^ 64)%N;
  em_threads : Forall (fun p => (fst p < 2 ^ 64)%N /\ (N.of_nat (length (snd p)) < 2 ^ 64)%N /\ Forall fits (snd p)) ths }.
(** A process number. *)
Definition process_number (pid : Z) : Prop := (0 < pid < 2 ^ 31)%Z.
