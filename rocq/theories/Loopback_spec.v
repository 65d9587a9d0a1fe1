(** Vocabulary for C10 and C51. *)
From Coq Require Import List Arith NArith Ascii Bool.
Import ListNotations.
From Verif Require Import Protocol_model UnixSystem_model Loopback_model.

Definition l_reached (s : lstate) : Prop := exists ls, lrun ls lo0 = LNext s.

(** The answers of the endpoint to request [r]: one entry for each time it was executed. *)
Definition executions (r : nat) (s : lstate) : list (bytes * bytes * option bytes) :=
  map (fun e => (snd (fst (fst e)), snd (fst e), snd e)) (filter (fun e => fst (fst (fst e)) =? r) (lo_calls s)).

(** Request [r] has gone through a complete pass of the worker. *)
Definition passed (s : lstate) (r : nat) : Prop := r < length (lo_reqs s) /\ ~ In r (lo_queue s).

Definition request_numbers (s : lstate) : list nat := map (fun e => fst (fst (fst e))) (lo_calls s).

Fixpoint increasing (l : list nat) : Prop :=
  match l with
  | [] => True
  | x :: l' => match l' with [] => True | y :: _ => x < y end /\ increasing l'
  end.

(** What a client gets of the broadcasts of a server. *)
Definition got (i : nat) (log : list (nat * bytes * bytes)) : list (bytes * bytes) :=
  map (fun e => (snd (fst e), snd e)) (filter (fun e => fst (fst e) =? i) log).

(** A schedule in which nobody connects between the beginning of an iteration and its end ([idle]: no iteration so far). *)
Fixpoint calm (s : kstate) (ls : list klabel) : Prop :=
  match ls with
  | [] => True
  | l :: ls' => (l = KConnect -> k_iter s = None) /\ match kstep l s with KNextS s' => calm s' ls' | _ => True end
  end.
