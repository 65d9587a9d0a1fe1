(** C99: waiting for an answer from Python. *)
From Coq Require Import List ZArith Bool.
From Verif Require Import PyWait_model PyWait_spec PyWait_proofs PyWait_witness.
Import ListNotations.
Open Scope Z_scope.

(** Whatever threads call and whenever the answer comes: as long as nothing undefined is done, every call returns what it should; and only one gets the answer. *)
Theorem C99_right : forall t0 h s, run h (start t0) = Next s ->
  (forall e, List.In e (log s) -> right (set_at h t0) e) /\ (length (filter gives (log s)) <= 1)%nat.
Proof. exact answers_right. Qed.
Print Assumptions C99_right.

(** With one caller at a time, until something was returned, and limits the clock can take, nothing undefined is done. *)
Theorem C99_safe_partial : forall t0 h, along modest h (start t0) -> along alone h (start t0) -> run h (start t0) <> Bad.
Proof. exact never_bad. Qed.
Print Assumptions C99_safe_partial.

(** A call under way can return: with the answer when it is there, an error when it is lost, None once its time is over. *)
Theorem C99_returns : forall t0 h s t c l, run h (start t0) = Next s -> th s t = PyWait_model.In c l -> taken s = false ->
  (forall d, value s = Answer d -> exists s', run [Ready t; Get t] s = Next s' /\ exists e, log s' = log s ++ [e] /\ en_thread e = t /\ en_result e = RData d) /\
  (value s = Lost -> exists s', run [Ready t; Get t] s = Next s' /\ exists e, log s' = log s ++ [e] /\ en_thread e = t /\ en_result e = RError) /\
  (value s = Waiting -> exists d s', run (match d with Some z => [Pass z; TimeOut t] | None => [TimeOut t] end) s = Next s' /\
     exists e, log s' = log s ++ [e] /\ en_thread e = t /\ en_result e = RNone).
Proof. exact returns. Qed.
Print Assumptions C99_returns.

(** Once a call has returned the answer, every further call is undefined. *)
Theorem C99_again_refuted : (exists s, run h_once (start 0) = Next s /\ map en_result (log s) = [RData 5]) /\
  (forall t0 h s t l, run h (start t0) = Next s -> existsb gives (log s) = true -> th s t = Out -> run (h ++ [Call t l]) (start t0) = Bad).
Proof. exact again_refuted. Qed.
Print Assumptions C99_again_refuted.

(** Two threads that wait for the same answer, each once. *)
Theorem C99_both_refuted : exists h, along modest h (start 0) /\ run h (start 0) = Bad /\
  (forall t, (length (filter (fun a => match a with Call u _ => Nat.eqb u t | _ => false end) h) <= 1)%nat).
Proof. exact both_refuted. Qed.
Print Assumptions C99_both_refuted.

(** A limit of 317 years; and any limit that the clock cannot take, whenever it is given. *)
Theorem C99_limit_refuted : (exists h ns, along alone h (start 0) /\ h = [Call 0 (For ns)] /\ ns = 10000000000 * second /\ run h (start 0) = Bad) /\
  (forall t0 h s t ns, run h (start t0) = Next s -> th s t = Out -> ~ (- 2 ^ 63 <= now s + ns < 2 ^ 63) -> run (h ++ [Call t (For ns)]) (start t0) = Bad).
Proof. exact limit_refuted. Qed.
Print Assumptions C99_limit_refuted.
