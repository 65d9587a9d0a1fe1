(** C86: the server listens on the port it is given, 9222 without one, and reads the LTTng session it is given. *)
From Coq Require Import String List NArith ZArith Ascii Bool.
Import ListNotations.
From Verif Require Import Str_model Json_model Program_model Program_spec Program_proofs Program_witness.

(** The program without a port, or with 9222, listens there. *)
Theorem C86_partial : forall works path, works default_port = true -> forall args, args = [] \/ args = [dump_nat 9222] \/ args = [dump_nat 9222; path] ->
  serves_on 9222 (main works args).
Proof. exact program_default. Qed.
(** Every port is announced, and the session or path reaches the tool as it is. *)
Theorem C86_announced : forall works n rest, (0 < Z.of_N n < 2147483648)%Z -> exists t l, main works (dump_nat n :: rest) = Runs (Z.of_N n) t l.
Proof. exact program_announces. Qed.
Theorem C86_path : forall works n path rest, (0 < Z.of_N n < 2147483648)%Z -> tool_gets path (main works (dump_nat n :: path :: rest)).
Proof. exact program_path. Qed.
(** What is no number gives the usage. *)
Theorem C86_usage : forall works a rest, read_number a = None -> main works (a :: rest) = Usage.
Proof. exact program_usage. Qed.
(** The Python command listens on the port it is given, or on 9222, and passes the session on. *)
Theorem C86_python : forall works p session, works p = true -> serves_on p (py_main works (Some p) session).
Proof. exact python_port. Qed.
Theorem C86_python_default : forall works session, works default_port = true -> serves_on 9222 (py_main works None session).
Proof. exact python_default. Qed.
Theorem C86_python_path : forall works p path, tool_gets path (py_main works p (Some path)).
Proof. exact python_path. Qed.
(** The program never listens on any other port than 9222, though it announces every one; and a port that is taken is not
    reported, by either of them. *)
Theorem C86_refuted :
  (forall works n rest, (0 < Z.of_N n < 2147483648)%Z -> n <> 9222%N ->
     (exists t l, main works (dump_nat n :: rest) = Runs (Z.of_N n) t l) /\ ~ serves_on (Z.of_N n) (main works (dump_nat n :: rest))) /\
  (forall works p session, works p = false -> exists t, py_main works (Some p) session = Runs p t None) /\
  (forall works, works default_port = false -> exists t, main works [] = Runs 9222 t None).
Proof. exact program_fails. Qed.

Print Assumptions C86_partial.
Print Assumptions C86_announced.
Print Assumptions C86_path.
Print Assumptions C86_usage.
Print Assumptions C86_python.
Print Assumptions C86_python_default.
Print Assumptions C86_python_path.
Print Assumptions C86_refuted.
