(** The refutation of C86 and concrete cases. *)
From Coq Require Import String List NArith ZArith Ascii Bool Lia.
Import ListNotations.
From Verif Require Import Str_model Json_model Program_model Program_spec Program_proofs.

Lemma program_fails :
  (forall works n rest, (0 < Z.of_N n < 2147483648)%Z -> n <> 9222%N ->
     (exists t l, main works (dump_nat n :: rest) = Runs (Z.of_N n) t l) /\ ~ serves_on (Z.of_N n) (main works (dump_nat n :: rest))) /\
  (forall works p session, works p = false -> exists t, py_main works (Some p) session = Runs p t None) /\
  (forall works, works default_port = false -> exists t, main works [] = Runs 9222 t None).
Proof.
  split; [|split].
  - intros works n rest H N. split; [now apply program_announces|]. intros K. apply program_never in K; [|exact H]. lia.
  - intros works p session W. unfold py_main, server_start. rewrite W. eexists. reflexivity.
  - intros works W. unfold main; cbv zeta. cbn [Z.eqb]. unfold server_start. rewrite W. eexists. reflexivity.
Qed.

Definition text := list_ascii_of_string.
Definition anywhere (_ : Z) : bool := true.
Example port_8080 : main anywhere [text "8080"; text "my_session"] =
  Runs 8080 [text "lttng"; text "view"; text "my_session"; text "-e"; viewer] (Some 9222%Z).
Proof. vm_compute. reflexivity. Qed.
Example port_help : main anywhere [text "--help"] = Usage /\ read_number (text "--help") = None.
Proof. split; vm_compute; reflexivity. Qed.
Example port_host : main anywhere [text " 9222x"; text "net://localhost/host/eagle/s"] =
  Runs 9222 [text "babeltrace"; text "--clock-seconds"; text "--clock-gmt"; text "--no-delta"; text "--input-format=lttng-live"; text "net://localhost/host/eagle/s"] (Some 9222%Z).
Proof. vm_compute. reflexivity. Qed.
Example python_8080 : exists t, py_main anywhere (Some 8080%Z) None = Runs 8080 t (Some 8080%Z).
Proof. eexists. vm_compute. reflexivity. Qed.
(** Beyond the range of the theorems: 4294967296 is cut to 0. *)
Example port_large : main anywhere [text "4294967296"] = Usage /\ main anywhere [text "-1"] = Runs (-1) (command default_path) (Some 9222%Z).
Proof. split; vm_compute; reflexivity. Qed.
