(** C118: the command line of [trace_configure]. *)
From Coq Require Import String List ZArith.
Import ListNotations.
From Verif Require Import Commands_model Commands_spec CmdLine_model CmdLine_spec CmdLine_proofs CmdLine_witness.
Open Scope string_scope.

(** Partial: a state with the numbers right after it, and the option any number of times before and after them, is carried out as written; the last option counts.
    What is then done to the processes is C80. Missing: options between the state and the numbers ([C118_places]), numbers without a state ([C118_first]). *)
Theorem C118_partial : forall int o1 u1 o2 u2 b ns zs l, options_u o1 u1 -> options_u o2 u2 -> numerals int ns zs ->
  command int (o1 ++ word_for b :: ns ++ o2) l = trace_configure {| ar_state := b; ar_unmatched := last_of u1 u2; ar_ids := zs |} l.
Proof. exact carried. Qed.
Print Assumptions C118_partial.

(** So is one with [--] before the state or right after it, whatever the words for the numbers look like. *)
Theorem C118_dashes : forall int o u b ns zs l, options_u o u -> ~ In "--" ns -> Forall2 (fun w z => int w = Some z) ns zs ->
  command int (o ++ "--" :: word_for b :: ns) l = trace_configure {| ar_state := b; ar_unmatched := u; ar_ids := zs |} l /\
  command int (o ++ word_for b :: "--" :: ns) l = trace_configure {| ar_state := b; ar_unmatched := u; ar_ids := zs |} l.
Proof. exact carried_dashes. Qed.
Print Assumptions C118_dashes.

(** Whatever the words are: if the command runs, what it is asked for was written. *)
Theorem C118_written : forall int ws a, parse int ws = Runs a -> written int ws a.
Proof. exact runs_written. Qed.
Print Assumptions C118_written.

(** Whatever the words are, and whatever goes wrong: if none begins like the option, each process is left as it was, or ends up as written. *)
Theorem C118_unlisted : forall int ws l, (forall w, In w ws -> ~ like_u w) -> Forall reachable l ->
  (forall s junk w, In s l -> sv_tell s = TooLate junk -> In w ws -> int w <> Some junk) ->
  Forall2 (fun s s' => s' = s \/ exists a, written int ws a /\ ar_unmatched a = None /\ carried_out a s s') l (fst (command int ws l)).
Proof. exact unlisted. Qed.
Print Assumptions C118_unlisted.

(** If neither state is written either, nothing is changed anywhere. *)
Theorem C118_query : forall int ws l, (forall w, In w ws -> ~ like_u w) -> ~ In "on" ws -> ~ In "off" ws -> fst (command int ws l) = l.
Proof. exact only_asks. Qed.
Print Assumptions C118_query.

(** Always: with other words both before and after an option, nothing is done. *)
Theorem C118_places : forall int o1 u1 p1 o u p2 rest l, options_u o1 u1 -> options_u o (Some u) -> p1 <> [] -> p2 <> [] -> Forall plain p1 -> Forall plain p2 ->
  command int (o1 ++ p1 ++ o ++ p2 ++ rest) l = (l, None).
Proof. exact stops_two. Qed.
Print Assumptions C118_places.

(** Always: if the first word that is not of an option is not a state, nothing is done. *)
Theorem C118_first : forall int o1 u1 w rest l, options_u o1 u1 -> plain w -> w <> "on" -> w <> "off" -> command int (o1 ++ w :: rest) l = (l, None).
Proof. exact stops_first. Qed.
Print Assumptions C118_first.

(** Always: with a word that asks for help, or is no option of the command, anywhere before a [--], nothing is done. *)
Theorem C118_help : forall int x w y l, ~ In "--" x -> asks_help w \/ unknown w -> command int (x ++ w :: y) l = (l, None).
Proof. exact stops_help. Qed.
Print Assumptions C118_help.

(** Always: with a value of the option that is no state, even of one that would not count, nothing is done. *)
Theorem C118_value : forall int x o y l, ~ In "--" x -> bad_option o -> command int (x ++ o ++ y) l = (l, None).
Proof. exact stops_bad. Qed.
Print Assumptions C118_value.

(** Refuted: command lines that are refused though all that is needed is there. *)
Theorem C118_refuted : forall l,
  command int10 ["on"; "-u"; "off"; "7"] l = (l, None) /\ command int10 ["7"] l = (l, None) /\
  command int10 ["-u"; "7"] l = (l, None) /\ command int10 ["-u"; "off"; "7"] l = (l, None).
Proof. exact refused. Qed.
Print Assumptions C118_refuted.

(** Refuted: the order matters. An option without a value takes the state that follows it, and switches all processes; after the state it does nothing. *)
Theorem C118_option_refuted : forall l, command int10 ["-u"; "on"] l = trace_configure {| ar_state := false; ar_unmatched := Some true; ar_ids := [] |} l /\
  command int10 ["on"; "-u"] l = trace_configure {| ar_state := true; ar_unmatched := None; ar_ids := [] |} l.
Proof. exact taken_by_option. Qed.
Print Assumptions C118_option_refuted.
