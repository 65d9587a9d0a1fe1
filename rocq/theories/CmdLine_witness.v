(** Concrete command lines for C118. *)
From Coq Require Import String Ascii List ZArith Bool.
Import ListNotations.
From Verif Require Import Commands_model Commands_spec Commands_witness CmdLine_model CmdLine_spec CmdLine_proofs.
Open Scope string_scope.

(** Numbers in decimal, with a sign or without. *)
Fixpoint dec (s : string) (n : Z) : option Z :=
  match s with
  | EmptyString => Some n
  | String a r => if digit a then dec r (n * 10 + Z.of_nat (nat_of_ascii a - 48))%Z else None
  end.
Definition int10 (s : string) : option Z :=
  match s with
  | EmptyString => None
  | String a r => if is_char a dash then match r with EmptyString => None | _ => option_map Z.opp (dec r 0%Z) end else dec s 0%Z
  end.

Example good_options : options_u ["--unmatched-pid=on"; "-u"; "off"] (Some false).
Proof.
  apply (more_options ["--unmatched-pid=on"] true ["-u"; "off"] (Some false)); [exact (u_eq true)|].
  exact (more_options ["-u"; "off"] false [] None (u_short false) no_options).
Qed.
Example good_numerals : numerals int10 ["7"; "13"] [7%Z; 13%Z].
Proof. constructor; [|constructor; [|constructor]]; (split; [left; intros r E; discriminate E|reflexivity]). Qed.
Example good_negative : numerals int10 ["-40"; "13"] [(-40)%Z; 13%Z].
Proof.
  constructor; [split; [right|reflexivity]|constructor; [split; [left; intros r E; discriminate E|reflexivity]|constructor]].
  exists "4"%char, "0". split; [reflexivity|]. repeat constructor.
Qed.
Example good_unknown : unknown "-x" /\ bad_option ["-u"; "7"] /\ bad_option ["--unmatched-pid="].
Proof.
  split; [|split].
  - exists "x"%char, "". split; [reflexivity|]. split; [intros [E|[E|[E|[E|[]]]]]; discriminate E|]. split; [cbv; intros (_ & L); repeat (apply le_S_n in L); inversion L|].
    repeat constructor; intros [E|[E|[]]]; discriminate E.
  - apply bad_short; [intros r E|intros E|intros E]; discriminate E.
  - apply (bad_eq ""); intros E; discriminate E.
Qed.
Example good_dashes : ~ In "--" ["-7"; "13"] /\ Forall2 (fun w z => int10 w = Some z) ["-7"; "13"] [(-7)%Z; 13%Z].
Proof. split; [intros [E|[E|[]]]; discriminate E|repeat constructor]. Qed.
Example good_line : parse int10 ["--unmatched-pid=on"; "-u"; "off"; "on"; "7"; "13"] = Runs {| ar_state := true; ar_unmatched := Some false; ar_ids := [7%Z; 13%Z] |}.
Proof. reflexivity. Qed.
(** Other ways of writing: shortened, joined, a negative number, after [--]. *)
Example other_lines :
  parse int10 ["--un=off"; "on"; "-7"] = Runs {| ar_state := true; ar_unmatched := Some false; ar_ids := [(-7)%Z] |} /\
  parse int10 ["off"; "7"; "-uon"] = Runs {| ar_state := false; ar_unmatched := Some true; ar_ids := [7%Z] |} /\
  parse int10 ["on"; "--"; "7"; "8"] = Runs {| ar_state := true; ar_unmatched := None; ar_ids := [7%Z; 8%Z] |} /\
  parse int10 ["--"; "on"; "7"] = Runs {| ar_state := true; ar_unmatched := None; ar_ids := [7%Z] |} /\
  parse int10 ["on"; "7"; "--"; "-u"] = Stops /\ parse int10 ["on"; "7"; "--help"] = Stops /\ parse int10 ["on"; "x"] = Stops /\ parse int10 ["-x"; "on"; "7"] = Stops.
Proof. repeat split. Qed.

(** In the usage that is printed the option, the state and the numbers are each in brackets, that is, each can be left out. All of these are refused. *)
Lemma refused : forall l,
  command int10 ["on"; "-u"; "off"; "7"] l = (l, None) /\       (* the numbers after the option *)
  command int10 ["7"] l = (l, None) /\                          (* numbers, but no state, to see how these processes are set *)
  command int10 ["-u"; "7"] l = (l, None) /\ command int10 ["-u"; "off"; "7"] l = (l, None).
Proof. intros l. repeat split. Qed.
(** The state meant for what is listed is taken by the option, which stands before it without a value of its own: the processes that are not listed are switched, and no message. *)
Lemma taken_by_option : forall l, command int10 ["-u"; "on"] l = trace_configure {| ar_state := false; ar_unmatched := Some true; ar_ids := [] |} l /\
  command int10 ["on"; "-u"] l = trace_configure {| ar_state := true; ar_unmatched := None; ar_ids := [] |} l.
Proof. intros l. split; reflexivity. Qed.
Example taken_switches : map switch (fst (command int10 ["-u"; "off"] [s7; s9])) = [false; false] /\ map switch (fst (command int10 ["off"; "-u"] [s7; s9])) = [true; true] /\
  map switch (fst (command int10 ["-u"; "off"; "on"; "7"] [s7; s9])) = [true; false].
Proof. vm_compute. auto. Qed.
Example not_like : forall w, In w ["off"; "7"] -> ~ like_u w.
Proof. intros w [<-|[<-|[]]] [[r E]|[r E]]; discriminate E. Qed.
