(** What C118 is stated with: command lines as a user writes them. *)
From Coq Require Import String Ascii List ZArith Bool.
Import ListNotations.
From Verif Require Import Commands_model.
Open Scope string_scope.

Definition word_for (b : bool) : string := if b then "on" else "off".
(** The option [-u], as the help describes it, in its four ways of writing. *)
Inductive option_u (b : bool) : list string -> Prop :=
  | u_short : option_u b ["-u"; word_for b]
  | u_long : option_u b ["--unmatched-pid"; word_for b]
  | u_eq : option_u b ["--unmatched-pid=" ++ word_for b]
  | u_joined : option_u b ["-u" ++ word_for b].
(** Any number of them: the last one counts. *)
Inductive options_u : list string -> option bool -> Prop :=
  | no_options : options_u [] None
  | more_options o b os u : option_u b o -> options_u os u -> options_u (o ++ os)%list (match u with Some v => Some v | None => Some b end).
Definition last_of (a b : option bool) : option bool := match b with Some v => Some v | None => a end.
(** A word that cannot be taken for an option: it does not begin with a dash. *)
Definition plain (w : string) : Prop := forall r, w <> String "-"%char r.
(** A negative whole number: a dash, and at least one digit, and nothing else. *)
Inductive all_digits : string -> Prop :=
  | no_digit : all_digits ""
  | one_digit a r : 48 <= nat_of_ascii a <= 57 -> all_digits r -> all_digits (String a r).
Definition negative (w : string) : Prop := exists a r, w = String "-"%char (String a r) /\ all_digits (String a r).
(** Such words that [int] takes for numbers. *)
Definition numerals (int : string -> option Z) (ws : list string) (zs : list Z) : Prop := Forall2 (fun w z => (plain w \/ negative w) /\ int w = Some z) ws zs.
(** [v] stands at the end of [w]. *)
Definition ends_in (w v : string) : Prop := exists p, w = p ++ v.
(** The word begins like the option. *)
Definition like_u (w : string) : Prop := (exists r, w = "-u" ++ r) \/ (exists r, w = "--u" ++ r).
(** What the arguments ask for is written: each number is a word; the state is a word, and stands before them; the state for the other processes is the end of a word
    that begins like the option, or follows such a word. *)
Definition written (int : string -> option Z) (ws : list string) (a : args) : Prop :=
  (ar_ids a <> [] -> exists x y, ws = (x ++ word_for (ar_state a) :: y)%list /\ forall z, In z (ar_ids a) -> exists w, In w y /\ int w = Some z) /\
  (forall b, ar_unmatched a = Some b -> exists x w y, ws = (x ++ w :: y)%list /\ like_u w /\ (ends_in w (word_for b) \/ exists y', y = word_for b :: y')).
(** A word that asks for help, and one that is no option of the command though it looks like one: a dash and a letter or sign other than [u], [h], a digit, a dot or
    a dash, and no space or equals sign in it. *)
Definition asks_help (w : string) : Prop := w = "-h" \/ w = "--help".
Inductive without (cs : list ascii) : string -> Prop :=
  | wo_nil : without cs ""
  | wo_cons a r : ~ In a cs -> without cs r -> without cs (String a r).
Definition unknown (w : string) : Prop :=
  exists c r, w = String "-"%char (String c r) /\ ~ In c ["u"; "h"; "."; "-"]%char /\ ~ (48 <= nat_of_ascii c <= 57) /\ without [" "; "="]%char w.
(** The option with a value that is neither of the two states. *)
Inductive bad_option : list string -> Prop :=
  | bad_short v : plain v -> v <> "on" -> v <> "off" -> bad_option ["-u"; v]
  | bad_long v : plain v -> v <> "on" -> v <> "off" -> bad_option ["--unmatched-pid"; v]
  | bad_eq v : v <> "on" -> v <> "off" -> bad_option ["--unmatched-pid=" ++ v].
