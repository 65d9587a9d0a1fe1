(** The command line of [trace_configure]: scalopus_python/scalopus/__main__.py lines 272-293, and what [argparse] of Python 3.5 to 3.11 makes of it; the command
    itself is [Commands_model.trace_configure] (lines 160-226).
    The words are those after [trace_configure]. Simplifications: help, a message about the usage and an unknown option have the same outcome, [Stops]: something
    is printed, the program ends, and nothing has been asked of any process; [int] of Python is a parameter; a digit is one of 0 to 9. *)
From Coq Require Import String Ascii List ZArith Bool.
Import ListNotations.
From Verif Require Import Commands_model.
Open Scope string_scope.

(** ** What [argparse] takes a word for *)
Inductive tok :=
  | A (w : string)                 (* an argument *)
  | D                              (* the first [--]: what follows are arguments *)
  | U (e : option string)          (* the option [-u], with a value in the same word or not *)
  | X.                             (* help, an unknown option, or one that could be several: the program ends *)

Definition dash : ascii := "-"%char.
Definition is_char (a b : ascii) : bool := Ascii.eqb a b.
Definition digit (a : ascii) : bool := let n := nat_of_ascii a in Nat.leb 48 n && Nat.leb n 57.
Fixpoint digits (s : string) : bool := match s with EmptyString => true | String a r => digit a && digits r end.
(** Split at the first [=]. *)
Fixpoint split_eq (s : string) : option (string * string) :=
  match s with
  | EmptyString => None
  | String a r => if is_char a "="%char then Some (EmptyString, r)
                  else match split_eq r with Some (o, v) => Some (String a o, v) | None => None end
  end.
(** Does the text match [\d*\.\d+]? *)
Fixpoint decimal (s : string) : bool :=
  match s with
  | EmptyString => false
  | String a r => if is_char a "."%char then negb (String.eqb r "") && digits r else digit a && decimal r
  end.
Fixpoint spaced (s : string) : bool := match s with EmptyString => false | String a r => is_char a " "%char || spaced r end.

(** The options of the command: lines 276-278, and [-h], which [add_parser] adds. *)
Definition is_u (o : string) : bool := String.eqb o "-u" || String.eqb o "--unmatched-pid".
Definition is_h (o : string) : bool := String.eqb o "-h" || String.eqb o "--help".
(** A long option may be shortened as long as it is clear which one is meant. *)
Definition short_for (p : string) (v : option string) : tok :=
  match prefix p "--unmatched-pid", prefix p "--help" with
  | true, false => U v
  | _, _ => X                      (* help, several, or none *)
  end.
(** [_parse_optional] and [_get_option_tuples]. *)
Definition classify (w : string) : tok :=
  match w with
  | EmptyString => A w
  | String c r =>
      if negb (is_char c dash) then A w
      else if is_u w then U None
      else if is_h w then X
      else match r with
           | EmptyString => A w
           | String c2 rest =>
               let long (p : string) (v : option string) :=
                 if prefix p "--unmatched-pid" || prefix p "--help" then short_for p v else if spaced w then A w else X in
               match split_eq w with
               | Some (o, v) =>
                   if is_u o then U (Some v) else if is_h o then X
                   else if is_char c2 dash then long o (Some v)
                   else if is_char c2 "u"%char then U (Some rest) else if is_char c2 "h"%char then X
                   else if spaced w then A w else X
               | None =>
                   if is_char c2 dash then long w None
                   else if is_char c2 "u"%char then U (Some rest) else if is_char c2 "h"%char then X
                   else if (digits r || decimal r) then A w      (* a negative number *)
                   else if spaced w then A w else X
               end
           end
  end.
Fixpoint classify_all (ws : list string) : list tok :=
  match ws with
  | [] => []
  | w :: r => if String.eqb w "--" then D :: map A r else classify w :: classify_all r
  end.

(** ** [_parse_known_args] for one option with [nargs="?"] and the arguments [state] ([nargs="?"]) and [id] ([nargs="*"]) *)
Record pst := {
  p_want : bool;                         (* the last word was [-u]: it takes the next one, if that is an argument *)
  p_run : list tok;                      (* arguments since the last option *)
  p_taken : option (list tok * list tok);(* the words for [state] and for [id]: both are filled by the first arguments that are met, or at the end *)
  p_u : option string                    (* the last value of [-u] *)
}.
Definition pst0 : pst := {| p_want := false; p_run := []; p_taken := None; p_u := None |}.

(** The patterns of the two arguments (for [state]: an argument or none, with any [--] around it; for [id]: all the rest) on the words of a run; there is at most one [D]. *)
Definition share (run : list tok) : list tok * list tok :=
  match run with
  | D :: t :: r => ([D; t], r)
  | t :: D :: r => ([t; D], r)
  | t :: r => ([t], r)
  | [] => ([], [])
  end.
(** The arguments before an option, or before the end, are used; [None]: there are some, but [state] and [id] have got theirs ("unrecognized arguments"). *)
Definition close (s : pst) : option pst :=
  match p_run s, p_taken s with
  | [], _ => Some s
  | run, None => Some {| p_want := p_want s; p_run := []; p_taken := Some (share run); p_u := p_u s |}
  | _, Some _ => None
  end.
Definition take (t : tok) (s : pst) : option pst :=
  match t with
  | A w => if p_want s
           then Some {| p_want := false; p_run := p_run s; p_taken := p_taken s; p_u := Some w |}
           else Some {| p_want := false; p_run := p_run s ++ [t]; p_taken := p_taken s; p_u := p_u s |}
  | D => Some {| p_want := false; p_run := p_run s ++ [t]; p_taken := p_taken s; p_u := p_u s |}
  | U e => match close s with
           | Some s' => Some {| p_want := match e with None => true | _ => false end; p_run := []; p_taken := p_taken s'; p_u := e |}
           | None => None
           end
  | X => None
  end.
Fixpoint takes (ts : list tok) (s : pst) : option pst :=
  match ts with [] => Some s | t :: r => match take t s with Some s' => takes r s' | None => None end end.

(** ** The values: [_get_values], [choices=['on', 'off']], [type=int] *)
Definition word (t : tok) : string := match t with A w => w | _ => "--" end.
(** The first [--] among the words of an argument is dropped. *)
Fixpoint undash (l : list string) : list string :=
  match l with [] => [] | w :: r => if String.eqb w "--" then r else w :: undash r end.
Definition on_off (w : string) : option bool := if String.eqb w "on" then Some true else if String.eqb w "off" then Some false else None.

(** The values of [-u] are checked one by one, though only the last one stays. *)
Fixpoint checked (want : bool) (ts : list tok) : bool :=
  match ts with
  | [] => true
  | A w :: r => if want then match on_off w with Some _ => checked false r | None => false end else checked false r
  | U (Some v) :: r => match on_off v with Some _ => checked false r | None => false end
  | U None :: r => checked true r
  | _ :: r => checked false r
  end.

Inductive outcome := Runs (a : args) | Stops.

Section Int.
Variable int : string -> option Z.       (* [int] of Python; [None]: [ValueError] *)
Fixpoint ints (l : list string) : option (list Z) :=
  match l with
  | [] => Some []
  | w :: r => match int w, ints r with Some z, Some zs => Some (z :: zs) | _, _ => None end
  end.
(** [parse_args], line 284. Without a word for [state] it is [None], which is not "on" (line 172). *)
Definition parse (ws : list string) : outcome :=
  let ts := classify_all ws in
  match takes ts pst0 with
  | None => Stops
  | Some s =>
      match close s with
      | None => Stops
      | Some s' =>
          if negb (checked false ts) then Stops else
          let '(st, is) := match p_taken s' with Some g => g | None => ([], []) end in
          let u := match p_u s' with Some w => on_off w | None => None end in
          match undash (map word st), ints (undash (map word is)) with
          | [], Some zs => Runs {| ar_state := false; ar_unmatched := u; ar_ids := zs |}
          | [w], Some zs => match on_off w with
                            | Some b => Runs {| ar_state := b; ar_unmatched := u; ar_ids := zs |}
                            | None => Stops
                            end
          | _, _ => Stops
          end
      end
  end.

(** Lines 284-293 for this command: the processes afterwards, and the report if there is one. *)
Definition command (ws : list string) (l : list server) : list server * option (nat * list line) :=
  match parse ws with Runs a => trace_configure a l | Stops => (l, None) end.
End Int.
