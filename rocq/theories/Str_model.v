(** The parts of [std::string] and of the C library's number reading that the parsers of text use. Positions are natural numbers, and
    [None] stands for [npos]. Arithmetic on positions wraps around in [size_t]; [npos + k] is [k - 1], and a difference below zero is a number
    larger than any length. *)
From Coq Require Import List Arith NArith ZArith Ascii Bool.
Import ListNotations.

Definition str := list ascii.
Definition pos := option nat.
(** [p + k] for a result of [find]; [k] is at least 1. *)
Definition plus (p : pos) (k : nat) : nat := match p with Some n => n + k | None => k - 1 end.
(** [a - b] as a count of characters. *)
Definition minus (a b : nat) : pos := if a <? b then None else Some (a - b).

(** [s] starts with [p]. *)
Fixpoint starts (p s : str) : bool :=
  match p, s with
  | [], _ => true
  | a :: p', b :: s' => Ascii.eqb a b && starts p' s'
  | _, [] => false
  end.
(** The first place at or after [i] where [p] is; [find(p, from)]. *)
Fixpoint find_at (p s : str) (i : nat) : pos :=
  match s with
  | [] => match p with [] => Some i | _ => None end
  | _ :: s' => if starts p s then Some i else find_at p s' (S i)
  end.
Definition find_from (p s : str) (from : nat) : pos := if length s <? from then None else find_at p (skipn from s) from.
(** [rfind(c)]: the last place of a character; [rfind(c, upto)]: the last one at or before [upto]. *)
Fixpoint rfind_char (c : ascii) (s : str) : pos :=
  match s with
  | [] => None
  | a :: s' => match rfind_char c s' with
               | Some n => Some (S n)
               | None => if Ascii.eqb a c then Some 0 else None
               end
  end.
Definition rfind_upto (c : ascii) (s : str) (upto : nat) : pos := rfind_char c (firstn (S upto) s).
(** [substr(pos, count)]; [None]: [std::out_of_range]. The count [None] is as large as can be. *)
Definition substr (s : str) (p : nat) (count : pos) : option str :=
  if length s <? p then None
  else Some (match count with Some n => firstn n (skipn p s) | None => skipn p s end).

(** [isspace] in the C locale. *)
Definition is_space (c : ascii) : bool := let n := N_of_ascii c in (n =? 32)%N || ((9 <=? n)%N && (n <=? 13)%N).
Definition digit (c : ascii) : option N := let n := N_of_ascii c in if ((48 <=? n) && (n <=? 57))%N then Some (n - 48)%N else None.
Fixpoint skip_spaces (s : str) : str := match s with c :: s' => if is_space c then skip_spaces s' else s | [] => [] end.
Definition sign (s : str) : bool * str :=
  match s with
  | c :: s' => if Ascii.eqb c "-" then (true, s') else if Ascii.eqb c "+" then (false, s') else (false, s)
  | [] => (false, [])
  end.
(** The value of the digits at the start, if there are any. *)
Fixpoint digits (s : str) (acc : N) : N :=
  match s with
  | c :: s' => match digit c with Some d => digits s' (10 * acc + d)%N | None => acc end
  | [] => acc
  end.
Definition magnitude (s : str) : option N :=
  match s with c :: _ => match digit c with Some _ => Some (digits s 0) | None => None end | [] => None end.
(** Optional white space, an optional sign, digits (base 10); C strings end at a zero character. *)
Fixpoint c_str (s : str) : str := match s with c :: s' => if (N_of_ascii c =? 0)%N then [] else c :: c_str s' | [] => [] end.
Definition read_number (s : str) : option (bool * N) :=
  let (neg, s') := sign (skip_spaces (c_str s)) in option_map (fun v => (neg, v)) (magnitude s').

Definition two64 : N := 18446744073709551616.
(** [std::stoull]. *)
Inductive number_result := NValue (v : N) | NInvalid | NOutOfRange.
Definition stoull (s : str) : number_result :=
  match read_number s with
  | None => NInvalid
  | Some (neg, v) => if (two64 <=? v)%N then NOutOfRange else NValue (if neg then (two64 - v) mod two64 else v)%N
  end.
(** [std::strtoul]: no number is zero, too large a number is the largest one. *)
Definition strtoul (s : str) : N := match stoull s with NValue v => v | NInvalid => 0 | NOutOfRange => two64 - 1 end.
(** [std::atoi] of glibc: [strtol] cut to 32 bit; here only whether the result is zero. *)
Definition two63 : N := 9223372036854775808.
Definition atoi_is_zero (s : str) : bool :=
  match read_number s with
  | None => true
  | Some (neg, v) =>
      if neg then if (v <=? two63)%N then (v mod 4294967296 =? 0)%N else true
      else if (v <? two63)%N then (v mod 4294967296 =? 0)%N else false
  end.
