(** Python values and JSON: scalopus_python/lib/json_util.cpp lines 38-208, and the payloads of endpoints written in Python,
    scalopus_python/lib/scalopus_interface.cpp lines 42-79.
    The conversions of numbers and text are those of pybind11 and CPython (documented behaviour; not in /repo): text goes through strict UTF-8;
    [cast<std::int64_t>] throws for integers that do not fit; [cast<std::vector<std::uint8_t>>] of [bytes] takes the list of its bytes (releases of
    pybind11 from 2.5 on refuse this and throw).
    Simplifications: values without cycles and not so deep that the stack ends; no classes derived from the built-in ones; a value of
    a JSON parser that was told to discard it ([is_discarded]) is not modelled. *)
From Coq Require Import String List Arith NArith ZArith Ascii Bool.
Import ListNotations.
From Verif Require Import OMap_model Json_model.
Local Notation length := List.length.

(** A [str] is a sequence of code points; lone surrogates are allowed. *)
Definition pystr := list N.

Inductive py {F : Type} :=
| PNone | PBool (b : bool) | PInt (z : Z) | PFloat (f : F) | PStr (s : pystr) | PBytes (b : bytes)
| PList (l : list py) | PTuple (l : list py) | PSet (l : list py)      (* a set in the order it is walked *)
| PDict (l : list (py * py))                                          (* in the order of insertion *)
| POther.                                                             (* anything else: functions, frozen sets, memory views *)
Arguments py : clear implicits.

(** ** Text *)
Definition surrogate (n : N) : bool := (55296 <=? n)%N && (n <=? 57343)%N.
(** To UTF-8; a surrogate is an error. *)
Fixpoint to_utf8 (s : pystr) : option bytes :=
  match s with
  | [] => Some []
  | n :: s' => if surrogate n then None else option_map (app (encode n)) (to_utf8 s')
  end.
(** The code point of one well-formed sequence. *)
Definition point (h : bytes) : N :=
  match h with
  | [a] => code a
  | [a; b] => ((code a mod 32) * 64 + code b mod 64)%N
  | [a; b; c] => (((code a mod 16) * 64 + code b mod 64) * 64 + code c mod 64)%N
  | [a; b; c; d] => ((((code a mod 8) * 64 + code b mod 64) * 64 + code c mod 64) * 64 + code d mod 64)%N
  | _ => 0%N
  end.
Fixpoint points (n : nat) (s : bytes) : option pystr :=
  match s, n with
  | [], _ => Some []
  | _, O => None
  | _, S n' => match utf8_head s with Some (h, r) => option_map (cons (point h)) (points n' r) | None => None end
  end.
(** From UTF-8; anything else is an error. *)
Definition of_utf8 (s : bytes) : option pystr := points (length s) s.

Section All.
Context {A B : Type} (f : A -> option B).
(** One after the other; an exception ends it. *)
Fixpoint all (l : list A) : option (list B) :=
  match l with
  | [] => Some []
  | x :: l' => match f x, all l' with Some y, Some r => Some (y :: r) | _, _ => None end
  end.
End All.

Section Lex.
Context {A B : Type} (cmp : A -> B -> comparison).
(** [std::lexicographical_compare], both ways at once. *)
Fixpoint lex (a : list A) (b : list B) : comparison :=
  match a, b with
  | [], [] => Eq
  | [], _ :: _ => Lt
  | _ :: _, [] => Gt
  | x :: a', y :: b' => match cmp x y with Eq => lex a' b' | c => c end
  end.
End Lex.

Section Py.
(** How floating point numbers compare ([Eq] also if one is NaN), and the conversion of an integer to one. *)
Context {F : Type} (fcmp : F -> F -> comparison) (of_int : Z -> F).
Notation json := (json F). Notation py := (py F).

(** ** From JSON, lines 38-118. [None]: an exception. *)
Fixpoint to_py (j : json) : option py :=
  match j with
  | JNull => Some PNone
  | JBool b => Some (PBool b)
  | JInt z => Some (PInt z)
  | JFloat f => Some (PFloat f)
  | JStr s => option_map PStr (of_utf8 s)
  | JArr l => option_map PList (all to_py l)
  | JObj m => option_map PDict (all (fun kv => match of_utf8 (fst kv), to_py (snd kv) with Some k, Some v => Some (PStr k, v) | _, _ => None end) m)
  end.

(** ** The order of JSON values ([operator<] of the library), by which [std::set] keeps its elements: null, booleans, numbers, objects, arrays, text. *)
Definition rank (j : json) : nat :=
  match j with JNull => 0 | JBool _ => 1 | JInt _ | JFloat _ => 2 | JObj _ => 3 | JArr _ => 4 | JStr _ => 5 end.
Definition rank_cmp (a b : json) : comparison := Nat.compare (rank a) (rank b).
Definition str_cmp (a b : bytes) : comparison := if str_ltb a b then Lt else if str_ltb b a then Gt else Eq.
(** [Lt]: [a < b]; [Gt]: [b < a]; [Eq]: neither. *)
Fixpoint json_cmp (a b : json) : comparison :=
  match a, b with
  | JBool x, JBool y => if x then if y then Eq else Gt else if y then Lt else Eq
  | JInt x, JInt y => Z.compare x y
  | JInt x, JFloat y => fcmp (of_int x) y
  | JFloat x, JInt y => fcmp x (of_int y)
  | JFloat x, JFloat y => fcmp x y
  | JStr x, JStr y => str_cmp x y
  | JArr l, JArr m => lex json_cmp l m
  | JObj l, JObj m => lex (fun p q => match str_cmp (fst p) (fst q) with Eq => json_cmp (snd p) (snd q) | c => c end) l m
  | _, _ => rank_cmp a b
  end.
(** [std::set::insert]: not if there is an element that is neither less nor greater. (The search goes along the list; where the order is one, this
    is what the search in the tree finds.) *)
Fixpoint set_insert (x : json) (l : list json) : list json :=
  match l with
  | [] => [x]
  | y :: l' => match json_cmp x y with Lt => x :: l | Gt => y :: set_insert x l' | Eq => l end
  end.

(** ** To JSON, lines 120-208. [None]: an exception. *)
Fixpoint to_json (p : py) : option json :=
  match p with
  | PStr s => option_map JStr (to_utf8 s)                                     (* 130-133 *)
  | PBytes b => Some (JArr (map (fun c => JInt (Z.of_N (code c))) b))         (* 135-138 *)
  | PNone => Some JNull                                                       (* 140-143 *)
  | PBool b => Some (JBool b)                                                 (* 145-148 *)
  | PInt z => if ((-9223372036854775808 <=? z) && (z <=? 9223372036854775807))%Z then Some (JInt z) else None     (* 150-153 *)
  | PFloat f => Some (JFloat f)                                               (* 155-158 *)
  | PList l | PTuple l => option_map JArr (all to_json l)                     (* 164-172 *)
  | PDict d =>                                                                (* 174-188 *)
      option_map (fun l => JObj (fold_left (fun m kv => minsert str_ltb (fst kv) (snd kv) m) l []))
        (all (fun kv => match fst kv with
                        | PStr k => match to_utf8 k, to_json (snd kv) with Some k', Some v => Some (k', v) | _, _ => None end
                        | _ => None
                        end) d)
  | PSet l => option_map (fun js => JArr (fold_left (fun m x => set_insert x m) js [])) (all to_json l)       (* 194-202 *)
  | POther => Some JNull                                                      (* 207 *)
  end.

(** ** Payloads. [pyToData], scalopus_interface.cpp lines 42-66: [PRaise], [PNothing] ([false]), or the bytes. *)
Inductive payload := PRaise | PNothing | PData (b : bytes).
Definition byte_of (p : py) : option ascii :=
  match p with
  | PInt z => if ((0 <=? z) && (z <=? 255))%Z then Some (ch (Z.to_N z)) else None
  | PBool b => Some (ch (if b then 1 else 0))
  | _ => None
  end.
Definition to_data (p : py) : payload :=
  match p with
  | PStr s => match to_utf8 s with Some b => PData b | None => PRaise end
  | PBytes b => PData b
  | PList l => match all byte_of l with Some b => PData b | None => PRaise end
  | _ => PNothing
  end.
(** [dataToPy], lines 76-79. *)
Definition of_data (b : bytes) : py := PBytes b.
End Py.
