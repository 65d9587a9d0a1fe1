(** BSON, the form in which the endpoints exchange JSON values: [json::to_bson] and [json::from_bson] of the JSON library, used at
    scalopus_general/src/endpoint_process_info.cpp lines 62, 71, 88, 92, scalopus_tracing/src/endpoint_trace_mapping.cpp lines 58, 76
    and scalopus_tracing/src/endpoint_trace_configurator.cpp lines 72, 76, 94, 98, 108, 145.
    The library (nlohmann_json, at least 3.4.0) is not in /repo: this models its documented behaviour and the BSON standard (bsonspec.org).
    Simplifications: floating point numbers are of an arbitrary type [F] with a function that writes one and one that reads one from eight bytes;
    binary data and the other types of BSON that the library does not write for these values are read as errors; memory is unlimited. *)
From Coq Require Import String List Arith NArith ZArith Ascii Bool.
Import ListNotations.
From Verif Require Import OMap_model Json_model.
Local Notation length := List.length.

(** ** Numbers, least significant byte first. *)
Fixpoint le (n : nat) (z : Z) : bytes :=
  match n with O => [] | S n' => ch (Z.to_N (z mod 256)) :: le n' (z / 256) end.
Fixpoint le_val (b : bytes) : Z :=
  match b with [] => 0%Z | c :: b' => (Z.of_N (code c) + 256 * le_val b')%Z end.
(** As two's complement in [n] bytes. *)
Definition signed (n : nat) (b : bytes) : Z :=
  let v := le_val b in if (v <? 2 ^ (8 * Z.of_nat n - 1))%Z then v else (v - 2 ^ (8 * Z.of_nat n))%Z.

Definition nul : ascii := ch 0.
Definition has_nul (k : bytes) : bool := existsb (fun c => Ascii.eqb c nul) k.

Section Bson.
Context {F : Type} (f64 : F -> bytes) (unf64 : bytes -> F).

(** ** Writing. [None]: the library throws. *)

(** A document: its size, its elements, a NUL. *)
Definition doc (o : option bytes) : option bytes :=
  option_map (fun b => le 4 (Z.of_nat (length b) + 5) ++ b ++ [nul]) o.

Section Elements.
Context {A : Type} (key : nat -> A -> bytes) (enc1 : A -> option (ascii * bytes)).
(** The elements: type, key with a NUL, value. A key with a NUL in it is an error (out_of_range 409). *)
Fixpoint elements (i : nat) (l : list A) : option bytes :=
  match l with
  | [] => Some []
  | x :: l' =>
      if has_nul (key i x) then None
      else match enc1 x, elements (S i) l' with
           | Some (t, v), Some r => Some (t :: key i x ++ nul :: v ++ r)
           | _, _ => None
           end
  end.
End Elements.

(** The type and the value of an element. An integer that does not fit into 64 bits with sign is an error (out_of_range 407). *)
Fixpoint enc (j : json F) : option (ascii * bytes) :=
  match j with
  | JFloat f => Some (ch 1, f64 f)
  | JStr s => Some (ch 2, le 4 (Z.of_nat (length s) + 1) ++ s ++ [nul])
  | JObj m => option_map (pair (ch 3)) (doc (elements (fun _ kv => fst kv) (fun kv => enc (snd kv)) 0 m))
  | JArr l => option_map (pair (ch 4)) (doc (elements (fun i _ => dump_nat (N.of_nat i)) enc 0 l))
  | JBool b => Some (ch 8, [if b then ch 1 else ch 0])
  | JNull => Some (ch 10, [])
  | JInt z => if ((-2147483648 <=? z) && (z <=? 2147483647))%Z then Some (ch 16, le 4 z)
              else if ((-9223372036854775808 <=? z) && (z <=? 9223372036854775807))%Z then Some (ch 18, le 8 z)
              else None
  end.

(** Only an object can be written at the top (type_error 317). *)
Definition to_bson (j : json F) : option bytes :=
  match j with JObj _ => option_map snd (enc j) | _ => None end.

(** ** Reading. [None]: the library throws. *)

(** The first [n] bytes and the rest. *)
Definition take (n : Z) (s : bytes) : option (bytes * bytes) :=
  if (Z.of_nat (length s) <? n)%Z then None else Some (firstn (Z.to_nat n) s, skipn (Z.to_nat n) s).
(** The text up to the first NUL, and what is after it. *)
Fixpoint cut_nul (s : bytes) : option (bytes * bytes) :=
  match s with
  | [] => None
  | c :: s' => if Ascii.eqb c nul then Some ([], s') else match cut_nul s' with Some (a, r) => Some (c :: a, r) | None => None end
  end.
(** The members of an object, put into its map one after the other: the last one with a key counts. *)
Definition object (l : list (bytes * json F)) : list (bytes * json F) :=
  fold_left (fun m kv => minsert str_ltb (fst kv) (snd kv) m) l [].

(** The value of an element of the given type, and the elements of a document up to its NUL. The sizes of documents are read and not
    used; the NUL after a string is read and not looked at; any byte but 0, and the end of the data, is [true]. *)
Fixpoint dec (n : nat) (t : N) (s : bytes) : option (json F * bytes) :=
  match n with
  | O => None
  | S n' =>
      match t with
      | 1%N => match take 8 s with Some (b, r) => Some (JFloat (unf64 b), r) | None => None end
      | 2%N => match take 4 s with
               | Some (b, r) =>
                   if (signed 4 b <? 1)%Z then None
                   else match take (signed 4 b - 1) r with
                        | Some (v, _ :: r') => Some (JStr v, r')
                        | _ => None
                        end
               | None => None
               end
      | 3%N => match take 4 s with
               | Some (_, r) => match dec_list n' r with Some (l, r') => Some (JObj (object l), r') | None => None end
               | None => None
               end
      | 4%N => match take 4 s with
               | Some (_, r) => match dec_list n' r with Some (l, r') => Some (JArr (map snd l), r') | None => None end
               | None => None
               end
      | 8%N => match s with
               | c :: r => Some (JBool (negb (Ascii.eqb c nul)), r)
               | [] => Some (JBool true, [])
               end
      | 10%N => Some (JNull, s)
      | 16%N => match take 4 s with Some (b, r) => Some (JInt (signed 4 b), r) | None => None end
      | 18%N => match take 8 s with Some (b, r) => Some (JInt (signed 8 b), r) | None => None end
      | _ => None
      end
  end
with dec_list (n : nat) (s : bytes) : option (list (bytes * json F) * bytes) :=
  match n with
  | O => None
  | S n' =>
      match s with
      | [] => None
      | t :: s1 =>
          if Ascii.eqb t nul then Some ([], s1)
          else match cut_nul s1 with
               | Some (k, s2) =>
                   match dec n' (code t) s2 with
                   | Some (v, s3) => match dec_list n' s3 with Some (l, s4) => Some ((k, v) :: l, s4) | None => None end
                   | None => None
                   end
               | None => None
               end
      end
  end.

(** The whole message; what is left over is an error (parse_error 110). *)
Definition from_bson (s : bytes) : option (json F) :=
  match take 4 s with
  | Some (_, r) => match dec_list (S (length r)) r with Some (l, []) => Some (JObj (object l)) | _ => None end
  | None => None
  end.

(** ** Taking values out of a JSON value ([get_to], [get]); [None]: type_error 302. *)
Definition get_str (j : json F) : option bytes := match j with JStr s => Some s | _ => None end.
(** A member of an object ([operator[]]): an absent one is made and is null. *)
Definition member (k : string) (m : list (bytes * json F)) : json F :=
  match mfind str_ltb (text k) m with Some v => v | None => JNull end.
End Bson.
