(** The messages of traced processes: [process_events], scalopus_tracing/src/native/endpoint_native_trace_sender.cpp lines 63-73,
    [to_cbor] and [from_cbor] of an event, tracepoint_collector_native.h lines 63-101, the value of a counter,
    native_tracepoint.cpp lines 135-137, and the decoding in [NativeTraceSource::finishInterval], native_trace_source.cpp lines 101-107 and
    152-153.
    The library (github.com/iwanders/cbor) is not in /repo: numbers, strings, arrays and maps are as in RFC 8949, written with the
    shortest head, of definite length. Reading anything else than what is expected is an error, which is an exception ([cbor::error]).
    Simplifications: indefinite lengths are read as errors; of entries with the same key the last one counts; a chunk with a value that
    cannot be read is bad as a whole, whereas the code keeps the events before it (see [Native_model.v]). *)
From Coq Require Import String List Arith NArith ZArith Ascii Bool.
Import ListNotations.
From Verif Require Import Protocol_model OMap_model TraceEvent_model Native_model.
Local Notation length := List.length.

Definition text (s : string) : bytes := list_ascii_of_string s.

(** ** Heads: the major type (0-7) and a number below 2^64. *)
Definition be_encode (k : nat) (v : N) : bytes := rev (le_encode k v).
Definition be_decode (b : bytes) : N := le_decode (rev b).
Definition first_byte (m a : N) : ascii := ascii_of_N (32 * m + a).
Definition head (m v : N) : bytes :=
  if (v <? 24)%N then [first_byte m v]
  else if (v <? 2 ^ 8)%N then first_byte m 24 :: be_encode 1 v
  else if (v <? 2 ^ 16)%N then first_byte m 25 :: be_encode 2 v
  else if (v <? 2 ^ 32)%N then first_byte m 26 :: be_encode 4 v
  else first_byte m 27 :: be_encode 8 v.

(** The first [k] bytes and the rest. *)
Definition take (k : nat) (b : bytes) : option (bytes * bytes) :=
  if k <=? length b then Some (firstn k b, skipn k b) else None.
Definition read_head (b : bytes) : option (N * N * bytes) :=
  match b with
  | [] => None
  | c :: r =>
      let m := (N_of_ascii c / 32)%N in
      let a := (N_of_ascii c mod 32)%N in
      let more k := match take k r with Some (x, r') => Some (m, be_decode x, r') | None => None end in
      if (a <? 24)%N then Some (m, a, r)
      else if (a =? 24)%N then more 1 else if (a =? 25)%N then more 2 else if (a =? 26)%N then more 4
      else if (a =? 27)%N then more 8 else None
  end.
(** A head of major type [m]. *)
Definition expect (m : N) (b : bytes) : option (N * bytes) :=
  match read_head b with Some (m', v, r) => if (m' =? m)%N then Some (v, r) else None | None => None end.

(** ** Numbers and strings. *)
Definition uint (v : N) : bytes := head 0 v.
Definition read_uint (bits : N) (b : bytes) : option (N * bytes) :=
  match expect 0 b with Some (v, r) => if (v <? 2 ^ bits)%N then Some (v, r) else None | None => None end.
(** [std::int64_t]: major type 0, or 1 for [-1 - v]. *)
Definition int (z : Z) : bytes := if (0 <=? z)%Z then head 0 (Z.to_N z) else head 1 (Z.to_N (-1 - z)).
Definition read_int (b : bytes) : option (Z * bytes) :=
  match read_head b with
  | Some (m, v, r) => if (2 ^ 63 <=? v)%N then None
                      else if (m =? 0)%N then Some (Z.of_N v, r) else if (m =? 1)%N then Some ((-1 - Z.of_N v)%Z, r) else None
  | None => None
  end.
Definition blob (m : N) (s : bytes) : bytes := head m (N.of_nat (length s)) ++ s.
(** A string; more bytes than there are is an error. *)
Definition read_blob (m : N) (b : bytes) : option (bytes * bytes) :=
  match expect m b with
  | Some (n, r) => if (n <=? N.of_nat (length r))%N then take (N.to_nat n) r else None
  | None => None
  end.

(** ** Arrays and maps: a head and so many elements. Each element takes at least a byte, so that [fuel] above the number of bytes is never
    used up before the bytes are ([Cbor_proofs.many_fuel]). *)
Section Many.
Context {A : Type}.
Variable rd : bytes -> option (A * bytes).
Fixpoint many (fuel : nat) (n : N) (b : bytes) : option (list A * bytes) :=
  if (n =? 0)%N then Some ([], b)
  else match fuel with
       | O => None
       | S f => match rd b with
                | Some (x, r) => match many f (n - 1) r with Some (xs, r') => Some (x :: xs, r') | None => None end
                | None => None
                end
       end.
Definition read_many (m : N) (b : bytes) : option (list A * bytes) :=
  match expect m b with Some (n, r) => many (S (length r)) n r | None => None end.
End Many.
Definition count {A} (l : list A) : N := N.of_nat (length l).

(** ** Events, tracepoint_collector_native.h lines 63-101. Dynamic data is a string of bytes holding the number, native_tracepoint.cpp
    line 137. *)
Definition event (e : tev) : bytes :=
  match te_value e with
  | None => head 4 3 ++ uint (te_time e) ++ uint (te_id e) ++ uint (te_type e)
  | Some z => head 4 4 ++ uint (te_time e) ++ uint (te_id e) ++ uint (te_type e) ++ blob 2 (int z)
  end.
(** Lines 84-101: if the array has other than three or four elements the others are not looked at. *)
Definition read_event (b : bytes) : option (tev * bytes) :=
  match expect 4 b with
  | Some (len, b0) =>
      match read_uint 64 b0 with
      | Some (t, b1) =>
          match read_uint 32 b1 with
          | Some (i, b2) =>
              match read_uint 8 b2 with
              | Some (ty, b3) =>
                  if (4 <=? len)%N
                  then match read_blob 2 b3 with
                       | Some (d, b4) => match read_int d with
                                         | Some (z, _) => Some ({| te_time := t; te_id := i; te_type := ty; te_value := Some z |}, b4)
                                         | None => None
                                         end
                       | None => None
                       end
                  else Some ({| te_time := t; te_id := i; te_type := ty; te_value := None |}, b3)
              | None => None
              end
          | None => None
          end
      | None => None
      end
  | None => None
  end.

(** ** The events of the threads: a map from thread numbers to arrays. *)
Definition thread (p : N * list tev) : bytes := uint (fst p) ++ head 4 (count (snd p)) ++ flat_map event (snd p).
Definition threads (ths : list (N * list tev)) : bytes := head 5 (count ths) ++ flat_map thread ths.
Definition read_thread (b : bytes) : option ((N * list tev) * bytes) :=
  match read_uint 64 b with
  | Some (tid, b1) => match read_many read_event 4 b1 with Some (evs, b2) => Some ((tid, evs), b2) | None => None end
  | None => None
  end.
Definition into_map {V} (l : list (N * V)) : list (N * V) := fold_left (fun m p => minsert N.ltb (fst p) (snd p) m) l [].
Definition read_threads (b : bytes) : option (list (N * list tev) * bytes) :=
  match read_many read_thread 5 b with Some (l, r) => Some (into_map l, r) | None => None end.

(** ** The message. *)
(** [process_events], sender lines 63-73: a [std::map] of two entries, so in the order of the keys. [getpid()] as [unsigned long]. *)
Definition pack (pid : Z) (ths : list (N * list tev)) : bytes :=
  head 5 2 ++ blob 3 (text "events") ++ threads ths ++ blob 3 (text "pid") ++ uint (Z.to_N pid).

(** [cbor_object]: the bytes of one item, whatever it is. [n] items are still to be passed over; the items in an array, map or tag are
    added to them. *)
Fixpoint skip (fuel : nat) (n : N) (b : bytes) : option bytes :=
  if (n =? 0)%N then Some b
  else match fuel with
       | O => None
       | S f => match read_head b with
                | None => None
                | Some (m, v, r) =>
                    if (m =? 2)%N || (m =? 3)%N
                    then if (v <=? N.of_nat (length r))%N then skip f (n - 1) (skipn (N.to_nat v) r) else None
                    else if (m =? 4)%N then skip f (n - 1 + v) r
                    else if (m =? 5)%N then skip f (n - 1 + 2 * v) r
                    else if (m =? 6)%N then skip f n r
                    else skip f (n - 1) r
                end
       end.
Definition read_item (b : bytes) : option (bytes * bytes) :=
  match skip (S (length b)) 1 b with
  | Some r => Some (firstn (length b - length r) b, r)
  | None => None
  end.
(** Source line 103: the message as a map from names to items. *)
Definition read_field (b : bytes) : option ((bytes * bytes) * bytes) :=
  match read_blob 3 b with
  | Some (k, b1) => match read_item b1 with Some (v, b2) => Some ((k, v), b2) | None => None end
  | None => None
  end.
Definition into_names {V} (l : list (bytes * V)) : list (bytes * V) := fold_left (fun m p => minsert str_ltb (fst p) (snd p) m) l [].
Definition read_message (b : bytes) : option (list (bytes * bytes) * bytes) :=
  match read_many read_field 5 b with Some (l, r) => Some (into_names l, r) | None => None end.
(** [static_cast<int>] of a 64-bit number. *)
Definition to_int (v : N) : Z :=
  let w := (Z.of_N v mod 2 ^ 32)%Z in if (w <? 2 ^ 31)%Z then w else (w - 2 ^ 32)%Z.
(** Lines 101-107. Bytes behind what is expected are not looked at. *)
Definition unpack (b : bytes) : chunk :=
  match read_message b with
  | None => CBad
  | Some (m, _) =>
      match mfind str_ltb (text "pid") m with
      | None => CBad
      | Some p =>
          match read_uint 64 p with
          | None => CBad
          | Some (pid, _) =>
              match mfind str_ltb (text "events") m with
              | None => CBad
              | Some e => match read_threads e with
                          | Some (ths, _) => CGood {| nc_pid := to_int pid; nc_threads := ths |}
                          | None => CBad
                          end
              end
          end
      end
  end.
