(** Vocabulary for C01, C02, C03. *)
From Coq Require Import List Arith NArith Ascii Bool.
Import ListNotations.
From Verif Require Import Protocol_model.

(** A message that fits the length fields of the wire format. *)
Definition fits (m : msg) : Prop :=
  (req_id m < 2 ^ 64)%N /\ (N.of_nat (length (ep_name m)) < 2 ^ 16)%N /\ (N.of_nat (length (payload m)) < 2 ^ 32)%N.

(** The bytes on the wire when every [::send] accepts its whole buffer. *)
Definition wire (m : msg) : bytes := snd (send 1 m []).

(** The kernel satisfies every read in full (as far as the stream goes). *)
Definition full_reads (rs : list read_res) : Prop :=
  forall r, In r rs -> exists k, r = RGot k /\ chunk_size <= k.

(** Reads never fail (they may be short). *)
Definition no_read_error (rs : list read_res) : Prop := ~ In RErr rs.

(** What precedes the payload on the wire: request id, length of the name, name, length of the payload. *)
Definition header (m : msg) : bytes :=
  let ln := (N.of_nat (length (ep_name m)) mod 2 ^ 16)%N in
  le_encode 8 (req_id m) ++ le_encode 2 ln ++ firstn (N.to_nat ln) (ep_name m)
    ++ le_encode 4 (N.of_nat (length (payload m)) mod 2 ^ 32)%N.
