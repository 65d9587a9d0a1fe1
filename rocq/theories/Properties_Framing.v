(** C76: messages that several threads send over one connection arrive whole, unmixed and in the order in which they were sent. Proved for every
    schedule of the single system calls, if the kernel takes every part of a message at once and no send fails in the middle of a message. *)
From Coq Require Import List Arith NArith Bool.
From Verif Require Import Protocol_model Protocol_spec Framing_model Framing_spec Framing_proofs Framing_witness.

Theorem C76_partial : forall limit prog os s, (forall t m, In m (prog t) -> small limit m) -> uncut os -> run limit os (start prog) = Some s ->
  hp s = Fine /\
  (exists rest, map snd (begun s) = out s ++ rest) /\
  (forall t, sub (of_thread t (begun s)) (prog t)) /\
  (exists more, begun s = told s ++ more /\ length more <= 1) /\
  (lock s = None -> step limit Read s = None -> out s = map snd (told s)).
Proof. exact framing. Qed.
Print Assumptions C76_partial.

(** A message of one part too large for the kernel to take at once: the beginning of it is received as if it were the message. *)
Theorem C76_large_refuted : forall limit, 0 < limit -> (N.of_nat limit + 2 < 2 ^ 32)%N -> exists m prog os s m', fits m /\ length (payload m) <= limit + 2 /\
  (forall t, prog t = if t =? 0 then m :: nil else nil) /\ run limit os (start prog) = Some s /\ uncut os /\ begun s = ((0, m) :: nil)%list /\ out s = (m' :: nil)%list /\ m' <> m.
Proof. exact split_refuted. Qed.
Print Assumptions C76_large_refuted.

(** A send that fails in the middle: the connection is kept and the next message becomes part of the one that was cut off. *)
Theorem C76_cut_refuted : exists prog os s, (forall t m, In m (prog t) -> small 100 m) /\ run 100 os (start prog) = Some s /\
  told s = ((1, second_msg) :: nil)%list /\ out s = (mixed :: nil)%list /\ mixed <> first_msg /\ mixed <> second_msg /\ pipe s = nil.
Proof. exact cut_refuted. Qed.
Print Assumptions C76_cut_refuted.
