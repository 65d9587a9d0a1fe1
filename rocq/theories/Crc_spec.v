(** CRC-32 as it is defined in standards: bit by bit, reflected. *)
From Coq Require Import List NArith Ascii.
Import ListNotations.
Open Scope N_scope.

(** The polynomial x^32 + x^26 + x^23 + x^22 + x^16 + x^12 + x^11 + x^10 + x^8 + x^7 + x^5 + x^4 + x^2 + x + 1 (0x04C11DB7),
    bits reversed. *)
Definition poly : N := 0xedb88320.

(** One bit. *)
Definition crc_bit (r : N) : N := if N.odd r then N.lxor (N.div2 r) poly else N.div2 r.
(** One byte: it is added to the register, which is then shifted eight times. *)
Definition crc_octet (r : N) (b : ascii) : N := Nat.iter 8 crc_bit (N.lxor r (N_of_ascii b)).
(** The register starts with all ones and is inverted at the end. *)
Definition crc32 (s : list ascii) : N := N.lxor (fold_left crc_octet s 0xffffffff) 0xffffffff.

(** The reversal of the bits of the polynomial as it is written in the standards, to see that [poly] is it. *)
Fixpoint reversed (n : nat) (x acc : N) : N :=
  match n with O => acc | S n' => reversed n' (N.div2 x) (2 * acc + (if N.odd x then 1 else 0)) end.
Definition powers (l : list N) : N := fold_right (fun e x => N.setbit x e) 0 l.
Definition standard_poly : N := powers [26; 23; 22; 16; 12; 11; 10; 8; 7; 5; 4; 2; 1; 0].
