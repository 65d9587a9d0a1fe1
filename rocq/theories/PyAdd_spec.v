(** What is expected of endpoints written in Python (C117), said of what can be seen. *)
From Coq Require Import List Arith Bool Ascii.
Import ListNotations.
From Verif Require Import Json_model PyJson_model PyJson_spec PyAdd_model.

Section Endpoints.
Context {F Q : Type}.

Definition same (a b : bytes) : bool := if list_eq_dec ascii_dec a b then true else false.
(** The endpoint that was added last to [t] under the name [n]. *)
Definition serving (tr : list (obs F Q)) (t : nat) (n : bytes) : option nat :=
  fold_left (fun r e => match e with OName t' o (Some n') => if (t' =? t) && same n' n then Some o else r | _ => r end) tr None.
(** The transport to which [o] was added last. *)
Definition place (tr : list (obs F Q)) (o : nat) : option nat :=
  fold_left (fun r e => match e with OName t o' (Some _) => if o' =? o then Some t else r | _ => r end) tr None.
(** Endpoint number [o] of the program. *)
Definition made (tr : list (obs F Q)) (o : nat) : option (cls F Q * Q) := nth_error (flat_map (fun e => match e with OMade c q => [(c, q)] | _ => [] end) tr) o.
(** The state the calls so far have left it in. *)
Definition now (tr : list (obs F Q)) (o : nat) (c : cls F Q) (q : Q) : Q :=
  fold_left (fun q e => match e with
    | OName _ o' _ => if o' =? o then match c_name c with Some f => fst (f q) | None => q end else q
    | OSet _ o' _ => if o' =? o then match c_set c with Some f => fst (f q) | None => q end else q
    | OCall k _ _ b o' => if o' =? o then match method k c with Some f => fst (f q b) | None => q end else q
    | _ => q end) tr q.
(** The names [getName] may return. *)
Inductive named : py F -> bytes -> Prop :=
| na_text s n : of_utf8 n = Some s -> named (PStr s) n
| na_bytes n : named (PBytes n) n.
(** Values that are no payload. *)
Definition silent (p : py F) : Prop := match p with PStr _ | PBytes _ | PList _ => False | _ => True end.
(** A string of Python is made of code points. *)
Definition proper (p : py F) : Prop := forall s, p = PStr s -> a_str s.
End Endpoints.
