(** Which names are set. *)
From Coq Require Import String List Arith NArith ZArith Ascii Bool Permutation.
Import ListNotations.
From Verif Require Import Json_model Bson_model Wire_model Info_model.

(** The name of a thread after what has happened, and the places where its name was set from by the macro, which counts once for each place
    in the life of a thread: what it was last named since it started, if it is running. *)
Definition named1 (t : N) (st : option bytes * list nat) (a : act) : option bytes * list nat :=
  let '(n, sites) := st in
  match a with
  | Begin u | End u => if N.eqb u t then (None, []) else st
  | NameSelf u nm | NameOther u nm => if N.eqb u t then (Some nm, sites) else st
  | NameSite u i nm => if N.eqb u t then if existsb (Nat.eqb i) sites then st else (Some nm, i :: sites) else st
  end.
Definition name_of (t : N) (h : list act) : option bytes := fst (fold_left (named1 t) h (None, [])).

(** The thread is running. *)
Definition runs1 (t : N) (b : bool) (a : act) : bool :=
  match a with Begin u => if N.eqb u t then true else b | End u => if N.eqb u t then false else b | _ => b end.
Definition runs (t : N) (h : list act) : bool := fold_left (runs1 t) h false.

(** Threads are named by others only while they have a name already: they have named themselves before, and are running. *)
Definition asked_first (h : list act) : Prop := forall a t nm b, h = a ++ NameOther t nm :: b -> name_of t a <> None.

(** A traced process: its number, its name, what its threads did. *)
Record process := { pc_pid : Z; pc_name : bytes; pc_acts : list act }.

(** What its threads did can be sent: ids below 2^63, names below 2^31 - 1 bytes. *)
Definition fits (a : act) : Prop :=
  match a with
  | Begin t | End t => True
  | NameSelf t nm | NameSite t _ nm | NameOther t nm => (t < 9223372036854775808)%N /\ (Z.of_nat (List.length nm) < 2147483647)%Z
  end.
Definition usual (p : process) : Prop :=
  (-2147483648 <= pc_pid p <= 2147483647)%Z /\ (Z.of_nat (List.length (pc_name p)) < 2147483647)%Z /\ Forall fits (pc_acts p) /\ asked_first (pc_acts p).

Section Answers.
Context {F : Type} (f64 : F -> bytes) (unf64 : bytes -> F).
(** The response of a process to the client's request: its table is walked in some order. *)
Definition answers (p : process) (b : bytes) : Prop := exists st order q,
  acts (pc_acts p) threads0 = Some st /\ Permutation order (th_table st) /\ to_bson f64 info_request = Some q /\
  info_handle f64 unf64 (pc_pid p) (pc_name p) order q = WReply b.

Inductive hears : list process -> list heard -> Prop :=
| hears_nil : hears [] []
| hears_none ps hs : hears ps hs -> hears ps (NoEndpoint :: hs)
| hears_answer p b ps hs : answers p b -> hears ps hs -> hears (p :: ps) (Response b :: hs).

End Answers.

(** What a viewer reads from a metadata entry: its kind, process, thread and the name it gives. *)
Definition sub {F} (k : string) (j : json F) : option (json F) := match j with JObj m => option_map snd (List.find (fun kv => if list_eq_dec ascii_dec (fst kv) (text k) then true else false) m) | _ => None end.
Definition reads {F} (e : json F) : option (bytes * Z * Z * bytes) :=
  match sub "ph" e, sub "name" e, sub "pid" e, sub "tid" e, sub "args" e with
  | Some (JStr ["M"%char]), Some (JStr kind), Some (JInt p), Some (JInt t), Some a => match sub "name" a with Some (JStr nm) => Some (kind, p, t, nm) | _ => None end
  | _, _, _, _, _ => None
  end.
