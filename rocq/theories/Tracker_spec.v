(** What the callers of a table rely on (C44), without a table: the value of a key is what the last write to it left. *)
From Coq Require Import List Arith NArith Bool.
From Verif Require Import Tracker_model.
Import ListNotations.

Section Tracker.
Context {V : Type}.

(** The value of a key after the operations of the list, one after the other: what was last inserted and not erased since. *)
Definition write (k : N) (o : op V) (old : option V) : option V :=
  match o with
  | Insert k' v => if N.eqb k' k then Some v else old
  | Erase k' => if N.eqb k' k then None else old
  | Clear => None
  | _ => old
  end.

Definition current (k : N) (os : list (op V)) : option V := fold_left (fun old o => write k o old) os None.

(** What an operation may give after the operations of the list. *)
Definition says (os : list (op V)) (o : op V) (r : result V) : Prop :=
  match o, r with
  | Insert _ _, Unit | Erase _, Unit | Clear, Unit => True
  | GetValue k, Value v => current k os = Some v
  | GetValue k, Threw => current k os = None
  | Exists k, Answer b => b = true <-> current k os <> None
  | GetMap, Table m => NoDup (map fst m) /\ forall k v, In (k, v) m <-> current k os = Some v
  | _, _ => False
  end.

(** A call with its operation and what it gave. *)
Definition done : Type := nat * op V * result V.
Definition who (d : done) : nat := fst (fst d).
Definition what (d : done) : op V := snd (fst d).
Definition gave (d : done) : result V := snd d.

(** The calls of the list could have been made one after the other, in that order. *)
Definition sequential (l : list done) : Prop :=
  forall a d b, l = a ++ d :: b -> says (map what a) (what d) (gave d).

(** [x] comes before [y] in the list. *)
Definition before {A} (x y : A) (l : list A) : Prop := exists a b c, l = a ++ x :: b ++ y :: c.

(** The history is explained by a sequential order: the order has every finished call with what it gave, and otherwise only calls that were made;
    every call is in it at most once; a call that had returned before another was made comes before it. *)
Definition explained (h : list (event V)) (l : list done) : Prop :=
  sequential l /\ NoDup (map who l) /\
  (forall i t r, In (Returned i t r) h -> exists o, In (i, o, r) l /\ In (Called i t o) h) /\
  (forall i o r, In (i, o, r) l -> exists t, In (Called i t o) h) /\
  (forall i j t u r o, before (Returned i t r) (Called j u o) h -> In j (map who l) -> before i j (map who l)).

Definition linearizable (h : list (event V)) : Prop := exists l, explained h l.

(** Calls of the history are told apart by their number. *)
Definition told_apart (h : list (event V)) : Prop :=
  (forall i t o t' o', In (Called i t o) h -> In (Called i t' o') h -> t = t' /\ o = o') /\
  (forall i t r t' r', In (Returned i t r) h -> In (Returned i t' r') h -> t = t' /\ r = r').

(** No thread is inside or waiting. *)
Definition at_rest (s : state V) : Prop := Forall (fun c => c = Outside) (s_threads s).

(** A step that is not a new call. *)
Definition goes_on (x : label V) : Prop := match x with Call _ _ => False | _ => True end.
End Tracker.
