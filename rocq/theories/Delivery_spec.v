(** What C40 says, in terms of what happened. *)
From Coq Require Import List Arith Bool.
Import ListNotations.
From Verif Require Import Delivery_model.

Section Spec.
Context {L E : Type}.
Implicit Types xs : list (label L).
(** The events a subscriber is called with. *)
Definition for_ (i : nat) (calls : list (nat * E)) : list E := map snd (filter (fun c => fst c =? i) calls).
Definition subscriptions xs : nat := length (filter (fun x => match x with Subscribe _ => true | _ => false end) xs).
Definition disables (i : nat) (x : label L) : Prop := x = Deactivate i \/ x = Clear i.
(** Subscriber [i] (the ones before it being numbered from zero) is subscribed and active after a history. *)
Definition live (i : nat) xs : Prop := exists a at_ b, xs = a ++ Subscribe at_ :: b /\ subscriptions a = i /\ ~ In Halt b /\ forall x, In x b -> ~ disables i x.
(** It has not been there, or was disabled or removed. *)
Definition gone (i : nat) xs : Prop := ~ live i xs.
Definition no_line xs : Prop := forall l, ~ In (Line l) xs.
Definition idle (s : state E) : Prop := d_phase s = Idle.
(** The reading thread is busy with subscriber [i]. *)
Definition visiting (i : nat) (s : state E) : Prop := exists e kept todo, d_phase s = Seen e kept i todo \/ d_phase s = Ready e kept i todo \/ d_phase s = Calling e kept i todo.
(** The events of the lines of a history, in order. *)
Definition events (parse : L -> option E) xs : list E := flat_map (fun x => match x with Line l => match parse l with Some e => [e] | None => [] end | _ => [] end) xs.
(** The history, and what each subscriber gets in it. *)
Definition crashes (parse : L -> option E) xs : Prop := run parse xs state0 = FCrashed.
End Spec.
