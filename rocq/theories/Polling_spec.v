(** What C112 says: polling that is started and stopped. *)
From Coq Require Import List Arith Bool.
Import ListNotations.
From Verif Require Import Polling_model.

(** No call is in progress. *)
Definition returned (c : call) : Prop := exists t, ca_pc c = Returned t.
Definition quiet (s : state) : Prop := Forall returned (calls s).

(** Histories in which a call is only made when no other is in progress, and none from within a poll. *)
Inductive serial : list label -> state -> Prop :=
  | serial_nil : serial [] state0
  | serial_step ls s l s' : serial ls s -> step l s = Some s' -> (forall c, l = Call c -> quiet s) -> (forall w c, l <> Inside w c) -> serial (ls ++ [l]) s'.

(** The polling threads that have not ended. *)
Definition living (s : state) : nat := length (filter (fun w => match w with WEnded => false | _ => true end) (workers s)).
Definition polling_wanted (s : state) : bool := match rev (calls s) with c :: _ => match ca_what c with Start _ => true | _ => false end | [] => false end.

(** A poll takes at most [M] ms, the intervals are at most [I] ms. *)
Definition within (M I : nat) (l : label) : Prop := match l with Work _ m => m <= M | Call (Start i) => i <= I | _ => True end.
