(** What the switch is for. *)
From Coq Require Import List Arith Bool.
Import ListNotations.
From Verif Require Import PySwitch_model.

(** The switchers used by a program, at any depth. *)
Fixpoint uses (s : stmt) : list nat := match s with Point _ => [] | Use w body => w :: flat_map uses body end.
Definition all_uses (l : list stmt) : list nat := flat_map uses l.
(** No switcher is used within itself. *)
Fixpoint not_within (s : stmt) : Prop :=
  match s with
  | Point _ => True
  | Use w body => ~ In w (flat_map uses body) /\ (fix go l := match l with [] => True | x :: l' => not_within x /\ go l' end) body
  end.
Definition never_within (l : list stmt) : Prop := Forall not_within l.

(** The trace points that are to be seen, in order, if the state is [b]: each as the innermost switcher around it says. *)
Fixpoint seen (target : nat -> bool) (b : bool) (s : stmt) : list nat :=
  match s with Point n => if b then [n] else [] | Use w body => flat_map (seen target (target w)) body end.
Definition all_seen (target : nat -> bool) (b : bool) (l : list stmt) : list nat := flat_map (seen target b) l.

(** The steps of one thread. *)
Definition thread_of (l : label) : nat := match l with SPoint t _ | SSwitch t _ | SStore t _ | SLoad t _ | SRestore t => t end.
Definition steps_of (t : nat) (ls : list label) : list label := filter (fun l => Nat.eqb (thread_of l) t) ls.
(** The switcher a step is about. *)
Definition about (l : label) : option nat := match l with SSwitch _ w | SStore _ w | SLoad _ w => Some w | _ => None end.
(** A history in which thread [t] executes the program [p] from its beginning to its end, while the others do whatever they do with other switchers. *)
Definition executes (t : nat) (p : list stmt) (ls : list label) : Prop :=
  steps_of t ls = flatten t p /\ (forall l w, In l ls -> thread_of l <> t -> about l = Some w -> ~ In w (all_uses p)).
(** The events of a thread. *)
Definition events_of (t : nat) (log : list (nat * nat)) : list nat := map snd (filter (fun e => Nat.eqb (fst e) t) log).
