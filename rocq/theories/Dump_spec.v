(** What C114 says of a recorder and its files. *)
From Coq Require Import List Arith Bool Permutation.
Import ListNotations.
From Verif Require Import Dump_model.

Section Spec.
Context {E A : Type} (render : list E -> option (list A)) (reads : list A -> option (list E)).
Notation state := (state E A). Notation label := (label E).

(** What was recorded: what reached a source while it was in an interval. *)
Definition on_at (i : nat) (s : state) : bool := match nth_error (sources s) i with Some x => k_on x | None => false end.
Fixpoint recorded (ls : list label) (s : state) : list E :=
  match ls with
  | [] => []
  | l :: ls' => match l with Arrive i e => if on_at i s then [e] else [] | _ => [] end ++ match step render l s with Some s' => recorded ls' s' | None => [] end
  end.
(** What somebody who reads a text finds in it. *)
Definition found (t : list A) : list E := match reads t with Some l => l | None => [] end.
Definition texts (l : list (seen A)) : list (list A) := flat_map (fun x => match x with Text t => [t] | _ => [] end) l.
(** [ps] are the files there are, each once. *)
Definition all_files (ps : list nat) (s : state) : Prop := NoDup ps /\ forall p, In p ps <-> files s p <> None.
Definition contents (ps : list nat) (s : state) : list (list A) := flat_map (fun p => match files s p with Some t => [t] | None => [] end) ps.

(** A history in which nothing goes wrong: a new interval is begun, and a recorder without a file destroyed, only after what was recorded has been collected; each file is
    written once, can be opened and takes the whole text; the program does not die. *)
Definition takes_all (p n : nat) (s : state) : Prop := files s p = None /\ can s p = true /\ forall t, render (pending s) = Some t -> length t <= n.
Fixpoint smooth (ls : list label) (s : state) : Prop :=
  match ls with
  | [] => True
  | l :: ls' =>
      match l with
      | Begin => pending s = []
      | Write p n => takes_all p n s
      | Destroy n => match dump s with Some p => takes_all p n s | None => pending s = [] end
      | Dies _ _ => False
      | _ => True
      end /\ match step render l s with Some s' => smooth ls' s' | None => True end
  end.
(** Entry [e] can be found nowhere: not in a file, not in a text that was returned, not in a source. *)
Definition nowhere (e : E) (s : state) : Prop :=
  (forall p t, files s p = Some t -> ~ In e (found t)) /\ (forall t, In (Text t) (log s) -> ~ In e (found t)) /\ ~ In e (pending s).
(** It waits in the sources and is nowhere else. *)
Definition only_pending (e : E) (s : state) : Prop :=
  In e (pending s) /\ (forall p t, files s p = Some t -> ~ In e (found t)) /\ (forall t, In (Text t) (log s) -> ~ In e (found t)).
(** The file asked for last with [setupDumpFile]. *)
Definition asked (ls : list label) : option nat := fold_left (fun d l => match l with Setup p => Some p | _ => d end) ls None.
(** The source gives away what it has recorded. *)
Definition takes (x : source E) : Prop := k_keeps x = false.
(** The recorder is in an interval, by the calls: one was begun and neither stopped nor collected since. *)
Definition in_interval (ls : list label) : bool := fold_left (fun b l => match l with Begin => true | Halt | Collect | Write _ _ | Destroy _ | Dies _ _ => false | _ => b end) ls false.
End Spec.
