(** What C36 and C65 say. *)
From Coq Require Import List Arith Bool.
Import ListNotations.
From Verif Require Import Recorder_model.

Section Spec.
Context {E T : Type}.
(** Between a start and the next stop. *)
Fixpoint started_after (os : list (rop E)) (st : bool) : bool :=
  match os with
  | [] => st
  | RStart :: os' => started_after os' true
  | RStop :: os' => started_after os' false
  | _ :: os' => started_after os' st
  end.
Definition started os := started_after os false.
Definition providers (os : list (rop E)) : nat := length (filter (fun o => match o with RAddProvider => true | _ => false end) os).
Definition is_destroy (o : rop E) : bool := match o with RDestroy _ => true | _ => false end.
Definition alive_ops (os : list (rop E)) : Prop := forall o, In o os -> is_destroy o = false.
(** No exception, no termination. *)
Definition safe (f : rfinal (T := T)) : Prop := match f with FAlive _ _ false | FGone _ false => True | _ => False end.
(** Every stop follows a start not yet stopped. *)
Definition well_paired (os : list (rop E)) : Prop := forall a b, os = a ++ RStop :: b -> started a = true.
(** Sources made, in order, with the provider they were made from. *)
Definition makes (es : list (reffect T)) : list (nat * nat) := flat_map (fun e => match e with XMake s p => [(s, p)] | _ => [] end) es.
(** Starts of sources. *)
Definition starts (es : list (reffect T)) : list nat := flat_map (fun e => match e with XStart s => [s] | _ => [] end) es.
(** The file last set up. *)
Fixpoint dump_file (os : list (rop E)) (f : option nat) : option nat :=
  match os with [] => f | RSetupDump g :: os' => dump_file os' (Some g) | _ :: os' => dump_file os' f end.
End Spec.
