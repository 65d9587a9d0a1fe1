(** What C16 and C17 say, in terms of the events handed to tracepoints and the broadcasts made. *)
From Coq Require Import List Arith Bool.
Import ListNotations.
From Verif Require Import Collector_model.

Inductive subseq {A} : list A -> list A -> Prop :=
  | sub_nil : forall l, subseq [] l
  | sub_keep : forall x l l', subseq l l' -> subseq (x :: l) (x :: l')
  | sub_skip : forall x l l', subseq l l' -> subseq l (x :: l').

(** The events of thread [i] in a list. *)
Definition of_thread (i : nat) (l : list event) : list event := filter (fun e => fst e =? i) l.

(** The events in a list of broadcasts, in order. *)
Definition all_events (bs : list (list (nat * list event))) : list event := flat_map (flat_map snd) bs.

(** What thread [i] passed to tracepoints in a history. *)
Fixpoint emissions (i : nat) (ls : list clabel) : list event :=
  match ls with
  | [] => []
  | TEmit j x :: ls' => if j =? i then (i, x) :: emissions i ls' else emissions i ls'
  | _ :: ls' => emissions i ls'
  end.

(** The events of [i] popped in the collection round going on. *)
Definition in_hand (s : cstate) : list event := match cs_pc s with SCollecting _ ev => flat_map snd ev | _ => [] end.

(** The endpoint has its transport before anything else happens. *)
Definition c_attached : cstate := {| cs_threads := []; cs_active := []; cs_orphans := []; cs_pc := SIdle; cs_attached := true; cs_sent := []; cs_lost := [] |}.

Definition quiet_thread (t : tthread) : Prop := th_phase t = TGone.

(** One pass of the sender's loop: take the orphans, take the active map, empty each buffer, send. [ks] are the sizes
    seen. *)
Definition round (ks : list nat) : list clabel := SSwap :: SSnapshot :: map SCollect ks ++ [SSend].

(** The steps of the sender in a history. *)
Definition is_sender (l : clabel) : bool := match l with SSwap | SSnapshot | SCollect _ | SSend | SStop => true | _ => false end.
Definition sender_steps (ls : list clabel) : list clabel := filter is_sender ls.

(** [size()] was up to date each time: everything in the buffer at that moment was popped. *)
Definition exact_count (l : clabel) (s : cstate) : Prop :=
  match l with
  | SCollect k => match cs_pc s with
                  | SCollecting ((_, b, _) :: _) _ => match nth_error (cs_threads s) b with Some t => k = length (th_buf t) | None => True end
                  | _ => True
                  end
  | _ => True
  end.
Fixpoint exact_run (cap : nat) (ls : list clabel) (s : cstate) : Prop :=
  match ls with
  | [] => True
  | l :: ls' => exact_count l s /\ match cstep cap l s with Some s' => exact_run cap ls' s' | None => True end
  end.
