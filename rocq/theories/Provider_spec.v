(** What C29 and C30 say, on histories of calls. *)
From Coq Require Import List Arith Bool.
Import ListNotations.
From Verif Require Import Provider_model.

Section Spec.
Context {D : Type}.
(** The data received in a history. *)
Fixpoint received_in (h : list (op D)) : list D :=
  match h with
  | [] => []
  | OReceive d :: h' => d :: received_in h'
  | _ :: h' => received_in h'
  end.
(** The part of a history before source [i] is stopped. *)
Fixpoint until_stop (i : nat) (h : list (op D)) : list (op D) :=
  match h with
  | [] => []
  | OStop j :: h' => if j =? i then [] else OStop j :: until_stop i h'
  | o :: h' => o :: until_stop i h'
  end.
Definition concerns (i : nat) (o : op D) : bool := match o with OStart j | OFinish j => j =? i | _ => false end.
Definition no_start_or_finish (i : nat) (h : list (op D)) : Prop := forallb (fun o => negb (concerns i o)) h = true.
Definition no_drop (h : list (op D)) : Prop := ~ In ODrop h.
Fixpoint made (h : list (op D)) : nat := match h with [] => 0 | OMake :: h' => S (made h') | _ :: h' => made h' end.

(** On histories of interleaved pieces. Whether source [i] was recording at the end of a history: its last store. *)
Fixpoint on (i : nat) (was : bool) (h : list (label D)) : bool :=
  match h with
  | [] => was
  | LStore j b :: h' => on i (if j =? i then b else was) h'
  | _ :: h' => on i was h'
  end.
(** The data the calls were begun with, in order. *)
Fixpoint begun (h : list (label D)) : list D :=
  match h with
  | [] => []
  | LBegin d :: h' => d :: begun h'
  | _ :: h' => begun h'
  end.
(** The calls that handed their data to source [i] since it was last cleared. *)
Fixpoint handed (i : nat) (acc : list nat) (h : list (label D)) : list nat :=
  match h with
  | [] => acc
  | LAdd r j :: h' => handed i (if j =? i then acc ++ [r] else acc) h'
  | LClear j :: h' => handed i (if j =? i then [] else acc) h'
  | _ :: h' => handed i acc h'
  end.
Fixpoint lmade (h : list (label D)) : nat := match h with [] => 0 | LMake :: h' => S (lmade h') | _ :: h' => lmade h' end.
(** Source [i] was recording at some moment between the beginning of the [r]-th call and its handing the data to the source. *)
Definition recording_during (i r : nat) (h : list (label D)) : Prop :=
  exists h1 h2, h = h1 ++ h2 /\ on i false h1 = true /\ i < lmade h1 /\ r < length (begun h1) /\ In (LAdd r i) h2.
End Spec.

(** The [r]-th call has looked at all sources and served all those it found recording. *)
Definition over {D} (r : nat) (p : prov D) : Prop := exists c, nth_error (p_inc p) r = Some c /\ c_look c = [] /\ c_todo c = [].
(** The pieces of one call of [startInterval] and of [finishInterval]. *)
Definition start_pieces {D} (i : nat) : list (label D) := [LStore i false; LClear i; LStore i true].
Definition finish_pieces {D} (i : nat) : list (label D) := [LStore i false; LClear i].
