(** What C31-C33, C35 and C64 say. *)
From Coq Require Import String List Arith NArith ZArith Ascii Bool.
Import ListNotations.
From Verif Require Import OMap_model Json_model Json_spec Session_model.

Section Spec.
Context {F : Type} (fw : F -> bytes) (fr : bytes -> option F).
Notation json := (json F).
(** A text is a message with a method and an id: an object with these members. Without id it counts as null. *)
Definition has (m : list (bytes * json)) (key : string) (v : json) : Prop := In (text key, v) m.
Definition message (t : bytes) (method : string) (id : json) : Prop :=
  exists m, parse fr t = Some (JObj m) /\ has m "method" (JStr (text method))
    /\ (has m "id" id \/ (id = JNull /\ forall v, ~ has m "id" v)).
(** Texts sent. *)
Definition answer (t : bytes) (id result : json) : Prop := parse fr t = Some (JObj [(text "id", id); (text "result", result)]).
Definition data_piece (t : bytes) (es : list json) : Prop :=
  parse fr t = Some (JObj [(text "method", JStr (text "Tracing.dataCollected")); (text "params", JObj [(text "value", JArr es)])]).
Definition completion (t : bytes) : Prop :=
  parse fr t = Some (JObj [(text "method", JStr (text "Tracing.tracingComplete")); (text "params", JArr [])]).
(** All effects on the [n] sources of a session, in order of the sources. *)
Definition each (e : nat -> effect) (n : nat) : list effect := map e (seq 0 n).

(** A well-formed category, start or end request, and what it must cause. *)
Inductive request := RCategories | RStart | REnd.
Definition name_of (r : request) : string :=
  match r with RCategories => "Tracing.getCategories" | RStart => "Tracing.start" | REnd => "Tracing.end" end.
Definition handled (n : nat) (r : request) (id : json) (events : list json) (es : list effect) : Prop :=
  match r with
  | RCategories => exists a result, es = [ESend a] /\ answer a id result
  | RStart => exists a result, es = each EStart n ++ [ESend a] /\ answer a id result
  | REnd => exists a pieces c groups, es = each EStop n ++ [ESend a] ++ each EFinish n ++ map ESend pieces ++ [ESend c]
      /\ answer a id JNull /\ Forall2 data_piece pieces groups /\ Forall (fun g => length g <= 1000) groups
      /\ concat groups = events /\ completion c
  end.
(** What a text that arrived must cause: a request is handled; any other object, or null, causes nothing; anything else is outside of the
    protocol. *)
Definition reaction (ev : list (list json)) (t : bytes) (es : list effect) : Prop :=
  (exists r id, message t (name_of r) id /\ handled (length ev) r id (concat ev) es)
  \/ ((forall r id, ~ message t (name_of r) id) /\ es = []).
Definition acceptable (t : bytes) : Prop := parse fr t = Some JNull \/ exists m, parse fr t = Some (JObj m).
(** The texts that arrived, and what the sources returned at each turn of the worker. *)
Fixpoint arrivals (ls : list (slabel (F := F))) : list bytes :=
  match ls with [] => [] | Arrive t :: ls' => t :: arrivals ls' | _ :: ls' => arrivals ls' end.
Fixpoint turns (ls : list (slabel (F := F))) : list (list (list json)) :=
  match ls with [] => [] | Handle ev :: ls' => ev :: turns ls' | _ :: ls' => turns ls' end.
(** Every text in it is UTF-8 (C64). *)
Inductive in_utf8 : json -> Prop :=
| in_null : in_utf8 JNull
| in_bool b : in_utf8 (JBool b)
| in_int z : in_utf8 (JInt z)
| in_float f : in_utf8 (JFloat f)
| in_str s : utf8 s = true -> in_utf8 (JStr s)
| in_arr l : Forall in_utf8 l -> in_utf8 (JArr l)
| in_obj m : Forall (fun kv => utf8 (fst kv) = true /\ in_utf8 (snd kv)) m -> in_utf8 (JObj m).
End Spec.
