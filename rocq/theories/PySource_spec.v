(** What is said of sources written in Python (C103). *)
From Coq Require Import String List Arith NArith ZArith Ascii Bool.
Import ListNotations.
From Verif Require Import OMap_model Json_model Json_spec Session_model Session_spec PyJson_model PyJson_spec PySource_model.
Local Notation length := List.length.

Section Spec.
Context {F : Type} (fw : F -> bytes) (fr : bytes -> option F) {Q : Type}.
Notation json := (json F). Notation py := (py F). Notation act := (act F). Notation given := (given F). Notation src := (src F Q). Notation cls := (cls F Q).

(** ** Values *)
(** The strings in it are sequences of code points, as all Python strings are, and the floats in it satisfy [G]. *)
Inductive well (G : F -> Prop) : py -> Prop :=
| we_none : well G PNone
| we_bool b : well G (PBool b)
| we_int z : well G (PInt z)
| we_float f : G f -> well G (PFloat f)
| we_str s : a_str s -> well G (PStr s)
| we_bytes b : well G (PBytes b)
| we_list l : Forall (well G) l -> well G (PList l)
| we_tuple l : Forall (well G) l -> well G (PTuple l)
| we_set l : Forall (well G) l -> well G (PSet l)
| we_dict d : Forall (fun kv => well G (fst kv) /\ well G (snd kv)) d -> well G (PDict d)
| we_other : well G POther.
Definition proper : py -> Prop := well (fun _ => True).
(** Values of which every part has a place in JSON text and comes back: see C41 for [valid]. *)
Definition clean (p : py) : Prop := valid p /\ well (float_ok fw fr) p.
(** Lists, and what is taken for one. *)
Inductive listlike : py -> Prop :=
| ll_list l : listlike (PList l)
| ll_tuple l : listlike (PTuple l)
| ll_set l : listlike (PSet l)
| ll_bytes b : listlike (PBytes b).

(** The classes of the sources of a session; whatever [finishInterval] returns satisfies [P]; no method raises. *)
Definition class_in (xs : list src) (c : cls) : Prop := exists s, In (Python c s) xs.
Definition returns (P : py -> Prop) (c : cls) : Prop := forall f s s' p, c_finish c = Some f -> f s = (s', Some p) -> P p.
Definition never_raises (c : cls) : Prop :=
  (forall f s s', c_start c = Some f -> f s <> (s', false)) /\ (forall f s s', c_stop c = Some f -> f s <> (s', false))
  /\ (forall f s s', c_finish c = Some f -> f s <> (s', None)).

(** A class that does what it should: no method raises, and [finishInterval] returns lists of values that JSON has a form for. *)
Definition sane (c : cls) : Prop := never_raises c /\ returns (fun p => listlike p /\ fits p /\ proper p) c.

(** ** What must be sent *)
(** The events that stand for what a source gave: for a value of Python the array that, taken back to Python, is this value. *)
Inductive yields : given -> list json -> Prop :=
| yi_native l : yields (GNative l) l
| yi_default : yields GDefault []
| yi_value p js q : to_py (JArr js) = Some q -> back p q -> yields (GValue p) js.
(** Calls that went well, on the sources from 0 to [n] - 1; the calls of [finishInterval] that gave [gs]. *)
Definition all_ok (a : nat -> bool -> act) (n : nat) : list act := map (fun i => a i true) (seq 0 n).
Definition finished (gs : list given) : list act := map (fun ig => AFinish (fst ig) (snd ig)) (combine (seq 0 (length gs)) gs).
(** What a text causes in a session with [n] sources. *)
Inductive causes (n : nat) (t : bytes) : list act -> Prop :=
| ca_categories id a r : message fr t "Tracing.getCategories" id -> answer fr a id r -> causes n t [ASend a]
| ca_start id a r : message fr t "Tracing.start" id -> answer fr a id r -> causes n t (all_ok AStart n ++ [ASend a])
| ca_end id a gs parts pieces groups c : message fr t "Tracing.end" id -> answer fr a id JNull -> length gs = n -> Forall2 yields gs parts ->
    Forall2 (data_piece fr) pieces groups -> Forall (fun g => length g <= 1000) groups -> concat groups = concat parts -> completion fr c ->
    causes n t (all_ok AStop n ++ [ASend a] ++ finished gs ++ map ASend pieces ++ [ASend c])
| ca_nothing : acceptable fr t -> (forall r id, ~ message fr t (name_of r) id) -> causes n t [].

(** ** Faults *)
(** A method raised, or [finishInterval] returned something that is no list or has a part that JSON has no form for. *)
Inductive fault : act -> Prop :=
| fa_start i : fault (AStart i false)
| fa_stop i : fault (AStop i false)
| fa_raised i : fault (AFinish i GRaised)
| fa_value i p : ~ (listlike p /\ fits p) -> fault (AFinish i (GValue p)).
(** What is left of the handling of a text if the [k]-th source has a fault: the calls on the sources before it were made; of the recording
    nothing is sent. *)
Inductive broken (n : nat) (t : bytes) : list act -> Prop :=
| br_start id k : message fr t "Tracing.start" id -> k < n -> broken n t (all_ok AStart k ++ [AStart k false])
| br_stop id k : message fr t "Tracing.end" id -> k < n -> broken n t (all_ok AStop k ++ [AStop k false])
| br_finish id a k gs g : message fr t "Tracing.end" id -> answer fr a id JNull -> length gs = k -> k < n -> fault (AFinish k g) ->
    (forall i g', In (i, g') (combine (seq 0 k) gs) -> ~ fault (AFinish i g')) ->
    broken n t (all_ok AStop n ++ [ASend a] ++ finished gs ++ [AFinish k g]).

(** ** The state of a source: its methods, and nothing else, are called on it, each on what the one before left, and it is their result that is shown. *)
Definition about (i : nat) (a : act) : Prop := match a with AStart j _ | AStop j _ | AFinish j _ => j = i | ASend _ => False end.
Definition method (m : option (Q -> Q * bool)) (s s' : Q) : Prop := match m with None => s' = s | Some f => f s = (s', true) end.
Inductive lives (c : cls) (i : nat) : list act -> Q -> Q -> Prop :=
| li_end s : lives c i [] s s
| li_other a es s s' : ~ about i a -> lives c i es s s' -> lives c i (a :: es) s s'
| li_start es s s1 s' : method (c_start c) s s1 -> lives c i es s1 s' -> lives c i (AStart i true :: es) s s'
| li_stop es s s1 s' : method (c_stop c) s s1 -> lives c i es s1 s' -> lives c i (AStop i true :: es) s s'
| li_default es s s' : c_finish c = None -> lives c i es s s' -> lives c i (AFinish i GDefault :: es) s s'
| li_value f es s s1 p s' : c_finish c = Some f -> f s = (s1, Some p) -> lives c i es s1 s' -> lives c i (AFinish i (GValue p) :: es) s s'.

(** ** Making sources: one for each provider, in their order. *)
Inductive makes : provider F Q -> src -> Prop :=
| ma_native : makes MakesNative Native
| ma_python c s : makes (MakesPython c s) (Python c s)
| ma_none : makes MakesNone Null.

(** ** Runs *)
Fixpoint texts (ls : list (label F Q)) : list bytes :=
  match ls with [] => [] | Arrives t :: ls' => t :: texts ls' | _ :: ls' => texts ls' end.
(** What the sources of the library return satisfies [P]. *)
Definition native_events (P : json -> Prop) (ls : list (label F Q)) : Prop := forall ev, In (Handles ev) ls -> forall i, Forall P (ev i).
Definition undisturbed (ls : list (label F Q)) : Prop := forall i s, ~ In (Changes i s) ls.
End Spec.
