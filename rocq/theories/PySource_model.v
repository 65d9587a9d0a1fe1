(** Trace event sources written in Python in a session of a viewer: scalopus_python/lib/scalopus_interface.cpp lines 137-172 (the methods
    called through pybind11), scalopus_catapult/src/trace_session.cpp lines 47-144 (who calls them) and catapult_backend.cpp lines
    144-177 (who makes them). The texts of a session are those of [Session_model.v], the conversion of Python values that of [PyJson_model.v].

    What pybind11 does is its documented behaviour (it is not in /repo): [PYBIND11_OVERLOAD] calls the method of the Python class if there is one and
    the C++ one otherwise; an exception raised in Python becomes [error_already_set]; the value returned by a method declared [void] is
    not looked at; [None] is accepted where a pointer to a source is expected and gives a null pointer.

    Simplifications: methods return or raise, they do not block; a source written in Python cannot have [work] (lines 215-216 leave it out), so [work]
    of every source does nothing; each method is called while holding the interpreter lock, so the state of a source changes in steps. *)
From Coq Require Import String List Arith NArith ZArith Ascii Bool.
Import ListNotations.
From Verif Require Import OMap_model Json_model Session_model PyJson_model.
Local Notation length := List.length.

Section Sources.
(** Floating point numbers as in [Session_model.v] and [PyJson_model.v]; [Q]: the state of the Python objects. *)
Context {F : Type} (fw : F -> bytes) (fr : bytes -> option F) (braces : json F) (fcmp : F -> F -> comparison) (of_int : Z -> F) {Q : Type}.
Notation json := (json F). Notation py := (py F).

(** A Python class derived from the source of the interface; [None]: the method is not there. [startInterval] and [stopInterval] return ([true]) or
    raise ([false]); [finishInterval] returns a value or raises ([None]). *)
Record cls := { c_start : option (Q -> Q * bool); c_stop : option (Q -> Q * bool); c_finish : option (Q -> Q * option py) }.
(** What a session has in [sources_]: a source of the library, one written in Python, or a null pointer. *)
Inductive src := Native | Python (c : cls) (s : Q) | Null.
(** What [finishInterval] of a source comes to. *)
Inductive given := GNative (l : list json) | GDefault | GRaised | GValue (p : py).
(** Visible: the calls on the sources, with what became of them, and the texts for the viewer. *)
Inductive act := AStart (i : nat) (ok : bool) | AStop (i : nat) (ok : bool) | AFinish (i : nat) (g : given) | ASend (t : bytes).
(** How a piece of the worker's program ends: with a result; with an exception; with undefined behaviour. *)
Inductive res (A : Type) := Good (a : A) (es : list act) | Threw (es : list act) | Undef (es : list act).
Arguments Good {A}. Arguments Threw {A}. Arguments Undef {A}.
Definition bind {A B} (r : res A) (f : A -> res B) : res B :=
  match r with
  | Good a es => match f a with Good b es' => Good b (es ++ es') | Threw es' => Threw (es ++ es') | Undef es' => Undef (es ++ es') end
  | Threw es => Threw es
  | Undef es => Undef es
  end.
Definition lift (o : outcome) : res unit :=
  let sends := flat_map (fun e => match e with ESend t => [ASend t] | _ => [] end) in
  match o with Done es => Good tt (sends es) | Throws es => Threw (sends es) | Undefined => Undef [] end.

(** [startInterval] or [stopInterval] of one source, lines 142-150: the method chosen by [m], shown as [a]. A virtual call through a null
    pointer is undefined. *)
Definition call (m : cls -> option (Q -> Q * bool)) (a : bool -> act) (x : src) : res src :=
  match x with
  | Native => Good Native [a true]
  | Python c s => match m c with
                  | None => Good x [a true]
                  | Some f => match f s with (s', true) => Good (Python c s') [a true] | (_, false) => Threw [a false] end
                  end
  | Null => Undef []
  end.
(** trace_session.cpp lines 113-116 and 124-127: one after the other; an exception ends it. *)
Fixpoint call_all (m : cls -> option (Q -> Q * bool)) (a : nat -> bool -> act) (i : nat) (xs : list src) : res (list src) :=
  match xs with
  | [] => Good [] []
  | x :: r => bind (call m (a i) x) (fun x' => bind (call_all m a (S i) r) (fun r' => Good (x' :: r') []))
  end.
(** [json returned_value = obj; return returned_value.get<std::vector<json>>()], lines 165-167: anything but an array throws. *)
Definition as_events (p : py) : option (list json) := match to_json fcmp of_int p with Some (JArr l) => Some l | _ => None end.
(** [finishInterval] of one source, lines 152-172. [ev]: what a source of the library returns. *)
Definition finish (ev : list json) (i : nat) (x : src) : res (src * list json) :=
  match x with
  | Native => Good (Native, ev) [AFinish i (GNative ev)]
  | Python c s => match c_finish c with
                  | None => Good (x, []) [AFinish i GDefault]
                  | Some f => match f s with
                              | (_, None) => Threw [AFinish i GRaised]
                              | (s', Some p) => match as_events p with
                                                | Some l => Good (Python c s', l) [AFinish i (GValue p)]
                                                | None => Threw [AFinish i (GValue p)]
                                                end
                              end
                  end
  | Null => Undef []
  end.
(** trace_session.cpp lines 132-137; [ev]: by the place of the source. *)
Fixpoint finish_all (ev : nat -> list json) (i : nat) (xs : list src) : res (list src * list json) :=
  match xs with
  | [] => Good ([], []) []
  | x :: r => bind (finish (ev i) i x) (fun xl =>
              bind (finish_all ev (S i) r) (fun rl => Good (fst xl :: fst rl, snd xl ++ snd rl) []))
  end.

(** [processMessage], trace_session.cpp lines 94-144. *)
Definition handle (ev : nat -> list json) (incoming : bytes) (xs : list src) : res (list src) :=
  match parse fr incoming with
  | None => Threw []
  | Some msg =>
      match member msg "method" with
      | None => Threw []
      | Some method =>
          let id := match member msg "id" with Some v => v | None => JNull end in
          let reply r := lift (send fw (JObj [pair_of "id" id; pair_of "result" r])) in
          if is_text method "Tracing.getCategories" then
            bind (reply (JObj [pair_of "categories" (JArr [jtext "!foo"; jtext "!bar"; jtext "disabled-by-default-buz"])])) (fun _ => Good xs [])
          else if is_text method "Tracing.start" then
            bind (call_all c_start AStart 0 xs) (fun xs' => bind (reply braces) (fun _ => Good xs' []))
          else if is_text method "Tracing.end" then
            bind (call_all c_stop AStop 0 xs) (fun xs' =>
            bind (reply JNull) (fun _ =>
            bind (finish_all ev 0 xs') (fun xe =>
            bind (lift (chunked_transmit fw (snd xe))) (fun _ =>
            bind (lift (send fw (JObj [pair_of "method" (jtext "Tracing.tracingComplete"); pair_of "params" (JArr [])]))) (fun _ =>
            Good (fst xe) [])))))
          else Good xs []
      end
  end.
(** The round of [work], lines 82-86: nothing for every source, undefined for a null pointer. *)
Definition is_null (x : src) : bool := match x with Null => true | _ => false end.
Definition work (xs : list src) : bool := existsb is_null xs.

(** ** A session *)
Inductive ending := Alive | Terminated | UndefinedBehaviour.
Record state := { x_sources : list src; x_in : list bytes; x_log : list act; x_end : ending }.
Definition state0 (xs : list src) : state := {| x_sources := xs; x_in := []; x_log := []; x_end := Alive |}.
(** A text arrives; the worker handles one, where the sources of the library return [ev]; the worker calls [work]; other Python code changes the
    state of the [i]-th source. An exception leaves the worker thread, lines 36-39, 72-92: [std::terminate]. *)
Inductive label := Arrives (t : bytes) | Handles (ev : nat -> list json) | Works | Changes (i : nat) (s : Q).
Fixpoint change (i : nat) (s : Q) (xs : list src) : list src :=
  match xs, i with
  | [], _ => []
  | Python c _ :: r, 0 => Python c s :: r
  | x :: r, 0 => x :: r
  | x :: r, S i' => x :: change i' s r
  end.
Definition step (l : label) (s : state) : option state :=
  match x_end s with
  | Alive =>
      match l with
      | Arrives t => Some {| x_sources := x_sources s; x_in := x_in s ++ [t]; x_log := x_log s; x_end := Alive |}
      | Works => Some {| x_sources := x_sources s; x_in := x_in s; x_log := x_log s; x_end := if work (x_sources s) then UndefinedBehaviour else Alive |}
      | Changes i v => Some {| x_sources := change i v (x_sources s); x_in := x_in s; x_log := x_log s; x_end := Alive |}
      | Handles ev =>
          match x_in s with
          | [] => None
          | t :: rest =>
              Some match handle ev t (x_sources s) with
                   | Good xs es => {| x_sources := xs; x_in := rest; x_log := x_log s ++ es; x_end := Alive |}
                   | Threw es => {| x_sources := x_sources s; x_in := rest; x_log := x_log s ++ es; x_end := Terminated |}
                   | Undef es => {| x_sources := x_sources s; x_in := rest; x_log := x_log s ++ es; x_end := UndefinedBehaviour |}
                   end
          end
      end
  | _ => None
  end.
Fixpoint run (ls : list label) (s : state) : option state :=
  match ls with
  | [] => Some s
  | l :: ls' => match step l s with Some s' => run ls' s' | None => None end
  end.

(** ** Making the sources: catapult_backend.cpp lines 167-173 and scalopus_interface.cpp lines 137-140. What [makeSource] of a provider does: a source
    of the library; a source written in Python; [None]; an exception, which is also what it comes to if the method is not there or returns something
    that is no source. [None] of the function: the exception reaches the web server, and the session is not kept. *)
Inductive provider := MakesNative | MakesPython (c : cls) (s : Q) | MakesNone | MakesRaise.
Fixpoint make_sources (ps : list provider) : option (list src) :=
  match ps with
  | [] => Some []
  | p :: r => match p with
              | MakesRaise => None
              | MakesNative => option_map (cons Native) (make_sources r)
              | MakesPython c s => option_map (cons (Python c s)) (make_sources r)
              | MakesNone => option_map (cons Null) (make_sources r)
              end
  end.
End Sources.
Arguments Good {F A}. Arguments Threw {F A}. Arguments Undef {F A}.
Arguments src : clear implicits. Arguments cls : clear implicits. Arguments state : clear implicits. Arguments label : clear implicits.
Arguments given : clear implicits. Arguments act : clear implicits. Arguments provider : clear implicits.
