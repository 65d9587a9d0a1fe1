(** The life of a recorder, scalopus_catapult/src/catapult_recorder.cpp, as seen by the one thread that owns it. What a source records is
    left open: [events] gives what the source with a number returns when it is finished. The worker thread only calls [work] of
    the sources (lines 36-52), which is not shown. *)
From Coq Require Import List Arith Bool.
Import ListNotations.

Section Recorder.
Context {E T : Type}.
(** What [collectEvents] makes of all events ([None]: an exception), see [collect_text] in [Session_model.v]. *)
Context (render : list E -> option T).

(** catapult_recorder.h lines 99-107. Sources are numbered in the order they are made. *)
Record recorder := { r_providers : nat; r_sources : list nat; r_made : nat; r_running : bool; r_joinable : bool; r_file : option nat }.
Definition recorder0 : recorder :=
  {| r_providers := 0; r_sources := []; r_made := 0; r_running := false; r_joinable := false; r_file := None |}.

Inductive rop :=
| RAddProvider | RStart | RStop | RStartInterval | RStopInterval
| RSetupDump (file : nat) | RCollect (events : nat -> list E) | RWrite (file : nat) (events : nat -> list E) | RDestroy (events : nat -> list E).
(** Visible: calls on sources, sources made for the providers, files written, texts returned. *)
Inductive reffect := XMake (src provider : nat) | XStart (src : nat) | XStop (src : nat) | XFinish (src : nat) | XFile (file : nat) (t : T) | XText (t : T).
(** [RThrew]: an exception reaches the caller. [RTerminated]: [std::terminate]. [RGone]: destroyed. *)
Inductive rresult := ROk (r : recorder) (es : list reffect) | RThrew (r : recorder) (es : list reffect) | RTerminated | RGone (es : list reffect).

Definition with_run (r : recorder) (srcs : list nat) (made : nat) (running joinable : bool) : recorder :=
  {| r_providers := r_providers r; r_sources := srcs; r_made := made; r_running := running; r_joinable := joinable; r_file := r_file r |}.
(** Lines 83-99. Assigning to a thread that is still joinable terminates. *)
Definition start (r : recorder) : rresult :=
  if r_running r then ROk r []
  else if r_joinable r then RTerminated
  else let srcs := seq (r_made r) (r_providers r) in
       ROk (with_run r srcs (r_made r + r_providers r) true true)
           (map (fun p => XMake (r_made r + p) p) (seq 0 (r_providers r))).
(** Lines 54-58. [join] of a thread that is not joinable throws [system_error]. *)
Definition stop (r : recorder) : rresult :=
  if r_joinable r then ROk (with_run r (r_sources r) (r_made r) false false) []
  else RThrew (with_run r (r_sources r) (r_made r) false false) [].
(** Lines 106-137. *)
Definition collect (r : recorder) (events : nat -> list E) : list reffect * option T :=
  (map XStop (r_sources r) ++ map XFinish (r_sources r), render (concat (map events (r_sources r)))).
(** Lines 139-144: the file is opened after the events have been collected. *)
Definition write_file (r : recorder) (file : nat) (events : nat -> list E) : list reffect * bool :=
  match collect r events with (es, Some t) => (es ++ [XFile file t], true) | (es, None) => (es, false) end.

Definition rstep (o : rop) (r : recorder) : rresult :=
  match o with
  | RAddProvider => ROk {| r_providers := S (r_providers r); r_sources := r_sources r; r_made := r_made r; r_running := r_running r;
                           r_joinable := r_joinable r; r_file := r_file r |} []
  | RStart => start r
  | RStop => stop r
  | RStartInterval => ROk r (map XStart (r_sources r))                               (* lines 60-67 *)
  | RStopInterval => ROk r (map XStop (r_sources r))                                 (* lines 69-76 *)
  | RSetupDump f => ROk {| r_providers := r_providers r; r_sources := r_sources r; r_made := r_made r; r_running := r_running r;
                           r_joinable := r_joinable r; r_file := Some f |} []         (* lines 101-104 *)
  | RCollect ev => match collect r ev with (es, Some t) => ROk r (es ++ [XText t]) | (es, None) => RThrew r es end
  | RWrite f ev => match write_file r f ev with (es, true) => ROk r es | (es, false) => RThrew r es end
  | RDestroy ev =>                                                                    (* lines 146-153; exceptions may not leave a destructor *)
      match stop r with
      | ROk r' _ => match r_file r with
                    | None => RGone []
                    | Some f => match write_file r' f ev with (es, true) => RGone es | (_, false) => RTerminated end
                    end
      | _ => RTerminated
      end
  end.
(** A history; exceptions that reach the caller are caught and reported, and the history goes on. *)
Inductive rfinal := FAlive (r : recorder) (es : list reffect) (threw : bool) | FTerminated | FGone (es : list reffect) (threw : bool).
Fixpoint rrun (os : list rop) (r : recorder) (es : list reffect) (threw : bool) : rfinal :=
  match os with
  | [] => FAlive r es threw
  | o :: os' => match rstep o r with
                | ROk r' xs => rrun os' r' (es ++ xs) threw
                | RThrew r' xs => rrun os' r' (es ++ xs) true
                | RTerminated => FTerminated
                | RGone xs => FGone (es ++ xs) threw
                end
  end.
Definition life (os : list rop) : rfinal := rrun os recorder0 [] false.
End Recorder.
Arguments reffect T : clear implicits.
Arguments rop E : clear implicits.
