(** The switch of the tracing state in Python: [ThreadStateSwitcher] and [suppressed], scalopus_python/scalopus/tracing.py lines 195-233.
    The state of a thread is that of Config_model ([setThreadState] returns the state there was, C18); here only that state is kept.
    [with w: body] is [w.__enter__()], the body, [w.__exit__()]; an exception ends the body early and the exit runs all the same, so that
    a body is what of it was executed. A decorated function is one switcher, made when it is decorated, around each call of it.
    Threads take turns between any two of the steps below, at the places where the interpreter may switch. *)
From Coq Require Import List Arith Bool.
Import ListNotations.
From Verif Require Import UnixSystem_model.

(** What a thread does; switchers and trace points are numbered. *)
Inductive stmt :=
| Point (n : nat)                                (* a trace point *)
| Use (w : nat) (body : list stmt).              (* [with w:], or a call of the function decorated with [w] *)

Inductive label :=
| SPoint (t n : nat)
| SSwitch (t w : nat)                            (* line 217: [setThreadState(self.target_state)] *)
| SStore (t w : nat)                             (* line 217: [self.old_state =] *)
| SLoad (t w : nat)                              (* line 220: [self.old_state] *)
| SRestore (t : nat).                            (* line 220: [setThreadState] *)

Fixpoint flat (t : nat) (s : stmt) : list label :=
  match s with
  | Point n => [SPoint t n]
  | Use w body => SSwitch t w :: SStore t w :: flat_map (flat t) body ++ [SLoad t w; SRestore t]
  end.
Definition flatten (t : nat) (l : list stmt) : list label := flat_map (flat t) l.

Record world := {
  w_on : nat -> bool;                            (* by thread: the tracing state *)
  w_tmp : nat -> bool;                           (* by thread: the value at hand *)
  w_old : nat -> option bool;                    (* by switcher: [old_state]; it is not there before it is first stored *)
  w_log : list (nat * nat)                       (* the events: thread, trace point *)
}.

Section Switch.
Variable target : nat -> bool.                   (* by switcher: [target_state] *)
(** [None]: an exception (the attribute is not there). *)
Definition step (l : label) (s : world) : option world :=
  match l with
  | SPoint t n => Some (if w_on s t then {| w_on := w_on s; w_tmp := w_tmp s; w_old := w_old s; w_log := w_log s ++ [(t, n)] |} else s)
  | SSwitch t w => Some {| w_on := upd (w_on s) t (target w); w_tmp := upd (w_tmp s) t (w_on s t); w_old := w_old s; w_log := w_log s |}
  | SStore t w => Some {| w_on := w_on s; w_tmp := w_tmp s; w_old := upd (w_old s) w (Some (w_tmp s t)); w_log := w_log s |}
  | SLoad t w => match w_old s w with
                 | Some b => Some {| w_on := w_on s; w_tmp := upd (w_tmp s) t b; w_old := w_old s; w_log := w_log s |}
                 | None => None
                 end
  | SRestore t => Some {| w_on := upd (w_on s) t (w_tmp s t); w_tmp := w_tmp s; w_old := w_old s; w_log := w_log s |}
  end.
Fixpoint run (ls : list label) (s : world) : option world :=
  match ls with
  | [] => Some s
  | l :: ls' => match step l s with Some s' => run ls' s' | None => None end
  end.
End Switch.
