(** LTTng recordings from what babeltrace prints to what a source has collected: the pipe and [fgets] ([Lines_model.v]), the reading thread which
    hands events to callbacks ([Delivery_model.v]) and any number of sources ([LttngSource], lttng_source.cpp lines 40-66) in one machine.
    Simplifications: those of the parts; clearing [events_] and subscribing (lines 48-49) are one step, as no callback of the source is registered
    then; assigning null to the callback and letting go of it (lines 57-58, babeltrace_parser.h line 61) are one step. *)
From Coq Require Import List Arith NArith Ascii Bool.
Import ListNotations.
From Verif Require Import Str_model UnixSystem_model.
From Verif Require Lines_model Delivery_model.
Module Q := Lines_model.
Module D := Delivery_model.

Section Flow.
Context {E : Type}.
(** How a line is parsed; [None]: it throws. *)
Context (parse : str -> option E).

Record flow := {
  f_q : Q.stream;                       (* the pipe *)
  f_wait : option str;                  (* the reading thread has got this line, and has not taken the mutex yet *)
  f_d : D.state E;                      (* the subscriptions, and where the reading thread is in its pass over them *)
  f_owner : list nat;                   (* for each subscription, the source which made it *)
  f_cb : nat -> option nat;             (* [callback_] of each source *)
  f_events : nat -> list E;             (* [events_] of each source *)
  f_lines : list str;                   (* history: the lines the reading thread has dealt with, or begun to *)
}.
Definition flow0 : flow :=
  {| f_q := Q.stream0; f_wait := None; f_d := D.state0; f_owner := []; f_cb := fun _ => None; f_events := fun _ => []; f_lines := [] |}.

(** [FPrint], [FClose]: babeltrace. [FRead]: the reading thread waits for the pipe and calls [fgets]. [FTake]: it takes the mutex and parses the
    line. [FGo]: it goes on with its pass. [FStart]: [startInterval] of source [k] when its callback is null. [FDeact], [FNull]: the two halves of
    [stopInterval]. *)
Inductive flabel :=
  | FPrint (bs : str) | FClose | FRead | FTake
  | FLook | FTest | FCall | FReturn
  | FStart (k at_ : nat) | FDeact (k : nat) | FNull (k : nat).
Inductive fresult := FNext (s : flow) | FCrash | FStuck.

Definition with_q (q : Q.stream) (w : option str) (s : flow) : flow :=
  {| f_q := q; f_wait := w; f_d := f_d s; f_owner := f_owner s; f_cb := f_cb s; f_events := f_events s; f_lines := f_lines s |}.
Definition with_d (d : D.state E) (s : flow) : flow :=
  {| f_q := f_q s; f_wait := f_wait s; f_d := d; f_owner := f_owner s; f_cb := f_cb s; f_events := f_events s; f_lines := f_lines s |}.
(** A step of the reading thread in its pass; a call adds the event to the source's (line 49). *)
Definition goes (x : D.label str) (s : flow) : fresult :=
  match D.step parse x (f_d s) with
  | D.Next d None => FNext (with_d d s)
  | D.Next d (Some (i, e)) =>
      match nth_error (f_owner s) i with
      | Some k => FNext {| f_q := f_q s; f_wait := f_wait s; f_d := d; f_owner := f_owner s; f_cb := f_cb s;
                           f_events := upd (f_events s) k (f_events s k ++ [e]); f_lines := f_lines s |}
      | None => FStuck
      end
  | D.Crashed => FCrash
  | D.Stuck => FStuck
  end.

Definition fstep (x : flabel) (s : flow) : fresult :=
  match x with
  | FPrint bs => FNext (with_q (fst (Q.qstep (Q.Print bs) (f_q s))) (f_wait s) s)
  | FClose => FNext (with_q (fst (Q.qstep Q.Close (f_q s))) (f_wait s) s)
  | FRead =>
      match f_wait s, D.d_phase (f_d s) with
      | None, D.Idle => match Q.qstep Q.Work (f_q s) with (q, o) => FNext (with_q q (hd_error o) s) end
      | _, _ => FStuck
      end
  | FTake =>
      match f_wait s with
      | Some l => match D.step parse (D.Line l) (f_d s) with
                  | D.Next d _ => FNext {| f_q := f_q s; f_wait := None; f_d := d; f_owner := f_owner s; f_cb := f_cb s; f_events := f_events s; f_lines := f_lines s ++ [l] |}
                  | D.Crashed => FCrash
                  | D.Stuck => FStuck
                  end
      | None => FStuck
      end
  | FLook => goes D.Look s
  | FTest => goes D.Test s
  | FCall => goes D.Call s
  | FReturn => goes D.Return s
  | FStart k at_ =>                                                               (* 45-50 *)
      match f_cb s k with
      | None => match D.step parse (D.Subscribe at_) (f_d s) with
                | D.Next d _ => FNext {| f_q := f_q s; f_wait := f_wait s; f_d := d; f_owner := f_owner s ++ [k]; f_cb := upd (f_cb s) k (Some (length (D.d_subs (f_d s))));
                                         f_events := upd (f_events s) k []; f_lines := f_lines s |}
                | D.Crashed => FCrash
                | D.Stuck => FStuck
                end
      | Some _ => FStuck
      end
  | FDeact k =>                                                                   (* 52-57 *)
      match f_cb s k with Some i => goes (D.Deactivate i) s | None => FStuck end
  | FNull k =>                                                                    (* 57-58 *)
      match f_cb s k with
      | Some i => match D.step parse (D.Clear i) (f_d s) with
                  | D.Next d _ => FNext {| f_q := f_q s; f_wait := f_wait s; f_d := d; f_owner := f_owner s; f_cb := upd (f_cb s) k None; f_events := f_events s; f_lines := f_lines s |}
                  | D.Crashed => FCrash
                  | D.Stuck => FStuck
                  end
      | None => FStuck
      end
  end.
Fixpoint frun (xs : list flabel) (s : flow) : fresult :=
  match xs with
  | [] => FNext s
  | x :: xs' => match fstep x s with FNext s' => frun xs' s' | r => r end
  end.
End Flow.
Arguments flow E : clear implicits.
Arguments fresult E : clear implicits.
