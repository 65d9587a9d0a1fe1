(** Handing events to callbacks: scalopus_tracing/src/lttng/babeltrace_parser.cpp lines 54-131 and 138-152, babeltrace_tool.cpp lines 104-117,
    and [EventCallback] in include_consumer/scalopus_tracing/babeltrace_parser.h lines 53-63. One thread reads lines and calls the callbacks;
    any other thread may subscribe or disable. How the lines come out of the pipe is in [Lines_model.v]. *)
From Coq Require Import List Arith Bool.
Import ListNotations.

Section Delivery.
Context {L E : Type}.
(** [parse], lines 41-46; [None]: it throws (see [Ctf_model.v]), and nothing catches that in the thread. *)
Context (parse : L -> option E).

(** [EventCallback]: whether it is active, and whether [callback] holds a function. *)
Record sub := { u_active : bool; u_call : bool }.
(** The reading thread. It holds the mutex unless [Idle]. In a pass with an event, [todo] are the elements of the set still to come
    and [kept] those passed by. [Seen i]: [i] was found active; [Ready i]: and its function was found not to be empty; [Calling i]: it is
    being called. *)
Inductive phase := Idle | Pass (e : E) (kept todo : list nat) | Seen (e : E) (kept : list nat) (i : nat) (todo : list nat)
| Ready (e : E) (kept : list nat) (i : nat) (todo : list nat) | Calling (e : E) (kept : list nat) (i : nat) (todo : list nat).
(** [d_subs]: all subscriptions ever made, in that order. [d_set]: [sessions_recording_] while idle. *)
Record state := { d_subs : list sub; d_set : list nat; d_phase : phase }.
Definition state0 : state := {| d_subs := []; d_set := []; d_phase := Idle |}.

(** What happens next. [Line]: a line is read, and the mutex taken. [Look], [Test], [Call], [Return]: the reading thread goes on.
    [Subscribe at]: [addCallback]; where in the set, ordered by addresses, the new element is, is open. [Deactivate], [Clear]: the two
    assignments of [disable], for which there is no lock. [Drop]: the subscriber lets go of its pointer. [Halt]. *)
Inductive label := Line (l : L) | Look | Test | Call | Return | Subscribe (at_ : nat) | Deactivate (i : nat) | Clear (i : nat) | Drop (i : nat) | Halt.
(** [Crashed]: an exception no one catches, or undefined behaviour. [Stuck]: not possible now. *)
Inductive result := Next (s : state) (called : option (nat * E)) | Crashed | Stuck.

Fixpoint modify (i : nat) (f : sub -> sub) (us : list sub) : list sub :=
  match us, i with
  | [], _ => []
  | u :: us', 0 => f u :: us'
  | u :: us', S i' => u :: modify i' f us'
  end.
Definition active (s : state) (i : nat) : bool := match nth_error (d_subs s) i with Some u => u_active u | None => false end.
Definition callable (s : state) (i : nat) : bool := match nth_error (d_subs s) i with Some u => u_call u | None => false end.
Definition go (s : state) (p : phase) : result := Next {| d_subs := d_subs s; d_set := d_set s; d_phase := p |} None.
Definition step (x : label) (s : state) : result :=
  match x with
  | Line l =>                                                                     (* 87-99 *)
      match d_phase s with
      | Idle => match d_set s with
                | [] => Next s None
                | set => match parse l with
                         | Some e => go s (Pass e [] set)
                         | None => Crashed
                         end
                end
      | _ => Stuck
      end
  | Look =>                                                                       (* 100-110 *)
      match d_phase s with
      | Pass e kept [] => Next {| d_subs := d_subs s; d_set := kept; d_phase := Idle |} None
      | Pass e kept (i :: todo) => if active s i then go s (Seen e kept i todo) else go s (Pass e kept todo)
      | _ => Stuck
      end
  | Test =>                                                                       (* 111 *)
      match d_phase s with
      | Seen e kept i todo => if callable s i then go s (Ready e kept i todo) else go s (Pass e (kept ++ [i]) todo)
      | _ => Stuck
      end
  | Call =>                                                                       (* 113; an empty function throws [bad_function_call] *)
      match d_phase s with
      | Ready e kept i todo => if callable s i then Next {| d_subs := d_subs s; d_set := d_set s; d_phase := Calling e kept i todo |} (Some (i, e)) else Crashed
      | _ => Stuck
      end
  | Return =>                                                                     (* 115 *)
      match d_phase s with
      | Calling e kept i todo => go s (Pass e (kept ++ [i]) todo)
      | _ => Stuck
      end
  | Subscribe at_ =>                                                              (* 145-152; babeltrace_tool.cpp 105-116 *)
      match d_phase s with
      | Idle => Next {| d_subs := d_subs s ++ [{| u_active := true; u_call := true |}];
                        d_set := firstn at_ (d_set s) ++ length (d_subs s) :: skipn at_ (d_set s); d_phase := Idle |} None
      | _ => Stuck
      end
  | Deactivate i =>                                                               (* babeltrace_parser.h 60 *)
      if i <? length (d_subs s)
      then Next {| d_subs := modify i (fun u => {| u_active := false; u_call := u_call u |}) (d_subs s); d_set := d_set s; d_phase := d_phase s |} None
      else Stuck
  | Clear i =>                                                                    (* 61; the function must not be destroyed while it runs *)
      if i <? length (d_subs s)
      then match d_phase s with
           | Calling _ _ j _ => if j =? i then Crashed else
               Next {| d_subs := modify i (fun u => {| u_active := u_active u; u_call := false |}) (d_subs s); d_set := d_set s; d_phase := d_phase s |} None
           | _ => Next {| d_subs := modify i (fun u => {| u_active := u_active u; u_call := false |}) (d_subs s); d_set := d_set s; d_phase := d_phase s |} None
           end
      else Stuck
  | Drop i => if i <? length (d_subs s) then Next s None else Stuck               (* the set holds a pointer as well *)
  | Halt =>                                                                       (* 138-143 *)
      match d_phase s with
      | Idle => Next {| d_subs := d_subs s; d_set := []; d_phase := Idle |} None
      | _ => Stuck
      end
  end.
(** A history, with the calls made in it. *)
Inductive final := Ended (s : state) (calls : list (nat * E)) | FCrashed | FStuck.
Fixpoint run (xs : list label) (s : state) : final :=
  match xs with
  | [] => Ended s []
  | x :: xs' => match step x s with
                | Next s' c => match run xs' s' with
                               | Ended s'' cs => Ended s'' (match c with Some y => [y] | None => [] end ++ cs)
                               | f => f
                               end
                | Crashed => FCrashed
                | Stuck => FStuck
                end
  end.
End Delivery.
Arguments label L : clear implicits.
Arguments phase E : clear implicits.
Arguments state E : clear implicits.
Arguments final E : clear implicits.
