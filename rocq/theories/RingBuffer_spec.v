(** What a user of the ring buffer observes, in terms of the calls and returns only. *)
From Coq Require Import List Arith Bool.
Import ListNotations.
From Verif Require Import RingBuffer_model.

Section Spec.
Context {A : Type}.

(** The values for which [push] has returned [true], in order. *)
Fixpoint accepted (tr : list (event A)) : list A :=
  match tr with
  | [] => []
  | EPushRet v true :: r => v :: accepted r
  | _ :: r => accepted r
  end.

(** The values handed to the caller by completed [pop] and [pop_into] calls, in order. *)
Fixpoint returned (tr : list (event A)) : list (option A) :=
  match tr with
  | [] => []
  | ERetPop (Some x) :: r => x :: returned r
  | ERetInto xs :: r => xs ++ returned r
  | _ :: r => returned r
  end.

(** Number of values in the buffer according to the completed calls. *)
Definition held (tr : list (event A)) : nat := length (accepted tr) - length (returned tr).

(** No call or return of the producer (of the consumer) in a piece of the trace. *)
Definition no_producer (tr : list (event A)) : Prop :=
  forall e, In e tr -> match e with EPushCall _ | EPushRet _ _ => False | _ => True end.
Definition no_consumer (tr : list (event A)) : Prop :=
  forall e, In e tr -> match e with EPushCall _ | EPushRet _ _ => True | _ => False end.

(** Schedules in which every load returns the newest value (sequential consistency). *)
Definition reads_newest (s : st A) (a : action A) : Prop :=
  match a with
  | AProd i => match pp s with PChk _ _ _ => S i = length (rhist s) | _ => True end
  | AStep i => match cp s with CLd _ => S i = length (whist s) | _ => True end
  | _ => True
  end.
Fixpoint sc (s : st A) (sched : list (action A)) : Prop :=
  match sched with
  | [] => True
  | a :: rest => reads_newest s a /\ sc (match step s a with Some s' => s' | None => s end) rest
  end.

End Spec.
