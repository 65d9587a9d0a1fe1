(** What C110 says: lengths and order in a recording while the clock of the computer is set. *)
From Coq Require Import List Arith NArith ZArith Ascii Bool Floats.SpecFloat.
Import ListNotations.
From Verif Require Import TraceEvent_model Names_model Native_model Native_spec Config_spec Toggle_spec Clock_model.
Local Open Scope Z_scope.

(** The time that really passes, and by how much the clock is set, all in all. *)
Fixpoint elapsed (ls : list action) : Z :=
  match ls with [] => 0 | Pass d :: ls' => Z.of_N d + elapsed ls' | _ :: ls' => elapsed ls' end.
Fixpoint shifts (ls : list action) : Z :=
  match ls with [] => 0 | Shift z :: ls' => z + shifts ls' | _ :: ls' => shifts ls' end.

(** The tracepoints: all, and those of one thread. *)
Definition is_point (l : action) : bool := match l with Trace _ _ _ _ _ => true | _ => false end.
Definition is_own (pid : Z) (tid : N) (l : action) : bool :=
  match l with Trace p t _ _ _ => (p =? pid) && (t =? tid)%N | _ => false end.
Definition points (ls : list action) : nat := length (filter is_point ls).
Definition own_points (pid : Z) (tid : N) (ls : list action) : nat := length (filter (is_own pid tid) ls).

(** The events and the entries of one thread. *)
Definition of_thread (pid : Z) (tid : N) (r : rev_t) : bool := (r_pid r =? pid) && (r_tid r =? tid)%N.
Definition entry_of (pid : Z) (tid : N) (e : entry) : bool := (en_pid e =? pid) && (en_tid e =? tid)%N.

(** The events [evs] came to the source: those of each thread all, and in their order (that is C47). *)
Definition arrived (evs : list rev_t) (cs : list nchunk) : Prop :=
  forall pid tid, filter (of_thread pid tid) (received cs) = filter (of_thread pid tid) evs.

(** The tracepoints are those of this code base. *)
Definition sound (ls : list action) : Prop :=
  forall pid tid type id v, In (Trace pid tid type id v) ls -> (1 <= type <= 6)%N /\ (type = COUNTER -> v <> None).
(** At the tracepoints the clock shows a date between 1970 and 2043. *)
Definition dated (c : Z) (ls : list action) : Prop :=
  forall l1 a l2, ls = l1 ++ a :: l2 -> is_point a = true -> 0 <= c + elapsed l1 + shifts l1 < 2 ^ 61.

(** From one tracepoint of the thread to the next the clock does not go back: it is not set back, or by no more than what has passed. *)
Definition never_back (pid : Z) (tid : N) (ls : list action) : Prop :=
  forall l1 a l2 b l3, ls = l1 ++ a :: l2 ++ b :: l3 -> is_own pid tid a = true -> is_own pid tid b = true -> 0 <= elapsed l2 + shifts l2.

(** The thread runs program [p]. *)
Definition runs (pid : Z) (tid : N) (p : sprog) (ls : list action) : Prop :=
  map (fun l => match l with Trace _ _ type id _ => (type, id) | _ => (0%N, 0%N) end) (filter (is_own pid tid) ls) =
  map (fun e => (te_type e, te_id e)) (events_of p).

(** A reader of the entries of a thread, who numbers them from [k] and pairs begins and ends: an end closes the last begin that is open. *)
Fixpoint read (st : list nat) (k : nat) (l : list entry) : list (nat * nat) :=
  match l with
  | [] => []
  | e :: l' =>
      if (en_ph e =? "B")%char then read (k :: st) (S k) l'
      else if (en_ph e =? "E")%char then match st with [] => read [] (S k) l' | b :: st' => (b, k) :: read st' (S k) l' end
      else read st (S k) l'
  end.
