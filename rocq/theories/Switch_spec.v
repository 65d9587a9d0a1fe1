(** What is expected of switching from outside (C100). *)
From Coq Require Import List Arith Bool.
Import ListNotations.
From Verif Require Import Switch_model.

(** What is seen of thread [i]: its events, where it is, whether its tracing is on. *)
Definition events (s : state) (i : nat) : list nat := match nth_error (s_threads s) i with Some t => t_events t | None => [] end.
Definition place (s : state) (i : nat) : pc := match nth_error (s_threads s) i with Some t => t_pc t | None => Idle end.
Definition thread_on (s : state) (i : nat) : bool :=
  match nth_error (s_threads s) i with Some t => match t_flag t with Some k => flag k s | None => true end | None => true end.

(** The event of the tracepoint the thread is in; if it has seen the process switched on; if it has seen both. *)
Definition under_way (p : pc) : list nat := match p with Idle => [] | AtProcess e | AtThread e | AtPush e => [e] end.
Definition past_process (p : pc) : list nat := match p with Idle | AtProcess _ => [] | AtThread e | AtPush e => [e] end.
Definition past_both (p : pc) : list nat := match p with AtPush e => [e] | _ => [] end.

(** The tracepoints thread [i] comes to. *)
Fixpoint come_to (i : nat) (ls : list label) : list nat :=
  match ls with
  | [] => []
  | Enter j e :: r => if Nat.eqb j i then e :: come_to i r else come_to i r
  | _ :: r => come_to i r
  end.
(** Its buffer has room. *)
Definition roomy (i : nat) (l : label) : Prop := match l with Push j room => j = i -> room = true | _ => True end.

(** [P] holds before every step, and at the end. *)
Fixpoint throughout (P : state -> Prop) (ls : list label) (s : state) : Prop :=
  P s /\ match ls with [] => True | l :: r => match step l s with Some s' => throughout P r s' | None => True end end.

(** Nothing is switched by the program, and no further request comes. *)
Definition quiet (l : label) : Prop :=
  match l with SetT _ _ | SetP _ | Open _ _ _ | Close _ | Begin _ _ => False | _ => True end.
Definition no_requests (s : state) : Prop := forall h, s_jobs s h = None.

(** What a request asks for. *)
Definition wanted_process (r : request) (before : bool) : bool := match r with Change true p _ => p | _ => before end.
Definition asked (ths : list (nat * bool)) (tid : nat) : option bool :=
  fold_left (fun o kv => if Nat.eqb (fst kv) tid then Some (snd kv) else o) ths None.
Definition wanted_thread (r : request) (tid : nat) (before : bool) : bool :=
  match r with Change _ _ ths => match asked ths tid with Some b => b | None => before end | Query => before end.
(** A thread the configurator has heard of. *)
Definition known (t : thread) : Prop := t_flag t <> None.
(** What becomes of thread [i]: a thread the configurator has not heard of cannot be named. *)
Definition wanted_of (r : request) (s : state) (i : nat) : bool :=
  match nth_error (s_threads s) i with
  | Some t => match t_flag t with Some _ => wanted_thread r (t_id t) (thread_on s i) | None => true end
  | None => true
  end.
(** Thread [i] has not ended. *)
Definition not_ended (s : state) (i : nat) : Prop := forall t, nth_error (s_threads s) i = Some t -> t_live t = true.
(** [u] is one of the states history [ls] goes through from [s]. *)
Definition moment (ls : list label) (s u : state) : Prop := exists a b, ls = a ++ b /\ run a s = Some u.
(** A request as a whole. *)
Definition handling (h : nat) (r : request) (ls : list label) : list label := Begin h r :: ls ++ [Answer h].
