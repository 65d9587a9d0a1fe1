(** What the tracepoints and their configuration should do: no heap, no map, no caches. *)
From Coq Require Import List Arith NArith ZArith Bool.
Import ListNotations.
From Verif Require Import UnixSystem_model OMap_model TraceEvent_model Config_model.

(** A thread: its id, whether it runs, whether the configurator has heard of it (it ran into a tracepoint or used a thread
    setting), whether its tracing is on, its open scoped changes, its events. *)
Record athr := { a_tid : nat; a_live : bool; a_known : bool; a_on : bool; a_scopes : list (bool * bool); a_events : list tev }.
Record acfg := { a_process : bool; a_threads : list athr }.

Definition acfg0 : acfg := {| a_process := true; a_threads := [] |}.

Definition a_set (i : nat) (t : athr) (a : acfg) : acfg := {| a_process := a_process a; a_threads := set_nth i t (a_threads a) |}.

(** The value a request asks for thread id [tid]; of several for the same id the last counts. *)
Definition asked (ths : list (nat * bool)) (tid : nat) : option bool :=
  fold_left (fun o kv => if fst kv =? tid then Some (snd kv) else o) ths None.

Definition remote_thread (ths : list (nat * bool)) (t : athr) : athr :=
  if a_live t && a_known t
  then match asked ths (a_tid t) with
       | Some b => {| a_tid := a_tid t; a_live := a_live t; a_known := a_known t; a_on := b; a_scopes := a_scopes t; a_events := a_events t |}
       | None => t
       end
  else t.

Definition astep (l : cfg_label) (a : acfg) : option acfg :=
  let on i f := match nth_error (a_threads a) i with Some t => if a_live t then f t else None | None => None end in
  match l with
  | GStart tid =>
      if existsb (fun t => (a_tid t =? tid) && a_live t) (a_threads a) then None
      else Some {| a_process := a_process a;
                   a_threads := a_threads a ++ [{| a_tid := tid; a_live := true; a_known := false; a_on := true; a_scopes := []; a_events := [] |}] |}
  | GTrace i p time room =>
      on i (fun t => Some (a_set i {| a_tid := a_tid t; a_live := true; a_known := true; a_on := a_on t; a_scopes := a_scopes t;
                                      a_events := a_events t ++ (if a_process a && a_on t && room then [event_of p time] else []) |} a))
  | GGetThread i =>
      on i (fun t => Some (a_set i {| a_tid := a_tid t; a_live := true; a_known := true; a_on := a_on t; a_scopes := a_scopes t; a_events := a_events t |} a))
  | GSetThread i b =>
      on i (fun t => Some (a_set i {| a_tid := a_tid t; a_live := true; a_known := true; a_on := b; a_scopes := a_scopes t; a_events := a_events t |} a))
  | GSetProcess b => Some {| a_process := b; a_threads := a_threads a |}
  | GScope i isp b =>
      on i (fun t => Some (
        if isp
        then {| a_process := b; a_threads := set_nth i {| a_tid := a_tid t; a_live := true; a_known := a_known t; a_on := a_on t;
                                                          a_scopes := (true, a_process a) :: a_scopes t; a_events := a_events t |} (a_threads a) |}
        else a_set i {| a_tid := a_tid t; a_live := true; a_known := true; a_on := b; a_scopes := (false, a_on t) :: a_scopes t; a_events := a_events t |} a))
  | GUnscope i =>
      on i (fun t => match a_scopes t with
        | [] => None
        | (true, prev) :: r => Some {| a_process := prev; a_threads := set_nth i {| a_tid := a_tid t; a_live := true; a_known := a_known t; a_on := a_on t;
                                                                                    a_scopes := r; a_events := a_events t |} (a_threads a) |}
        | (false, prev) :: r => Some (a_set i {| a_tid := a_tid t; a_live := true; a_known := true; a_on := prev; a_scopes := r; a_events := a_events t |} a)
        end)
  | GRemote CQuery => Some a
  | GRemote (CChange sp p ths) => Some {| a_process := if sp then p else a_process a; a_threads := map (remote_thread ths) (a_threads a) |}
  | GExit i =>
      on i (fun t => Some (a_set i {| a_tid := a_tid t; a_live := false; a_known := a_known t; a_on := a_on t; a_scopes := a_scopes t; a_events := a_events t |} a))
  | GLateSet _ _ => None
  end.

Fixpoint arun (ls : list cfg_label) (a : acfg) : option acfg :=
  match ls with
  | [] => Some a
  | l :: ls' => match astep l a with Some a' => arun ls' a' | None => None end
  end.

(** What an observer can see of a state of the model: whether tracing is on for the process, and of each thread its id, the
    open scoped changes, and the events in its buffer. *)
Definition seen_thread (t : thr) : nat * bool * list (bool * bool) * list tev := (t_tid t, t_live t, t_scopes t, t_events t).
Definition aseen_thread (t : athr) : nat * bool * list (bool * bool) * list tev := (a_tid t, a_live t, a_scopes t, a_events t).

(** The state of a thread: what [getThreadState] would return on it. *)
Definition thread_state (s : cfg) (t : thr) : bool :=
  match mfind Nat.ltb (t_tid t) (g_map s) with Some k => flag k s | None => true end.

(** Thread [i] is running and has this state. *)
Definition thread_is (s : cfg) (i : nat) (b : bool) : Prop :=
  exists t, nth_error (g_threads s) i = Some t /\ t_live t = true /\ thread_state s t = b.
Definition events_are (s : cfg) (i : nat) (l : list tev) : Prop := exists t, nth_error (g_threads s) i = Some t /\ t_events t = l.
Definition scopes_are (s : cfg) (i : nat) (l : list (bool * bool)) : Prop := exists t, nth_error (g_threads s) i = Some t /\ t_scopes t = l.

(** The same of the abstract machine. *)
Definition same_seen (s : cfg) (a : acfg) : Prop :=
  g_process s = a_process a /\ map seen_thread (g_threads s) = map aseen_thread (a_threads a) /\
  forall i t x, nth_error (g_threads s) i = Some t -> nth_error (a_threads a) i = Some x -> a_live x = true -> thread_state s t = a_on x.

(** No call of the configurator is made by a thread that is already running its thread-local destructors. *)
Definition not_late (l : cfg_label) : Prop := match l with GLateSet _ _ => False | _ => True end.

(** The answer to a query. *)
Definition areply (a : acfg) (r : creply) : Prop :=
  fst r = a_process a /\
  (forall tid b, In (tid, b) (snd r) <-> exists i t, nth_error (a_threads a) i = Some t /\ a_live t = true /\ a_known t = true /\ a_tid t = tid /\ a_on t = b) /\
  NoDup (map fst (snd r)).

(** What an event says to someone who knows only the codes (1 to 6: begin, end, mark for everything, for the process, for the
    thread, counter). *)
Definition reads_as (e : tev) : option (tpoint * N) :=
  match te_type e, te_value e with
  | 1%N, None => Some (TpEntry (te_id e), te_time e)
  | 2%N, None => Some (TpExit (te_id e), te_time e)
  | 3%N, None => Some (TpMark LGlobal (te_id e), te_time e)
  | 4%N, None => Some (TpMark LProcess (te_id e), te_time e)
  | 5%N, None => Some (TpMark LThread (te_id e), te_time e)
  | 6%N, Some v => Some (TpCount (te_id e) v, te_time e)
  | _, _ => None
  end.

(** ** Structured programs *)
(** A program of one thread: tracepoints, scopes ([TRACE_SCOPE_RAII]), scoped changes of the configuration, exceptions.
    Objects declared in one block are destroyed in the reverse order, so a block is a nest of these. *)
Inductive sprog :=
  | SSkip
  | SPoint (t : tpoint) (time : N)
  | SSeq (p q : sprog)
  | SScope (id : N) (t1 t2 : N) (p : sprog)
  | SConfig (is_process new_state : bool) (p : sprog)
  | SThrow
  | STry (p q : sprog).

(** Only marks and counts appear as single tracepoints. *)
Fixpoint scoped_only (p : sprog) : Prop :=
  match p with
  | SSkip | SThrow => True
  | SPoint t _ => match t with TpMark _ _ | TpCount _ _ => True | _ => False end
  | SSeq p q | STry p q => scoped_only p /\ scoped_only q
  | SScope _ _ _ p | SConfig _ _ p => scoped_only p
  end.

(** The calls the program of thread [i] makes, and whether it ends with an exception. Destructors run in both cases:
    scope_trace_raii.cpp lines 40-43, trace_configuration_raii.cpp lines 48-59. *)
Fixpoint calls_of (i : nat) (p : sprog) : list cfg_label * bool :=
  match p with
  | SSkip => ([], false)
  | SPoint t time => ([GTrace i t time true], false)
  | SSeq p q => let '(l, x) := calls_of i p in if x then (l, true) else let '(l', x') := calls_of i q in (l ++ l', x')
  | SScope id t1 t2 p => let '(l, x) := calls_of i p in (GTrace i (TpEntry id) t1 true :: l ++ [GTrace i (TpExit id) t2 true], x)
  | SConfig isp b p => let '(l, x) := calls_of i p in (GScope i isp b :: l ++ [GUnscope i], x)
  | SThrow => ([], true)
  | STry p q => let '(l, x) := calls_of i p in if x then let '(l', x') := calls_of i q in (l ++ l', x') else (l, false)
  end.

(** Properly nested begin and end events. *)
Inductive nested : list tev -> Prop :=
  | nest_nil : nested []
  | nest_point : forall e l, te_type e <> SCOPE_ENTRY -> te_type e <> SCOPE_EXIT -> nested l -> nested (e :: l)
  | nest_pair : forall b e l l', te_type b = SCOPE_ENTRY -> te_type e = SCOPE_EXIT -> te_id b = te_id e -> nested l -> nested l' -> nested (b :: l ++ e :: l').

(** The steps of thread [i] in a history. *)
Definition thread_of (l : cfg_label) : option nat :=
  match l with
  | GTrace i _ _ _ | GGetThread i | GSetThread i _ | GScope i _ _ | GUnscope i | GExit i | GLateSet i _ => Some i
  | GStart _ | GSetProcess _ | GRemote _ => None
  end.
Definition steps_of (i : nat) (ls : list cfg_label) : list cfg_label :=
  filter (fun l => match thread_of l with Some j => j =? i | None => false end) ls.

(** What other threads may do meanwhile: anything but process-wide changes and remote requests. *)
Definition minds_own_business (i : nat) (l : cfg_label) : Prop :=
  match l with
  | GStart _ => True
  | GSetProcess _ | GRemote _ => False
  | GTrace _ _ _ _ | GGetThread _ | GSetThread _ _ | GExit _ => True
  | GLateSet _ _ => False
  | GScope j isp _ => j = i \/ isp = false
  | GUnscope j => True
  end.

(** ** Process-wide scopes of several threads *)
(** The thread whose process-wide scope a step opens ([Some (true, i)]) or closes ([Some (false, i)]). *)
Definition scope_effect (l : cfg_label) (s : cfg) : option (bool * nat) :=
  match l with
  | GScope i true _ => Some (true, i)
  | GUnscope i => match nth_error (g_threads s) i with Some t => match t_scopes t with (true, _) :: _ => Some (false, i) | _ => None end | None => None end
  | _ => None
  end.

(** The steps of a history respect the order of the process-wide scopes of all threads: the one that is closed is always the one
    that was opened last. [stack] holds the threads of the open ones; the result is the stack after the history. *)
Fixpoint last_opened_first (stack : list nat) (ls : list cfg_label) (s : cfg) : option (list nat) :=
  match ls with
  | [] => Some stack
  | l :: ls' =>
      match gstep l s with
      | None => None
      | Some s' =>
          match scope_effect l s with
          | None => last_opened_first stack ls' s'
          | Some (true, i) => last_opened_first (i :: stack) ls' s'
          | Some (false, i) => match stack with
                               | j :: stack' => if j =? i then last_opened_first stack' ls' s' else None
                               | [] => None
                               end
          end
      end
  end.

(** Nothing but scopes changes the process state. *)
Definition scopes_only (l : cfg_label) : Prop :=
  match l with GSetProcess _ | GLateSet _ _ => False | GRemote (CChange true _ _) => False | _ => True end.
