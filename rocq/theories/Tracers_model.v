(** The ways to build a program that traces (C102): with the native trace points (Config_model), with those of LTTng, or with none.

    Modelled: scalopus_tracing/src/lttng/lttng_tracepoint.cpp 41-99, scope_tracepoint_lttng_definition.h 38-68, scope_tracepoint_lttng.cpp 34-52,
    nop/nop_tracepoint.cpp 34-48, nop/scope_tracepoint_nop.cpp; what babeltrace prints for an event of LTTng (lttng_provider.cpp starts
    it with seconds and without deltas, babeltrace_tool.cpp; contexts vpid and pthread_id).
    Simplifications: those of Config_model; [room] tells whether the library of LTTng keeps the event; the library takes the time at the trace point. *)
From Coq Require Import String List Arith NArith ZArith Ascii Bool.
Import ListNotations.
From Verif Require Import UnixSystem_model OMap_model TraceEvent_model Config_model Json_model Str_model Ctf_model Ctf_spec.
Local Open Scope list_scope.
Local Notation length := List.length.

(** [tracepoint(scalopus_scope_id, ...)] of each function: lttng_tracepoint.cpp 51, 63, 76-86, 98 and the fields of the classes, definition.h 40-41, 55-56. *)
Definition id_field (id : N) : field := (txt "id", FInt (Z.of_N id)).
Definition lttng_point (p : tpoint) : str * list field :=
  match p with
  | TpEntry id => (txt "scope_entry", [id_field id])
  | TpExit id => (txt "scope_exit", [id_field id])
  | TpMark LGlobal id => (txt "mark_event_global", [id_field id])
  | TpMark LProcess id => (txt "mark_event_process", [id_field id])
  | TpMark LThread id => (txt "mark_event_thread", [id_field id])
  | TpCount id v => (txt "count_event", [id_field id; (txt "value", FInt v)])
  end.
(** An event the library was given: the time, the name and the fields. *)
Record lttng_event := { le_time : N; le_name : str; le_fields : list field }.
Definition lttng_event_of (p : tpoint) (time : N) : lttng_event := {| le_time := time; le_name := fst (lttng_point p); le_fields := snd (lttng_point p) |}.

(** A program with the trace points of LTTng: the configuration, and what each thread has given to the library. *)
Record lprog := { lp_cfg : cfg; lp_out : list (list lttng_event) }.
Definition lprog0 : lprog := {| lp_cfg := cfg0; lp_out := [] |}.
Definition lttng_step (l : cfg_label) (s : lprog) : option lprog :=
  match l with
  | GTrace i p time room =>
      g_on_thread i (lp_cfg s) (fun t =>
        let '(k, s1) := match find (fun e => fst e =? fn_of p) (t_cache t) with
                        | Some e => (snd e, lp_cfg s)
                        | None => thread_state_ptr i t (lp_cfg s)
                        end in
        match nth_error (g_threads s1) i with
        | Some t1 =>
            let fire := g_process s1 && flag k s1 && room in
            Some {| lp_cfg := with_thr i {| t_tid := t_tid t1; t_live := t_live t1; t_cleanup := t_cleanup t1;
                                            t_cache := match find (fun e => fst e =? fn_of p) (t_cache t1) with Some _ => t_cache t1 | None => (fn_of p, k) :: t_cache t1 end;
                                            t_scopes := t_scopes t1; t_events := t_events t1 |} s1;
                    lp_out := if fire then set_nth i (nth i (lp_out s) [] ++ [lttng_event_of p time]) (lp_out s) else lp_out s |}
        | None => None
        end)
  | GStart _ => match gstep l (lp_cfg s) with Some c => Some {| lp_cfg := c; lp_out := lp_out s ++ [[]] |} | None => None end
  | _ => match gstep l (lp_cfg s) with Some c => Some {| lp_cfg := c; lp_out := lp_out s |} | None => None end
  end.
Fixpoint lttng_run (ls : list cfg_label) (s : lprog) : option lprog :=
  match ls with
  | [] => Some s
  | l :: ls' => match lttng_step l s with Some s' => lttng_run ls' s' | None => None end
  end.

(** A program without trace points: the functions are empty. *)
Definition nop_step (l : cfg_label) (s : cfg) : option cfg :=
  match l with
  | GTrace i _ _ _ => g_on_thread i s (fun _ => Some s)
  | _ => gstep l s
  end.
Fixpoint nop_run (ls : list cfg_label) (s : cfg) : option cfg :=
  match ls with
  | [] => Some s
  | l :: ls' => match nop_step l s with Some s' => nop_run ls' s' | None => None end
  end.

(** What babeltrace prints for an event: the time as seconds with nine decimals. *)
Definition digit_of (n : N) : ascii := ascii_of_N (48 + n).
Fixpoint decimals (k : nat) (n : N) : str := match k with O => [] | S k' => decimals k' (n / 10) ++ [digit_of (n mod 10)] end.
Definition clock_text (ns : N) : str := dump_nat (ns / 1000000000) ++ txt "." ++ decimals 9 (ns mod 1000000000).
Definition printed_of (host : str) (cpu pid tid : N) (e : lttng_event) : printed :=
  {| p_time := clock_text (le_time e); p_host := host; p_domain := txt "scalopus_scope_id"; p_name := le_name e;
     p_stream := [(txt "cpu_id", FInt (Z.of_N cpu))];
     p_context := [(txt "vpid", FInt (Z.of_N pid)); (txt "pthread_id", FInt (Z.of_N tid))];
     p_data := le_fields e |}.
