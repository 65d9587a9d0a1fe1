(** The program babeltrace, run by the LTTng provider: scalopus_tracing/src/lttng/babeltrace_tool.cpp lines 33-100, lttng_provider.cpp lines 37-51,
    babeltrace_parser.cpp lines 54-139 ([process], [halt]) and include_consumer/scalopus_tracing/subprocess.hpp lines 28-173.
    One thread of the program calls [init] and [halt] (the constructor and the destructor of the provider do), one thread reads what babeltrace prints.
    Simplifications: the pipe for the standard output has no limit (it is being read); callbacks are in [Delivery_model]; [pipe] succeeds; a program that cannot be executed at
    all is treated separately, at the end of this file; a signal has the default effect, the program ends some time after. *)
From Coq Require Import List Arith NArith Ascii Bool.
Import ListNotations.
From Verif Require Import Str_model UnixSystem_model Lines_model.

(** ** What babeltrace does: it prints, it writes diagnostics, it ends. *)
Inductive write := Out (bs : str) | Err (n : N).
Inductive fate := Runs | Ended | Gone.                    (* [Gone]: its entry in the table of processes was removed by a [wait], its number is free again *)
(** [c_err]: what is in the pipe for its standard error, which is made in lines 34-36 of subprocess.hpp and which nobody reads. *)
Record child := { c_script : list write; c_err : N; c_fate : fate; c_signalled : bool }.
Definition pipe_size : N := 65536.                        (* Linux *)

(** [pid] of lines 107-111 of subprocess.hpp: that of a child, or -1: that [fork] may fail is not looked at. *)
Inductive who := Child (i : nat) | Failed.
(** What [kill] reaches: a child of ours that is still in the table; whoever has its number now; for -1, every process of the user. *)
Inductive target := Own (i : nat) | Other (i : nat) | Everyone.

(** The thread of the user: between calls; in [halt] before line 87, that is waiting for the reading thread; in line 91. *)
Inductive user := UIdle | UJoin | UKill.
(** The reading thread: none, or joined; made, but not at line 63 of babeltrace_parser.cpp yet; in the loop, perhaps inside [fgets] ([q_part]); at its end. *)
Inductive worker := WNone | WBorn | WLoop | WDone.
Record tool := {
  t_user : user; t_proc : option who; t_flag : bool;      (* [process_], [processing_] *)
  t_worker : worker; t_q : stream;
  t_children : list child;                                (* all there ever were *)
  t_said : str;                                           (* all that the present one has printed *)
  t_lines : list str;                                     (* what [process] has taken as lines *)
  t_signals : list target;                                (* what was sent *)
  t_dead : bool                                           (* [std::terminate]: a thread object that is still joinable was assigned to *)
}.
Definition tool0 : tool :=
  {| t_user := UIdle; t_proc := None; t_flag := false; t_worker := WNone; t_q := stream0; t_children := []; t_said := []; t_lines := []; t_signals := []; t_dead := false |}.

Inductive spawn := ForkFails | Runs_script (l : list write).
Inductive label :=
| Init (o : spawn)          (* [init], lines 46-74 *)
| Halt | Join | Kill        (* [halt], lines 81-86; 87; 91-98 *)
| Start | Work              (* the reading thread *)
| Speak (i : nat)           (* child [i] does what is next in its script; at the end of it, it ends *)
| Die (i : nat)             (* it was sent a signal, and ends *)
| Reap (i : nat).           (* the program, or its setting of SIGCHLD, takes the entry of an ended child from the table: the library never does *)

Definition closed0 : stream := {| q_pipe := []; q_closed := true; q_buf := []; q_part := None; q_stop := false |}.
Definition current (i : nat) (t : tool) : bool := match t_proc t with Some (Child j) => Nat.eqb i j | _ => false end.
Definition set_child (i : nat) (c : child) (t : tool) : tool :=
  {| t_user := t_user t; t_proc := t_proc t; t_flag := t_flag t; t_worker := t_worker t; t_q := t_q t; t_children := set_nth i c (t_children t);
     t_said := t_said t; t_lines := t_lines t; t_signals := t_signals t; t_dead := t_dead t |}.
Definition print (bs : str) (t : tool) : tool :=
  {| t_user := t_user t; t_proc := t_proc t; t_flag := t_flag t; t_worker := t_worker t; t_q := fst (qstep (Print bs) (t_q t)); t_children := t_children t;
     t_said := t_said t ++ bs; t_lines := t_lines t; t_signals := t_signals t; t_dead := t_dead t |}.
Definition hang_up (t : tool) : tool :=
  {| t_user := t_user t; t_proc := t_proc t; t_flag := t_flag t; t_worker := t_worker t; t_q := fst (qstep Close (t_q t)); t_children := t_children t;
     t_said := t_said t; t_lines := t_lines t; t_signals := t_signals t; t_dead := t_dead t |}.
Definition aim (w : who) (t : tool) : target :=
  match w with
  | Failed => Everyone
  | Child i => match nth_error (t_children t) i with
               | Some c => match c_fate c with Gone => Other i | _ => Own i end
               | None => Other i
               end
  end.
Definition mark (w : who) (l : list child) : list child :=
  match w with
  | Child i => match nth_error l i with
               | Some c => match c_fate c with
                           | Runs => set_nth i {| c_script := c_script c; c_err := c_err c; c_fate := Runs; c_signalled := true |} l
                           | _ => l
                           end
               | None => l
               end
  | Failed => l
  end.
Definition end_child (i : nat) (c : child) (t : tool) : tool :=
  let t1 := set_child i {| c_script := c_script c; c_err := c_err c; c_fate := Ended; c_signalled := c_signalled c |} t in
  if current i t then hang_up t1 else t1.

Definition step (x : label) (t : tool) : option tool :=
  if t_dead t then None else
  match x with
  | Init o =>
      match t_user t, t_proc t with
      | UIdle, Some _ => Some t                                                                 (* 48-51 *)
      | UIdle, None =>
          Some {| t_user := UIdle;
                  t_proc := Some match o with ForkFails => Failed | Runs_script _ => Child (length (t_children t)) end;
                  t_flag := t_flag t; t_worker := WBorn;
                  t_q := match o with ForkFails => closed0 | Runs_script _ => stream0 end;       (* the parent has closed its copy of the end that is written to *)
                  t_children := t_children t ++ match o with ForkFails => [] | Runs_script l => [{| c_script := l; c_err := 0; c_fate := Runs; c_signalled := false |}] end;
                  t_said := []; t_lines := t_lines t; t_signals := t_signals t;
                  t_dead := match t_worker t with WNone => false | _ => true end |}
      | _, _ => None
      end
  | Halt =>
      match t_user t with
      | UIdle => Some {| t_user := UJoin; t_proc := t_proc t; t_flag := false; t_worker := t_worker t; t_q := t_q t; t_children := t_children t;
                         t_said := t_said t; t_lines := t_lines t; t_signals := t_signals t; t_dead := false |}
      | _ => None
      end
  | Join =>
      match t_user t, t_worker t with
      | UJoin, WNone | UJoin, WDone =>
          Some {| t_user := match t_proc t with Some _ => UKill | None => UIdle end; t_proc := t_proc t; t_flag := t_flag t; t_worker := WNone; t_q := t_q t;
                  t_children := t_children t; t_said := t_said t; t_lines := t_lines t; t_signals := t_signals t; t_dead := false |}
      | _, _ => None
      end
  | Kill =>
      match t_user t, t_proc t with
      | UKill, Some w =>
          Some {| t_user := UIdle; t_proc := None; t_flag := t_flag t; t_worker := t_worker t; t_q := t_q t;
                  t_children := mark w (t_children t); t_said := t_said t; t_lines := t_lines t; t_signals := t_signals t ++ [aim w t]; t_dead := false |}
      | _, _ => None
      end
  | Start =>
      match t_worker t with
      | WBorn => Some {| t_user := t_user t; t_proc := t_proc t; t_flag := true; t_worker := WLoop; t_q := t_q t; t_children := t_children t;
                         t_said := t_said t; t_lines := t_lines t; t_signals := t_signals t; t_dead := false |}
      | _ => None
      end
  | Work =>
      match t_worker t with
      | WLoop =>
          match q_part (t_q t), t_flag t with
          | None, false => Some {| t_user := t_user t; t_proc := t_proc t; t_flag := false; t_worker := WDone; t_q := t_q t; t_children := t_children t;
                                   t_said := t_said t; t_lines := t_lines t; t_signals := t_signals t; t_dead := false |}        (* 74 *)
          | _, _ =>
              let (q, o) := qstep Lines_model.Work (t_q t) in
              Some {| t_user := t_user t; t_proc := t_proc t; t_flag := t_flag t && negb (q_stop q); t_worker := WLoop; t_q := q; t_children := t_children t;
                      t_said := t_said t; t_lines := t_lines t ++ o; t_signals := t_signals t; t_dead := false |}
          end
      | _ => None
      end
  | Speak i =>
      match nth_error (t_children t) i with
      | Some c =>
          match c_fate c, c_script c with
          | Runs, Out bs :: l =>
              let t1 := set_child i {| c_script := l; c_err := c_err c; c_fate := Runs; c_signalled := c_signalled c |} t in
              Some (if current i t then print bs t1 else t1)
          | Runs, Err n :: l =>
              if (c_err c + n <=? pipe_size)%N
              then Some (set_child i {| c_script := l; c_err := c_err c + n; c_fate := Runs; c_signalled := c_signalled c |} t)
              else None                                                                          (* [write] waits for room *)
          | Runs, [] => Some (end_child i c t)
          | _, _ => None
          end
      | None => None
      end
  | Die i =>
      match nth_error (t_children t) i with
      | Some c => match c_fate c, c_signalled c with Runs, true => Some (end_child i c t) | _, _ => None end
      | None => None
      end
  | Reap i =>
      match nth_error (t_children t) i with
      | Some c => match c_fate c with
                  | Ended => Some (set_child i {| c_script := c_script c; c_err := c_err c; c_fate := Gone; c_signalled := c_signalled c |} t)
                  | _ => None
                  end
      | None => None
      end
  end.
Fixpoint run (h : list label) (t : tool) : option tool :=
  match h with
  | [] => Some t
  | x :: h' => match step x t with Some t' => run h' t' | None => None end
  end.

(** ** A program that cannot be executed *)
(** What a program does from some point on; [Provider found]: it makes an LTTng provider, and the program that shows the events is found in the path or not;
    [Do n]: anything else it does. *)
Inductive action := Do (n : nat) | Provider (found : bool).
(** What the process itself does, and what the processes do that come out of it. [child] in lines 136-163 of subprocess.hpp returns when [execvp] fails, and [run] goes on,
    so that the new process executes all that the old one executes after the call. What the threads of the program do is left out (they are not in the new process);
    so is what is different for the new process: its standard input and output. *)
Fixpoint processes (p : list action) : list nat * list (list nat) :=
  match p with
  | [] => ([], [])
  | Do n :: p' => let (own, others) := processes p' in (n :: own, others)
  | Provider found :: p' =>
      let (own, others) := processes p' in
      if found then (own, others) else (own, others ++ own :: others)
  end.
