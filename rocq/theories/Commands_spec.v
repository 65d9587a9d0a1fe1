(** What C80 and C81 say. *)
From Coq Require Import String List Arith NArith ZArith Ascii Bool Permutation Sorting.Sorted.
Import ListNotations.
From Verif Require Import OMap_model UnixSystem_model Config_model Config_spec Commands_model.

(** The configuration of a server is one its process can have got to. *)
Definition reachable (s : server) : Prop := exists ls, Forall not_late ls /\ grun ls cfg0 = Some (sv_cfg s).
(** A server answers every request in time. *)
Definition prompt (s : server) : Prop := sv_first s = InTime /\ sv_second s = InTime /\ sv_tell s = Tells /\ sv_obey s = Obeys.
Definition serves (e : bytes) (s : server) : Prop := In e (sv_endpoints s).
(** It can be asked what it is. *)
Definition introduces (s : server) : Prop := serves introspect s /\ serves process_info s.

(** It can be configured. *)
Definition configurable (s : server) : bool := existsb (bytes_eqb trace_configurator) (sv_endpoints s).

(** The user's list names process [z], or thread [z]. *)
Definition asks (a : args) (z : Z) : Prop := In z (ar_ids a).
(** Of process [s] only the configuration may change. *)
Definition same_process (s s' : server) : Prop := s' = with_cfg s (sv_cfg s') /\ g_threads (sv_cfg s') = g_threads (sv_cfg s).
(** What the user asked for, carried out in process [s]: the switch of the process, and those of its threads. A thread is reached if it has a name and if it has
    come by a tracepoint (or used a setting) before. *)
Definition process_done (a : args) (s s' : server) : Prop :=
  (asks a (sv_pid s) -> g_process (sv_cfg s') = ar_state a) /\
  (~ asks a (sv_pid s) -> g_process (sv_cfg s') = match ar_unmatched a with Some b => b | None => g_process (sv_cfg s) end).
Definition reached (s : server) (t : thr) : Prop := In (t_tid t) (map fst (sv_threads s)) /\ t_cleanup t = true.
Definition threads_done (a : args) (s s' : server) : Prop :=
  forall i t b, nth_error (g_threads (sv_cfg s)) i = Some t -> thread_is (sv_cfg s) i b ->
    (asks a (Z.of_nat (t_tid t)) -> reached s t -> thread_is (sv_cfg s') i (ar_state a)) /\
    (~ (asks a (Z.of_nat (t_tid t)) /\ reached s t) -> thread_is (sv_cfg s') i b).
Definition carried_out (a : args) (s s' : server) : Prop := same_process s s' /\ process_done a s s' /\ threads_done a s s'.

(** A line of the report is true of process [s]: a thread is shown as on or off exactly if it is known there, and then as it is. *)
Definition line_true (s : server) (n : line) : Prop :=
  ln_pid n = sv_pid s /\ ln_name n = sv_name s /\ ln_on n = g_process (sv_cfg s) /\ map fst (ln_threads n) = sv_threads s /\
  forall tid nm o, In (tid, nm, o) (ln_threads n) ->
    (o <> None <-> exists i t, nth_error (g_threads (sv_cfg s)) i = Some t /\ t_live t = true /\ t_cleanup t = true /\ t_tid t = tid) /\
    (forall b i t, o = Some b -> nth_error (g_threads (sv_cfg s)) i = Some t -> t_live t = true -> t_tid t = tid -> thread_is (sv_cfg s) i b).

(** A line of [discover]. *)
Definition data_true (s : server) (d : data) : Prop := d = ((sv_pid s, sv_name s, sv_threads s), sv_endpoints s).

(** What is seen of a process that may be late, but does not fail: its endpoints are missing if they come late the second time; if its information is late,
    an arbitrary number, and neither name nor threads. *)
Definition seen (s : server) (d : data) : Prop :=
  sv_first s = InTime /\ introduces s /\
  (sv_second s = InTime /\ snd d = sv_endpoints s \/ sv_second s = Late /\ snd d = []) /\
  (sv_tell s = Tells /\ fst d = (sv_pid s, sv_name s, sv_threads s) \/ exists junk, sv_tell s = TooLate junk /\ fst d = (junk, [], [])).
(** Two entries of a list have the same number and are different. *)
Definition clash {D} (num : D -> Z) (ds : list D) : Prop :=
  exists i j x y, i < j /\ nth_error ds i = Some x /\ nth_error ds j = Some y /\ num x = num y /\ x <> y.
Definition number (d : data) : Z := fst (fst (fst d)).

(** What [trace_configure] learns of a process that may be late, but does not fail: it is passed over if it cannot be configured, counted if it does not answer to the change in time, and otherwise
    there is an entry with its information, as it came, and its answer. *)
Inductive learnt := Passed | Counted | Entry (i : info) (r : creply).
Definition learns (a : args) (s : server) (o : learnt) : Prop :=
  sv_first s = InTime /\ serves introspect s /\
  (~ serves trace_configurator s /\ o = Passed \/
   serves trace_configurator s /\ serves process_info s /\
   exists i, (sv_tell s = Tells /\ i = (sv_pid s, sv_name s, sv_threads s) \/ exists junk, sv_tell s = TooLate junk /\ i = (junk, [], [])) /\
     ((exists done, sv_obey s = Slow done) /\ o = Counted \/ sv_obey s = Obeys /\ o = Entry i (snd (c_handle (change a i) (sv_cfg s))))).
Fixpoint entries (os : list learnt) : list state :=
  match os with
  | [] => []
  | Entry i r :: os' => (i, r) :: entries os'
  | _ :: os' => entries os'
  end.
Fixpoint counted (os : list learnt) : nat :=
  match os with
  | [] => 0
  | Counted :: os' => S (counted os')
  | _ :: os' => counted os'
  end.
(** The line of an entry. *)
Definition line_for (e : state) (n : line) : Prop :=
  ln_pid n = fst (fst (fst e)) /\ ln_name n = snd (fst (fst e)) /\ ln_on n = fst (snd e) /\
  ln_threads n = map (fun t => (fst t, snd t, mfind Nat.ltb (fst t) (snd (snd e)))) (snd (fst e)).
