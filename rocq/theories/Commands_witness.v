(** Concrete cases for C80 and C81. *)
From Coq Require Import String List Arith NArith ZArith Ascii Bool Permutation Sorting.Sorted Lia.
Import ListNotations.
From Verif Require Import OMap_model UnixSystem_model TraceEvent_model Config_model Config_spec Commands_model Commands_spec Commands_proofs.

(** A process with three threads: two have traced something, the third has not. *)
Definition run1 : list cfg_label := [GStart 11; GStart 12; GStart 13; GTrace 0 (TpEntry 5) 100 true; GTrace 1 (TpEntry 6) 101 true].
Definition cfg1 : cfg := match grun run1 cfg0 with Some c => c | None => cfg0 end.
Lemma run1_ok : Forall not_late run1 /\ grun run1 cfg0 = Some cfg1.
Proof. split; [repeat first [apply Forall_nil|apply Forall_cons]; exact Logic.I|vm_compute; reflexivity]. Qed.

Definition all_endpoints : list bytes := [introspect; txt "native_trace_sender"; process_info; txt "scope_tracing"; trace_configurator].
Definition srv (pid : Z) (nm : string) (es : list bytes) : server :=
  {| sv_first := InTime; sv_second := InTime; sv_tell := Tells; sv_obey := Obeys; sv_endpoints := es; sv_pid := pid; sv_name := txt nm;
     sv_threads := [(11, txt "main"); (13, txt "idle")]; sv_cfg := cfg1 |}.
Definition s7 := srv 7 "planner" all_endpoints.
Definition s9 := srv 9 "camera" all_endpoints.
Definition s8 := srv 8 "logger" [introspect; process_info].
Definition on_off (b : bool) (u : option bool) (ids : list Z) : args := {| ar_state := b; ar_unmatched := u; ar_ids := ids |}.

Lemma srv_reach pid nm es : reachable (srv pid nm es).
Proof. exists run1. exact run1_ok. Qed.

Definition with_first (k : asking) (s : server) : server :=
  {| sv_first := k; sv_second := sv_second s; sv_tell := sv_tell s; sv_obey := sv_obey s; sv_endpoints := sv_endpoints s;
     sv_pid := sv_pid s; sv_name := sv_name s; sv_threads := sv_threads s; sv_cfg := sv_cfg s |}.
Definition with_second (k : asking) (s : server) : server :=
  {| sv_first := sv_first s; sv_second := k; sv_tell := sv_tell s; sv_obey := sv_obey s; sv_endpoints := sv_endpoints s;
     sv_pid := sv_pid s; sv_name := sv_name s; sv_threads := sv_threads s; sv_cfg := sv_cfg s |}.
Definition with_tell (k : telling) (s : server) : server :=
  {| sv_first := sv_first s; sv_second := sv_second s; sv_tell := k; sv_obey := sv_obey s; sv_endpoints := sv_endpoints s;
     sv_pid := sv_pid s; sv_name := sv_name s; sv_threads := sv_threads s; sv_cfg := sv_cfg s |}.
Definition with_obey (k : obeying) (s : server) : server :=
  {| sv_first := sv_first s; sv_second := sv_second s; sv_tell := sv_tell s; sv_obey := k; sv_endpoints := sv_endpoints s;
     sv_pid := sv_pid s; sv_name := sv_name s; sv_threads := sv_threads s; sv_cfg := sv_cfg s |}.

Definition switch (s : server) : bool := g_process (sv_cfg s).
Definition thread_on (s : server) (i : nat) : bool := match nth_error (g_threads (sv_cfg s)) i with Some t => thread_state (sv_cfg s) t | None => false end.

(** ** What goes wrong with [trace_configure] *)
(** (a) A thread that is listed and that traces is not switched because it was not given a name; nothing is said. *)
Lemma nameless : let '(l, o) := trace_configure (on_off false None [12%Z]) [s7] in
  map (fun s => thread_on s 1) l = [true] /\ exists r, o = Some (0, r).
Proof. vm_compute. split; [reflexivity|eexists; reflexivity]. Qed.
(** (b) Process 7 is listed and to be switched on, the others off. Its information comes late: it is taken for another process, and is switched off. *)
Lemma mistaken : let '(l, o) := trace_configure (on_off true (Some false) [7%Z]) [with_tell (TooLate 0) s7] in
  map switch l = [false] /\ o = Some (0, [{| ln_pid := 0; ln_on := false; ln_name := []; ln_threads := [] |}]).
Proof. vm_compute. split; reflexivity. Qed.
(** (c) A process that has no information to give: the command ends with a traceback, and not all that is listed has been switched. *)
Lemma aborted : let '(l, o) := trace_configure (on_off false None [7%Z; 9%Z]) [s7; srv 8 "bare" [introspect; trace_configurator]; s9] in
  map switch l = [false; true; true] /\ o = None.
Proof. vm_compute. split; reflexivity. Qed.
(** (d) A process that is late when it is first asked is passed over in silence. *)
Lemma passed_over : let '(l, o) := trace_configure (on_off false None [7%Z]) [with_first Late s7] in
  map switch l = [true] /\ o = Some (0, []).
Proof. vm_compute. split; reflexivity. Qed.
(** ** What goes wrong with [discover] *)
Lemma silent_one : discover [s7; srv 8 "bare" [introspect]; s9] = None /\ discover [s7; with_first Late s8; s9] = None.
Proof. vm_compute. split; reflexivity. Qed.
Lemma no_endpoints : discover [with_second Late s8] = Some [((8%Z, txt "logger", sv_threads s8), [])].
Proof. vm_compute. reflexivity. Qed.
Lemma no_name : discover [with_tell (TooLate 3) s8] = Some [((3%Z, [], []), [introspect; process_info])].
Proof. vm_compute. reflexivity. Qed.

Lemma configure_fails :
  (exists s, prompt s /\ introduces s /\ reachable s /\ serves trace_configurator s /\
     (exists i t, nth_error (g_threads (sv_cfg s)) i = Some t /\ t_tid t = 12 /\ t_live t = true /\ t_cleanup t = true) /\
     let '(l, o) := trace_configure (on_off false None [12%Z]) [s] in map (fun s => thread_on s 1) l = [true] /\ exists r, o = Some (0, r)) /\
  (let '(l, o) := trace_configure (on_off true (Some false) [7%Z]) [with_tell (TooLate 0) s7] in
     map switch l = [false] /\ o = Some (0, [{| ln_pid := 0; ln_on := false; ln_name := []; ln_threads := [] |}])) /\
  (let '(l, o) := trace_configure (on_off false None [7%Z; 9%Z]) [s7; srv 8 "bare" [introspect; trace_configurator]; s9] in
     map switch l = [false; true; true] /\ o = None) /\
  (let '(l, o) := trace_configure (on_off false None [7%Z]) [with_first Late s7] in map switch l = [true] /\ o = Some (0, [])) /\
  (exists s, snd (trace_configure (on_off false None [7%Z]) [with_tell (TooLate 0) s7; with_tell (TooLate 0) s; s9]) = None).
Proof.
  split; [|split; [exact mistaken|split; [exact aborted|split; [exact passed_over|]]]].
  - exists s7. split; [repeat split|]. split; [split; apply has_in; vm_compute; reflexivity|]. split; [apply srv_reach|]. split; [apply has_in; vm_compute; reflexivity|]. split; [|exact nameless].
    exists 1. eexists. split; [vm_compute; reflexivity|]. repeat split.
  - exists (match trace_configure (on_off false None [9%Z]) [s9] with ([s], _) => s | _ => s9 end). vm_compute. reflexivity.
Qed.
Lemma discover_fails :
  discover [s7; srv 8 "bare" [introspect]; s9] = None /\ discover [s7; with_first Late s8; s9] = None /\
  discover [with_second Late s8] = Some [((8%Z, txt "logger", sv_threads s8), [])] /\
  discover [with_tell (TooLate 3) s8] = Some [((3%Z, [], []), [introspect; process_info])].
Proof. destruct silent_one as (H1 & H2). split; [exact H1|]. split; [exact H2|]. split; [exact no_endpoints|exact no_name]. Qed.

(** ** The hypotheses of the theorems are met *)
Example C80_partial_case :
  Forall prompt [s9; s8; s7] /\ Forall introduces [s9; s8; s7] /\ Forall reachable [s9; s8; s7] /\ NoDup (map sv_pid [s9; s8; s7]) /\
  (let '(l, o) := trace_configure (on_off false None [7%Z; 11%Z]) [s9; s8; s7] in
   map switch l = [true; true; false] /\ map (fun s => map (thread_on s) [0; 1; 2]) l = [[false; true; true]; [true; true; true]; [false; true; true]] /\
   option_map (fun x => map ln_pid (snd x)) o = Some [7%Z; 9%Z]).
Proof.
  repeat match goal with |- Forall _ _ /\ _ => split | |- NoDup _ /\ _ => split end; try (vm_compute; repeat split; reflexivity).
  - repeat first [apply Forall_nil|apply Forall_cons]; repeat split.
  - repeat first [apply Forall_nil|apply Forall_cons]; (split; apply has_in; vm_compute; reflexivity).
  - repeat first [apply Forall_nil|apply Forall_cons]; apply srv_reach.
  - cbn. repeat constructor; cbn; intuition discriminate.
Qed.

Example C80_safe_case :
  let l := [s9; with_obey (Slow true) s7; with_tell (TooLate 3) s8; srv 5 "bare" [trace_configurator]; with_first Late s9; with_obey (ObeyFails false) s7; s9] in
  Forall reachable l /\ (forall s junk, In s l -> sv_tell s = TooLate junk -> ~ asks (on_off false None [7%Z; 9%Z]) junk) /\
  map switch (fst (trace_configure (on_off false None [7%Z; 9%Z]) l)) = [false; false; true; true; true; true; true].
Proof.
  cbn zeta. split; [|split].
  - repeat first [apply Forall_nil|apply Forall_cons]; exact (srv_reach 0 "" []).
  - intros s junk H E K. cbn [In] in H. repeat destruct H as [<-|H]; try contradiction; try discriminate E. injection E as <-. vm_compute in K. intuition discriminate.
  - vm_compute. reflexivity.
Qed.

Example C81_partial_case :
  Forall prompt [s9; s8; s7] /\ Forall introduces [s9; s8; s7] /\ NoDup (map sv_pid [s9; s8; s7]) /\
  option_map (map (fun d => (fst (fst (fst d)), List.length (snd d)))) (discover [s9; s8; s7]) = Some [(7%Z, 5); (8%Z, 2); (9%Z, 5)].
Proof.
  repeat match goal with |- Forall _ _ /\ _ => split | |- NoDup _ /\ _ => split end; try (vm_compute; repeat split; reflexivity).
  - repeat first [apply Forall_nil|apply Forall_cons]; repeat split.
  - repeat first [apply Forall_nil|apply Forall_cons]; (split; apply has_in; vm_compute; reflexivity).
  - cbn. repeat constructor; cbn; intuition discriminate.
Qed.

(** Late processes: with different arbitrary numbers, with the same number but nothing to tell them apart, and with the same number and different endpoints. *)
Definition late_ones : list server := [s9; with_tell (TooLate 3) s7; with_second Late s8; with_tell (TooLate 3) s9].
Example C81_late_case : exists ds, Forall2 seen late_ones ds /\ discover late_ones = Some [((3%Z, [], []), all_endpoints); ((3%Z, [], []), all_endpoints); ((8%Z, txt "logger", sv_threads s8), []); ((9%Z, txt "camera", sv_threads s9), all_endpoints)].
Proof.
  exists [((9%Z, txt "camera", sv_threads s9), all_endpoints); ((3%Z, [], []), all_endpoints); ((8%Z, txt "logger", sv_threads s8), []); ((3%Z, [], []), all_endpoints)].
  split; [|vm_compute; reflexivity].
  repeat first [apply Forall2_nil|apply Forall2_cons]; (split; [reflexivity|]; split; [split; apply has_in; vm_compute; reflexivity|]; split;
    [first [left; split; reflexivity|right; split; reflexivity]|first [left; split; reflexivity|right; eexists; split; reflexivity]]).
Qed.
Definition clashing : list server := [with_tell (TooLate 3) s7; s9; with_tell (TooLate 3) s8].
Example C81_clash_case : exists ds, Forall2 seen clashing ds /\ clash number ds /\ discover clashing = None.
Proof.
  exists [((3%Z, [], []), all_endpoints); ((9%Z, txt "camera", sv_threads s9), all_endpoints); ((3%Z, [], []), [introspect; process_info])].
  split; [|split; [|vm_compute; reflexivity]].
  - repeat first [apply Forall2_nil|apply Forall2_cons]; (split; [reflexivity|]; split; [split; apply has_in; vm_compute; reflexivity|]; split;
    [first [left; split; reflexivity|right; split; reflexivity]|first [left; split; reflexivity|right; eexists; split; reflexivity]]).
  - exists 0, 2. eexists. eexists. split; [repeat constructor|]. split; [reflexivity|]. split; [reflexivity|]. split; [reflexivity|]. discriminate.
Qed.
Definition mixed : list server := [with_obey (Slow true) s7; s8; with_tell (TooLate 3) s9; s9].
Example C80_late_case : exists os, Forall2 (learns (on_off false None [9%Z; 13%Z])) mixed os /\ counted os = 1 /\ List.length (entries os) = 2 /\
  option_map (fun x => (fst x, map ln_pid (snd x), map ln_on (snd x))) (snd (trace_configure (on_off false None [9%Z; 13%Z]) mixed)) = Some (1, [3%Z; 9%Z], [true; false]).
Proof.
  set (a := on_off false None [9%Z; 13%Z]). set (i := (9%Z, txt "camera", sv_threads s9) : info). set (k := (3%Z, [], []) : info).
  exists [Counted; Passed; Entry k (snd (c_handle (change a k) (sv_cfg s9))); Entry i (snd (c_handle (change a i) (sv_cfg s9)))].
  split; [|split; [|split]]; try (vm_compute; reflexivity).
  repeat first [apply Forall2_nil|apply Forall2_cons]; (split; [reflexivity|]; split; [apply has_in; vm_compute; reflexivity|]).
  - right. split; [apply has_in; vm_compute; reflexivity|]. split; [apply has_in; vm_compute; reflexivity|]. eexists. split; [left; split; reflexivity|]. left. split; [eexists; reflexivity|reflexivity].
  - left. split; [|reflexivity]. intros K. apply has_in in K. vm_compute in K. discriminate K.
  - right. split; [apply has_in; vm_compute; reflexivity|]. split; [apply has_in; vm_compute; reflexivity|]. exists k. split; [right; eexists; split; reflexivity|]. right. split; reflexivity.
  - right. split; [apply has_in; vm_compute; reflexivity|]. split; [apply has_in; vm_compute; reflexivity|]. exists i. split; [left; split; reflexivity|]. right. split; reflexivity.
Qed.
