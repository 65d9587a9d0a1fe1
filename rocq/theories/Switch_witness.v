(** Concrete cases for C100. *)
From Coq Require Import List Arith Bool.
Import ListNotations.
From Verif Require Import Switch_model Switch_spec Switch_proofs.

(** The component of a state a history leads to, computed without the state. *)
Definition seen_after {A} (ls : list label) (f : state -> A) (d : A) : A := match run ls state0 with Some s => f s | None => d end.
Lemma got ls : seen_after ls (fun _ => true) false = true -> exists s, run ls state0 = Some s /\ forall A (f : state -> A) d, f s = seen_after ls f d.
Proof. unfold seen_after. destruct (run ls state0) as [s|]; [|discriminate]. intros _. exists s. auto. Qed.
Lemma got2 a b : seen_after (a ++ b) (fun _ => true) false = true -> exists s s', run a state0 = Some s /\ run b s = Some s' /\
  (forall A (f : state -> A) d, f s = seen_after a f d) /\ (forall A (f : state -> A) d, f s' = seen_after (a ++ b) f d).
Proof.
  unfold seen_after. rewrite run_app. destruct (run a state0) as [s|]; [|discriminate]. destruct (run b s) as [s'|] eqn:E; [|discriminate]. intros _. exists s, s'. repeat split; auto.
Qed.

(** Two threads that trace; the second is switched off, and the process on. *)
Definition before : list label := [Start 7; Start 8; Enter 0 1; LoadP 0; LoadT 0; Push 0 true; Enter 1 2; LoadP 1; LoadT 1].
Definition r1 : request := Change true true [(8, false)].
Definition during : list label := [Step 3; Start 9; Step 3; Enter 2 3; Step 3; Step 3; Step 3].
Definition after : list label := [LoadP 2; Push 1 true; LoadT 2; Push 2 true; Enter 1 4; Enter 0 5; LoadP 0; LoadP 1; LoadT 1; LoadT 0; Push 0 true; Enter 0 6].
Example switched_example : exists s s1 s2, run before state0 = Some s /\ run (handling 3 r1 during) s = Some s1 /\ run after s1 = Some s2 /\
  Forall quiet (during ++ after) /\ ~ In (Answer 3) during /\ Forall (roomy 0) after /\ no_requests s /\
  wanted_process r1 (s_proc s) = true /\ map (wanted_of r1 s) [0; 1; 2] = [true; false; true] /\
  s_log s1 = [(3, r1, (true, [(8, false); (7, true)]))] /\
  map (events s1) [0; 1; 2] = [[1]; []; []] /\ map (events s2) [0; 1; 2] = [[1; 5]; [2]; [3]] /\ place s2 0 = AtProcess 6 /\ come_to 0 after = [5; 6].
Proof.
  destruct (got2 (before ++ handling 3 r1 during) after) as (s1 & s2 & R1 & R2 & F1 & F2); [vm_compute; reflexivity|].
  destruct (got2 before (handling 3 r1 during)) as (s & s1' & R0 & R1' & F0 & _); [vm_compute; reflexivity|].
  assert (s1' = s1) as ->.
  { rewrite run_app, R0, R1' in R1. congruence. }
  exists s, s1, s2. split; [exact R0|]. split; [exact R1'|]. split; [exact R2|]. split; [repeat constructor|].
  split; [intros H; cbn in H; repeat (destruct H as [H|H]; [discriminate H|]); exact H|].
  split; [repeat constructor; intros; discriminate || reflexivity|].
  split; [intros h; rewrite (F0 _ (fun s => s_jobs s h) None); reflexivity|].
  split; [rewrite (F0 _ (fun s => wanted_process r1 (s_proc s)) false); reflexivity|].
  split; [rewrite (F0 _ (fun s => map (wanted_of r1 s) [0; 1; 2]) []); reflexivity|].
  split; [rewrite (F1 _ s_log []); reflexivity|].
  split; [rewrite (F1 _ (fun s => map (events s) [0; 1; 2]) []); reflexivity|].
  split; [rewrite (F2 _ (fun s => map (events s) [0; 1; 2]) []); reflexivity|].
  split; [rewrite (F2 _ (fun s => place s 0) Idle); reflexivity|reflexivity].
Qed.

(** The answer says the process is off, and then an event comes. *)
Definition w_straggler : list label := [Start 7; Enter 0 5; LoadP 0; LoadT 0; Begin 1 (Change true false []); Step 1; Step 1; Step 1; Answer 1].
Lemma straggler : exists s s', run w_straggler state0 = Some s /\ no_requests s /\ s_log s = [(1, Change true false [], (false, [(7, true)]))] /\
  run [Push 0 true] s = Some s' /\ events s 0 = [] /\ events s' 0 = [5].
Proof.
  destruct (got2 w_straggler [Push 0 true]) as (s & s' & R & R' & F & F'); [vm_compute; reflexivity|]. exists s, s'. split; [exact R|].
  split; [intros h; rewrite (F _ (fun s => s_jobs s h) None); destruct h as [|[|h]]; reflexivity|]. split; [rewrite (F _ s_log []); reflexivity|]. split; [exact R'|].
  split; [rewrite (F _ (fun s => events s 0) []); reflexivity|rewrite (F' _ (fun s => events s 0) []); reflexivity].
Qed.

(** At no time are the process and the thread both switched on, and yet a tracepoint that begins meanwhile is recorded. *)
Definition w_before : list label := [Start 7; SetT 0 false].
Definition w_between : list label := [Enter 0 5; LoadP 0; SetP false; Begin 1 (Change false false [(7, true)]); Step 1; LoadT 0; Push 0 true].
Fixpoint always (P : state -> bool) (ls : list label) (s : state) : bool :=
  P s && match ls with [] => true | l :: r => match step l s with Some s' => always P r s' | None => true end end.
Lemma never_dec (P : state -> bool) ls : forall s, always (fun s => negb (P s)) ls s = true -> throughout (fun s => P s = false) ls s.
Proof.
  induction ls as [|l ls IH]; intros s E; cbn [always] in E; apply andb_prop in E; destruct E as [E1 E2]; apply negb_true_iff in E1; split; auto.
  destruct (step l s); auto.
Qed.
Lemma between : exists s s', run w_before state0 = Some s /\ run w_between s = Some s' /\
  throughout (fun s => s_proc s && thread_on s 0 = false) w_between s /\ place s 0 = Idle /\ events s 0 = [] /\ events s' 0 = [5].
Proof.
  destruct (got2 w_before w_between) as (s & s' & R & R' & F & F'); [vm_compute; reflexivity|]. exists s, s'. split; [exact R|]. split; [exact R'|].
  split; [|split; [rewrite (F _ (fun s => place s 0) Idle); reflexivity|split; [rewrite (F _ (fun s => events s 0) []); reflexivity|rewrite (F' _ (fun s => events s 0) []); reflexivity]]].
  apply (never_dec (fun s => s_proc s && thread_on s 0)). rewrite (F _ (always (fun s => negb (s_proc s && thread_on s 0)) w_between) false). vm_compute. reflexivity.
Qed.

(** The answer shows a state that never was: process and thread both on. *)
Definition w_answer : list label := [Step 1; SetP false; SetT 0 true; Step 1].
Lemma never_was : exists s s', run w_before state0 = Some s /\ run (handling 1 Query w_answer) s = Some s' /\
  s_log s' = [(1, Query, (true, [(7, true)]))] /\ throughout (fun s => s_proc s && thread_on s 0 = false) (handling 1 Query w_answer) s.
Proof.
  destruct (got2 w_before (handling 1 Query w_answer)) as (s & s' & R & R' & F & F'); [vm_compute; reflexivity|]. exists s, s'. split; [exact R|]. split; [exact R'|].
  split; [rewrite (F' _ s_log []); reflexivity|].
  apply (never_dec (fun s => s_proc s && thread_on s 0)). rewrite (F _ (always (fun s => negb (s_proc s && thread_on s 0)) (handling 1 Query w_answer)) false). vm_compute. reflexivity.
Qed.

(** The process is switched off from outside within a scoped change of the program, and is on again at the end of it. *)
Definition w_scoped : list label := [Start 7; Open 0 true false; Begin 1 (Change true false []); Step 1; Step 1; Answer 1].
Definition w_closed : list label := [Close 0; Enter 0 5; LoadP 0; LoadT 0; Push 0 true].
Lemma undone : exists s s', run w_scoped state0 = Some s /\ s_log s = [(1, Change true false [], (false, []))] /\ s_proc s = false /\
  run w_closed s = Some s' /\ s_proc s' = true /\ events s' 0 = [5].
Proof.
  destruct (got2 w_scoped w_closed) as (s & s' & R & R' & F & F'); [vm_compute; reflexivity|]. exists s, s'. split; [exact R|].
  split; [rewrite (F _ s_log []); reflexivity|]. split; [rewrite (F _ s_proc true); reflexivity|]. split; [exact R'|].
  split; [rewrite (F' _ s_proc false); reflexivity|rewrite (F' _ (fun s => events s 0) []); reflexivity].
Qed.

(** Thread 7 is seen; it ends, and another one gets its number: that one is switched off. *)
Definition w_seen : list label := [Start 7; Enter 0 5; LoadP 0; LoadT 0; Push 0 true; Begin 1 Query; Step 1; Step 1; Answer 1].
Definition w_reused : list label := [End 0; Start 7; Enter 1 6; LoadP 1; LoadT 1; Push 1 true; Begin 1 (Change false false [(7, false)]); Step 1; Step 1; Step 1; Answer 1].
Lemma reused : exists s s', run w_seen state0 = Some s /\ s_log s = [(1, Query, (true, [(7, true)]))] /\ length (s_threads s) = 1 /\
  run w_reused s = Some s' /\ thread_on s' 0 = true /\ thread_on s' 1 = false.
Proof.
  destruct (got2 w_seen w_reused) as (s & s' & R & R' & F & F'); [vm_compute; reflexivity|]. exists s, s'. split; [exact R|].
  split; [rewrite (F _ s_log []); reflexivity|]. split; [rewrite (F _ (fun s => length (s_threads s)) 0); reflexivity|]. split; [exact R'|].
  split; [rewrite (F' _ (fun s => thread_on s 0) false); reflexivity|rewrite (F' _ (fun s => thread_on s 1) true); reflexivity].
Qed.
