(** Concrete cases for C87. *)
From Coq Require Import List Arith NArith Ascii String Bool Lia.
Import ListNotations.
From Verif Require Import Protocol_model OMap_model OMap_proofs Registry_model Manager_model Manager_spec Manager_proofs Startup_model Startup_spec Startup_proofs.
Open Scope list_scope.

(** The manager of the server program: a factory for each of the endpoints of the exposer. *)
Definition factories : list sev := map (fun n => SFactory n 1) exposer_names.
(** One [manage] that discovers the process and finds an answer. *)
Definition visit : list sev := [SManage [7]; SVisit; SLookup; SList].
Definition adds (l : list bytes) : list sev := map (fun n => SAdd 7 n 3) l.
(** The manager connects after [k] of the endpoints have been added; without the first one there is no answer. *)
Definition interleaved (k : nat) : list sev :=
  factories ++ [SServe 7] ++ adds (firstn k exposer_names) ++
  (if Nat.eqb k 0 then [SManage [7]; SVisit; SLookup; STimeout] else visit) ++ adds (skipn k exposer_names).

Definition final (es : list sev) : sys := match sy_run es sys0 with Some s => s | None => sys0 end.
Definition possible (es : list sev) : bool := match sy_run es sys0 with Some _ => true | None => false end.
Lemma final_ok es : possible es = true -> sy_run es sys0 = Some (final es).
Proof. unfold possible, final. destruct (sy_run es sys0); [reflexivity|discriminate]. Qed.
Lemma final_reached es : possible es = true -> sy_reached (final es).
Proof. intros H. exists es. now apply final_ok. Qed.

Definition names_offered (s : sys) (h : nat) : list bytes :=
  match tfind h (mg_transports (sy_mgr s)) with
  | Some t => match tfind t (mg_endpoints (sy_mgr s)) with Some eps => map fst eps | None => [] end
  | None => []
  end.

Lemma offered_names s h n : sy_reached s -> offered s h n <-> In n (names_offered s h).
Proof.
  intros HR. assert (HI := si_m _ (reached_sinv _ HR)). unfold offered, names_offered. split.
  - intros (t & eps & e & Ht & He & Hin). apply (tfind_some _ _ _ (mi_ot _ HI)) in Ht. apply (tfind_some _ _ _ (mi_oe _ HI)) in He.
    rewrite Ht, He. apply in_map_iff. now exists (n, e).
  - destruct (tfind h (mg_transports (sy_mgr s))) as [t|] eqn:Et; [|intros []].
    destruct (tfind t (mg_endpoints (sy_mgr s))) as [eps|] eqn:Ee; [|intros []].
    intros Hin. apply in_map_iff in Hin. destruct Hin as ((n' & e) & X & Hin). cbn in X. subst n'.
    exists t, eps, e. split; [now apply (tfind_some _ _ _ (mi_ot _ HI))|]. split; [now apply (tfind_some _ _ _ (mi_oe _ HI))|exact Hin].
Qed.

Definition names_served (s : sys) (h : nat) : list bytes := match sy_servers s h with Some r => introspect r | None => [] end.
Lemma added_names s h n : In n (names_served s h) -> added s h n.
Proof. unfold names_served, added. destruct (sy_servers s h) as [r|]; [|intros []]. intros H. now exists r. Qed.
Definition names_wanted (s : sys) : list bytes := map fst (mg_factories (sy_mgr s)).
Lemma wanted_names s n : In n (names_wanted s) -> wanted s n.
Proof. unfold names_wanted, wanted. intros H. apply in_map_iff in H. destruct H as ((n' & f) & X & H). cbn in X. subst n'. now exists f. Qed.

Definition i_ := introspect_name.
Definition p_ := list_ascii_of_string "process_info".
Definition t_ := list_ascii_of_string "scope_tracing".
Definition n_ := list_ascii_of_string "native_trace_sender".
Lemma in_exposer n : In n exposer_names <-> In n [i_; n_; p_; t_].
Proof. unfold exposer_names. change (In n [i_; p_; t_; n_] <-> In n [i_; n_; p_; t_]). cbn [In]. tauto. Qed.

Definition known (k : nat) : list bytes := match k with 0 => [] | 1 => [i_] | 2 => [i_; p_] | 3 => [i_; p_; t_] | _ => [i_; n_; p_; t_] end.
Lemma in_known k n : k <= 4 -> In n (known k) <-> In n (firstn k exposer_names).
Proof.
  intros H. change (In n (known k) <-> In n (firstn k [i_; p_; t_; n_])). do 5 (destruct k as [|k]; [cbn [firstn known In]; tauto|]). lia.
Qed.
Lemma interleaved_facts k : k <= 4 -> possible (interleaved k) = true /\ names_offered (final (interleaved k)) 7 = known k /\
  names_served (final (interleaved k)) 7 = [i_; n_; p_; t_] /\ names_wanted (final (interleaved k)) = [i_; n_; p_; t_] /\
  map fst (mg_transports (sy_mgr (final (interleaved k)))) = [7].
Proof. intros H. do 5 (destruct k as [|k]; [vm_compute; tauto|]). lia. Qed.

Theorem any_prefix k : k <= 4 -> exists es s, sy_run es sys0 = Some s /\ linked s 7 /\
  (forall n, In n exposer_names -> added s 7 n /\ wanted s n) /\
  forall es' s', sy_run es' s = Some s' -> forall n, offered s' 7 n <-> In n (firstn k exposer_names).
Proof.
  intros H. destruct (interleaved_facts k H) as (F1 & F2 & F3 & F4 & F5).
  revert F2 F3 F4 F5. generalize (final_ok _ F1) (final_reached _ F1). generalize (final (interleaved k)) as s. intros s E HR F2 F3 F4 F5.
  exists (interleaved k), s. split; [exact E|].
  assert (HL : linked s 7).
  { unfold linked. destruct (mg_transports (sy_mgr s)) as [|[h t] l]; [discriminate F5|]. injection F5 as -> _. exists t. now left. }
  split; [exact HL|]. split.
  - intros n Hn. apply in_exposer in Hn. split; [apply added_names; now rewrite F3|apply wanted_names; now rewrite F4].
  - intros es' s' E' n. rewrite (proj2 (frozen _ _ _ 7 HR E' HL)), (offered_names _ _ _ HR), F2. now apply in_known.
Qed.

(** A process that started before the manager looked is known completely; a second process is known as well. *)
Definition on_time_events : list sev := factories ++ [SServe 7] ++ adds exposer_names ++ [SServe 8; SAdd 8 introspect_name 1; SManage [7; 8]; SVisit; SLookup;
    SAdd 8 (list_ascii_of_string "scope_tracing") 2; SList; SVisit; SLookup; SList].
Lemma on_time_facts : possible on_time_events = true /\ names_offered (final on_time_events) 7 = [i_; n_; p_; t_] /\ names_offered (final on_time_events) 8 = [i_; t_].
Proof. vm_compute. tauto. Qed.
Example on_time : exists s, sy_run on_time_events sys0 = Some s /\
  (forall n, In n exposer_names -> offered s 7 n) /\ offered s 8 t_ /\ ~ offered s 8 p_.
Proof.
  destruct on_time_facts as (F1 & F2 & F3). revert F2 F3. generalize (final_ok _ F1) (final_reached _ F1). generalize (final on_time_events) as s. intros s E HR F2 F3.
  exists s. split; [exact E|]. split; [|split].
  - intros n Hn. apply (offered_names _ _ _ HR). rewrite F2. now apply in_exposer.
  - apply (offered_names _ _ _ HR). rewrite F3. right. now left.
  - intros X. apply (offered_names _ _ _ HR) in X. rewrite F3 in X. destruct X as [X|[X|[]]]; discriminate X.
Qed.

(** The hypotheses of the theorems are met: a state in which the answer is about to be given, and one in which a request is
    about to miss. *)
Definition list_events : list sev := [SServe 7; SAdd 7 introspect_name 0; SManage [7]; SVisit; SLookup].
Lemma list_facts : possible (list_events ++ [SList]) = true /\ possible list_events = true /\ sy_asking (final list_events) = Some (7, Found) /\
  names_served (final list_events) 7 = [i_] /\ names_wanted (final list_events) = [i_].
Proof. vm_compute. tauto. Qed.
Example about_to_list : exists s s1, sy_reached s /\ sy_asking s = Some (7, Found) /\ sy_step SList s = Some s1 /\ added s 7 introspect_name /\ wanted s introspect_name.
Proof.
  destruct list_facts as (F0 & F1 & F2 & F3 & F4). revert F2 F3 F4. apply final_ok in F0. revert F0. rewrite (run_app _ _ _ _ (final_ok _ F1)).
  generalize (final_reached _ F1). generalize (final list_events) as s. intros s HR F0 F2 F3 F4.
  cbn [sy_run] in F0. destruct (sy_step SList s) as [s1|] eqn:E1; [|discriminate F0]. exists s, s1. split; [exact HR|]. split; [exact F2|]. split; [exact E1|].
  split; [apply added_names; rewrite F3; now left|apply wanted_names; rewrite F4; now left].
Qed.
Example about_to_miss : exists s s1, sy_reached s /\ sy_asking s = Some (7, Sent) /\ ~ added s 7 introspect_name /\ sy_step SLookup s = Some s1.
Proof.
  exists (final [SServe 7; SManage [7]; SVisit]). eexists. split; [now apply final_reached|]. split; [reflexivity|]. split; [|reflexivity].
  intros (r & Er & Hin). injection Er as <-. destruct Hin.
Qed.

(** A factory that is added to the manager after it connected has no effect on the processes it knows. *)
Definition late_events : list sev := [SServe 7] ++ adds exposer_names ++ visit ++ factories.
Lemma late_facts : possible late_events = true /\ names_offered (final late_events) 7 = [i_] /\ names_served (final late_events) 7 = [i_; n_; p_; t_] /\
  names_wanted (final late_events) = [i_; n_; p_; t_].
Proof. vm_compute. tauto. Qed.
Theorem late_factory : exists es s, sy_run es sys0 = Some s /\ (forall n, In n exposer_names -> added s 7 n /\ wanted s n) /\
  forall n, offered s 7 n <-> n = introspect_name.
Proof.
  destruct late_facts as (F1 & F2 & F3 & F4). revert F2 F3 F4. generalize (final_ok _ F1) (final_reached _ F1). generalize (final late_events) as s. intros s E HR F2 F3 F4.
  exists late_events, s. split; [exact E|]. split.
  - intros n Hn. apply in_exposer in Hn. split; [apply added_names; now rewrite F3|apply wanted_names; now rewrite F4].
  - intros n. rewrite (offered_names _ _ _ HR), F2. split; [intros [X|[]]; now symmetry|intros ->; now left].
Qed.
