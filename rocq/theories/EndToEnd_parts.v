(** Facts about the parts of the machine which [EndToEnd_proofs.v] puts together. *)
From Coq Require Import List Arith NArith ZArith Ascii Bool Lia Sorting.Sorted Sorting.Permutation.
Import ListNotations.
From Verif Require Import Protocol_model OMap_model OMap_proofs Collector_model Collector_spec Collector_proofs EndToEnd_lists.
From Verif Require UnixSystem_model UnixSystem_spec UnixSystem_proofs EndToEnd_model EndToEnd_spec.
Local Notation set_nth := UnixSystem_model.set_nth.
Local Notation roomy := EndToEnd_spec.roomy.
Local Notation receiver := EndToEnd_model.receiver.

(** * The collector *)
Section Cap.
Variable cap : nat.

Lemma sent_step l s s' : cstep cap l s = Some s' -> exists new, cs_sent s' = cs_sent s ++ new.
Proof.
  destruct l as [tid|i x|i|i| | | |k| | ]; cbn [cstep]; intros H;
    repeat match type of H with
    | (if ?b then _ else _) = _ => destruct b; try discriminate
    | match ?b with _ => _ end = _ => destruct b; try discriminate
    | Some (if ?b then _ else _) = _ => destruct b
    end; injection H as <-; cbn; try (exists []; rewrite app_nil_r; reflexivity).
  destruct (cs_attached s); [eauto|exists []; now rewrite app_nil_r].
Qed.

Lemma thread_step l s s' t : cstep cap l s = Some s' -> In t (cs_threads s') -> l = TStart (th_tid t) \/ exists t0, In t0 (cs_threads s) /\ th_tid t0 = th_tid t.
Proof.
  assert (G : forall i t0 t', nth_error (cs_threads s) i = Some t0 -> th_tid t' = th_tid t0 -> In t (set_nth i t' (cs_threads s)) -> exists t1, In t1 (cs_threads s) /\ th_tid t1 = th_tid t).
  { intros i t0 t' Hi Ht I. apply In_nth_error in I. destruct I as (n & Hn). pose proof (UnixSystem_proofs.nth_error_lt _ _ _ Hi) as L.
    destruct (Nat.eq_dec n i) as [->|N].
    - rewrite UnixSystem_proofs.set_nth_same in Hn by auto. injection Hn as <-. exists t0. split; [eapply nth_error_In; eauto|auto].
    - rewrite UnixSystem_proofs.set_nth_other in Hn by auto. exists t. split; [eapply nth_error_In; eauto|auto]. }
  destruct l as [tid|i x|i|i| | | |k| | ]; cbn [cstep]; unfold tnth; intros H I;
    repeat match type of H with
    | (if ?b then _ else _) = _ => destruct b; try discriminate
    | match nth_error ?a ?b with _ => _ end = _ => destruct (nth_error a b) eqn:?; try discriminate
    | match ?b with _ => _ end = _ => destruct b; try discriminate
    | Some (if ?b then _ else _) = _ => destruct b
    end; injection H as <-; cbn in I; try (right; exists t; split; [exact I|reflexivity]);
    try (right; eapply G; [eassumption| |exact I]; reflexivity).
  apply in_app_or in I. destruct I as [I|[<-|[]]]; [right; eauto|left; reflexivity].
Qed.
(** What a step may add: a thread, or an event. *)
Definition weight (l : clabel) : nat := match l with TStart _ | TEmit _ _ => 1 | _ => 0 end.
Definition weights (ls : list clabel) : nat := list_sum (map weight ls).
Lemma weights_app a b : weights (a ++ b) = weights a + weights b.
Proof. unfold weights. now rewrite map_app, list_sum_app. Qed.
Lemma threads_len l s s' : cstep cap l s = Some s' -> length (cs_threads s') <= weight l + length (cs_threads s).
Proof.
  destruct l as [tid|i x|i|i| | | |k| | ]; cbn [cstep]; intros H;
    repeat match type of H with
    | (if ?b then _ else _) = _ => destruct b; try discriminate
    | match ?b with _ => _ end = _ => destruct b; try discriminate
    | Some (if ?b then _ else _) = _ => destruct b
    end; injection H as <-; cbn; rewrite ?UnixSystem_proofs.set_nth_length, ?app_length; cbn; lia.
Qed.

(** The number of events there are. *)
Definition bufs (s : cstate) : nat := list_sum (map (fun t => length (th_buf t)) (cs_threads s)).
Definition total (s : cstate) : nat := length (all_events (cs_sent s)) + length (flat_map snd (ev_map s)) + bufs s.

Arguments list_sum : simpl never.
Lemma sum_set {A} (f : A -> nat) : forall l i x y, nth_error l i = Some x -> list_sum (map f (set_nth i y l)) + f x = list_sum (map f l) + f y.
Proof.
  induction l as [|z l IH]; intros [|i] x y H; try discriminate; cbn [nth_error] in H.
  - injection H as ->. cbn [UnixSystem_model.set_nth map]. change (f y + list_sum (map f l) + f x = f x + list_sum (map f l) + f y). lia.
  - pose proof (IH _ _ y H) as P. cbn [UnixSystem_model.set_nth map].
    change (f z + list_sum (map f (set_nth i y l)) + f x = f z + list_sum (map f l) + f y). lia.
Qed.
Lemma append_length tid es : forall m, length (flat_map snd (append_to tid es m)) = length es + length (flat_map snd m).
Proof.
  unfold append_to. induction m as [|[k l] m IH]; [cbn; rewrite app_nil_r; lia|]. cbn [mfind minsert].
  destruct (tid <? k); [|destruct (k <? tid)]; cbn [flat_map snd]; rewrite ?app_length; [lia| |lia]. rewrite IH. lia.
Qed.
Lemma total_step l s s' : cstep cap l s = Some s' -> total s' <= weight l + total s.
Proof.
  destruct l as [tid|i x|i|i| | | |k| | ]; cbn [cstep weight]; unfold tnth; intros H.
  - destruct (existsb _ _); [discriminate|]. destruct (mfind _ _ _); [discriminate|]. injection H as <-. unfold total, bufs, ev_map. cbn. rewrite map_app, list_sum_app. change (list_sum (map (fun t => length (th_buf t)) [{| th_tid := tid; th_phase := TRunning; th_buf := []; th_accepted := [] |}])) with 0. lia.
  - destruct (nth_error _ _) as [t|] eqn:E; [|discriminate]. destruct (th_phase t); try discriminate. injection H as <-. destruct (_ <? _); [|lia].
    unfold total, bufs, ev_map. cbn. pose proof (sum_set (fun t => length (th_buf t)) _ _ _ {| th_tid := th_tid t; th_phase := TRunning; th_buf := th_buf t ++ [(i, x)]; th_accepted := th_accepted t ++ [(i, x)] |} E) as P.
    cbn [th_buf] in P. rewrite app_length in P. cbn [length] in P. lia.
  - destruct (nth_error _ _) as [t|] eqn:E; [|discriminate]. destruct (th_phase t); try discriminate. injection H as <-.
    unfold total, bufs, ev_map. cbn. pose proof (sum_set (fun t => length (th_buf t)) _ _ _ {| th_tid := th_tid t; th_phase := TOrphaned; th_buf := th_buf t; th_accepted := th_accepted t |} E) as P.
    cbn in P. lia.
  - destruct (nth_error _ _) as [t|] eqn:E; [|discriminate]. destruct (th_phase t); try discriminate. injection H as <-.
    unfold total, bufs, ev_map. cbn. pose proof (sum_set (fun t => length (th_buf t)) _ _ _ {| th_tid := th_tid t; th_phase := TGone; th_buf := th_buf t; th_accepted := th_accepted t |} E) as P.
    cbn in P. lia.
  - injection H as <-. unfold total, bufs, ev_map. cbn. lia.
  - destruct (cs_pc s) eqn:Ep; try discriminate. injection H as <-. unfold total, bufs, ev_map. cbn. rewrite Ep. cbn. lia.
  - destruct (cs_pc s) eqn:Ep; try discriminate. injection H as <-. unfold total, bufs, ev_map. cbn. rewrite Ep. cbn. lia.
  - destruct (cs_pc s) as [| |[|[[tid b] o] rest] ev|] eqn:Ep; try discriminate. destruct (nth_error _ _) as [t|] eqn:E; [|discriminate]. destruct (if o then _ else _); [|discriminate].
    injection H as <-. unfold total, bufs, ev_map. cbn. rewrite Ep, append_length.
    pose proof (sum_set (fun t => length (th_buf t)) _ _ _ {| th_tid := th_tid t; th_phase := th_phase t; th_buf := skipn k (th_buf t); th_accepted := th_accepted t |} E) as P. cbn in P.
    pose proof (firstn_skipn k (th_buf t)) as Q. apply (f_equal (@length _)) in Q. rewrite app_length in Q. lia.
  - destruct (cs_pc s) as [| |[|? rest] ev|] eqn:Ep; try discriminate. injection H as <-. destruct (count_events ev =? 0) eqn:Ec; unfold total, bufs, ev_map; cbn; rewrite Ep; [lia|].
    destruct (cs_attached s); cbn; rewrite ?all_events_app, ?all_events_one, ?app_length; lia.
  - destruct (cs_pc s) eqn:Ep; try discriminate. injection H as <-. unfold total, bufs, ev_map. cbn. rewrite Ep. cbn. lia.
Qed.

(** The keys of the maps are thread ids, in order. *)
Definition good_map (s : cstate) (m : list (nat * list event)) : Prop :=
  nordered m /\ forall k, In k (map fst m) -> exists t, In t (cs_threads s) /\ th_tid t = k.
Lemma good_extend l s s' m : cstep cap l s = Some s' -> good_map s m -> good_map s' m.
Proof.
  intros H (O & K). split; [exact O|]. intros k Hk. destruct (K k Hk) as (t & It & Et). apply In_nth_error in It. destruct It as (n & Hn).
  destruct (step_extends cap _ _ _ H _ _ Hn) as (t' & Hn' & Et' & _). exists t'. split; [eapply nth_error_In; eauto|congruence].
Qed.
Lemma good_step l s s' : cinv s -> cstep cap l s = Some s' -> Forall (good_map s) (ev_map s :: cs_sent s) -> Forall (good_map s') (ev_map s' :: cs_sent s').
Proof.
  intros I H F. assert (F' : Forall (good_map s') (ev_map s :: cs_sent s)) by (eapply Forall_impl; [|exact F]; intros; eapply good_extend; eauto).
  clear F. assert (E0 : good_map s' []) by (split; [constructor|intros k []]). inversion F' as [|? ? F1 F2]; subst.
  destruct l as [tid|i x|i|i| | | |k| | ]; cbn [cstep] in H; unfold tnth in H.
  - destruct (existsb _ _); [discriminate|]. destruct (mfind _ _ _); [discriminate|]. injection H as <-. exact F'.
  - destruct (nth_error _ _) as [t|] eqn:E; [|discriminate]. destruct (th_phase t); try discriminate. injection H as <-. destruct (_ <? _); exact F'.
  - destruct (nth_error _ _) as [t|] eqn:E; [|discriminate]. destruct (th_phase t); try discriminate. injection H as <-. exact F'.
  - destruct (nth_error _ _) as [t|] eqn:E; [|discriminate]. destruct (th_phase t); try discriminate. injection H as <-. exact F'.
  - injection H as <-. exact F'.
  - destruct (cs_pc s) eqn:Ep; try discriminate. injection H as <-. constructor; [exact E0|exact F2].
  - destruct (cs_pc s) eqn:Ep; try discriminate. injection H as <-. constructor; [exact E0|exact F2].
  - destruct (cs_pc s) as [| |[|[[tid b] o] rest] ev|] eqn:Ep; try discriminate. destruct (nth_error _ _) as [t|] eqn:E; [|discriminate]. destruct (if o then _ else _); [|discriminate].
    injection H as <-. constructor; [|exact F2]. unfold ev_map in F1 |- *. rewrite Ep in F1. cbn [cs_pc with_pc]. destruct F1 as (O & K). split; [now apply append_ordered|].
    intros k' Hk. apply in_map_iff in Hk. destruct Hk as ([k1 l1] & <- & Hk). cbn [fst]. unfold append_to in Hk. apply in_insert in Hk. destruct Hk as [Ek|Hk].
    + injection Ek as -> _. destruct (ci_ent _ I tid b) as (t0 & Et0 & Tt0).
      { apply in_or_app. right. unfold todo_all. rewrite Ep. left. reflexivity. }
      rewrite E in Et0. injection Et0 as <-. cbn. eexists. split; [eapply nth_error_In; apply UnixSystem_proofs.set_nth_same; eapply UnixSystem_proofs.nth_error_lt; eauto|]. exact Tt0.
    + apply K. apply in_map_iff. exists (k1, l1). auto.
  - destruct (cs_pc s) as [| |[|? rest] ev|] eqn:Ep; try discriminate. injection H as <-. destruct (count_events ev =? 0) eqn:Ec; [constructor; [exact E0|exact F2]|].
    constructor; [exact E0|]. cbn. destruct (cs_attached s); [|exact F2]. apply Forall_app. split; [exact F2|]. constructor; [|constructor]. unfold ev_map in F1. now rewrite Ep in F1.
  - destruct (cs_pc s) eqn:Ep; try discriminate. injection H as <-. constructor; [exact E0|exact F2].
Qed.

Lemma messages ls s : crun cap ls c_attached = Some s -> total s <= weights ls /\ length (cs_threads s) <= weights ls /\
  (forall t, In t (cs_threads s) -> In (TStart (th_tid t)) ls) /\ Forall (good_map s) (ev_map s :: cs_sent s).
Proof.
  revert s. induction ls as [|l ls IH] using rev_ind; intros s H.
  - cbn in H. injection H as <-. split; [apply le_n|]. split; [apply le_n|]. split; [intros t []|].
    constructor; [|constructor]. split; [constructor|intros k []].
  - apply crun_snoc in H. destruct H as (s1 & H1 & H2). destruct (IH _ H1) as (A & B & C & D). rewrite weights_app. change (weights [l]) with (weight l + 0).
    pose proof (total_step _ _ _ H2). pose proof (threads_len _ _ _ H2). split; [lia|]. split; [lia|]. split.
    + intros t It. apply in_or_app. destruct (thread_step _ _ _ t H2 It) as [->|(t0 & I0 & <-)]; [right; left; reflexivity|left; auto].
    + eapply good_step; eauto. eapply run_cinv; [apply (cinv0 true)|exact H1].
Qed.
(** So a message is small, and has the ids of threads. *)
Lemma message_ok ls s m : crun cap ls c_attached = Some s -> In m (cs_sent s) ->
  nordered m /\ length m <= weights ls /\ forall k es, In (k, es) m -> In (TStart k) ls /\ length es <= weights ls.
Proof.
  intros H Hm. destruct (messages _ _ H) as (A & B & C & D). inversion D as [|? ? D1 D2]; subst. rewrite Forall_forall in D2. destruct (D2 m Hm) as (O & K). split; [exact O|]. split.
  - pose proof (ordered_NoDup _ nat_order _ O) as N. assert (L : length (map fst m) <= length (map th_tid (cs_threads s))).
    { apply NoDup_incl_length; [exact N|]. intros k Hk. destruct (K k Hk) as (t & It & <-). now apply in_map. }
    rewrite !map_length in L. lia.
  - intros k es Hk. split.
    + destruct (K k) as (t & It & <-); [apply in_map_iff; exists (k, es); auto|auto].
    + assert (L : length es <= length (all_events (cs_sent s))); [|unfold total in A; lia].
      apply in_split in Hm. destruct Hm as (a & b & ->). rewrite all_events_app. change (m :: b) with ([m] ++ b). rewrite all_events_app, all_events_one.
      apply in_split in Hk. destruct Hk as (a1 & b1 & ->). rewrite flat_map_app. cbn. rewrite !app_length. lia.
Qed.

(** What is accepted. *)
Lemma roomy_accepts i : forall ls s s', crun cap ls s = Some s' -> roomy cap ls s -> acc_of i s' = acc_of i s ++ emissions i ls.
Proof.
  induction ls as [|l ls IH]; intros s s' H R.
  - cbn in H. injection H as <-. cbn. now rewrite app_nil_r.
  - cbn [crun] in H. destruct (cstep cap l s) as [s1|] eqn:E; [|discriminate]. cbn [EndToEnd_spec.roomy] in R. rewrite E in R. destruct R as (R1 & R2).
    rewrite (IH _ _ H R2). change (l :: ls) with ([l] ++ ls). rewrite emissions_app, app_assoc. f_equal. rewrite emissions_one.
    destruct (step_acc cap l s s1 i E) as [Ha|(x & t & -> & Ht & _ & Ha)].
    2: { rewrite Nat.eqb_refl. exact Ha. }
    destruct l as [tid|j x|j|j| | | |k| | ]; try (rewrite app_nil_r; exact Ha). destruct (Nat.eqb_spec j i) as [->|N]; [|rewrite app_nil_r; exact Ha].
    cbn [cstep] in E. unfold tnth in E. destruct (nth_error (cs_threads s) i) as [t|] eqn:Et; [|discriminate]. destruct (th_phase t); try discriminate.
    specialize (R1 t eq_refl). apply Nat.ltb_lt in R1. rewrite R1 in E. injection E as <-. unfold acc_of at 1 2. cbn.
    rewrite UnixSystem_proofs.set_nth_same by (eapply UnixSystem_proofs.nth_error_lt; eauto). rewrite Et. reflexivity.
Qed.
Lemma acc_emitted ls s i : crun cap ls c_attached = Some s -> subseq (acc_of i s) (emissions i ls).
Proof. intros H. apply (accepted_subseq cap true i ls s H). Qed.
(** What is sent. *)
Lemma sent_accepted ls s i : crun cap ls c_attached = Some s -> exists more, acc_of i s = of_thread i (all_events (cs_sent s)) ++ more /\
  (in_hand s = [] -> (forall i t, nth_error (cs_threads s) i = Some t -> th_buf t = []) -> more = []).
Proof.
  intros H. unfold acc_of. destruct (nth_error (cs_threads s) i) as [t|] eqn:E.
  - rewrite (exactly_once cap _ _ _ _ H E). eexists. split; [reflexivity|]. intros -> B. rewrite (B _ _ E). reflexivity.
  - exists []. split; [|auto]. rewrite app_nil_r. symmetry. destruct (of_thread i (all_events (cs_sent s))) as [|e l] eqn:Eo; [reflexivity|exfalso].
    assert (In e (of_thread i (all_events (cs_sent s)))) as I by (rewrite Eo; left; reflexivity). apply filter_In in I. destruct I as (I & Ei). apply Nat.eqb_eq in Ei.
    apply in_flat_map in I. destruct I as (m & Im & I). apply in_flat_map in I. destruct I as ([k es] & Ik & Ie). destruct (only_emitted cap _ _ _ _ _ _ H Im Ik Ie) as (_ & t & Et & _). congruence.
Qed.
End Cap.

(** * The transport *)
Module Net.
Import UnixSystem_model UnixSystem_spec UnixSystem_proofs EndToEnd_model.

Local Opaque chunk_size.
Definition plain (l : label) : Prop := match l with AddServerEp n => n <> receiver | _ => True end.
Definition isb (i : item) : bool := match i with Full _ (GBcast _) => true | _ => false end.

Record ninv (s : sys) : Prop := {
  ni_eps : mem receiver (s_eps s) = false;
  ni_in : forall m g, In (Full m g) (c_in (s_cl s 0)) -> ep_name m = receiver -> exists k, g = GBcast k;
  ni_cut : forall m, In (Cut m) (c_in (s_cl s 0)) -> ep_name m <> receiver;
  ni_log : forall m g o, In (m, g, o) (c_log (s_cl s 0)) -> ep_name m = receiver -> exists k, g = GBcast k;
  ni_pre : exists rest, filter isb (c_rx (s_cl s 0)) = filter isb (processed_items (s_cl s 0)) ++ rest /\ (c_run (s_cl s 0) = true -> rest = filter isb (c_in (s_cl s 0))) }.

Lemma eps_step l s s' : step l s = Some s' -> s_eps s' = s_eps s \/ exists n, l = AddServerEp n /\ s_eps s' = n :: s_eps s.
Proof.
  intros E. destruct l as [c'|c'|c' n|n|c' n d|c' r ok|c' r|c' r|c' ua|c'|c' n d|c' i|c'|c' ans|c'|n d| | |c' d j]; cbn [step] in E;
    repeat match type of E with
    | (if ?b then _ else _) = _ => destruct b; try discriminate
    | match ?b with _ => _ end = _ => destruct b; try discriminate
    end; injection E as <-; try (left; reflexivity). right. eauto.
Qed.
Lemma mem_ne n l : mem n l = true -> mem receiver l = false -> n <> receiver.
Proof. intros A B ->. congruence. Qed.
Lemma receiver_nonempty : receiver <> []. Proof. discriminate. Qed.
Local Opaque EndToEnd_model.receiver.

(** Items on the wire to the recording program are broadcasts, or do not concern its endpoint. *)
Definition ours (i : item) : Prop :=
  match i with Full m g => ep_name m = receiver -> exists k, g = GBcast k | Cut m => ep_name m <> receiver | Bad => True end.
Lemma push_ours i x j : ours i -> In j (c_in (push_in i x)) -> In j (c_in x) \/ ours j.
Proof.
  unfold push_in. intros H. destruct (c_open x); cbn; [|auto]. intros I. apply in_app_or in I. destruct I as [I|[<-|[]]]; auto.
Qed.
Lemma recv_in eof ua x x' : Inv1 x -> client_recv eof ua x = Some x' -> forall j, In j (c_in x') -> In j (c_in x).
Proof.
  unfold client_recv. intros I E. destruct (negb (c_run x)); [discriminate|].
  assert (gen : forall m g x0, Inv1 x0 -> c_in (process m g ua x0) = c_in x0).
  { intros m g x0 J. destruct (process_fields m g ua x0 J) as (F & _). auto. }
  destruct (c_in x) as [|[m g|m|] r] eqn:Ei; [destruct eof; [|discriminate]| | |]; injection E as <-; intros j;
    match goal with |- context [process ?m ?g ua ?x0] => rewrite (gen m g x0) by (eapply Inv1_ext; [..|exact I]; reflexivity) end; cbn; rewrite ?Ei; auto.
Qed.
Lemma in_step P l s s' : reached P s -> step l s = Some s' -> mem receiver (s_eps s) = false ->
  forall i, In i (c_in (s_cl s' 0)) -> In i (c_in (s_cl s 0)) \/ ours i.
Proof.
  intros HR E M i. pose proof (Inv1_reached P s 0 HR) as I1.
  assert (U : forall c x, (c = 0 -> forall i, In i (c_in x) -> In i (c_in (s_cl s 0)) \/ ours i) -> In i (c_in (upd (s_cl s) c x 0)) -> In i (c_in (s_cl s 0)) \/ ours i).
  { intros c x Hx. unfold upd. destruct (Nat.eqb_spec 0 c) as [<-|N]; auto. }
  destruct l as [c'|c'|c' n|n|c' n d|c' r ok|c' r|c' r|c' ua|c'|c' n d|c' it|c'|c' ans|c'|n d| | |c' d j]; cbn [step] in E.
  - destruct (_ || _); [discriminate|]. injection E as <-. cbn. apply U. intros -> i'. cbn. auto.
  - destruct (s_up s); [|discriminate]. destruct (s_conn s c'); try discriminate. injection E as <-. cbn. auto.
  - injection E as <-. cbn. apply U. intros -> i'. cbn. auto.
  - injection E as <-. cbn. auto.
  - destruct (negb _); [discriminate|]. injection E as <-. cbn. apply U. intros -> i'. cbn. auto.
  - destruct (nth_error _ _) as [q|]; [|discriminate]. destruct (r_stage q); try discriminate. destruct (_ && _); injection E as <-; cbn; apply U; intros -> i'; cbn; auto.
  - destruct (nth_error _ _) as [q|]; [|discriminate]. destruct (r_stage q); try discriminate. injection E as <-; cbn; apply U; intros -> i'; cbn; auto.
  - destruct (nth_error _ _) as [q|]; [|discriminate]. destruct (in_call q); [discriminate|]. injection E as <-; cbn; apply U; intros -> i'; cbn; auto.
  - destruct (client_recv _ _ _) as [x|] eqn:Er; [|discriminate]. injection E as <-. cbn. apply U. intros -> i' Hi. left. eapply recv_in; eauto.
  - injection E as <-. cbn. apply U. intros -> i'. cbn. auto.
  - destruct (_ && _); [|discriminate]. injection E as <-. cbn. apply U. intros -> i'. cbn. auto.
  - destruct (c_open _); [|discriminate]. injection E as <-. cbn. apply U. intros -> i'. cbn. auto.
  - destruct (_ || _); [discriminate|]. injection E as <-. cbn. apply U. intros -> i'. cbn. intros [].
  - destruct (s_up s); [|discriminate]. destruct (s_conn s c'); try discriminate. destruct (c_out (s_cl s c')) as [|[m g|m|] r]; try discriminate.
    + destruct (mem (ep_name m) (s_eps s)) eqn:Em.
      * pose proof (mem_ne _ _ Em M) as Ne. destruct ans as [d|]; injection E as <-; cbn.
        -- destruct (Nat.eq_dec c' 0) as [->|N]; [|rewrite !upd_other by auto; auto].
           rewrite upd_same. intros Hi. apply push_ours in Hi; [exact Hi|]. intros X. contradiction.
        -- apply U. intros -> i'. cbn. auto.
      * injection E as <-. cbn. apply U. intros -> i'. cbn. auto.
    + injection E as <-. cbn. apply U. intros -> i'. cbn. auto.
    + injection E as <-. cbn. apply U. intros -> i'. cbn. auto.
  - destruct (s_up s); [|discriminate]. destruct (s_conn s c'); try discriminate. destruct (c_open _); [discriminate|]. injection E as <-. cbn. auto.
  - injection E as <-. cbn. auto.
  - destruct (negb _); [discriminate|]. destruct (rev _) as [|[n d] rq]; [discriminate|]. injection E as <-. cbn. destruct (is_accepted _); [|auto]. apply push_ours. cbn. eauto.
  - destruct (s_up s); [|discriminate]. injection E as <-. cbn. auto.
  - destruct (s_up s); [|discriminate]. destruct (s_conn s c'); try discriminate. destruct (c_out (s_cl s c')) as [|[m g|m|] r]; try discriminate.
    destruct (mem (ep_name m) (s_eps s)) eqn:Em; [|discriminate]. pose proof (mem_ne _ _ Em M) as Ne. destruct (j <? length d); [|discriminate]. cbn [andb] in E.
    injection E as <-. cbn. apply U. intros -> i' Hi. apply push_ours in Hi; [exact Hi|]. destruct (j mod chunk_size =? 0); cbn; intros X; contradiction.
Qed.

Lemma ninv_in s i : ninv s -> In i (c_in (s_cl s 0)) -> ours i.
Proof. intros I H. destruct i as [m g|m|]; cbn; auto; [intros; eapply ni_in; eauto|eapply ni_cut; eauto]. Qed.

Definition news (x y : client) (m : msg) (g : origin) (o : outcome) : Prop := c_log y = c_log x ++ [(m, g, o)].
(** What one step does to the log, the wire and the flags of the client. *)
Lemma recv_pre eof ua x x' : Inv1 x -> Inv4 x -> client_recv eof ua x = Some x' -> exists m g o, c_log x' = c_log x ++ [(m, g, o)] /\ c_rx x' = c_rx x /\
  ((exists r, c_in x = Full m g :: r /\ c_in x' = r /\ c_run x' = c_run x) \/ (c_run x' = false /\ (g = GAns \/ g = GRaw) /\ (ep_name m = [] \/ In (Cut m) (c_in x)))).
Proof.
  unfold client_recv. intros I I4 E. destruct (negb (c_run x)); [discriminate|].
  destruct (c_in x) as [|[m g|m|] r] eqn:Ei; [destruct eof; [|discriminate]| | |]; injection E as <-;
    match goal with |- context [process ?m ?g ua ?x0] => destruct (process_fields m g ua x0 ltac:(eapply Inv1_ext; [..|exact I]; reflexivity)) as (F1 & F2 & F3 & F4 & F5 & F6 & o & F7 & F8 & F9); exists m, g, o end;
    rewrite F7, F2, F4, ?F1; cbn; (split; [reflexivity|]); (split; [reflexivity|]).
  - right. split; [reflexivity|]. split; [auto|]. left. reflexivity.
  - left. exists r. auto.
  - right. split; [reflexivity|]. split; [auto|]. right. auto.
  - right. split; [reflexivity|]. split; [auto|]. left. reflexivity.
Qed.

Lemma pre_local c l x k x' k' : local c l x k x' k' -> Inv1 x -> Inv4 x ->
  (exists rest, filter isb (c_rx x) = filter isb (processed_items x) ++ rest /\ (c_run x = true -> rest = filter isb (c_in x))) ->
  (exists rest, filter isb (c_rx x') = filter isb (processed_items x') ++ rest /\ (c_run x' = true -> rest = filter isb (c_in x'))).
Proof.
  intros L I1 I4 (rest & E1 & E2).
  assert (K : forall y, c_rx y = c_rx x -> c_log y = c_log x -> c_in y = c_in x -> c_run y = c_run x -> exists rest, filter isb (c_rx y) = filter isb (processed_items y) ++ rest /\ (c_run y = true -> rest = filter isb (c_in y))).
  { intros y A1 A2 A3 A4. unfold processed_items. rewrite A1, A2, A3, A4. eauto. }
  assert (Pu : forall i z, c_rx z = c_rx x -> c_log z = c_log x -> c_in z = c_in x -> c_run z = c_run x -> c_open z = c_open x ->
     exists rest, filter isb (c_rx (push_in i z)) = filter isb (processed_items (push_in i z)) ++ rest /\ (c_run (push_in i z) = true -> rest = filter isb (c_in (push_in i z)))).
  { intros i z A1 A2 A3 A4 A5. unfold push_in. destruct (c_open z) eqn:Eo; [|apply K; auto]. unfold processed_items in *. cbn. rewrite A1, A2, A3, A4, !filter_app, E1.
    exists (rest ++ filter isb [i]). split; [now rewrite app_assoc|]. intros R. rewrite (E2 R). reflexivity. }
  destruct L; try (apply K; reflexivity); try (apply Pu; reflexivity).
  - (* Connect *) destruct (f_born _ I4 H) as (_ & A & B & C). exists []. unfold processed_items. cbn. rewrite A, B, C. auto.
  - (* receive *) destruct (recv_pre _ _ _ _ I1 I4 H) as (m & g & o & A1 & A2 & [(r & B1 & B2 & B3)|(B1 & B2 & B3)]).
    + unfold client_recv in H. destruct (c_run x) eqn:Er; [|discriminate]. specialize (E2 eq_refl). subst rest.
      unfold processed_items in *. rewrite A1, A2, map_app, filter_app, E1, B1. cbn [map fst snd]. exists (filter isb r). split; [|intros _; now rewrite B2].
      rewrite <- app_assoc. f_equal. cbn. destruct g; reflexivity.
    + unfold processed_items in *. rewrite A1, A2, map_app, filter_app, E1. cbn [map fst snd]. exists rest. split; [|rewrite B1; discriminate].
      destruct B2 as [-> | ->]; cbn; now rewrite app_nil_r.
  - exists rest. unfold processed_items in *. cbn. split; [exact E1|discriminate].
Qed.

Lemma ninv_step P s l s' : reached P s -> plain l -> step l s = Some s' -> ninv s -> ninv s'.
Proof.
  intros HR Pl E I. pose proof (Inv1_reached P s 0 HR) as I1. pose proof (Inv4_reached P s 0 HR) as I4.
  assert (O : forall i, In i (c_in (s_cl s' 0)) -> ours i).
  { intros i Hi. destruct (in_step P l s s' HR E (ni_eps _ I) i Hi) as [H|H]; [now apply (ninv_in s)|exact H]. }
  constructor.
  - destruct (eps_step _ _ _ E) as [->|(n & -> & ->)]; [apply I|]. unfold mem. cbn [existsb s_eps].
    destruct (bytes_eqb receiver n) eqn:Eb; [apply bytes_eqb_eq in Eb; exfalso; apply Pl; auto|]. apply I.
  - intros m g Hi. exact (O _ Hi).
  - intros m Hi. exact (O _ Hi).
  - intros m g o Hin Hn. destruct (step_local 0 l s s' E) as [[Hs _]|L]; [rewrite Hs in Hin; eapply ni_log; eauto|].
    assert (Hold : c_log (s_cl s' 0) = c_log (s_cl s 0) \/ exists m g o, c_log (s_cl s' 0) = c_log (s_cl s 0) ++ [(m, g, o)] /\ (ep_name m = receiver -> exists k, g = GBcast k)).
    { clear Hin O. revert L. generalize (s_cl s' 0) (ccalls 0 s'). intros x' k' L. remember (s_cl s 0) as x eqn:Ex. remember (ccalls 0 s) as kk.
      destruct L; cbn; try (unfold push_in; cbn [c_open set_out]; destruct (c_open _); cbn); try (now left).
      right. destruct (recv_pre _ _ _ _ I1 I4 H) as (m1 & g1 & o1 & A1 & A2 & B). exists m1, g1, o1. split; [exact A1|]. intros En.
      destruct B as [(r & B1 & _)|(_ & _ & [B|B])].
      - subst x. eapply ni_in; [exact I| |exact En]. rewrite B1. left. reflexivity.
      - exfalso. rewrite En in B. exact (receiver_nonempty B).
      - exfalso. subst x. eapply ni_cut; eauto. }
    destruct Hold as [Hs|(m1 & g1 & o1 & Hs & Hg)]; rewrite Hs in Hin; [eapply ni_log; eauto|].
    apply in_app_or in Hin. destruct Hin as [Hin|[Hin|[]]]; [eapply ni_log; eauto|]. injection Hin as -> -> ->. auto.
  - destruct (step_local 0 l s s' E) as [[Hs _]|L]; [rewrite Hs; apply I|]. eapply pre_local; eauto. apply I.
Qed.
Lemma ninv_reached s : reached plain s -> ninv s.
Proof.
  intros H. apply (reached_ind plain ninv) in H; auto.
  - constructor; cbn; try contradiction; auto. exists []. auto.
  - intros s0 l s1 HR I Pl E. eapply ninv_step; eauto.
Qed.

(** What has been given to the endpoint. *)
Lemma heard_app a b : heard (a ++ b) = heard a ++ heard b. Proof. apply flat_map_app. Qed.
Lemma heard_in log k d : In (k, d) (heard log) -> exists m g, In (m, g, Unsolicited) log /\ ep_name m = receiver /\ d = payload m /\ k = match g with GBcast k => k | _ => 0 end.
Proof.
  intros H. apply in_flat_map in H. destruct H as ([[m g] o] & I & H). destruct o; try contradiction. destruct (bytes_eqb (ep_name m) receiver) eqn:E; [|contradiction].
  destruct H as [H|[]]. injection H as <- <-. apply bytes_eqb_eq in E. eauto 8.
Qed.
Lemma bcasts_isb l : bcasts l = bcasts (filter isb l).
Proof. unfold bcasts. induction l as [|[m []|m|] l IH]; cbn; rewrite ?IH; reflexivity. Qed.
Lemma heard_bcasts (log : list (msg * origin * outcome)) : (forall m g o, In (m, g, o) log -> ep_name m = receiver -> exists k, g = GBcast k) ->
  subseq (map fst (heard log)) (bcasts (map (fun e => Full (fst (fst e)) (snd (fst e))) log)).
Proof.
  induction log as [|[[m g] o] log IH]; intros H; [constructor|]. assert (IH' := IH (fun m g o Hi => H m g o (or_intror Hi))). cbn [map]. cbn.
  assert (Skip : subseq (map fst (heard log)) ((match g with GBcast k => [k] | _ => [] end) ++ bcasts (map (fun e => Full (fst (fst e)) (snd (fst e))) log))).
  { destruct g; cbn; auto. now constructor. }
  destruct o; try exact Skip. destruct (bytes_eqb (ep_name m) receiver) eqn:E; [|exact Skip]. apply bytes_eqb_eq in E. destruct (H m g Unsolicited (or_introl eq_refl) E) as (k & ->). cbn. now constructor.
Qed.
Lemma subseq_NoDup {A} (a b : list A) : subseq a b -> NoDup b -> NoDup a.
Proof.
  induction 1 as [l|x l l' S IH|x l l' S IH]; intros N; [constructor| |]; inversion N; subst; auto. constructor; auto. intros I. eapply subseq_in in I; eauto.
Qed.
Lemma heard_once s : reached plain s -> NoDup (map fst (heard (c_log (s_cl s 0)))).
Proof.
  intros HR. pose proof (ninv_reached s HR) as I. eapply subseq_NoDup; [apply heard_bcasts; intros m g o; apply (ni_log _ I)|].
  destruct (ni_pre _ I) as (rest & E & _). change (NoDup (bcasts (processed_items (s_cl s 0)))). rewrite bcasts_isb. pose proof (bcast_once plain s 0 HR) as N. rewrite bcasts_isb, E, bcasts_app in N.
  eapply subseq_NoDup; [apply subseq_prefix|exact N].
Qed.
Lemma heard_content s k d : reached plain s -> In (k, d) (heard (c_log (s_cl s 0))) -> nth_error (s_disp s) k = Some (receiver, d).
Proof.
  intros HR H. pose proof (ninv_reached s HR) as I. apply heard_in in H. destruct H as (m & g & Hin & En & -> & ->). destruct (ni_log _ I _ _ _ Hin En) as (k & ->).
  rewrite <- En. apply (bcast_content plain s 0 m k HR). destruct (ni_pre _ I) as (rest & E & _).
  assert (F : In (Full m (GBcast k)) (filter isb (c_rx (s_cl s 0)))).
  { rewrite E. apply in_or_app. left. apply filter_In. split; [|reflexivity]. unfold processed_items. apply in_map_iff. exists (m, GBcast k, Unsolicited). auto. }
  apply filter_In in F. apply F.
Qed.

(** Everything dispatched while the recording program is connected is given to the endpoint, unless it is on its way. *)
Lemma heard_all s s' ls : reached plain s -> Forall plain ls -> run ls s = Some s' -> s_conn s 0 = Accepted -> s_conn s' 0 = Accepted -> c_open (s_cl s' 0) = true ->
  mem receiver (c_eps (s_cl s 0)) = true -> (forall m g, In (Full m g) (c_in (s_cl s' 0)) -> ep_name m <> receiver) ->
  forall k d, nth_error (s_disp s') k = Some (receiver, d) -> length (s_disp s) <= k -> In (k, d) (heard (c_log (s_cl s' 0))).
Proof.
  intros HR HF E A A' O M Q k d Hk Lk.
  assert (HR' : reached plain s') by (destruct HR as (l0 & F0 & R0); exists (l0 ++ ls); split; [apply Forall_app; auto|rewrite run_app, R0; exact E]).
  pose proof (nth_error_lt _ _ _ Hk) as Lk'. pose proof (bcast_complete plain ls s s' 0 HR HF E A A' O) as B.
  assert (Ik : In k (bcasts (c_rx (s_cl s' 0)))) by (rewrite B; apply in_or_app; right; apply in_seq; lia).
  apply bcasts_in in Ik. destruct Ik as (m & Ik). pose proof (bcast_content plain s' 0 m k HR' Ik) as C. rewrite Hk in C. injection C as En Ep.
  pose proof (Inv4_reached plain s' 0 HR') as I4. assert (R' : c_run (s_cl s' 0) = true) by (rewrite <- (f_open _ I4); exact O).
  pose proof (f_fifo _ I4 R') as F. rewrite <- F in Ik. apply in_app_or in Ik. destruct Ik as [Ik|Ik]; [|exfalso; apply (Q _ _ Ik); auto].
  unfold processed_items in Ik. apply in_map_iff in Ik. destruct Ik as ([[m1 g1] o] & Em & Hin). cbn in Em. injection Em as -> ->.
  destruct (bcast_handed_over plain ls s s' 0 receiver HR HF E M) as (new & Hl & Hn).
  assert (Hnew : In (m, GBcast k, o) new).
  { rewrite Hl in Hin. apply in_app_or in Hin. destruct Hin as [Hin|Hin]; [exfalso|exact Hin].
    pose proof (ninv_reached s HR) as I. destruct (ni_pre _ I) as (rest & Er & _).
    assert (In (Full m (GBcast k)) (filter isb (c_rx (s_cl s 0)))) as G.
    { rewrite Er. apply in_or_app. left. apply filter_In. split; [|reflexivity]. unfold processed_items. apply in_map_iff. exists (m, GBcast k, o). auto. }
    apply filter_In in G. destruct G as (G & _). pose proof (bcast_content plain s 0 m k HR G) as X. apply nth_error_lt in X. lia. }
  rewrite (Hn _ _ _ Hnew (eq_sym En)) in Hin. apply in_flat_map. exists (m, GBcast k, Unsolicited). split; [exact Hin|]. rewrite <- En, bytes_eqb_refl. left. congruence.
Qed.

(** Broadcasts made. *)
Lemma made_only l s s' : step l s = Some s' -> (forall n d, l <> MakeBcast n d) -> s_made s' = s_made s.
Proof.
  intros E N. destruct l as [c'|c'|c' n|n|c' n d|c' r ok|c' r|c' r|c' ua|c'|c' n d|c' i|c'|c' ans|c'|n d| | |c' d j]; cbn [step] in E;
    repeat match type of E with
    | (if ?b then _ else _) = _ => destruct b; try discriminate
    | match ?b with _ => _ end = _ => destruct b; try discriminate
    end; injection E as <-; try reflexivity. exfalso. eapply N. reflexivity.
Qed.
Lemma make_run n : forall ds s, exists s', run (map (MakeBcast n) ds) s = Some s' /\ s_made s' = s_made s ++ map (pair n) ds /\ s_cl s' = s_cl s.
Proof.
  induction ds as [|d ds IH]; intros s; [exists s; cbn; rewrite app_nil_r; auto|]. cbn [map run step].
  match goal with |- context [run _ ?t] => destruct (IH t) as (s' & -> & A & B) end. exists s'. split; [reflexivity|]. rewrite A, B. cbn. now rewrite <- app_assoc.
Qed.
Definition is_ours (b : bytes * bytes) : bool := bytes_eqb (fst b) receiver.
Lemma log_grows P l s s' c : reached P s -> step l s = Some s' -> exists new, c_log (s_cl s' c) = c_log (s_cl s c) ++ new.
Proof. intros HR E. destruct (log_step P c l s s' HR E) as (_ & new & H & _). eauto. Qed.
End Net.
