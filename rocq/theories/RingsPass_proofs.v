From Coq Require Import List Arith Bool Lia.
Import ListNotations.
From Verif Require RingBuffer_model RingBuffer_spec RingBuffer_proofs.
From Verif Require Import UnixSystem_model UnixSystem_proofs OMap_model OMap_proofs Collector_model Collector_spec Collector_proofs RingsStep_proofs Rings_model Rings_spec Rings_proofs RingsUse_proofs.

Section Pass.
Variable n : nat.

(** ** A thread that has ended *)
Lemma gone_step l s s' i : rstep n l s = Some s' -> ended i s -> ended i s'.
Proof.
  intros H (t & Ht & Hg). unfold ended.
  assert (SET : forall j t0 t', nth_error (rs_threads s) j = Some t0 -> (r_phase t0 = TGone -> r_phase t' = TGone) ->
    exists t, nth_error (set_nth j t' (rs_threads s)) i = Some t /\ r_phase t = TGone).
  { intros j t0 t' Hj Hp. destruct (Nat.eq_dec i j) as [->|N]; [|exists t; rewrite set_nth_other by congruence; auto].
    exists t'. rewrite set_nth_same by (eapply nth_error_lt; eauto). split; [reflexivity|]. apply Hp. congruence. }
  destruct l; cbn [rstep] in H.
  - destruct (existsb _ _); [discriminate|]. destruct (mfind _ _ _); [discriminate|]. destruct (RingBuffer_model.init n); [|discriminate]. injection H as <-.
    exists t. cbn [rs_threads]. rewrite nth_error_app1 by (eapply nth_error_lt; eauto). auto.
  - destruct (nth_error (rs_threads s) i0) as [t0|] eqn:E; [|discriminate]. destruct (r_phase t0) eqn:P; try discriminate. destruct (RingBuffer_model.step _ _); [|discriminate]. injection H as <-.
    apply (SET _ _ _ E). cbn. congruence.
  - destruct (nth_error (rs_threads s) i0) as [t0|] eqn:E; [|discriminate]. destruct (r_phase t0) eqn:P; try discriminate. destruct (RingBuffer_model.step _ _); [|discriminate]. injection H as <-.
    apply (SET _ _ _ E). cbn. congruence.
  - destruct (nth_error (rs_threads s) i0) as [t0|] eqn:E; [|discriminate]. destruct (r_phase t0) eqn:P; try discriminate. destruct (RingBuffer_model.pp _); try discriminate. injection H as <-.
    apply (SET _ _ _ E). cbn. congruence.
  - destruct (nth_error (rs_threads s) i0) as [t0|] eqn:E; [|discriminate]. destruct (r_phase t0) eqn:P; try discriminate. injection H as <-.
    apply (SET _ _ _ E). cbn. congruence.
  - injection H as <-. eauto.
  - destruct (rs_pc s); try discriminate. injection H as <-. eauto.
  - destruct (rs_pc s); try discriminate. injection H as <-. eauto.
  - destruct (rs_pc s) as [| |g todo ev|]; try discriminate. destruct todo as [|[[tid b] o] rest]; [discriminate|]. destruct (nth_error (rs_threads s) b) as [t0|] eqn:E; [|discriminate].
    destruct g; try discriminate; (destruct (RingBuffer_model.step _ _); [|discriminate]); injection H as <-; apply (SET _ _ _ E); auto.
  - destruct (rs_pc s) as [| |g todo ev|]; try discriminate. destruct todo as [|[[tid b] o] rest]; [discriminate|]. destruct (nth_error (rs_threads s) b) as [t0|] eqn:E; [|discriminate].
    destruct (handed_over _ _ _); [|discriminate]. destruct (RingBuffer_model.step _ _) as [q|]; [|discriminate].
    destruct g, (result q) as [[]|]; try discriminate; injection H as <-; apply (SET _ _ _ E); auto.
  - destruct (rs_pc s) as [| |g todo ev|]; try discriminate. destruct g; try discriminate. destruct todo; try discriminate. injection H as <-. destruct (_ =? 0); eauto.
  - destruct (rs_pc s); try discriminate. injection H as <-. eauto.
Qed.
Lemma gone_run ls : forall s s' i, rrun n ls s = Some s' -> ended i s -> ended i s'.
Proof.
  induction ls as [|l ls IH]; intros s s' i H G; [injection H as <-; exact G|]. rewrite rrun_cons in H. destruct (rstep n l s) as [s1|] eqn:E; [|discriminate].
  eapply IH; eauto. eapply gone_step; eauto.
Qed.

(** Since the start of the pass going on the buffer of the thread is not among the orphans. *)
Definition taken (i : nat) (s : rstate) : Prop :=
  match rs_pc s with RIdle | RStopped => True | _ => ~ In i (map snd (rs_orphans s)) end.

Lemma taken_step l s s' i c : sim s c -> cinv c -> rstep n l s = Some s' -> ended i s -> taken i s -> taken i s'.
Proof.
  intros S0 K H (t & Ht & Hg) T. unfold taken in *. destruct l; cbn [rstep] in H.
  - destruct (existsb _ _); [discriminate|]. destruct (mfind _ _ _); [discriminate|]. destruct (RingBuffer_model.init n); [|discriminate]. injection H as <-. exact T.
  - destruct (nth_error (rs_threads s) i0) as [t0|]; [|discriminate]. destruct (r_phase t0); try discriminate. destruct (RingBuffer_model.step _ _); [|discriminate]. injection H as <-. exact T.
  - destruct (nth_error (rs_threads s) i0) as [t0|]; [|discriminate]. destruct (r_phase t0); try discriminate. destruct (RingBuffer_model.step _ _); [|discriminate]. injection H as <-. exact T.
  - destruct (nth_error (rs_threads s) i0) as [t0|]; [|discriminate]. destruct (r_phase t0); try discriminate. destruct (RingBuffer_model.pp _); try discriminate. injection H as <-.
    cbn [rs_pc rs_orphans]. destruct (mfind Nat.ltb (r_tid t0) (rs_active s)) as [b|] eqn:M; [|exact T].
    assert (N : b <> i).
    { intros ->. apply (find_in _ nat_order) in M. rewrite (sm_active _ _ S0) in M. destruct (ci_act1 _ K _ _ M) as (u & Hu & _ & Pu).
      destruct (Forall2_at _ _ _ (sm_threads _ _ S0) _ _ Ht) as (u' & Hu' & _ & P' & _). rewrite Hu in Hu'. injection Hu' as <-. congruence. }
    destruct (rs_pc s); auto; rewrite map_app, in_app_iff; cbn; intros [X|[X|[]]]; auto.
  - destruct (nth_error (rs_threads s) i0) as [t0|]; [|discriminate]. destruct (r_phase t0); try discriminate. injection H as <-. exact T.
  - injection H as <-. exact T.
  - destruct (rs_pc s); try discriminate. injection H as <-. cbn. auto.
  - destruct (rs_pc s); try discriminate. injection H as <-. exact T.
  - destruct (rs_pc s) as [| |g todo ev|]; try discriminate. destruct todo as [|[[tid b] o] rest]; [discriminate|]. destruct (nth_error (rs_threads s) b) as [t0|]; [|discriminate].
    destruct g; try discriminate; (destruct (RingBuffer_model.step _ _); [|discriminate]); injection H as <-; exact T.
  - destruct (rs_pc s) as [| |g todo ev|] eqn:P; try discriminate. destruct todo as [|[[tid b] o] rest]; [discriminate|]. destruct (nth_error (rs_threads s) b) as [t0|]; [|discriminate].
    destruct (handed_over _ _ _); [|discriminate]. destruct (RingBuffer_model.step _ _) as [q|]; [|discriminate].
    destruct g, (result q) as [[]|]; try discriminate; injection H as <-; cbn [with_rpc with_rthreads rs_pc rs_orphans]; try rewrite P; exact T.
  - destruct (rs_pc s) as [| |g todo ev|]; try discriminate. destruct g; try discriminate. destruct todo; try discriminate. injection H as <-. destruct (_ =? 0); exact Logic.I.
  - destruct (rs_pc s); try discriminate. injection H as <-. exact Logic.I.
Qed.

Lemma sent_grows l s s' : rstep n l s = Some s' -> exists more, rs_sent s' = rs_sent s ++ more.
Proof.
  intro H. destruct l; cbn [rstep] in H.
  - destruct (existsb _ _); [discriminate|]. destruct (mfind _ _ _); [discriminate|]. destruct (RingBuffer_model.init n); [|discriminate]. injection H as <-. exists []. now rewrite app_nil_r.
  - destruct (nth_error (rs_threads s) i) as [t0|]; [|discriminate]. destruct (r_phase t0); try discriminate. destruct (RingBuffer_model.step _ _); [|discriminate]. injection H as <-. exists []. now rewrite app_nil_r.
  - destruct (nth_error (rs_threads s) i) as [t0|]; [|discriminate]. destruct (r_phase t0); try discriminate. destruct (RingBuffer_model.step _ _); [|discriminate]. injection H as <-. exists []. now rewrite app_nil_r.
  - destruct (nth_error (rs_threads s) i) as [t0|]; [|discriminate]. destruct (r_phase t0); try discriminate. destruct (RingBuffer_model.pp _); try discriminate. injection H as <-. exists []. now rewrite app_nil_r.
  - destruct (nth_error (rs_threads s) i) as [t0|]; [|discriminate]. destruct (r_phase t0); try discriminate. injection H as <-. exists []. now rewrite app_nil_r.
  - injection H as <-. exists []. now rewrite app_nil_r.
  - destruct (rs_pc s); try discriminate. injection H as <-. exists []. now rewrite app_nil_r.
  - destruct (rs_pc s); try discriminate. injection H as <-. exists []. now rewrite app_nil_r.
  - destruct (rs_pc s) as [| |g todo ev|]; try discriminate. destruct todo as [|[[tid b] o] rest]; [discriminate|]. destruct (nth_error (rs_threads s) b) as [t0|]; [|discriminate].
    destruct g; try discriminate; (destruct (RingBuffer_model.step _ _); [|discriminate]); injection H as <-; exists []; now rewrite app_nil_r.
  - destruct (rs_pc s) as [| |g todo ev|]; try discriminate. destruct todo as [|[[tid b] o] rest]; [discriminate|]. destruct (nth_error (rs_threads s) b) as [t0|]; [|discriminate].
    destruct (handed_over _ _ _); [|discriminate]. destruct (RingBuffer_model.step _ _) as [q|]; [|discriminate].
    destruct g, (result q) as [[]|]; try discriminate; injection H as <-; exists []; now rewrite app_nil_r.
  - destruct (rs_pc s) as [| |g todo ev|]; try discriminate. destruct g; try discriminate. destruct todo; try discriminate. injection H as <-.
    destruct (_ =? 0); [exists []; now rewrite app_nil_r|]. cbn [rs_sent]. destruct (rs_attached s); [eauto|exists []; now rewrite app_nil_r].
  - destruct (rs_pc s); try discriminate. injection H as <-. exists []. now rewrite app_nil_r.
Qed.
Lemma sent_grows_run ls : forall s s', rrun n ls s = Some s' -> exists more, rs_sent s' = rs_sent s ++ more.
Proof.
  induction ls as [|l ls IH]; intros s s' H; [injection H as <-; exists []; now rewrite app_nil_r|]. rewrite rrun_cons in H. destruct (rstep n l s) as [s1|] eqn:E; [|discriminate].
  destruct (IH _ _ H) as (m & ->). destruct (sent_grows _ _ _ E) as (m' & ->). rewrite <- app_assoc. eauto.
Qed.

Lemma sim_ended s c i : sim s c -> ended i s -> exists t u, nth_error (rs_threads s) i = Some t /\ nth_error (cs_threads c) i = Some u /\ same t u /\ th_phase u = TGone.
Proof.
  intros S0 (t & Ht & Hg). destruct (Forall2_at _ _ _ (sm_threads _ _ S0) _ _ Ht) as (u & Hu & S1). exists t, u.
  split; [exact Ht|]. split; [exact Hu|]. split; [exact S1|]. destruct S1 as (_ & P & _). congruence.
Qed.

(** At the end of a pass: everything of a thread that had ended before is sent. *)
Lemma sent_all s s' c i b ls : rrun n ls (rstate0 b) = Some s -> b = true -> sim s c -> cinv c -> taken i s -> ended i s -> rstep n RSend s = Some s' ->
  exists t, nth_error (rs_threads s') i = Some t /\ sent_of i s' = map Some (accepted_of t).
Proof.
  intros H B S0 K T E St. assert (H' : rrun n (ls ++ [RSend]) (rstate0 b) = Some s') by (rewrite rrun_app, H; cbn [rrun]; now rewrite St).
  pose proof (gone_step _ _ _ _ St E) as E'. destruct (reached _ _ _ _ H') as (cs & c' & R' & S' & I' & K' & _).
  destruct (sim_ended _ _ _ S' E') as (t' & u' & Ht' & Hu' & M' & P'). exists t'. split; [exact Ht'|].
  destruct (whole_once _ _ _ _ _ _ H' Ht') as (rest & X & _ & Z). rewrite (Z B) in X. cbn [all_filed flat_map filter app] in X.
  (* the buffer is empty *)
  destruct (sim_ended _ _ _ S0 E) as (t & u & Ht & Hu & M & P). cbn [rstep] in St. unfold taken in T.
  destruct (rs_pc s) as [| |g todo ev|] eqn:PC; try discriminate. destruct g; try discriminate. destruct todo; try discriminate.
  pose proof (sm_pc _ _ S0) as D. rewrite PC in D. destruct (cs_pc c) as [| |todo ev'|] eqn:Q; try contradiction. destruct D as (<- & _).
  assert (Bu : th_buf u = []).
  { destruct (th_buf u) as [|e r] eqn:Eb; [reflexivity|]. exfalso. assert (In (th_tid u, i) (cs_orphans c ++ todo_orph c)) as X1.
    { apply (ci_safe _ K); auto; congruence. }
    unfold todo_orph in X1. rewrite Q in X1. cbn in X1. rewrite app_nil_r in X1. apply T. rewrite (sm_orphans _ _ S0). apply in_map_iff. exists (th_tid u, i). auto. }
  assert (TH : rs_threads s' = rs_threads s /\ rs_pc s' = RIdle) by (injection St as <-; destruct (_ =? 0); auto).
  destruct TH as (TH & PI). rewrite TH, Ht in Ht'. injection Ht' as <-.
  unfold popped_of in X. rewrite PI in X. cbn [app] in X. rewrite X. symmetry. replace rest with (@nil event); [now rewrite app_nil_r|].
  destruct (sim_ended _ _ _ S' E') as (t2 & u2 & Ht2 & Hu2 & M2 & _). rewrite TH, Ht in Ht2. injection Ht2 as <-.
  pose proof (ci_acc _ K' _ _ Hu2) as A2. destruct M2 as (_ & _ & M3 & M4). destruct M as (_ & _ & N3 & N4).
  assert (th_buf u2 = []) as B2 by congruence.
  apply (f_equal (@length _)) in X. rewrite map_length, app_length, map_length in X.
  change (accepted_of t) with (acc (r_ring t)) in X. rewrite <- M3, A2, B2, app_nil_r in X.
  pose proof (run_attached (n - 1) cs (cstart true) c' eq_refl) as AT. rewrite B in R'. destruct (AT R') as (_ & LO). rewrite LO in X. cbn [cstart cs_lost app] in X.
  assert (EV : ev_map c' = []). { pose proof (sm_pc _ _ S') as D'. rewrite PI in D'. unfold ev_map. destruct (cs_pc c'); try contradiction; reflexivity. }
  rewrite EV in X. cbn [flat_map] in X. rewrite of_thread_nil, app_nil_r in X. unfold sent_of in X. rewrite (sm_sent _ _ S'), all_wrap, of_wrap, map_length in X.
  destruct rest; [reflexivity|]. cbn in X. lia.
Qed.

Theorem ended_sent ls1 s ls2 s' i : rrun n ls1 (rstate0 true) = Some s -> ended i s -> rs_pc s = RIdle -> rrun n ls2 s = Some s' -> In RSend ls2 ->
  exists t, nth_error (rs_threads s') i = Some t /\ sent_of i s' = map Some (accepted_of t).
Proof.
  intros H1 E P H2 Hin.
  assert (T : taken i s) by (unfold taken; now rewrite P). clear P.
  revert ls1 s H1 E T H2 Hin. induction ls2 as [|l ls2 IH]; intros ls1 s H1 E T H2 Hin; [destruct Hin|].
  rewrite rrun_cons in H2. destruct (rstep n l s) as [s1|] eqn:St; [|discriminate].
  destruct (reached _ _ _ _ H1) as (cs & c & R & S0 & I & K & _).
  assert (H1' : rrun n (ls1 ++ [l]) (rstate0 true) = Some s1) by (rewrite rrun_app, H1; cbn [rrun]; now rewrite St).
  destruct Hin as [->|Hin]; [|exact (IH _ _ H1' (gone_step _ _ _ _ St E) (taken_step _ _ _ _ _ S0 K St E T) H2 Hin)].
  destruct (sent_all _ _ _ _ _ _ H1 eq_refl S0 K T E St) as (t & Ht & Es).
  assert (H1'' : rrun n ((ls1 ++ [RSend]) ++ ls2) (rstate0 true) = Some s') by (rewrite rrun_app, H1'; exact H2).
  pose proof (gone_run _ _ _ _ H2 (gone_step _ _ _ _ St E)) as (t' & Ht' & Hg'). exists t'. split; [exact Ht'|].
  destruct (sent_grows_run _ _ _ H2) as (more & Em).
  destruct (whole_once _ _ _ _ _ _ H1'' Ht') as (rest & X & _ & Z). rewrite (Z eq_refl) in X. cbn [all_filed flat_map filter app] in X.
  assert (AC : accepted_of t' = accepted_of t).
  { clear - H2 Ht Ht' E St n. pose proof (gone_step _ _ _ _ St E) as G. clear E St.
    revert s1 t Ht H2 G. induction ls2 as [|l ls2 IH]; intros s1 t Ht H2 G; [injection H2 as <-; congruence|].
    rewrite rrun_cons in H2. destruct (rstep n l s1) as [s2|] eqn:St; [|discriminate].
    assert (Y : exists t2, nth_error (rs_threads s2) i = Some t2 /\ accepted_of t2 = accepted_of t).
    { destruct G as (t0 & Ht0 & Hg). rewrite Ht in Ht0. injection Ht0 as <-.
      assert (SET : forall j t0 t2, nth_error (rs_threads s1) j = Some t0 -> (j = i -> accepted_of t2 = accepted_of t) ->
        exists t3, nth_error (set_nth j t2 (rs_threads s1)) i = Some t3 /\ accepted_of t3 = accepted_of t).
      { intros j t0 t2 Hj Hp. destruct (Nat.eq_dec i j) as [->|N]; [|exists t; rewrite set_nth_other by congruence; auto].
        exists t2. rewrite set_nth_same by (eapply nth_error_lt; eauto). auto. }
      assert (CS : forall (q : ring) a q', RingBuffer_model.step q (RingBuffer_model.ACons a) = Some q' -> RingBuffer_spec.accepted (RingBuffer_model.trace q') = RingBuffer_spec.accepted (RingBuffer_model.trace q)).
      { intros q a q' Q. destruct (call_effect _ _ _ Q) as (_ & _ & _ & Ea & _). exact Ea. }
      assert (AS : forall (q : ring) a q', RingBuffer_model.step q (RingBuffer_model.AStep a) = Some q' -> RingBuffer_spec.accepted (RingBuffer_model.trace q') = RingBuffer_spec.accepted (RingBuffer_model.trace q)).
      { intros q a q' Q. cbn [RingBuffer_model.step] in Q. unfold RingBuffer_model.cstep in Q. destruct (RingBuffer_model.cp q) as [|o|r|r x|r cnt k out]; [discriminate| | | |].
        - destruct (RingBuffer_model.readable _ _ _); [|discriminate]. destruct (nth _ _ _) as [wv wc]. destruct o as [|mc|].
          + destruct (wv =? _); injection Q as <-; cbn [RingBuffer_model.trace RingBuffer_model.emit RingBuffer_model.set_cp RingBuffer_model.c_load]; rewrite ?RingBuffer_proofs.acc_snoc by exact Logic.I; reflexivity.
          + injection Q as <-. reflexivity.
          + injection Q as <-. cbn [RingBuffer_model.trace RingBuffer_model.emit RingBuffer_model.set_cp RingBuffer_model.c_load]; rewrite ?RingBuffer_proofs.acc_snoc by exact Logic.I; reflexivity.
        - injection Q as <-. reflexivity.
        - injection Q as <-. cbn [RingBuffer_model.trace RingBuffer_model.emit RingBuffer_model.set_cp RingBuffer_model.c_store]; rewrite ?RingBuffer_proofs.acc_snoc by exact Logic.I; reflexivity.
        - destruct (k <? cnt); injection Q as <-; [reflexivity|]. cbn [RingBuffer_model.trace RingBuffer_model.emit RingBuffer_model.set_cp RingBuffer_model.c_store]; rewrite ?RingBuffer_proofs.acc_snoc by exact Logic.I; reflexivity. }
      destruct l; cbn [rstep] in St.
      - destruct (existsb _ _); [discriminate|]. destruct (mfind _ _ _); [discriminate|]. destruct (RingBuffer_model.init n); [|discriminate]. injection St as <-.
        exists t. cbn [rs_threads]. rewrite nth_error_app1 by (eapply nth_error_lt; eauto). auto.
      - destruct (nth_error (rs_threads s1) i0) as [t0|] eqn:E; [|discriminate]. destruct (r_phase t0) eqn:P; try discriminate. destruct (RingBuffer_model.step _ _); [|discriminate]. injection St as <-.
        apply (SET _ _ _ E). intros ->. congruence.
      - destruct (nth_error (rs_threads s1) i0) as [t0|] eqn:E; [|discriminate]. destruct (r_phase t0) eqn:P; try discriminate. destruct (RingBuffer_model.step _ _); [|discriminate]. injection St as <-.
        apply (SET _ _ _ E). intros ->. congruence.
      - destruct (nth_error (rs_threads s1) i0) as [t0|] eqn:E; [|discriminate]. destruct (r_phase t0) eqn:P; try discriminate. destruct (RingBuffer_model.pp _); try discriminate. injection St as <-.
        apply (SET _ _ _ E). intros ->. congruence.
      - destruct (nth_error (rs_threads s1) i0) as [t0|] eqn:E; [|discriminate]. destruct (r_phase t0) eqn:P; try discriminate. injection St as <-.
        apply (SET _ _ _ E). intros ->. congruence.
      - injection St as <-. eauto.
      - destruct (rs_pc s1); try discriminate. injection St as <-. eauto.
      - destruct (rs_pc s1); try discriminate. injection St as <-. eauto.
      - destruct (rs_pc s1) as [| |g todo ev|]; try discriminate. destruct todo as [|[[tid b] o] rest]; [discriminate|]. destruct (nth_error (rs_threads s1) b) as [t0|] eqn:E; [|discriminate].
        destruct g; try discriminate; (destruct (RingBuffer_model.step _ _) eqn:Q; [|discriminate]); injection St as <-; apply (SET _ _ _ E); intros ->; rewrite Ht in E; injection E as <-; unfold accepted_of; cbn [with_ring r_ring]; eapply CS; exact Q.
      - destruct (rs_pc s1) as [| |g todo ev|]; try discriminate. destruct todo as [|[[tid b] o] rest]; [discriminate|]. destruct (nth_error (rs_threads s1) b) as [t0|] eqn:E; [|discriminate].
        destruct (handed_over _ _ _); [|discriminate]. destruct (RingBuffer_model.step _ _) as [q|] eqn:Q; [|discriminate].
        destruct g, (result q) as [[]|]; try discriminate; injection St as <-; apply (SET _ _ _ E); intros ->; rewrite Ht in E; injection E as <-; unfold accepted_of; cbn [with_ring r_ring]; eapply AS; exact Q.
      - destruct (rs_pc s1) as [| |g todo ev|]; try discriminate. destruct g; try discriminate. destruct todo; try discriminate. injection St as <-. destruct (_ =? 0); eauto.
      - destruct (rs_pc s1); try discriminate. injection St as <-. eauto. }
    destruct Y as (t2 & Ht2 & <-). exact (IH s2 t2 Ht2 H2 (gone_step _ _ _ _ St G)). }
  assert (SO : exists z, sent_of i s' = sent_of i s1 ++ z).
  { unfold sent_of. rewrite Em. unfold all_filed. rewrite flat_map_app, filter_app. eauto. }
  destruct SO as (z & SO). rewrite SO, Es in *. rewrite AC in *. rewrite <- app_assoc in X. rewrite <- (app_nil_r (map Some (accepted_of t))) in X at 1. apply app_inv_head in X.
  symmetry in X. apply app_eq_nil in X. destruct X as (-> & _). now rewrite app_nil_r.
Qed.

(** ** Nobody waits *)
Definition remaining (q : ring) : nat := match RingBuffer_model.pp q with RingBuffer_model.PIdle => 0 | RingBuffer_model.PChk _ _ _ => 3 | RingBuffer_model.PWr _ _ _ => 2 | RingBuffer_model.PSt _ _ => 1 end.
Lemma accesses_app i a b : accesses i (a ++ b) = accesses i a + accesses i b.
Proof. induction a as [|l a IH]; [reflexivity|]. destruct l; cbn [app accesses]; rewrite IH; lia. Qed.

Definition due (i : nat) (s : rstate) : nat := match nth_error (rs_threads s) i with Some t => remaining (r_ring t) | None => 0 end.
Lemma set_due s i j t t' : nth_error (rs_threads s) j = Some t -> RingBuffer_model.pp (r_ring t') = RingBuffer_model.pp (r_ring t) ->
  match nth_error (set_nth j t' (rs_threads s)) i with Some t => remaining (r_ring t) | None => 0 end = due i s.
Proof.
  intros Hj E. unfold due. destruct (Nat.eq_dec i j) as [->|N]; [rewrite set_nth_same by (eapply nth_error_lt; eauto); rewrite Hj; unfold remaining; now rewrite E|now rewrite set_nth_other].
Qed.
Lemma cons_pp (q : ring) a q' : RingBuffer_model.step q a = Some q' -> match a with RingBuffer_model.ACons _ | RingBuffer_model.AStep _ => True | _ => False end -> RingBuffer_model.pp q' = RingBuffer_model.pp q.
Proof.
  intros Q Ha. destruct a as [v|i|o|i]; try contradiction; cbn [RingBuffer_model.step] in Q.
  - destruct (RingBuffer_model.cp q); try discriminate. injection Q as <-. reflexivity.
  - unfold RingBuffer_model.cstep in Q. destruct (RingBuffer_model.cp q) as [|o|r|r x|r cnt k out]; [discriminate| | | |].
    + destruct (RingBuffer_model.readable _ _ _); [|discriminate]. destruct (nth _ _ _) as [wv wc]. destruct o as [|mc|]; [destruct (wv =? _)| |]; injection Q as <-; reflexivity.
    + injection Q as <-. reflexivity.
    + injection Q as <-. reflexivity.
    + destruct (k <? cnt); injection Q as <-; reflexivity.
Qed.
Lemma step_due l s s' i : rstep n l s = Some s' -> accesses i [l] + due i s' <= due i s + 3 * length (called i [l]).
Proof.
  intro H. destruct l; cbn [rstep] in H; cbn [accesses called length].
  - destruct (existsb _ _); [discriminate|]. destruct (mfind _ _ _); [discriminate|]. destruct (RingBuffer_model.init n) as [q|] eqn:Q; [|discriminate]. injection H as <-.
    unfold due. cbn [rs_threads]. destruct (lt_dec i (length (rs_threads s))) as [L|L]; [rewrite nth_error_app1 by exact L; lia|]. rewrite nth_error_app2 by lia.
    destruct (i - length (rs_threads s)) as [|[|z]]; cbn [nth_error]; try lia. cbn [r_ring]. unfold RingBuffer_model.init in Q. destruct (n =? 0); [discriminate|]. injection Q as <-. cbn. lia.
  - destruct (nth_error (rs_threads s) i0) as [t|] eqn:Ht; [|discriminate]. destruct (r_phase t); try discriminate. destruct (RingBuffer_model.step _ _) as [q|] eqn:Q; [|discriminate]. injection H as <-.
    unfold due. cbn [with_rthreads rs_threads]. destruct (Nat.eqb_spec i0 i) as [->|N]; [|rewrite set_nth_other by congruence; cbn; lia].
    rewrite set_nth_same by (eapply nth_error_lt; eauto). rewrite Ht. cbn [with_ring r_ring]. cbn [RingBuffer_model.step] in Q. destruct (RingBuffer_model.pp (r_ring t)) eqn:P; try discriminate. injection Q as <-.
    cbn. unfold remaining. rewrite P. lia.
  - destruct (nth_error (rs_threads s) i0) as [t|] eqn:Ht; [|discriminate]. destruct (r_phase t); try discriminate. destruct (RingBuffer_model.step _ _) as [q|] eqn:Q; [|discriminate]. injection H as <-.
    unfold due. cbn [with_rthreads rs_threads]. destruct (Nat.eqb_spec i0 i) as [->|N]; [|rewrite set_nth_other by congruence; cbn; lia].
    rewrite set_nth_same by (eapply nth_error_lt; eauto). rewrite Ht. cbn [with_ring r_ring]. cbn [RingBuffer_model.step] in Q. unfold RingBuffer_model.pstep in Q. unfold remaining. destruct (RingBuffer_model.pp (r_ring t)) eqn:P; try discriminate.
    + destruct (RingBuffer_model.readable _ _ _); [|discriminate]. destruct (nth _ _ _) as [rv rc]. destruct (_ =? rv); injection Q as <-; cbn; lia.
    + injection Q as <-. cbn. lia.
    + injection Q as <-. cbn. lia.
  - destruct (nth_error (rs_threads s) i0) as [t|] eqn:Ht; [|discriminate]. destruct (r_phase t); try discriminate. destruct (RingBuffer_model.pp _); try discriminate. injection H as <-.
    unfold due at 1. cbn [rs_threads]. rewrite (set_due _ _ _ t) by auto. lia.
  - destruct (nth_error (rs_threads s) i0) as [t|] eqn:Ht; [|discriminate]. destruct (r_phase t); try discriminate. injection H as <-.
    unfold due at 1. cbn [rs_threads]. rewrite (set_due _ _ _ t) by auto. lia.
  - injection H as <-. unfold due. cbn. lia.
  - destruct (rs_pc s); try discriminate. injection H as <-. unfold due. cbn. lia.
  - destruct (rs_pc s); try discriminate. injection H as <-. unfold due. cbn. lia.
  - destruct (rs_pc s) as [| |g todo ev|]; try discriminate. destruct todo as [|[[tid b] o] rest]; [discriminate|]. destruct (nth_error (rs_threads s) b) as [t|] eqn:E; [|discriminate].
    destruct g; try discriminate; (destruct (RingBuffer_model.step _ _) eqn:Q; [|discriminate]); injection H as <-; unfold due at 1; cbn [with_rpc with_rthreads rs_threads];
      rewrite (set_due _ _ _ t) by (auto; exact (cons_pp _ _ _ Q Logic.I)); lia.
  - destruct (rs_pc s) as [| |g todo ev|]; try discriminate. destruct todo as [|[[tid b] o] rest]; [discriminate|]. destruct (nth_error (rs_threads s) b) as [t|] eqn:E; [|discriminate].
    destruct (handed_over _ _ _); [|discriminate]. destruct (RingBuffer_model.step _ _) as [q|] eqn:Q; [|discriminate].
    destruct g, (result q) as [[]|]; try discriminate; injection H as <-; unfold due at 1; cbn [with_rpc with_rthreads rs_threads];
      rewrite (set_due _ _ _ t) by (auto; exact (cons_pp _ _ _ Q Logic.I)); lia.
  - destruct (rs_pc s) as [| |g todo ev|]; try discriminate. destruct g; try discriminate. destruct todo; try discriminate. injection H as <-. unfold due. destruct (_ =? 0); cbn; lia.
  - destruct (rs_pc s); try discriminate. injection H as <-. unfold due. cbn. lia.
Qed.
Lemma due_run i : forall ls s s', rrun n ls s = Some s' -> accesses i ls + due i s' <= due i s + 3 * length (called i ls).
Proof.
  induction ls as [|l ls IH]; intros s s' H; [injection H as <-; cbn; lia|]. rewrite rrun_cons in H. destruct (rstep n l s) as [s1|] eqn:E; [|discriminate].
  specialize (IH _ _ H). pose proof (step_due _ _ _ i E). change (l :: ls) with ([l] ++ ls). rewrite accesses_app, called_app, app_length. lia.
Qed.

Theorem wait_free b ls s i : rrun n ls (rstate0 b) = Some s -> accesses i ls <= 3 * length (called i ls) /\
  forall t, nth_error (rs_threads s) i = Some t -> unanswered t <> [] -> exists c s', rstep n (RAccess i c) s = Some s'.
Proof.
  intro H. split; [pose proof (due_run i _ _ _ H); unfold due in *; cbn [rstate0 rs_threads] in *; destruct i; cbn [nth_error] in *; lia|].
  intros t Ht Hu. destruct (reached _ _ _ _ H) as (_ & _ & _ & _ & I & _). destruct (I _ _ Ht) as [(rcs & R) _ L _].
  assert (P : r_phase t = TRunning). { destruct (r_phase t) eqn:P; auto; exfalso; apply Hu; apply L; congruence. }
  exists (length (RingBuffer_model.rhist (r_ring t)) - 1). cbn [rstep]. rewrite Ht, P. cbn [RingBuffer_model.step]. unfold RingBuffer_model.pstep, unanswered in *.
  destruct (RingBuffer_model.pp (r_ring t)) eqn:E; [contradiction| |eauto|eauto].
  assert (RD : RingBuffer_model.readable (RingBuffer_model.pview (r_ring t)) (length (RingBuffer_model.rhist (r_ring t)) - 1) (RingBuffer_model.rhist (r_ring t)) = true).
  { unfold RingBuffer_model.readable. pose proof (RingBuffer_proofs.i_pview _ _ _ R). pose proof (RingBuffer_proofs.i_rlen _ _ _ R). apply andb_true_intro. split; [apply Nat.leb_le|apply Nat.ltb_lt]; lia. }
  rewrite RD. destruct (nth _ _ _) as [rv rc]. destruct (_ =? rv); eauto.
Qed.

(** ** A pass of the sender *)
Definition good (s : rstate) : Prop := exists c, sim s c /\ cinv c /\ rinv n s.
Lemma good_step l s s' : good s -> rstep n l s = Some s' -> good s'.
Proof. intros (c & A & B & C) H. destruct (step_sim _ _ _ _ _ A B C H) as (cs & c' & R & A' & C' & _). exists c'. split; [exact A'|]. split; [exact (run_cinv _ _ _ _ B R)|exact C']. Qed.

Lemma newest_readable (q : ring) rcs : RingBuffer_proofs.Inv n q rcs -> RingBuffer_model.readable (RingBuffer_model.cview q) (length (RingBuffer_model.whist q) - 1) (RingBuffer_model.whist q) = true /\ S (length (RingBuffer_model.whist q) - 1) = length (RingBuffer_model.whist q).
Proof.
  intro R. pose proof (RingBuffer_proofs.i_cview _ _ _ R). pose proof (RingBuffer_proofs.whist_len _ _ _ R). split; [|lia].
  unfold RingBuffer_model.readable. apply andb_true_intro. split; [apply Nat.leb_le|apply Nat.ltb_lt]; lia.
Qed.

Lemma pop_loop m : forall s tid b o rest ev t r cnt k out, good s -> rs_pc s = RCollecting Popping ((tid, b, o) :: rest) ev -> nth_error (rs_threads s) b = Some t ->
  RingBuffer_model.cp (r_ring t) = RingBuffer_model.CInto r cnt k out -> m = cnt - k ->
  exists ls s' ev', rrun n ls s = Some s' /\ Forall of_sender ls /\ rs_pc s' = RCollecting Fresh rest ev' /\ good s'.
Proof.
  induction m as [|m IH]; intros s tid b o rest ev t r cnt k out G P Ht Ec Em.
  - destruct G as (c & S0 & K & I). pose proof (ok_ring _ _ _ _ (I _ _ Ht)) as (rcs & R).
    assert (Q : exists q, RingBuffer_model.step (r_ring t) (RingBuffer_model.AStep 0) = Some q). { cbn [RingBuffer_model.step]. unfold RingBuffer_model.cstep. rewrite Ec. destruct (k <? cnt); eauto. }
    destruct Q as (q & Q). destruct (into_step _ _ _ _ _ _ _ _ _ R Ec Q) as (_ & _ & [(_ & _ & out' & Ec')|(vs & _ & En & _)]).
    { exfalso. cbn [RingBuffer_model.step] in Q. unfold RingBuffer_model.cstep in Q. rewrite Ec in Q. destruct (Nat.ltb_spec k cnt); [lia|]. injection Q as <-. discriminate. }
    assert (St : exists s', rstep n (RRead 0) s = Some s' /\ rs_pc s' = RCollecting Fresh rest (file_under tid vs ev)).
    { cbn [rstep]. rewrite P, Ht. unfold handed_over. rewrite Ec, Q. change (result q) with (last_event q). rewrite En. eexists. split; reflexivity. }
    destruct St as (s' & St & P'). exists [RRead 0], s', (file_under tid vs ev). rewrite rrun_cons, St. split; [reflexivity|]. split; [repeat constructor|]. split; [exact P'|].
    refine (good_step _ _ _ _ St). exists c. auto.
  - pose proof G as (c & S0 & K & I). pose proof (ok_ring _ _ _ _ (I _ _ Ht)) as (rcs & R).
    assert (Q : exists q, RingBuffer_model.step (r_ring t) (RingBuffer_model.AStep 0) = Some q). { cbn [RingBuffer_model.step]. unfold RingBuffer_model.cstep. rewrite Ec. destruct (k <? cnt); eauto. }
    destruct Q as (q & Q). destruct (into_step _ _ _ _ _ _ _ _ _ R Ec Q) as (_ & _ & [(_ & En & out' & Ec')|(vs & Ec' & _)]).
    2: { exfalso. cbn [RingBuffer_model.step] in Q. unfold RingBuffer_model.cstep in Q. rewrite Ec in Q. destruct (Nat.ltb_spec k cnt); [|lia]. injection Q as <-. discriminate. }
    assert (St : rstep n (RRead 0) s = Some (with_rthreads (set_nth b (with_ring q t) (rs_threads s)) s)).
    { cbn [rstep]. rewrite P, Ht. unfold handed_over. rewrite Ec, Q. change (result q) with (last_event q). rewrite En. reflexivity. }
    destruct (IH (with_rthreads (set_nth b (with_ring q t) (rs_threads s)) s) tid b o rest ev (with_ring q t) r cnt (S k) out') as (ls & s' & ev' & R' & F' & P' & G').
    + exact (good_step _ _ _ G St).
    + exact P.
    + cbn [with_rthreads rs_threads]. apply set_nth_same. eapply nth_error_lt; eauto.
    + exact Ec'.
    + lia.
    + exists (RRead 0 :: ls), s', ev'. rewrite rrun_cons, St. split; [exact R'|]. split; [constructor; [exact Logic.I|exact F']|]. auto.
Qed.

Lemma collect_one s tid b o rest ev : good s -> rs_pc s = RCollecting Fresh ((tid, b, o) :: rest) ev ->
  exists ls s' ev', rrun n ls s = Some s' /\ Forall of_sender ls /\ rs_pc s' = RCollecting Fresh rest ev' /\ good s'.
Proof.
  intros G P. pose proof G as (c & S0 & K & I). destruct (head_there _ _ _ _ _ _ _ _ S0 K P) as (t & Ht & _).
  pose proof (I _ _ Ht) as [(rcs & R) _ _ O]. rewrite P in O. apply head_cons in O. cbn [stage_ok] in O.
  (* size() is called *)
  assert (Q1 : exists q1, RingBuffer_model.step (r_ring t) (RingBuffer_model.ACons RingBuffer_model.OSize) = Some q1) by (cbn [RingBuffer_model.step]; rewrite O; eauto). destruct Q1 as (q1 & Q1).
  set (s1 := with_rpc (RCollecting Sizing ((tid, b, o) :: rest) ev) (with_rthreads (set_nth b (with_ring q1 t) (rs_threads s)) s)).
  assert (St1 : rstep n RCall s = Some s1) by (cbn [rstep]; rewrite P, Ht, Q1; reflexivity).
  pose proof (good_step _ _ _ G St1) as G1. set (t1 := with_ring q1 t).
  assert (Ht1 : nth_error (rs_threads s1) b = Some t1) by (apply set_nth_same; eapply nth_error_lt; eauto).
  destruct (call_effect _ _ _ Q1) as (_ & Ec1 & _). destruct (step_ring _ _ _ _ _ R Q1) as (rcs1 & R1). destruct (newest_readable _ _ R1) as (RD1 & NW1).
  (* and returns *)
  set (a1 := length (RingBuffer_model.whist q1) - 1) in *.
  assert (Q2 : exists q2, RingBuffer_model.step q1 (RingBuffer_model.AStep a1) = Some q2). { cbn [RingBuffer_model.step]. unfold RingBuffer_model.cstep. rewrite Ec1, RD1. destruct (nth _ _ _). eauto. } destruct Q2 as (q2 & Q2).
  destruct (size_effect _ _ _ _ _ R1 Ec1 Q2) as (_ & _ & _ & Ec2 & k & Ek & _).
  set (s2 := with_rpc (RCollecting (Sized k) ((tid, b, o) :: rest) ev) (with_rthreads (set_nth b (with_ring q2 t1) (rs_threads s1)) s1)).
  assert (St2 : rstep n (RRead a1) s1 = Some s2).
  { cbn [rstep]. unfold s1 at 1. cbn [with_rpc rs_pc]. rewrite Ht1. unfold handed_over. cbn [t1 with_ring r_ring]. rewrite Ec1, NW1, Nat.eqb_refl.
    replace (if o then true else true) with true by (now destruct o). rewrite Q2. change (result q2) with (last_event q2). rewrite Ek. reflexivity. }
  pose proof (good_step _ _ _ G1 St2) as G2. set (t2 := with_ring q2 t1).
  assert (Ht2 : nth_error (rs_threads s2) b = Some t2) by (apply set_nth_same; eapply nth_error_lt; eauto).
  destruct (step_ring _ _ _ _ _ R1 Q2) as (rcs2 & R2).
  (* pop_into is called *)
  assert (Q3 : exists q3, RingBuffer_model.step q2 (RingBuffer_model.ACons (RingBuffer_model.OPopInto k)) = Some q3) by (cbn [RingBuffer_model.step]; rewrite Ec2; eauto). destruct Q3 as (q3 & Q3).
  set (s3 := with_rpc (RCollecting Popping ((tid, b, o) :: rest) ev) (with_rthreads (set_nth b (with_ring q3 t2) (rs_threads s2)) s2)).
  assert (St3 : rstep n RCall s2 = Some s3). { cbn [rstep]. unfold s2 at 1. cbn [with_rpc rs_pc]. rewrite Ht2. cbn [t2 with_ring r_ring]. rewrite Q3. reflexivity. }
  pose proof (good_step _ _ _ G2 St3) as G3. set (t3 := with_ring q3 t2).
  assert (Ht3 : nth_error (rs_threads s3) b = Some t3) by (apply set_nth_same; eapply nth_error_lt; eauto).
  destruct (call_effect _ _ _ Q3) as (_ & Ec3 & _). destruct (step_ring _ _ _ _ _ R2 Q3) as (rcs3 & R3). destruct (newest_readable _ _ R3) as (RD3 & NW3).
  set (a3 := length (RingBuffer_model.whist q3) - 1) in *.
  assert (Q4 : exists q4, RingBuffer_model.step q3 (RingBuffer_model.AStep a3) = Some q4). { cbn [RingBuffer_model.step]. unfold RingBuffer_model.cstep. rewrite Ec3, RD3. destruct (nth _ _ _). eauto. } destruct Q4 as (q4 & Q4).
  destruct (into_load _ _ _ _ _ _ R3 Ec3 Q4) as (_ & _ & _ & En4 & r & cnt & Ec4 & _).
  set (s4 := with_rthreads (set_nth b (with_ring q4 t3) (rs_threads s3)) s3).
  assert (St4 : rstep n (RRead a3) s3 = Some s4).
  { cbn [rstep]. unfold s3 at 1. cbn [with_rpc rs_pc]. rewrite Ht3. unfold handed_over. cbn [t3 with_ring r_ring]. rewrite Ec3, NW3, Nat.eqb_refl.
    replace (if o then true else true) with true by (now destruct o). rewrite Q4. change (result q4) with (last_event q4). rewrite En4. reflexivity. }
  pose proof (good_step _ _ _ G3 St4) as G4.
  destruct (pop_loop (cnt - 0) s4 tid b o rest ev (with_ring q4 t3) r cnt 0 [] G4 eq_refl) as (ls & s' & ev' & R' & F' & P' & G'); [|exact Ec4|reflexivity|].
  { apply set_nth_same. eapply nth_error_lt; eauto. }
  exists (RCall :: RRead a1 :: RCall :: RRead a3 :: ls), s', ev'. rewrite rrun_cons, St1, rrun_cons, St2, rrun_cons, St3, rrun_cons, St4.
  split; [exact R'|]. split; [repeat (constructor; [exact Logic.I|]); exact F'|]. auto.
Qed.

Lemma collect_all : forall todo s ev, good s -> rs_pc s = RCollecting Fresh todo ev ->
  exists ls s' ev', rrun n ls s = Some s' /\ Forall of_sender ls /\ rs_pc s' = RCollecting Fresh [] ev' /\ good s'.
Proof.
  induction todo as [|[[tid b] o] rest IH]; intros s ev G P.
  - exists [], s, ev. split; [reflexivity|]. split; [constructor|]. auto.
  - destruct (collect_one _ _ _ _ _ _ G P) as (ls & s1 & ev1 & R1 & F1 & P1 & G1). destruct (IH _ _ G1 P1) as (ls2 & s2 & ev2 & R2 & F2 & P2 & G2).
    exists (ls ++ ls2), s2, ev2. rewrite rrun_app, R1. split; [exact R2|]. split; [now apply Forall_app|]. auto.
Qed.

Theorem pass_possible b ls s : rrun n ls (rstate0 b) = Some s -> rs_pc s = RIdle ->
  exists ls2 s', rrun n (ls2 ++ [RSend]) s = Some s' /\ Forall of_sender ls2 /\ rs_pc s' = RIdle.
Proof.
  intros H P. destruct (reached _ _ _ _ H) as (cs & c & _ & S0 & I & K & _). assert (G : good s) by (exists c; auto).
  set (s1 := {| rs_threads := rs_threads s; rs_active := rs_active s; rs_orphans := []; rs_pc := RSwapped (rs_orphans s); rs_attached := rs_attached s; rs_sent := rs_sent s; rs_lost := rs_lost s |}).
  assert (St1 : rstep n RSwap s = Some s1) by (cbn [rstep]; now rewrite P). pose proof (good_step _ _ _ G St1) as G1.
  assert (St2 : rstep n RSnapshot s1 = Some (with_rpc (RCollecting Fresh (map (fun e => (e, true)) (rs_orphans s) ++ map (fun e => (e, false)) (rs_active s)) []) s1)) by reflexivity.
  pose proof (good_step _ _ _ G1 St2) as G2. destruct (collect_all _ _ _ G2 eq_refl) as (ls3 & s3 & ev3 & R3 & F3 & P3 & G3).
  assert (St4 : exists s4, rstep n RSend s3 = Some s4 /\ rs_pc s4 = RIdle). { cbn [rstep]. rewrite P3. eexists. split; [reflexivity|]. destruct (_ =? 0); reflexivity. }
  destruct St4 as (s4 & St4 & P4). exists (RSwap :: RSnapshot :: ls3), s4. split; [|split; [constructor; [exact Logic.I|constructor; [exact Logic.I|exact F3]]|exact P4]].
  cbn [app]. rewrite rrun_cons, St1, rrun_cons, St2, rrun_app, R3, rrun_cons, St4. reflexivity.
Qed.
End Pass.
