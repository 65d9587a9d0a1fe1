(** From any state the sender can empty the buffers of all threads by its own steps (C107). *)
From Coq Require Import List Arith Bool Lia.
Import ListNotations.
From Verif Require RingBuffer_model RingBuffer_spec RingBuffer_proofs.
From Verif Require Import UnixSystem_model UnixSystem_proofs OMap_model OMap_proofs Collector_model Collector_spec Collector_proofs RingsStep_proofs Rings_model Rings_spec Rings_proofs RingsUse_proofs RingsPass_proofs.

Section Flush.
Variable n : nat.
Local Notation good := (good n).

(** ** What the sender leaves as it is *)
Definition mild (t t' : rthread) : Prop :=
  r_tid t' = r_tid t /\ r_phase t' = r_phase t /\ acc (r_ring t') = acc (r_ring t) /\ RingBuffer_model.pp (r_ring t') = RingBuffer_model.pp (r_ring t) /\ held_in (r_ring t') <= held_in (r_ring t).
Lemma mild_refl t : mild t t. Proof. unfold mild. auto. Qed.
Lemma mild_trans a b c : mild a b -> mild b c -> mild a c.
Proof. unfold mild. intros (A1 & A2 & A3 & A4 & A5) (B1 & B2 & B3 & B4 & B5). rewrite B1, B2, B3, B4. split; [exact A1|]. split; [exact A2|]. split; [exact A3|]. split; [exact A4|]. lia. Qed.
Lemma milds_refl l : Forall2 mild l l. Proof. induction l; constructor; auto using mild_refl. Qed.
Lemma milds_trans a : forall b c, Forall2 mild a b -> Forall2 mild b c -> Forall2 mild a c.
Proof. induction a as [|x a IH]; intros b c H1 H2; inversion H1; subst; inversion H2; subst; constructor; eauto using mild_trans. Qed.
Lemma milds_set l : forall i t t', nth_error l i = Some t -> mild t t' -> Forall2 mild l (set_nth i t' l).
Proof.
  induction l as [|x l IH]; intros i t t' H M; [destruct i; discriminate|]. destruct i as [|i]; cbn [nth_error set_nth] in *.
  - injection H as ->. constructor; [exact M|apply milds_refl].
  - constructor; [apply mild_refl|eauto].
Qed.
Record keeps (s s' : rstate) : Prop := {
  kp_active : rs_active s' = rs_active s;
  kp_orphans : rs_orphans s' = rs_orphans s;
  kp_sent : rs_sent s' = rs_sent s;
  kp_threads : Forall2 mild (rs_threads s) (rs_threads s')
}.
Lemma keeps_refl s : keeps s s. Proof. constructor; auto using milds_refl. Qed.
Lemma keeps_trans a b c : keeps a b -> keeps b c -> keeps a c.
Proof. intros [A1 A2 A3 A4] [B1 B2 B3 B4]. constructor; try congruence. eapply milds_trans; eauto. Qed.

Definition inner (l : rlabel) : Prop := match l with RCall | RRead _ => True | _ => False end.
Lemma inner_keeps l s s' : rinv n s -> inner l -> rstep n l s = Some s' -> keeps s s'.
Proof.
  intros I L H. destruct l; try contradiction; cbn [rstep] in H.
  - destruct (rs_pc s) as [| |g todo ev|]; try discriminate. destruct todo as [|[[tid b] o] rest]; [discriminate|].
    destruct (nth_error (rs_threads s) b) as [t|] eqn:Ht; [|discriminate].
    assert (M : forall o' q, RingBuffer_model.step (r_ring t) (RingBuffer_model.ACons o') = Some q -> mild t (with_ring q t)).
    { intros o' q Q. destruct (call_effect _ _ _ Q) as (_ & _ & Ep & Ea & Er & _). unfold mild, held_in. cbn [with_ring r_ring r_tid r_phase]. rewrite Ea, Er. auto. }
    destruct g; try discriminate; (destruct (RingBuffer_model.step _ _) as [q|] eqn:Q; [|discriminate]); injection H as <-; constructor; try reflexivity;
      exact (milds_set _ _ _ _ Ht (M _ _ Q)).
  - destruct (rs_pc s) as [| |g todo ev|] eqn:P; try discriminate. destruct todo as [|[[tid b] o] rest]; [discriminate|].
    destruct (nth_error (rs_threads s) b) as [t|] eqn:Ht; [|discriminate]. destruct (handed_over _ _ _); [|discriminate]. destruct (RingBuffer_model.step _ _) as [q|] eqn:Q; [|discriminate].
    assert (E : exists p, s' = with_rpc p (with_rthreads (set_nth b (with_ring q t) (rs_threads s)) s)).
    { destruct g, (result q) as [[]|]; try discriminate; injection H as <-; try (eexists; reflexivity); eexists; rewrite <- pc_self; reflexivity. }
    destruct E as (p & ->). constructor; try reflexivity. cbn [with_rpc with_rthreads rs_threads]. apply (milds_set _ _ _ _ Ht).
    pose proof (I _ _ Ht) as [(rcs & R) _ _ O]. rewrite P in O. apply head_cons in O. unfold mild, held_in. cbn [with_ring r_ring r_tid r_phase].
    destruct g; cbn [stage_ok] in O; [cbn [RingBuffer_model.step] in Q; unfold RingBuffer_model.cstep in Q; rewrite O in Q; discriminate| | |].
    + destruct (size_effect _ _ _ _ _ R O Q) as (Ep & Ea & Er & _). rewrite Ea, Er. auto.
    + destruct O as (O & _). cbn [RingBuffer_model.step] in Q; unfold RingBuffer_model.cstep in Q; rewrite O in Q; discriminate.
    + destruct O as [(k & Ec & _)|(r & cnt & k & out & Ec & _)].
      * destruct (into_load _ _ _ _ _ _ R Ec Q) as (Ep & Ea & Er & _). rewrite Ea, Er. auto.
      * destruct (into_step _ _ _ _ _ _ _ _ _ R Ec Q) as (Ep & Ea & [(Er & _)|(vs & _ & _ & Er & _)]); rewrite Ea, Er, ?app_length; split; auto; split; auto; split; auto; split; auto; lia.
Qed.

(** ** One buffer *)
Definition drained (b : nat) (s : rstate) : Prop := forall t, nth_error (rs_threads s) b = Some t -> held_in (r_ring t) = 0.
Definition ends (s : rstate) (b : nat) (rest : list (nat * nat * bool)) (left : nat) : Prop :=
  exists ls s' ev', rrun n ls s = Some s' /\ Forall inner ls /\ rs_pc s' = RCollecting Fresh rest ev' /\ good s' /\ keeps s s' /\
    exists t', nth_error (rs_threads s') b = Some t' /\ held_in (r_ring t') = left.
Lemma ends_step l s s1 b rest left : good s -> inner l -> rstep n l s = Some s1 -> ends s1 b rest left -> ends s b rest left.
Proof.
  intros G L St (ls & s' & ev' & R & F & P & G' & K & X). exists (l :: ls), s', ev'. rewrite rrun_cons, St. split; [exact R|]. split; [constructor; assumption|].
  split; [exact P|]. split; [exact G'|]. split; [|exact X]. destruct G as (c & _ & _ & I). eapply keeps_trans; [eapply inner_keeps; eauto|exact K].
Qed.

Lemma ends_into m : forall s tid b o rest ev t r cnt k out, good s -> rs_pc s = RCollecting Popping ((tid, b, o) :: rest) ev -> nth_error (rs_threads s) b = Some t ->
  RingBuffer_model.cp (r_ring t) = RingBuffer_model.CInto r cnt k out -> m = cnt - k -> ends s b rest (held_in (r_ring t) - cnt).
Proof.
  induction m as [|m IH]; intros s tid b o rest ev t r cnt k out G P Ht Ec Em; pose proof G as (c & S0 & K & I); pose proof (ok_ring _ _ _ _ (I _ _ Ht)) as (rcs & R);
    assert (Q : exists q, RingBuffer_model.step (r_ring t) (RingBuffer_model.AStep 0) = Some q) by (cbn [RingBuffer_model.step]; unfold RingBuffer_model.cstep; rewrite Ec; destruct (k <? cnt); eauto);
    destruct Q as (q & Q); destruct (into_step _ _ _ _ _ _ _ _ _ R Ec Q) as (_ & Ea & [(Er & En & out' & Ec')|(vs & Ec' & En & Er & Ev & Hc)]).
  - exfalso. cbn [RingBuffer_model.step] in Q. unfold RingBuffer_model.cstep in Q. rewrite Ec in Q. destruct (Nat.ltb_spec k cnt); [lia|]. injection Q as <-. discriminate.
  - assert (St : exists s', rstep n (RRead 0) s = Some s' /\ rs_pc s' = RCollecting Fresh rest (file_under tid vs ev) /\ nth_error (rs_threads s') b = Some (with_ring q t)).
    { cbn [rstep]. rewrite P, Ht. unfold handed_over. rewrite Ec, Q. change (result q) with (last_event q). rewrite En. eexists. split; [reflexivity|]. split; [reflexivity|].
      cbn [with_rpc with_rthreads rs_threads]. apply set_nth_same. eapply nth_error_lt; eauto. }
    destruct St as (s' & St & P' & Ht'). exists [RRead 0], s', (file_under tid vs ev). rewrite rrun_cons, St. split; [reflexivity|]. split; [constructor; [exact Logic.I|constructor]|]. split; [exact P'|].
    split; [exact (good_step _ _ _ _ G St)|]. split; [refine (inner_keeps _ _ _ I _ St); exact Logic.I|]. exists (with_ring q t). split; [exact Ht'|].
    unfold held_in in *. cbn [with_ring r_ring]. rewrite Ea, Er, app_length, Ev, map_length, firstn_length, skipn_length. lia.
  - assert (St : rstep n (RRead 0) s = Some (with_rthreads (set_nth b (with_ring q t) (rs_threads s)) s)).
    { cbn [rstep]. rewrite P, Ht. unfold handed_over. rewrite Ec, Q. change (result q) with (last_event q). rewrite En. reflexivity. }
    refine (ends_step _ _ _ _ _ _ G _ St _); [exact Logic.I|]. replace (held_in (r_ring t)) with (held_in (r_ring (with_ring q t))) by (unfold held_in; cbn [with_ring r_ring]; now rewrite Ea, Er).
    eapply (IH _ tid b o rest ev (with_ring q t) r cnt (S k) out').
    + exact (good_step _ _ _ _ G St).
    + exact P.
    + cbn [with_rthreads rs_threads]. apply set_nth_same. eapply nth_error_lt; eauto.
    + exact Ec'.
    + lia.
  - exfalso. cbn [RingBuffer_model.step] in Q. unfold RingBuffer_model.cstep in Q. rewrite Ec in Q. destruct (Nat.ltb_spec k cnt); [|lia]. injection Q as <-. discriminate.
Qed.

Lemma ends_load s tid b o rest ev t k : good s -> rs_pc s = RCollecting Popping ((tid, b, o) :: rest) ev -> nth_error (rs_threads s) b = Some t ->
  RingBuffer_model.cp (r_ring t) = RingBuffer_model.CLd (RingBuffer_model.OPopInto k) -> ends s b rest (held_in (r_ring t) - k).
Proof.
  intros G P Ht Ec. pose proof G as (c & S0 & K & I). pose proof (ok_ring _ _ _ _ (I _ _ Ht)) as (rcs & R). destruct (newest_readable _ _ _ R) as (RD & NW).
  set (a := length (RingBuffer_model.whist (r_ring t)) - 1) in *.
  assert (Q : exists q, RingBuffer_model.step (r_ring t) (RingBuffer_model.AStep a) = Some q). { cbn [RingBuffer_model.step]. unfold RingBuffer_model.cstep. rewrite Ec, RD. destruct (nth _ _ _). eauto. } destruct Q as (q & Q).
  destruct (into_load _ _ _ _ _ _ R Ec Q) as (_ & Ea & Er & En & r & cnt & Ec' & Cn).
  assert (St : rstep n (RRead a) s = Some (with_rthreads (set_nth b (with_ring q t) (rs_threads s)) s)).
  { cbn [rstep]. rewrite P, Ht. unfold handed_over. rewrite Ec, NW, Nat.eqb_refl. replace (if o then true else true) with true by (now destruct o). rewrite Q. change (result q) with (last_event q). rewrite En. reflexivity. }
  refine (ends_step _ _ _ _ _ _ G _ St _); [exact Logic.I|].
  assert (X : ends (with_rthreads (set_nth b (with_ring q t) (rs_threads s)) s) b rest (held_in (r_ring (with_ring q t)) - cnt)).
  { eapply (ends_into (cnt - 0) _ tid b o rest ev (with_ring q t) r cnt 0 []).
    - exact (good_step _ _ _ _ G St).
    - exact P.
    - cbn [with_rthreads rs_threads]. apply set_nth_same. eapply nth_error_lt; eauto.
    - exact Ec'.
    - reflexivity. }
  rewrite (Cn NW) in X. unfold held_in in *. cbn [with_ring r_ring] in X. rewrite Ea, Er in X.
  match goal with H : ends ?s0 ?b0 ?r0 ?x |- ends _ _ _ ?y => replace y with x by lia; exact H end.
Qed.

Lemma ends_sized s tid b o rest ev t k : good s -> rs_pc s = RCollecting (Sized k) ((tid, b, o) :: rest) ev -> nth_error (rs_threads s) b = Some t -> ends s b rest (held_in (r_ring t) - k).
Proof.
  intros G P Ht. pose proof G as (c & S0 & K & I). pose proof (I _ _ Ht) as [(rcs & R) _ _ O]. rewrite P in O. apply head_cons in O. destruct O as (O & _).
  assert (Q : exists q, RingBuffer_model.step (r_ring t) (RingBuffer_model.ACons (RingBuffer_model.OPopInto k)) = Some q) by (cbn [RingBuffer_model.step]; rewrite O; eauto). destruct Q as (q & Q).
  set (s1 := with_rpc (RCollecting Popping ((tid, b, o) :: rest) ev) (with_rthreads (set_nth b (with_ring q t) (rs_threads s)) s)).
  assert (St : rstep n RCall s = Some s1) by (cbn [rstep]; rewrite P, Ht, Q; reflexivity). destruct (call_effect _ _ _ Q) as (_ & Ec & _ & Ea & Er & _).
  refine (ends_step _ _ _ _ _ _ G _ St _); [exact Logic.I|]. replace (held_in (r_ring t)) with (held_in (r_ring (with_ring q t))) by (unfold held_in; cbn [with_ring r_ring]; now rewrite Ea, Er).
  eapply (ends_load s1 tid b o rest ev (with_ring q t)).
  - exact (good_step _ _ _ _ G St).
  - reflexivity.
  - apply set_nth_same. eapply nth_error_lt; eauto.
  - exact Ec.
Qed.

Lemma ends_sizing s tid b o rest ev : good s -> rs_pc s = RCollecting Sizing ((tid, b, o) :: rest) ev -> ends s b rest 0.
Proof.
  intros G P. pose proof G as (c & S0 & K & I). destruct (head_there _ _ _ _ _ _ _ _ S0 K P) as (t & Ht & _). pose proof (I _ _ Ht) as [(rcs & R) _ _ O]. rewrite P in O. apply head_cons in O. cbn [stage_ok] in O.
  destruct (newest_readable _ _ _ R) as (RD & NW). set (a := length (RingBuffer_model.whist (r_ring t)) - 1) in *.
  assert (Q : exists q, RingBuffer_model.step (r_ring t) (RingBuffer_model.AStep a) = Some q). { cbn [RingBuffer_model.step]. unfold RingBuffer_model.cstep. rewrite O, RD. destruct (nth _ _ _). eauto. } destruct Q as (q & Q).
  destruct (size_effect _ _ _ _ _ R O Q) as (_ & Ea & Er & Ec & k & Ek & Hk). specialize (Hk NW).
  set (s1 := with_rpc (RCollecting (Sized k) ((tid, b, o) :: rest) ev) (with_rthreads (set_nth b (with_ring q t) (rs_threads s)) s)).
  assert (St : rstep n (RRead a) s = Some s1).
  { cbn [rstep]. rewrite P, Ht. unfold handed_over. rewrite O, NW, Nat.eqb_refl. replace (if o then true else true) with true by (now destruct o). rewrite Q. change (result q) with (last_event q). rewrite Ek. reflexivity. }
  refine (ends_step _ _ _ _ _ _ G _ St _); [exact Logic.I|]. replace 0 with (held_in (r_ring (with_ring q t)) - k) by (unfold held_in in *; cbn [with_ring r_ring]; rewrite Ea, Er; lia).
  eapply (ends_sized s1 tid b o rest ev (with_ring q t)).
  - exact (good_step _ _ _ _ G St).
  - reflexivity.
  - apply set_nth_same. eapply nth_error_lt; eauto.
Qed.

Lemma ends_fresh s tid b o rest ev : good s -> rs_pc s = RCollecting Fresh ((tid, b, o) :: rest) ev -> ends s b rest 0.
Proof.
  intros G P. pose proof G as (c & S0 & K & I). destruct (head_there _ _ _ _ _ _ _ _ S0 K P) as (t & Ht & _). pose proof (I _ _ Ht) as [(rcs & R) _ _ O]. rewrite P in O. apply head_cons in O. cbn [stage_ok] in O.
  assert (Q : exists q, RingBuffer_model.step (r_ring t) (RingBuffer_model.ACons RingBuffer_model.OSize) = Some q) by (cbn [RingBuffer_model.step]; rewrite O; eauto). destruct Q as (q & Q).
  set (s1 := with_rpc (RCollecting Sizing ((tid, b, o) :: rest) ev) (with_rthreads (set_nth b (with_ring q t) (rs_threads s)) s)).
  assert (St : rstep n RCall s = Some s1) by (cbn [rstep]; rewrite P, Ht, Q; reflexivity).
  refine (ends_step _ _ _ _ _ _ G _ St _); [exact Logic.I|]. apply (ends_sizing s1 tid b o rest ev); [exact (good_step _ _ _ _ G St)|reflexivity].
Qed.

Lemma ends_any g s tid b o rest ev : good s -> rs_pc s = RCollecting g ((tid, b, o) :: rest) ev -> exists left, ends s b rest left.
Proof.
  intros G P. pose proof G as (c & S0 & K & I). destruct (head_there _ _ _ _ _ _ _ _ S0 K P) as (t & Ht & _). pose proof (I _ _ Ht) as [(rcs & R) _ _ O]. rewrite P in O. apply head_cons in O.
  destruct g; cbn [stage_ok] in O.
  - exists 0. eapply ends_fresh; eauto.
  - exists 0. eapply ends_sizing; eauto.
  - eexists. eapply ends_sized; eauto.
  - destruct O as [(k & Ec & _)|(r & cnt & k & out & Ec & _)]; eexists; [eapply ends_load; eauto|eapply ends_into; eauto].
Qed.

(** ** A pass *)
Lemma drained_keeps s s' b : keeps s s' -> drained b s -> drained b s'.
Proof.
  intros [_ _ _ K] D t' Ht'. assert (X : exists t, nth_error (rs_threads s) b = Some t).
  { destruct (nth_error (rs_threads s) b) eqn:E; [eauto|]. apply nth_error_None in E. rewrite (Forall2_len _ _ _ K) in E. apply nth_error_lt in Ht'. lia. }
  destruct X as (t & Ht). destruct (Forall2_at _ _ _ K _ _ Ht) as (t2 & Ht2 & _ & _ & _ & _ & L). rewrite Ht' in Ht2. injection Ht2 as <-. specialize (D _ Ht). lia.
Qed.

Lemma flush_todo : forall todo s ev, good s -> rs_pc s = RCollecting Fresh todo ev ->
  exists ls s' ev', rrun n ls s = Some s' /\ Forall inner ls /\ rs_pc s' = RCollecting Fresh [] ev' /\ good s' /\ keeps s s' /\ forall e, In e todo -> drained (snd (fst e)) s'.
Proof.
  induction todo as [|[[tid b] o] rest IH]; intros s ev G P.
  - exists [], s, ev. split; [reflexivity|]. split; [constructor|]. split; [exact P|]. split; [exact G|]. split; [apply keeps_refl|intros e []].
  - destruct (ends_fresh _ _ _ _ _ _ G P) as (ls & s1 & ev1 & R1 & F1 & P1 & G1 & K1 & t1 & Ht1 & L1). destruct (IH _ _ G1 P1) as (ls2 & s2 & ev2 & R2 & F2 & P2 & G2 & K2 & D2).
    exists (ls ++ ls2), s2, ev2. rewrite rrun_app, R1. split; [exact R2|]. split; [now apply Forall_app|]. split; [exact P2|]. split; [exact G2|]. split; [eapply keeps_trans; eauto|].
    intros e [<-|He]; [|auto]. cbn [fst snd]. apply (drained_keeps _ _ _ K2). intros t Ht. congruence.
Qed.

Lemma inner_sender ls : Forall inner ls -> Forall of_sender ls.
Proof. intros H. eapply Forall_impl; [|exact H]. intros []; cbn; auto. Qed.

Lemma send_end s ev : rs_pc s = RCollecting Fresh [] ev -> exists s', rstep n RSend s = Some s' /\ rs_pc s' = RIdle /\ rs_threads s' = rs_threads s.
Proof. intros P. cbn [rstep]. rewrite P. eexists. split; [reflexivity|]. destruct (_ =? 0); auto. Qed.

(** The pass that is going on comes to its end. *)
Definition staged (s : rstate) : Prop := match rs_pc s with RCollecting g [] _ => g = Fresh | _ => True end.
Lemma staged_step l s s' : rstep n l s = Some s' -> staged s -> staged s'.
Proof.
  unfold staged. intros H W. destruct l; cbn [rstep] in H.
  - destruct (existsb _ _); [discriminate|]. destruct (mfind _ _ _); [discriminate|]. destruct (RingBuffer_model.init n) as [q|]; [|discriminate]. injection H as <-. exact W.
  - destruct (nth_error (rs_threads s) i) as [t|]; [|discriminate]. destruct (r_phase t); try discriminate. destruct (RingBuffer_model.step _ _) as [q|]; [|discriminate]. injection H as <-. exact W.
  - destruct (nth_error (rs_threads s) i) as [t|]; [|discriminate]. destruct (r_phase t); try discriminate. destruct (RingBuffer_model.step _ _) as [q|]; [|discriminate]. injection H as <-. exact W.
  - destruct (nth_error (rs_threads s) i) as [t|]; [|discriminate]. destruct (r_phase t); try discriminate. destruct (RingBuffer_model.pp _); try discriminate. injection H as <-. exact W.
  - destruct (nth_error (rs_threads s) i) as [t|]; [|discriminate]. destruct (r_phase t); try discriminate. injection H as <-. exact W.
  - injection H as <-. exact W.
  - destruct (rs_pc s); try discriminate. injection H as <-. exact Logic.I.
  - destruct (rs_pc s); try discriminate. injection H as <-. cbn [with_rpc rs_pc]. destruct (_ ++ _); [reflexivity|exact Logic.I].
  - destruct (rs_pc s) as [| |g todo ev|]; try discriminate. destruct todo as [|[[tid b] o] rest]; [discriminate|].
    destruct (nth_error (rs_threads s) b) as [t|]; [|discriminate].
    destruct g; try discriminate; (destruct (RingBuffer_model.step _ _) as [q|]; [|discriminate]); injection H as <-; exact Logic.I.
  - destruct (rs_pc s) as [| |g todo ev|] eqn:P; try discriminate. destruct todo as [|[[tid b] o] rest]; [discriminate|].
    destruct (nth_error (rs_threads s) b) as [t|]; [|discriminate]. destruct (handed_over _ _ _); [|discriminate]. destruct (RingBuffer_model.step _ _) as [q|]; [|discriminate].
    destruct g, (result q) as [[]|]; try discriminate; injection H as <-; cbn [with_rpc with_rthreads rs_pc]; rewrite ?P; try exact Logic.I. destruct rest; [reflexivity|exact Logic.I].
  - destruct (rs_pc s) as [| |g todo ev|]; try discriminate. destruct g; try discriminate. destruct todo; try discriminate. injection H as <-. destruct (_ =? 0); exact Logic.I.
  - destruct (rs_pc s); try discriminate. injection H as <-. exact Logic.I.
Qed.
Lemma staged_run ls : forall s s', rrun n ls s = Some s' -> staged s -> staged s'.
Proof.
  induction ls as [|l ls IH]; intros s s' H W; [cbn in H; injection H as <-; exact W|]. rewrite rrun_cons in H. destruct (rstep n l s) as [s1|] eqn:E; [|discriminate]. eauto using staged_step.
Qed.

Definition idles (s : rstate) : Prop :=
  exists ls s', rrun n ls s = Some s' /\ Forall of_sender ls /\ rs_pc s' = RIdle /\ good s' /\ Forall2 mild (rs_threads s) (rs_threads s').
Lemma fresh_end todo s ev : good s -> rs_pc s = RCollecting Fresh todo ev -> idles s.
Proof.
  intros G1 P1. destruct (flush_todo _ _ _ G1 P1) as (ls2 & s2 & ev2 & R2 & F2 & P2 & G2 & K2 & _).
  destruct (send_end _ _ P2) as (s3 & St & P3 & T3). exists (ls2 ++ [RSend]), s3. rewrite rrun_app, R2, rrun_cons, St. split; [reflexivity|].
  split; [apply Forall_app; split; [now apply inner_sender|constructor; [exact Logic.I|constructor]]|]. split; [exact P3|].
  split; [exact (good_step _ _ _ _ G2 St)|]. rewrite T3. exact (kp_threads _ _ K2).
Qed.
Lemma to_idle s : good s -> staged s -> rs_pc s <> RStopped -> idles s.
Proof.
  intros G W N. unfold staged in W. destruct (rs_pc s) as [|l|g todo ev|] eqn:P.
  - exists [], s. split; [reflexivity|]. split; [constructor|]. split; [exact P|]. split; [exact G|apply milds_refl].
  - set (s1 := with_rpc (RCollecting Fresh (map (fun e => (e, true)) l ++ map (fun e => (e, false)) (rs_active s)) []) s).
    assert (St : rstep n RSnapshot s = Some s1) by (cbn [rstep]; now rewrite P).
    destruct (fresh_end _ s1 _ (good_step _ _ _ _ G St) eq_refl) as (ls & s' & R & F & X). exists (RSnapshot :: ls), s'. rewrite rrun_cons, St. split; [exact R|]. split; [constructor; [exact Logic.I|exact F]|exact X].
  - destruct todo as [|[[tid b] o] rest]; [subst g; eapply fresh_end; eauto|].
    destruct (ends_any _ _ _ _ _ _ _ G P) as (l & ls & s1 & ev1 & R1 & F1 & P1 & G1 & K1 & _). destruct (fresh_end _ _ _ G1 P1) as (ls2 & s' & R & F & P' & G' & M).
    exists (ls ++ ls2), s'. rewrite rrun_app, R1. split; [exact R|]. split; [apply Forall_app; split; [now apply inner_sender|exact F]|]. split; [exact P'|]. split; [exact G'|].
    eapply milds_trans; [exact (kp_threads _ _ K1)|exact M].
  - contradiction.
Qed.

(** A whole pass empties all buffers. *)
Lemma whole_pass s : good s -> rs_pc s = RIdle ->
  exists ls s', rrun n ls s = Some s' /\ Forall of_sender ls /\ rs_pc s' = RIdle /\ good s' /\ Forall2 mild (rs_threads s) (rs_threads s') /\ forall j, drained j s'.
Proof.
  intros G P.
  set (s1 := {| rs_threads := rs_threads s; rs_active := rs_active s; rs_orphans := []; rs_pc := RSwapped (rs_orphans s); rs_attached := rs_attached s; rs_sent := rs_sent s; rs_lost := rs_lost s |}).
  assert (St1 : rstep n RSwap s = Some s1) by (cbn [rstep]; now rewrite P). pose proof (good_step _ _ _ _ G St1) as G1.
  set (todo := map (fun e => (e, true)) (rs_orphans s) ++ map (fun e => (e, false)) (rs_active s)).
  assert (St2 : rstep n RSnapshot s1 = Some (with_rpc (RCollecting Fresh todo []) s1)) by reflexivity.
  pose proof (good_step _ _ _ _ G1 St2) as G2. destruct (flush_todo _ _ _ G2 eq_refl) as (ls3 & s3 & ev3 & R3 & F3 & P3 & G3 & K3 & D3).
  destruct (send_end _ _ P3) as (s4 & St4 & P4 & T4). exists (RSwap :: RSnapshot :: ls3 ++ [RSend]), s4.
  rewrite rrun_cons, St1, rrun_cons, St2, rrun_app, R3, rrun_cons, St4. split; [reflexivity|].
  split; [constructor; [exact Logic.I|]; constructor; [exact Logic.I|]; apply Forall_app; split; [now apply inner_sender|constructor; [exact Logic.I|constructor]]|].
  split; [exact P4|]. split; [exact (good_step _ _ _ _ G3 St4)|]. rewrite T4. split; [exact (kp_threads _ _ K3)|].
  intros j t Ht. rewrite T4 in Ht. destruct G3 as (c & S0 & K & _). destruct (Forall2_at _ _ _ (sm_threads _ _ S0) _ _ Ht) as (u & Hu & M1 & M2 & M3 & M4).
  assert (E : th_buf u = [] -> held_in (r_ring t) = 0). { intros E. rewrite M4 in E. apply (f_equal (@length _)) in E. rewrite skipn_length in E. exact E. }
  destruct (th_buf u) as [|e0 b0] eqn:B; [auto|].
  destruct (th_phase u) eqn:Ph.
  - apply (D3 (th_tid u, j, false)); [|exact Ht]. apply in_or_app. right. apply in_map_iff. exists (th_tid u, j). split; [reflexivity|].
    pose proof (kp_active _ _ K3) as A. cbn [with_rpc rs_active s1] in A. rewrite <- A, (sm_active _ _ S0). apply (ci_act2 _ K); [exact Hu|congruence].
  - apply (D3 (th_tid u, j, false)); [|exact Ht]. apply in_or_app. right. apply in_map_iff. exists (th_tid u, j). split; [reflexivity|].
    pose proof (kp_active _ _ K3) as A. cbn [with_rpc rs_active s1] in A. rewrite <- A, (sm_active _ _ S0). apply (ci_act2 _ K); [exact Hu|congruence].
  - exfalso. assert (X : In (th_tid u, j) (cs_orphans c ++ todo_orph c)) by (apply (ci_safe _ K); [exact Hu|congruence|congruence]).
    rewrite <- (sm_orphans _ _ S0), (kp_orphans _ _ K3) in X. cbn [with_rpc rs_orphans s1 app] in X. pose proof (sm_pc _ _ S0) as D. rewrite P3 in D. unfold todo_orph in X.
    destruct (cs_pc c); try contradiction. destruct D as (<- & _). exact X.
Qed.

(** From any state in which the sender goes on. *)
Theorem rings_flushed s c : sim s c -> cinv c -> rinv n s -> cs_lost c = [] -> cs_attached c = true -> staged s -> rs_pc s <> RStopped ->
  exists ls s', rrun n ls s = Some s' /\ Forall of_sender ls /\ rs_pc s' = RIdle /\ Forall2 mild (rs_threads s) (rs_threads s') /\
    forall j t, nth_error (rs_threads s') j = Some t -> sent_of j s' = map Some (accepted_of t).
Proof.
  intros S0 K I Lo At W N. assert (G : good s) by (exists c; auto). destruct (to_idle _ G W N) as (ls1 & s1 & R1 & F1 & P1 & G1 & M1).
  destruct (whole_pass _ G1 P1) as (ls2 & s2 & R2 & F2 & P2 & _ & M2 & D2). exists (ls1 ++ ls2), s2. assert (R : rrun n (ls1 ++ ls2) s = Some s2) by now rewrite rrun_app, R1.
  split; [exact R|]. split; [now apply Forall_app|]. split; [exact P2|]. split; [eapply milds_trans; eauto|].
  intros j t Ht. destruct (run_sim _ _ _ _ _ S0 K I R) as (cs & c2 & R2' & S2 & I2 & K2 & _). specialize (D2 j t Ht).
  destruct (Forall2_at _ _ _ (sm_threads _ _ S2) _ _ Ht) as (u & Hu & _ & _ & M3 & M4).
  assert (L2 : cs_lost c2 = []) by (destruct (run_attached _ _ _ _ At R2') as (_ & ->); exact Lo).
  change (accepted_of t) with (acc (r_ring t)). rewrite <- M3, (ci_acc _ K2 _ _ Hu), L2. cbn [app].
  assert (B : th_buf u = []). { rewrite M4. unfold held_in in D2. apply length_zero_iff_nil. rewrite skipn_length. exact D2. }
  assert (EV : ev_map c2 = []). { pose proof (sm_pc _ _ S2) as D'. rewrite P2 in D'. unfold ev_map. destruct (cs_pc c2); try contradiction; reflexivity. }
  rewrite B, EV. cbn [flat_map]. rewrite of_thread_nil, !app_nil_r. unfold sent_of. now rewrite (sm_sent _ _ S2), all_wrap, of_wrap.
Qed.
End Flush.
