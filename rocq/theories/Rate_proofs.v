From Coq Require Import List Arith Bool Lia.
Import ListNotations.
From Verif Require RingBuffer_model RingBuffer_spec RingBuffer_proofs.
From Verif Require Import UnixSystem_model UnixSystem_proofs OMap_model OMap_proofs Collector_model Collector_spec Collector_proofs RingsStep_proofs Rings_model Rings_spec Rings_proofs RingsUse_proofs RingsPass_proofs RingsFresh_spec RingsFresh_proofs Rate_spec.

(** A refusal after a load that is up to date: the buffer is full. *)
Lemma refused_full {A} n (q : RingBuffer_model.st A) rcs v w x c q' : RingBuffer_proofs.Inv n q rcs -> RingBuffer_model.pp q = RingBuffer_model.PChk v w x ->
  S c = length (RingBuffer_model.rhist q) -> RingBuffer_model.step q (RingBuffer_model.AProd c) = Some q' -> unans q' = [] -> length (acc q) = length (ret q) + (n - 1).
Proof.
  intros H Hp Hc E U. pose proof (RingBuffer_proofs.i_pos _ _ _ H) as Hn. cbn [RingBuffer_model.step] in E. unfold RingBuffer_model.pstep in E. rewrite Hp in E.
  destruct (RingBuffer_model.readable _ _ _) eqn:Hr; [|discriminate]. pose proof (RingBuffer_proofs.i_rlen _ _ _ H) as Hl.
  rewrite (RingBuffer_proofs.i_rhist _ _ _ H c) in E by lia. replace c with (length rcs - 1) in E by lia. rewrite (RingBuffer_proofs.i_rlast _ _ _ H) in E.
  pose proof (RingBuffer_proofs.i_ppc _ _ _ H) as Hpc. rewrite Hp in Hpc. destruct Hpc as [_ Hnext]. destruct (ring_len _ _ _ H) as (L1 & L2). unfold acc, ret in *.
  destruct (Nat.eqb_spec x (length (RingBuffer_spec.returned (RingBuffer_model.trace q)) mod n)) as [Heq|Hne]; injection E as <-; [|discriminate U].
  rewrite Hnext in Heq. symmetry in Heq. pose proof (RingBuffer_proofs.mod_lt_sep n _ _ Hn Heq ltac:(lia)). lia.
Qed.

Section Rate.
Variable n : nat.

Lemma phase_step l s s' i t : rstep n l s = Some s' -> nth_error (rs_threads s) i = Some t ->
  exists t', nth_error (rs_threads s') i = Some t' /\ (l = ROrphan i \/ r_phase t <> TRunning -> r_phase t' <> TRunning).
Proof.
  intros H Ht.
  assert (SET : forall j t0 t', nth_error (rs_threads s) j = Some t0 -> (l = ROrphan i \/ r_phase t <> TRunning -> (j = i -> t0 = t -> r_phase t' <> TRunning) /\ (j <> i -> r_phase t <> TRunning)) ->
    exists t1, nth_error (set_nth j t' (rs_threads s)) i = Some t1 /\ (l = ROrphan i \/ r_phase t <> TRunning -> r_phase t1 <> TRunning)).
  { intros j t0 t' Hj Hp. destruct (Nat.eq_dec i j) as [->|N].
    - exists t'. rewrite set_nth_same by (eapply nth_error_lt; eauto). split; [reflexivity|]. intro X. apply (Hp X); congruence.
    - exists t. rewrite set_nth_other by congruence. split; [exact Ht|]. intro X. apply (Hp X). congruence. }
  destruct l; cbn [rstep] in H.
  - destruct (existsb _ _); [discriminate|]. destruct (mfind _ _ _); [discriminate|]. destruct (RingBuffer_model.init n); [|discriminate]. injection H as <-.
    exists t. cbn [rs_threads]. rewrite nth_error_app1 by (eapply nth_error_lt; eauto). split; [exact Ht|]. intros [X|X]; [discriminate|exact X].
  - destruct (nth_error (rs_threads s) i0) as [t0|] eqn:E; [|discriminate]. destruct (r_phase t0) eqn:P; try discriminate. destruct (RingBuffer_model.step _ _); [|discriminate]. injection H as <-.
    apply (SET _ _ _ E). intros [X|X]; [discriminate|]. split; [intros; subst; congruence|auto].
  - destruct (nth_error (rs_threads s) i0) as [t0|] eqn:E; [|discriminate]. destruct (r_phase t0) eqn:P; try discriminate. destruct (RingBuffer_model.step _ _); [|discriminate]. injection H as <-.
    apply (SET _ _ _ E). intros [X|X]; [discriminate|]. split; [intros; subst; congruence|auto].
  - destruct (nth_error (rs_threads s) i0) as [t0|] eqn:E; [|discriminate]. destruct (r_phase t0) eqn:P; try discriminate. destruct (RingBuffer_model.pp _); try discriminate. injection H as <-.
    apply (SET _ _ _ E). intros X. split; [cbn; discriminate|]. intro N. destruct X as [X|X]; [congruence|exact X].
  - destruct (nth_error (rs_threads s) i0) as [t0|] eqn:E; [|discriminate]. destruct (r_phase t0) eqn:P; try discriminate. injection H as <-.
    apply (SET _ _ _ E). intros [X|X]; [discriminate|]. split; [cbn; discriminate|auto].
  - injection H as <-. exists t. split; [exact Ht|]. intros [X|X]; [discriminate|exact X].
  - destruct (rs_pc s); try discriminate. injection H as <-. exists t. split; [exact Ht|]. intros [X|X]; [discriminate|exact X].
  - destruct (rs_pc s); try discriminate. injection H as <-. exists t. split; [exact Ht|]. intros [X|X]; [discriminate|exact X].
  - destruct (rs_pc s) as [| |g todo ev|]; try discriminate. destruct todo as [|[[tid b] o] rest]; [discriminate|]. destruct (nth_error (rs_threads s) b) as [t0|] eqn:E; [|discriminate].
    destruct g; try discriminate; (destruct (RingBuffer_model.step _ _); [|discriminate]); injection H as <-; apply (SET _ _ _ E); (intros [X|X]; [discriminate|]); (split; [intros; subst; exact X|auto]).
  - destruct (rs_pc s) as [| |g todo ev|]; try discriminate. destruct todo as [|[[tid b] o] rest]; [discriminate|]. destruct (nth_error (rs_threads s) b) as [t0|] eqn:E; [|discriminate].
    destruct (handed_over _ _ _); [|discriminate]. destruct (RingBuffer_model.step _ _) as [q|]; [|discriminate].
    assert (X : rs_threads s' = set_nth b (with_ring q t0) (rs_threads s)) by (destruct g, (result q) as [[]|]; try discriminate; injection H as <-; reflexivity).
    rewrite X. apply (SET _ _ _ E). intros [Y|Y]; [discriminate|]. split; [intros; subst; exact Y|auto].
  - destruct (rs_pc s) as [| |g todo ev|]; try discriminate. destruct g; try discriminate. destruct todo; try discriminate. injection H as <-. exists t.
    split; [destruct (_ =? 0); exact Ht|]. intros [X|X]; [discriminate|exact X].
  - destruct (rs_pc s); try discriminate. injection H as <-. exists t. split; [exact Ht|]. intros [X|X]; [discriminate|exact X].
Qed.
Lemma never_back ls : forall s s' i t, rrun n ls s = Some s' -> nth_error (rs_threads s) i = Some t ->
  exists t', nth_error (rs_threads s') i = Some t' /\ (In (ROrphan i) ls \/ r_phase t <> TRunning -> r_phase t' <> TRunning).
Proof.
  induction ls as [|l ls IH]; intros s s' i t H Ht; [injection H as <-; exists t; split; [exact Ht|]; intros [[]|X]; exact X|].
  rewrite rrun_cons in H. destruct (rstep n l s) as [s1|] eqn:St; [|discriminate]. destruct (phase_step _ _ _ _ _ St Ht) as (t1 & Ht1 & P1). destruct (IH _ _ _ _ H Ht1) as (t' & Ht' & P').
  exists t'. split; [exact Ht'|]. intros [[X|X]|X]; apply P'; auto.
Qed.

Lemma current_app i a : forall b s s', loads_current n i (a ++ b) s -> rrun n a s = Some s' -> loads_current n i b s'.
Proof. induction a as [|l a IH]; intros b s s' L H; [injection H as <-; exact L|]. rewrite rrun_cons in H. cbn [app loads_current] in L. destruct (rstep n l s) as [s1|]; [|discriminate]. now apply (IH b s1), H. Qed.
Lemma current_front i a : forall b s, loads_current n i (a ++ b) s -> loads_current n i a s.
Proof. induction a as [|l a IH]; intros b s L; [exact I|]. cbn [app loads_current] in *. destruct L as (U & L). split; [exact U|]. destruct (rstep n l s); [|exact I]. now apply (IH b). Qed.
Lemma pushes_app i a : forall b s s', pushes_current n i (a ++ b) s -> rrun n a s = Some s' -> pushes_current n i b s'.
Proof. induction a as [|l a IH]; intros b s s' L H; [injection H as <-; exact L|]. rewrite rrun_cons in H. cbn [app pushes_current] in L. destruct (rstep n l s) as [s1|]; [|discriminate]. now apply (IH b s1), H. Qed.
Lemma pushes_front i a : forall b s, pushes_current n i (a ++ b) s -> pushes_current n i a s.
Proof. induction a as [|l a IH]; intros b s L; [exact I|]. cbn [app pushes_current] in *. destruct L as (U & L). split; [exact U|]. destruct (rstep n l s); [|exact I]. now apply (IH b). Qed.

Lemma sends_app a b : sends (a ++ b) = sends a + sends b.
Proof. unfold sends. now rewrite filter_app, app_length. Qed.
Lemma last_two ls : sends ls <= 1 \/ exists a b, ls = (a ++ [RSend]) ++ b /\ sends b = 1.
Proof.
  induction ls as [|l ls IH]; [left; cbn; lia|]. destruct IH as [IH|(a & b & -> & Hb)].
  - destruct (is_send l) eqn:E; [|left; unfold sends in *; cbn; rewrite E; exact IH]. destruct l; try discriminate.
    destruct (Nat.eq_dec (sends ls) 1) as [E1|E1]; [right; exists [], ls; auto|left; unfold sends in *; cbn [filter is_send length]; lia].
  - right. exists (l :: a), b. auto.
Qed.
Lemma sends_in ls : sends ls = 1 -> In RSend ls.
Proof. unfold sends. intro H. destruct (filter is_send ls) as [|l r] eqn:E; [discriminate|]. assert (X : In l (filter is_send ls)) by (rewrite E; now left). apply filter_In in X as [X Y]. destruct l; try discriminate. exact X. Qed.

(** What was broadcast is not in the buffer any more. *)
Lemma sent_le ls s i t : rrun n ls (rstate0 true) = Some s -> nth_error (rs_threads s) i = Some t -> length (sent_of i s) <= length (ret (r_ring t)).
Proof.
  intros H Ht. destruct (reached _ _ _ _ H) as (cs & c & R & S0 & I & K & _). destruct (Forall2_at _ _ _ (sm_threads _ _ S0) _ _ Ht) as (u & Hu & _ & _ & M3 & M4). pose proof (ci_acc _ K _ _ Hu) as A2.
  destruct (ok_ring _ _ _ _ (I _ _ Ht)) as (rcs & Q). destruct (ring_len _ _ _ Q) as (L1 & _). destruct (run_attached (n - 1) cs (cstart true) c eq_refl R) as (_ & LO). rewrite LO in A2. cbn [cstart cs_lost app] in A2.
  apply (f_equal (@length _)) in A2. rewrite !app_length, M3, M4, skipn_length in A2. unfold sent_of. rewrite (sm_sent _ _ S0), all_wrap, of_wrap, map_length. lia.
Qed.

(** The buffer of a running thread holds no more than what was traced in the last part with one end of a pass, and one event. *)
Lemma held_recent ls s i t : rrun n ls (rstate0 true) = Some s -> nth_error (rs_threads s) i = Some t -> r_phase t = TRunning -> loads_current n i ls (rstate0 true) ->
  offered i s = called i ls -> (forall a b s1, ls = a ++ b -> rrun n a (rstate0 true) = Some s1 -> offered i s1 = called i a) ->
  exists a b, ls = a ++ b /\ sends b <= 1 /\ length (acc (r_ring t)) + length (unans (r_ring t)) <= length (ret (r_ring t)) + S (length (called i b)).
Proof.
  intros H Ht Hp LC Eo Epre. destruct (last_two ls) as [L|(a & b & -> & Hb)].
  - exists [], ls. split; [reflexivity|]. split; [exact L|]. rewrite <- Eo. unfold offered. rewrite Ht, app_length. lia.
  - exists (a ++ [RSend]), b. split; [reflexivity|]. split; [lia|]. pose proof H as H0. rewrite rrun_app in H. destruct (rrun n (a ++ [RSend]) (rstate0 true)) as [s1|] eqn:E1; [|discriminate].
    assert (PC : rs_pc s1 = RIdle).
    { rewrite rrun_app in E1. destruct (rrun n a (rstate0 true)) as [s2|]; [|discriminate]. cbn [rrun] in E1. destruct (rstep n RSend s2) as [s3|] eqn:St; [|discriminate]. injection E1 as <-.
      cbn [rstep] in St. destruct (rs_pc s2) as [| |g todo ev|]; try discriminate. destruct g; try discriminate. destruct todo; try discriminate. injection St as <-. destruct (_ =? 0); reflexivity. }
    pose proof (Epre _ _ _ eq_refl E1) as E2. rewrite called_app in Eo. apply (f_equal (@length _)) in Eo. rewrite app_length in Eo. unfold offered in Eo at 1. rewrite Ht, app_length in Eo.
    apply (f_equal (@length _)) in E2. unfold offered in E2. destruct (nth_error (rs_threads s1) i) as [t1|] eqn:Ht1.
    + destruct (never_back _ _ _ _ _ H Ht1) as (t' & Ht' & P'). rewrite Ht in Ht'. injection Ht' as <-.
      assert (R1 : r_phase t1 = TRunning) by (destruct (r_phase t1) eqn:X; auto; exfalso; apply P'; auto; right; congruence).
      assert (NO : ~ In (ROrphan i) b) by (intro X; apply P'; auto).
      destruct (fresh_sent n _ _ _ _ _ _ E1 PC Ht1 R1 H (sends_in _ Hb) NO (current_app _ _ _ _ _ LC E1)) as (more & Es).
      pose proof (sent_le _ _ _ _ H0 Ht) as Ls. rewrite Es, app_length, map_length in Ls. change (accepted_of t1) with (acc (r_ring t1)) in Ls. rewrite app_length in E2.
      assert (length (unans (r_ring t1)) <= 1) by (unfold unans; destruct (RingBuffer_model.pp (r_ring t1)); cbn; lia). lia.
    + cbn in E2. lia.
Qed.

(** Only an access of the thread itself can refuse its event. *)
Lemma quiet_step l s s' i : rinv n s -> rstep n l s = Some s' -> (forall c, l <> RAccess i c) -> (forall x, l <> RPush i x) -> offered i s' = offered i s.
Proof.
  intros I H NA NP. destruct l; cbn [rstep] in *.
  - destruct (existsb _ _); [discriminate|]. destruct (mfind _ _ _); [discriminate|]. destruct (RingBuffer_model.init n) as [q|] eqn:Q; [|discriminate]. injection H as <-.
    unfold offered. cbn [rs_threads]. destruct (init_effect _ _ Q) as (_ & Ea & _ & _ & Eu).
    destruct (lt_dec i (length (rs_threads s))) as [L|L]; [now rewrite nth_error_app1|]. rewrite nth_error_app2 by lia.
    assert (N : nth_error (rs_threads s) i = None) by (apply nth_error_None; lia). rewrite N.
    destruct (i - length (rs_threads s)) as [|[|z]]; cbn; auto. now rewrite Ea, Eu.
  - destruct (nth_error (rs_threads s) i0) as [t|] eqn:Ht; [|discriminate]. destruct (r_phase t); try discriminate. destruct (RingBuffer_model.step _ _) as [q|] eqn:Q; [|discriminate]. injection H as <-.
    assert (N : i <> i0) by (intros ->; now apply (NP x)). unfold offered. cbn [with_rthreads rs_threads]. now rewrite set_nth_other by congruence.
  - destruct (nth_error (rs_threads s) i0) as [t|] eqn:Ht; [|discriminate]. destruct (r_phase t); try discriminate. destruct (RingBuffer_model.step _ _) as [q|] eqn:Q; [|discriminate]. injection H as <-.
    assert (N : i <> i0) by (intros ->; now apply (NA c)). unfold offered. cbn [with_rthreads rs_threads]. now rewrite set_nth_other by congruence.
  - destruct (nth_error (rs_threads s) i0) as [t|] eqn:Ht; [|discriminate]. destruct (r_phase t); try discriminate. destruct (RingBuffer_model.pp _); try discriminate. injection H as <-.
    now apply (set_offered _ _ _ t).
  - destruct (nth_error (rs_threads s) i0) as [t|] eqn:Ht; [|discriminate]. destruct (r_phase t); try discriminate. injection H as <-. now apply (set_offered _ _ _ t).
  - injection H as <-. reflexivity.
  - destruct (rs_pc s); try discriminate. injection H as <-. reflexivity.
  - destruct (rs_pc s); try discriminate. injection H as <-. reflexivity.
  - destruct (step_offered n RCall s s' i I H) as [(x & X & _)|(_ & [X|(v & X & _)])]; [discriminate|exact X|].
    destruct (rs_pc s) as [| |g todo ev|]; try discriminate. destruct todo as [|[[tid b] o] rest]; [discriminate|].
    destruct (nth_error (rs_threads s) b) as [t|] eqn:Ht; [|discriminate].
    destruct g; try discriminate; (destruct (RingBuffer_model.step _ _) as [q|] eqn:Q; [|discriminate]); injection H as <-; destruct (call_effect _ _ _ Q) as (_ & _ & Ep & Ea & _);
      apply (set_offered _ _ _ t); auto; cbn [with_ring r_ring]; unfold unans; now rewrite Ea, Ep.
  - destruct (rs_pc s) as [| |g todo ev|] eqn:P; try discriminate. destruct todo as [|[[tid b] o] rest]; [discriminate|].
    destruct (nth_error (rs_threads s) b) as [t|] eqn:Ht; [|discriminate]. destruct (handed_over _ _ _); [|discriminate]. destruct (RingBuffer_model.step _ _) as [q|] eqn:Q; [|discriminate].
    assert (E : exists p, s' = with_rpc p (with_rthreads (set_nth b (with_ring q t) (rs_threads s)) s)).
    { destruct g, (result q) as [[]|]; try discriminate; injection H as <-; try (eexists; reflexivity); eexists; rewrite <- pc_self; reflexivity. }
    destruct E as (p & ->). unfold offered at 1. cbn [with_rpc with_rthreads rs_threads]. apply (set_offered _ _ _ t); auto. cbn [with_ring r_ring].
    pose proof (I _ _ Ht) as [(rcs & R) _ _ O]. rewrite P in O. apply head_cons in O. unfold unans.
    destruct g; cbn [stage_ok] in O; [cbn [RingBuffer_model.step] in Q; unfold RingBuffer_model.cstep in Q; rewrite O in Q; discriminate| | |].
    + destruct (size_effect _ _ _ _ _ R O Q) as (Ep & Ea & _). now rewrite Ea, Ep.
    + destruct O as (O & _). cbn [RingBuffer_model.step] in Q; unfold RingBuffer_model.cstep in Q; rewrite O in Q; discriminate.
    + destruct O as [(k & Ec & _)|(r & cnt & k & out & Ec & _)].
      * destruct (into_load _ _ _ _ _ _ R Ec Q) as (Ep & Ea & _). now rewrite Ea, Ep.
      * destruct (into_step _ _ _ _ _ _ _ _ _ R Ec Q) as (Ep & Ea & _). now rewrite Ea, Ep.
  - destruct (rs_pc s) as [| |g todo ev|]; try discriminate. destruct g; try discriminate. destruct todo; try discriminate. injection H as <-. destruct (_ =? 0); reflexivity.
  - destruct (rs_pc s); try discriminate. injection H as <-. reflexivity.
Qed.

Lemma nothing_refused i : forall ls s, rrun n ls (rstate0 true) = Some s -> slow i (n - 1) ls -> loads_current n i ls (rstate0 true) -> pushes_current n i ls (rstate0 true) ->
  forall a b s1, ls = a ++ b -> rrun n a (rstate0 true) = Some s1 -> offered i s1 = called i a.
Proof.
  induction ls as [|l ls IH] using rev_ind; intros s H Sl LC PCu.
  - intros a b s1 E R. symmetry in E. apply app_eq_nil in E as [-> ->]. injection R as <-. unfold offered. cbn. now destruct i.
  - rewrite rrun_app in H. destruct (rrun n ls (rstate0 true)) as [s0|] eqn:E0; [|discriminate]. cbn [rrun] in H. destruct (rstep n l s0) as [s2|] eqn:St; [|discriminate]. injection H as <-.
    assert (Pre : forall a b s1, ls = a ++ b -> rrun n a (rstate0 true) = Some s1 -> offered i s1 = called i a).
    { apply (IH s0 eq_refl); [|exact (current_front _ _ _ _ LC)|exact (pushes_front _ _ _ _ PCu)]. intros x y z E. apply (Sl x y (z ++ [l])). now rewrite E, <- !app_assoc. }
    assert (Whole : offered i s2 = called i (ls ++ [l])).
    { pose proof (Pre ls [] s0 (eq_sym (app_nil_r _)) E0) as E1. destruct (reached _ _ _ _ E0) as (_ & _ & _ & _ & I & _). rewrite called_app.
      destruct (step_offered n _ _ _ i I St) as [(x & -> & Eo)|(Ec & [Eo|(v & Eo & Full)])].
      - rewrite called_one, Nat.eqb_refl, Eo. now rewrite E1.
      - now rewrite Ec, app_nil_r, Eo.
      - exfalso. assert (NE : offered i s2 <> offered i s0) by (rewrite Eo; intro X; apply (f_equal (@length _)) in X; rewrite app_length in X; cbn in X; lia).
        assert (X : exists c, l = RAccess i c).
        { destruct l as [|j x|j c| | | | | | | | |]; try (exfalso; apply NE; apply (quiet_step _ _ _ _ I St); discriminate).
          - cbn [called] in Ec. destruct (Nat.eqb_spec j i) as [->|N]; [discriminate|]. exfalso. apply NE. apply (quiet_step _ _ _ _ I St); congruence.
          - destruct (Nat.eq_dec j i) as [->|N]; [eauto|]. exfalso. apply NE. apply (quiet_step _ _ _ _ I St); congruence. }
        destruct X as (c & ->). pose proof St as St0. cbn [rstep] in St. destruct (nth_error (rs_threads s0) i) as [t|] eqn:Ht; [|discriminate]. destruct (r_phase t) eqn:Hp; try discriminate.
        destruct (RingBuffer_model.step _ _) as [q|] eqn:Q; [|discriminate]. injection St as <-. destruct (ok_ring _ _ _ _ (I _ _ Ht)) as (rcs & R).
        unfold offered in Eo. cbn [with_rthreads rs_threads] in Eo. rewrite Ht, set_nth_same in Eo by (eapply nth_error_lt; eauto). cbn [with_ring r_ring] in Eo.
        destruct (prod_effect _ _ _ _ _ R Q) as (_ & _ & [(Ea & Eu)|[(w & Ea & Eu & Eu' & _)|(w & Eu & Ea & Eu' & _)]]).
        + rewrite Ea, Eu in Eo. apply (f_equal (@length _)) in Eo. rewrite !app_length in Eo. cbn in Eo. lia.
        + pose proof (pushes_app _ _ _ _ _ PCu E0) as (PU & _). cbn [push_up_to_date] in PU. specialize (PU eq_refl t).
          assert (FULL : length (acc (r_ring t)) = length (ret (r_ring t)) + (n - 1)).
          { pose proof Q as Q0. cbn [RingBuffer_model.step] in Q0. unfold RingBuffer_model.pstep in Q0. destruct (RingBuffer_model.pp (r_ring t)) as [|y z1 z2|y z1 z2|y z2] eqn:PP; [discriminate| | |].
            - apply (refused_full n _ rcs y z1 z2 c q R PP (PU _ _ _ Ht eq_refl) Q Eu').
            - injection Q0 as <-. discriminate Eu'.
            - exfalso. injection Q0 as <-. unfold acc in Ea. cbn in Ea. rewrite RingBuffer_proofs.accepted_app in Ea. cbn in Ea. apply (f_equal (@length _)) in Ea. rewrite app_length in Ea. cbn in Ea. lia. }
          destruct (held_recent ls s0 i t E0 Ht Hp (current_front _ _ _ _ LC) E1 Pre) as (a & b & -> & Hs & Le).
          specialize (Sl a b [RAccess i c] (eq_sym (app_assoc _ _ _)) Hs). rewrite Eu in Le. cbn in Le. lia.
        + rewrite Ea, Eu, Eu', app_nil_r in Eo. apply (f_equal (@length _)) in Eo. rewrite !app_length in Eo. cbn in Eo. lia. }
    intros a b s1 E R. destruct b as [|y b] using rev_ind.
    + rewrite app_nil_r in E. subst a. rewrite rrun_app, E0 in R. cbn [rrun] in R. rewrite St in R. injection R as <-. exact Whole.
    + rewrite app_assoc in E. apply app_inj_tail in E as [E _]. exact (Pre a b s1 E R).
Qed.

Theorem none_dropped ls s i t : rrun n ls (rstate0 true) = Some s -> slow i (n - 1) ls -> loads_current n i ls (rstate0 true) -> pushes_current n i ls (rstate0 true) ->
  nth_error (rs_threads s) i = Some t -> accepted_of t ++ unanswered t = called i ls.
Proof.
  intros H Sl LC PCu Ht. pose proof (nothing_refused i ls s H Sl LC PCu ls [] s (eq_sym (app_nil_r _)) H) as X. unfold offered in X. rewrite Ht in X. exact X.
Qed.
(** Once the thread has ended, the next pass completes what is broadcast of it. *)
Theorem all_sent ls1 s ls2 s' i : rrun n ls1 (rstate0 true) = Some s -> ended i s -> rs_pc s = RIdle -> rrun n ls2 s = Some s' -> In RSend ls2 ->
  slow i (n - 1) (ls1 ++ ls2) -> loads_current n i (ls1 ++ ls2) (rstate0 true) -> pushes_current n i (ls1 ++ ls2) (rstate0 true) -> sent_of i s' = map Some (called i (ls1 ++ ls2)).
Proof.
  intros H E PC R HS Sl LC PCu. destruct (ended_sent n _ _ _ _ _ H E PC R HS) as (t & Ht & Es). rewrite Es. f_equal.
  assert (H' : rrun n (ls1 ++ ls2) (rstate0 true) = Some s') by (rewrite rrun_app, H; exact R). rewrite <- (none_dropped _ _ _ _ H' Sl LC PCu Ht).
  destruct (gone_run n _ _ _ _ R E) as (t' & Ht' & G). rewrite Ht in Ht'. injection Ht' as <-. destruct (reached _ _ _ _ H') as (_ & _ & _ & _ & I & _).
  pose proof (ok_idle _ _ _ _ (I _ _ Ht)) as U. change (unanswered t) with (unans (r_ring t)). rewrite U by congruence. now rewrite app_nil_r.
Qed.
End Rate.
