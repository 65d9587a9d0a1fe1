From Coq Require Import List Arith Bool Lia.
Import ListNotations.
From Verif Require RingBuffer_model RingBuffer_spec RingBuffer_proofs.
From Verif Require Import UnixSystem_model UnixSystem_proofs OMap_model OMap_proofs Collector_model Collector_spec Collector_proofs RingsStep_proofs Rings_model Rings_spec Rings_proofs.

Section Use.
Variable n : nat.

Theorem refines b ls s : rrun n ls (rstate0 b) = Some s ->
  exists cs c, crun (n - 1) cs (if b then c_attached else c0) = Some c /\ shows s c /\ forall i t, nth_error (rs_threads s) i = Some t -> emissions i cs = accepted_of t.
Proof.
  intro H. destruct (reached _ _ _ _ H) as (cs & c & R & S0 & _ & _ & M). exists cs, c. pose proof S0 as [A B C D E F G].
  split; [destruct b; exact R|]. split.
  - constructor; auto. clear - A. induction A as [|t u l l' (A1 & A2 & A3 & _) A4 IH]; constructor; auto.
  - intros i t Ht. rewrite <- M. unfold acc_of. destruct (Forall2_at _ _ _ A _ _ Ht) as (u & Hu & _ & _ & E3 & _). rewrite Hu. exact E3.
Qed.

Theorem whole_once b ls s i t : rrun n ls (rstate0 b) = Some s -> nth_error (rs_threads s) i = Some t ->
  exists rest, map Some (accepted_of t) = filter (is_of i) (all_filed (rs_lost s)) ++ sent_of i s ++ popped_of i s ++ map Some rest /\ length rest <= n - 1 /\
    (b = true -> rs_lost s = []).
Proof.
  intros H Ht. destruct (reached _ _ _ _ H) as (cs & c & R & S0 & I & K & _). pose proof S0 as [A B C D E F G].
  destruct (Forall2_at _ _ _ A _ _ Ht) as (u & Hu & S1 & S2 & S3 & S4). pose proof (ok_ring _ _ _ _ (I _ _ Ht)) as (rcs & Q). destruct (ring_len _ _ _ Q) as (L1 & L2).
  exists (th_buf u). split; [|split].
  - unfold accepted_of. change (RingBuffer_spec.accepted (RingBuffer_model.trace (r_ring t))) with (acc (r_ring t)). rewrite <- S3, (ci_acc _ K _ _ Hu).
    unfold sent_of, popped_of. rewrite F, G, !all_wrap, !of_wrap, all_events_app, of_thread_app, !map_app, <- !app_assoc. f_equal. f_equal. f_equal.
    unfold ev_map. destruct (rs_pc s), (cs_pc c); try contradiction; try reflexivity. destruct D as (_ & ->). now rewrite flat_wrap, of_wrap.
  - rewrite S4, skipn_length. lia.
  - intros ->. rewrite G. destruct (run_attached _ _ (cstart true) _ eq_refl R) as (_ & ->). reflexivity.
Qed.

(** ** Calls *)
Lemma called_app i a b : called i (a ++ b) = called i a ++ called i b.
Proof. induction a as [|l a IH]; [reflexivity|]. destruct l; cbn; auto. destruct (i0 =? i); cbn; now rewrite IH. Qed.

Definition offered (i : nat) (s : rstate) : list event := match nth_error (rs_threads s) i with Some t => acc (r_ring t) ++ unans (r_ring t) | None => [] end.

Lemma set_offered s i j t t' : nth_error (rs_threads s) j = Some t -> acc (r_ring t') ++ unans (r_ring t') = acc (r_ring t) ++ unans (r_ring t) ->
  match nth_error (set_nth j t' (rs_threads s)) i with Some t => acc (r_ring t) ++ unans (r_ring t) | None => [] end = offered i s.
Proof.
  intros Hj E. unfold offered. destruct (Nat.eq_dec i j) as [->|N]; [rewrite set_nth_same by (eapply nth_error_lt; eauto); now rewrite Hj|now rewrite set_nth_other].
Qed.

Lemma step_offered l s s' i : rinv n s -> rstep n l s = Some s' ->
  (exists x, l = RPush i x /\ offered i s' = offered i s ++ [(i, x)]) \/
  (called i [l] = [] /\ (offered i s' = offered i s \/ exists v, offered i s = offered i s' ++ [v] /\ n - 1 < length (offered i s))).
Proof.
  intros I H. destruct l; cbn [rstep called] in *.
  - destruct (existsb _ _); [discriminate|]. destruct (mfind _ _ _); [discriminate|]. destruct (RingBuffer_model.init n) as [q|] eqn:Q; [|discriminate]. injection H as <-.
    right. split; [reflexivity|]. left. unfold offered. cbn [rs_threads]. destruct (init_effect _ _ Q) as (_ & Ea & _ & _ & Eu).
    destruct (lt_dec i (length (rs_threads s))) as [L|L]; [now rewrite nth_error_app1|]. rewrite nth_error_app2 by lia.
    assert (N : nth_error (rs_threads s) i = None) by (apply nth_error_None; lia). rewrite N.
    destruct (i - length (rs_threads s)) as [|[|z]]; cbn; auto. now rewrite Ea, Eu.
  - destruct (nth_error (rs_threads s) i0) as [t|] eqn:Ht; [|discriminate]. destruct (r_phase t); try discriminate. destruct (RingBuffer_model.step _ _) as [q|] eqn:Q; [|discriminate]. injection H as <-.
    destruct (push_effect _ _ _ Q) as (U & U' & _ & Ea & _). destruct (Nat.eqb_spec i0 i) as [->|N].
    + left. exists x. split; [reflexivity|]. unfold offered. cbn [with_rthreads rs_threads]. rewrite set_nth_same by (eapply nth_error_lt; eauto). rewrite Ht. cbn [with_ring r_ring].
      now rewrite Ea, U, U', app_nil_r.
    + right. split; [reflexivity|]. left. unfold offered. cbn [with_rthreads rs_threads]. now rewrite set_nth_other by congruence.
  - destruct (nth_error (rs_threads s) i0) as [t|] eqn:Ht; [|discriminate]. destruct (r_phase t); try discriminate. destruct (RingBuffer_model.step _ _) as [q|] eqn:Q; [|discriminate]. injection H as <-.
    right. split; [reflexivity|]. pose proof (ok_ring _ _ _ _ (I _ _ Ht)) as (rcs & R).
    destruct (Nat.eq_dec i i0) as [->|N]; [|left; unfold offered; cbn [with_rthreads rs_threads]; now rewrite set_nth_other by congruence].
    destruct (prod_effect _ _ _ _ _ R Q) as (_ & _ & [(Ea & Eu)|[(v & Ea & Eu & Eu' & Full)|(v & Eu & Ea & Eu' & _)]]).
    + left. apply (set_offered _ _ _ t); auto. cbn [with_ring r_ring]. now rewrite Ea, Eu.
    + right. exists v. unfold offered. cbn [with_rthreads rs_threads]. rewrite set_nth_same by (eapply nth_error_lt; eauto). rewrite Ht. cbn [with_ring r_ring].
      rewrite Ea, Eu, Eu', app_nil_r. split; [reflexivity|]. rewrite app_length. cbn. lia.
    + left. apply (set_offered _ _ _ t); auto. cbn [with_ring r_ring]. now rewrite Ea, Eu, Eu', app_nil_r.
  - destruct (nth_error (rs_threads s) i0) as [t|] eqn:Ht; [|discriminate]. destruct (r_phase t); try discriminate. destruct (RingBuffer_model.pp _); try discriminate. injection H as <-.
    right. split; [reflexivity|]. left. now apply (set_offered _ _ _ t).
  - destruct (nth_error (rs_threads s) i0) as [t|] eqn:Ht; [|discriminate]. destruct (r_phase t); try discriminate. injection H as <-.
    right. split; [reflexivity|]. left. now apply (set_offered _ _ _ t).
  - injection H as <-. right. auto.
  - destruct (rs_pc s); try discriminate. injection H as <-. right. auto.
  - destruct (rs_pc s); try discriminate. injection H as <-. right. auto.
  - right. split; [reflexivity|]. left. destruct (rs_pc s) as [| |g todo ev|]; try discriminate. destruct todo as [|[[tid b] o] rest]; [discriminate|].
    destruct (nth_error (rs_threads s) b) as [t|] eqn:Ht; [|discriminate].
    destruct g; try discriminate; (destruct (RingBuffer_model.step _ _) as [q|] eqn:Q; [|discriminate]); injection H as <-; destruct (call_effect _ _ _ Q) as (_ & _ & Ep & Ea & _);
      apply (set_offered _ _ _ t); auto; cbn [with_ring r_ring]; unfold unans; now rewrite Ea, Ep.
  - right. split; [reflexivity|]. left. destruct (rs_pc s) as [| |g todo ev|] eqn:P; try discriminate. destruct todo as [|[[tid b] o] rest]; [discriminate|].
    destruct (nth_error (rs_threads s) b) as [t|] eqn:Ht; [|discriminate]. destruct (handed_over _ _ _); [|discriminate]. destruct (RingBuffer_model.step _ _) as [q|] eqn:Q; [|discriminate].
    assert (E : exists p, s' = with_rpc p (with_rthreads (set_nth b (with_ring q t) (rs_threads s)) s)).
    { destruct g, (result q) as [[]|]; try discriminate; injection H as <-; try (eexists; reflexivity); eexists; rewrite <- pc_self; reflexivity. }
    destruct E as (p & ->). unfold offered at 1. cbn [with_rpc with_rthreads rs_threads]. apply (set_offered _ _ _ t); auto. cbn [with_ring r_ring].
    pose proof (I _ _ Ht) as [(rcs & R) _ _ O]. rewrite P in O. apply head_cons in O. unfold unans.
    destruct g; cbn [stage_ok] in O; [cbn [RingBuffer_model.step] in Q; unfold RingBuffer_model.cstep in Q; rewrite O in Q; discriminate| | |].
    + destruct (size_effect _ _ _ _ _ R O Q) as (Ep & Ea & _). now rewrite Ea, Ep.
    + destruct O as (O & _). cbn [RingBuffer_model.step] in Q; unfold RingBuffer_model.cstep in Q; rewrite O in Q; discriminate.
    + destruct O as [(k & Ec & _)|(r & cnt & k & out & Ec & _)].
      * destruct (into_load _ _ _ _ _ _ R Ec Q) as (Ep & Ea & _). now rewrite Ea, Ep.
      * destruct (into_step _ _ _ _ _ _ _ _ _ R Ec Q) as (Ep & Ea & _). now rewrite Ea, Ep.
  - destruct (rs_pc s) as [| |g todo ev|]; try discriminate. destruct g; try discriminate. destruct todo; try discriminate. injection H as <-. right. split; [reflexivity|]. left.
    destruct (_ =? 0); reflexivity.
  - destruct (rs_pc s); try discriminate. injection H as <-. right. auto.
Qed.

Lemma called_one i l : called i [l] = match l with RPush j x => if j =? i then [(i, x)] else [] | _ => [] end.
Proof. destruct l; reflexivity. Qed.
Lemma offered_called i : forall ls b s, rrun n ls (rstate0 b) = Some s ->
  subseq (offered i s) (called i ls) /\ (length (called i ls) <= n - 1 -> offered i s = called i ls).
Proof.
  induction ls as [|l ls IH] using rev_ind; intros b s H.
  - injection H as <-. unfold offered. cbn. destruct i; cbn; split; auto; constructor.
  - rewrite rrun_app in H. destruct (rrun n ls (rstate0 b)) as [s1|] eqn:E; [|discriminate]. cbn [rrun] in H. destruct (rstep n l s1) as [s2|] eqn:St; [|discriminate]. injection H as <-.
    destruct (IH _ _ E) as (A & B). destruct (reached _ _ _ _ E) as (_ & _ & _ & _ & I & _). rewrite called_app.
    destruct (step_offered _ _ _ i I St) as [(x & -> & Eo)|(Ec & [Eo|(v & Eo & Full)])].
    + rewrite called_one, Nat.eqb_refl, Eo. split; [now apply subseq_snoc_both|]. rewrite app_length. intro L. rewrite B by lia. reflexivity.
    + rewrite Ec, app_nil_r, Eo. split; auto.
    + rewrite Ec, app_nil_r. split.
      * rewrite Eo in A. clear - A. remember (offered i s2 ++ [v]) as l0 eqn:El. revert El. generalize (offered i s2). induction A as [l|y l l' H IH|y l l' H IH]; intros o El.
        -- destruct o; discriminate.
        -- destruct o as [|z o]; [constructor|]. injection El as -> El. constructor. now apply IH.
        -- constructor. now apply IH.
      * intro L. rewrite (B L) in Full. lia.
Qed.

Theorem accepted_called b ls s i t : rrun n ls (rstate0 b) = Some s -> nth_error (rs_threads s) i = Some t ->
  subseq (accepted_of t ++ unanswered t) (called i ls) /\ (length (called i ls) <= n - 1 -> accepted_of t ++ unanswered t = called i ls).
Proof. intros H Ht. pose proof (offered_called i _ _ _ H) as X. unfold offered in X. rewrite Ht in X. exact X. Qed.

Lemma subseq_app_l {A} (a b l : list A) : subseq (a ++ b) l -> subseq a l.
Proof.
  remember (a ++ b) as c eqn:E. intro H. revert a E. induction H as [l|y l l' H IH|y l l' H IH]; intros a E.
  - destruct a; [constructor|discriminate].
  - destruct a as [|z a]; [constructor|]. injection E as -> E. constructor. now apply IH.
  - constructor. now apply IH.
Qed.

(** Nothing but whole events of the threads is sent, each under the number of its thread. *)
Theorem only_whole b ls s m k l o : rrun n ls (rstate0 b) = Some s -> In m (rs_sent s) -> In (k, l) m -> In o l ->
  exists e t, o = Some e /\ nth_error (rs_threads s) (fst e) = Some t /\ r_tid t = k /\ In e (called (fst e) ls).
Proof.
  intros H Hm Hk Ho. destruct (reached _ _ _ _ H) as (cs & c & R & S0 & I & K & _). pose proof S0 as [A B C D E F G].
  rewrite F in Hm. apply in_map_iff in Hm. destruct Hm as (m' & <- & Hm). unfold wrap in Hk. apply in_map_iff in Hk. destruct Hk as ((k' & l') & Ek & Hk). cbn in Ek. injection Ek as <- <-.
  apply in_map_iff in Ho. destruct Ho as (e & <- & He). exists e.
  destruct (ci_out _ K m' k' l' e) as (u & Hu & Tu); auto. { rewrite !in_app_iff. auto. }
  assert (X : exists t, nth_error (rs_threads s) (fst e) = Some t).
  { destruct (nth_error (rs_threads s) (fst e)) eqn:N; [eauto|]. apply nth_error_None in N. rewrite (Forall2_len _ _ _ A) in N. apply nth_error_lt in Hu. lia. }
  destruct X as (t & Ht). exists t. split; [reflexivity|]. split; [exact Ht|]. destruct (Forall2_at _ _ _ A _ _ Ht) as (u' & Hu' & T1 & _ & T3 & _). rewrite Hu in Hu'. injection Hu' as <-.
  split; [congruence|]. apply (subseq_in (accepted_of t) _ e (subseq_app_l _ _ _ (proj1 (accepted_called _ _ _ _ _ H Ht)))).
  change (accepted_of t) with (acc (r_ring t)). rewrite <- T3, (ci_acc _ K _ _ Hu). apply in_or_app. left. unfold of_thread. apply filter_In. split; [|apply Nat.eqb_refl].
  rewrite all_events_app. apply in_or_app. right. unfold all_events. apply in_flat_map. exists m'. split; [exact Hm|]. apply in_flat_map. exists (k', l'). auto.
Qed.

Theorem rings_safe b ls s i t : rrun n ls (rstate0 b) = Some s -> nth_error (rs_threads s) i = Some t -> RingBuffer_model.raced (r_ring t) = false /\ RingBuffer_model.oob (r_ring t) = false.
Proof.
  intros H Ht. destruct (reached _ _ _ _ H) as (_ & _ & _ & _ & I & _). destruct (ok_ring _ _ _ _ (I _ _ Ht)) as (rcs & R).
  split; [exact (RingBuffer_proofs.i_raced _ _ _ R)|exact (RingBuffer_proofs.i_oob _ _ _ R)].
Qed.
End Use.
