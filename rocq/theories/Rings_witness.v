From Coq Require Import List Arith Bool Lia.
Import ListNotations.
From Verif Require RingBuffer_model RingBuffer_spec.
From Verif Require Import UnixSystem_model Collector_model Collector_spec Rings_model Rings_spec Rings_proofs.

Definition put (i x c : nat) : list rlabel := [RPush i x; RAccess i c; RAccess i 0; RAccess i 0].
(** One buffer, from the call of [size] to the end of [pop_into]: what the two loads return, and how many events are popped. *)
Definition take (a b k : nat) : list rlabel := [RCall; RRead a; RCall; RRead b] ++ repeat (RRead 0) (S k).

(** An event is accepted, collected and broadcast; the buffer is empty; the load of the next [push] returns the index from before, and the event is refused. *)
Definition before : list rlabel := RStart 7 :: put 0 1 0 ++ [RSwap; RSnapshot] ++ take 1 1 1 ++ [RSend].
Lemma refused_although_empty : exists s t s' t', rrun 2 before (rstate0 true) = Some s /\ nth_error (rs_threads s) 0 = Some t /\ rs_pc s = RIdle /\
  accepted_of t = [(0, 1)] /\ sent_of 0 s = [Some (0, 1)] /\
  rrun 2 [RPush 0 2; RAccess 0 0] s = Some s' /\ nth_error (rs_threads s') 0 = Some t' /\ unanswered t' = [] /\ accepted_of t' = [(0, 1)].
Proof.
  destruct (rrun 2 before (rstate0 true)) as [s|] eqn:E; [|vm_compute in E; discriminate].
  destruct (nth_error (rs_threads s) 0) as [t|] eqn:Et; [|vm_compute in E; injection E as <-; discriminate].
  destruct (rrun 2 [RPush 0 2; RAccess 0 0] s) as [s'|] eqn:E'; [|vm_compute in E; injection E as <-; vm_compute in E'; discriminate].
  destruct (nth_error (rs_threads s') 0) as [t'|] eqn:Et'; [|vm_compute in E; injection E as <-; vm_compute in E'; injection E' as <-; discriminate].
  exists s, t, s', t'. vm_compute in E. injection E as <-. vm_compute in Et. injection Et as <-. vm_compute in E'. injection E' as <-. vm_compute in Et'. injection Et' as <-.
  vm_compute. auto 12.
Qed.

(** However many passes are made: loads that return the index from before the event never find it. *)
Definition blind : list rlabel := [RSwap; RSnapshot] ++ take 0 0 0 ++ [RSend].
Fixpoint passes (k : nat) : list rlabel := match k with 0 => [] | S k' => blind ++ passes k' end.


Record blank (q : ring) : Prop := {
  bk_w : RingBuffer_model.whist q = [(0, 0); (1, 1)]; bk_v : RingBuffer_model.cview q = 0; bk_m : RingBuffer_model.maxs q = 2;
  bk_c : RingBuffer_model.cp q = RingBuffer_model.CIdle; bk_l : RingBuffer_model.latest (RingBuffer_model.rhist q) = 0;
  bk_a : RingBuffer_spec.accepted (RingBuffer_model.trace q) = [(0, 1)] }.
Record aside (s : rstate) : Prop := {
  as_active : rs_active s = [(7, 0)]; as_orphans : rs_orphans s = []; as_pc : rs_pc s = RIdle; as_attached : rs_attached s = true; as_sent : rs_sent s = [];
  as_thread : exists q, rs_threads s = [{| r_tid := 7; r_phase := TRunning; r_ring := q |}] /\ blank q }.
Lemma acc_app {A} (a b : list (RingBuffer_model.event A)) : RingBuffer_spec.accepted (a ++ b) = RingBuffer_spec.accepted a ++ RingBuffer_spec.accepted b.
Proof. induction a as [|e a IH]; [reflexivity|]. destruct e as [| v [] | | |[] | ]; cbn; rewrite ?IH; try reflexivity; now rewrite app_assoc. Qed.
Lemma result_emit (q : ring) e : RingBuffer_model.cp q = RingBuffer_model.CIdle -> result (RingBuffer_model.emit q e) = Some e.
Proof. intro H. unfold result, RingBuffer_model.emit. cbn [RingBuffer_model.cp RingBuffer_model.trace]. rewrite H, rev_unit. reflexivity. Qed.
Lemma blind_size q : blank q -> exists q1 q2, RingBuffer_model.step q (RingBuffer_model.ACons RingBuffer_model.OSize) = Some q1 /\ handed_over false q1 0 = true /\
  RingBuffer_model.step q1 (RingBuffer_model.AStep 0) = Some q2 /\ result q2 = Some (RingBuffer_model.ERetSize 0) /\ blank q2.
Proof.
  intros [W V M C L A]. cbn [RingBuffer_model.step]. rewrite C. eexists. eexists. split; [reflexivity|]. split; [reflexivity|].
  unfold RingBuffer_model.cstep. cbn [RingBuffer_model.emit RingBuffer_model.set_cp RingBuffer_model.cp RingBuffer_model.cview RingBuffer_model.whist RingBuffer_model.rhist RingBuffer_model.maxs].
  rewrite W, V, M, L. cbn [RingBuffer_model.readable Nat.leb length andb nth Nat.ltb]. cbn [RingBuffer_model.available Nat.leb Nat.sub]. split; [reflexivity|]. split; [apply result_emit; reflexivity|].
  constructor; cbn [RingBuffer_model.emit RingBuffer_model.set_cp RingBuffer_model.c_load RingBuffer_model.cp RingBuffer_model.cview RingBuffer_model.whist RingBuffer_model.rhist RingBuffer_model.maxs RingBuffer_model.trace]; auto.
  rewrite !acc_app, A. reflexivity.
Qed.
Lemma blind_into q : blank q -> exists q1 q2 q3, RingBuffer_model.step q (RingBuffer_model.ACons (RingBuffer_model.OPopInto 0)) = Some q1 /\ handed_over false q1 0 = true /\
  RingBuffer_model.step q1 (RingBuffer_model.AStep 0) = Some q2 /\ result q2 = None /\ handed_over false q2 0 = true /\
  RingBuffer_model.step q2 (RingBuffer_model.AStep 0) = Some q3 /\ result q3 = Some (RingBuffer_model.ERetInto []) /\ blank q3.
Proof.
  intros [W V M C L A]. cbn [RingBuffer_model.step]. rewrite C. eexists. eexists. eexists. split; [reflexivity|]. split; [reflexivity|].
  unfold RingBuffer_model.cstep at 1. cbn [RingBuffer_model.emit RingBuffer_model.set_cp RingBuffer_model.cp RingBuffer_model.cview RingBuffer_model.whist RingBuffer_model.rhist RingBuffer_model.maxs].
  rewrite W, V, M, L. cbn [RingBuffer_model.readable Nat.leb length andb nth Nat.ltb]. cbn [RingBuffer_model.available Nat.leb Nat.sub Nat.min]. split; [reflexivity|].
  split; [reflexivity|]. split; [reflexivity|].
  unfold RingBuffer_model.cstep. cbn [RingBuffer_model.emit RingBuffer_model.set_cp RingBuffer_model.c_load RingBuffer_model.cp Nat.ltb Nat.leb RingBuffer_model.maxs]. rewrite ?M. split; [reflexivity|]. split; [apply result_emit; reflexivity|].
  constructor; cbn [RingBuffer_model.emit RingBuffer_model.set_cp RingBuffer_model.c_load RingBuffer_model.c_store RingBuffer_model.cp RingBuffer_model.cview RingBuffer_model.whist RingBuffer_model.rhist RingBuffer_model.maxs RingBuffer_model.trace]; auto.
  - unfold RingBuffer_model.latest. rewrite last_last. reflexivity.
  - rewrite !acc_app, A. reflexivity.
Qed.
Lemma blind_pass s : aside s -> exists s', rrun 2 blind s = Some s' /\ aside s'.
Proof.
  intros [A B C D E (q & T & K)]. destruct s as [th ac orp pc att snt lst]. cbn [rs_active rs_orphans rs_pc rs_attached rs_sent rs_threads] in A, B, C, D, E, T. subst.
  destruct (blind_size _ K) as (q1 & q2 & S1 & H1 & S2 & R2 & K2). destruct (blind_into _ K2) as (q3 & q4 & q5 & S3 & H3 & S4 & R4 & H4 & S5 & R5 & K5).
  unfold blind, take. cbn [app repeat]. eexists. split.
  - cbn [rrun rstep rs_pc rs_threads rs_active rs_orphans rs_attached rs_sent rs_lost with_rpc with_rthreads map app nth_error r_ring with_ring set_nth].
    rewrite S1. cbn [rstep rs_pc rs_threads rs_active rs_orphans rs_attached rs_sent rs_lost with_rpc with_rthreads map app nth_error r_ring with_ring set_nth r_tid r_phase].
    rewrite H1, S2, R2. cbn [rstep rs_pc rs_threads rs_active rs_orphans rs_attached rs_sent rs_lost with_rpc with_rthreads map app nth_error r_ring with_ring set_nth r_tid r_phase].
    rewrite S3. cbn [rstep rs_pc rs_threads rs_active rs_orphans rs_attached rs_sent rs_lost with_rpc with_rthreads map app nth_error r_ring with_ring set_nth r_tid r_phase].
    rewrite H3, S4, R4. cbn [rstep rs_pc rs_threads rs_active rs_orphans rs_attached rs_sent rs_lost with_rpc with_rthreads map app nth_error r_ring with_ring set_nth r_tid r_phase].
    rewrite H4, S5, R5. cbn [rstep rs_pc rs_threads rs_active rs_orphans rs_attached rs_sent rs_lost with_rpc with_rthreads map app nth_error r_ring with_ring set_nth r_tid r_phase].
    reflexivity.
  - constructor; [reflexivity..|]. exists q5. split; [reflexivity|exact K5].
Qed.
Definition started : list rlabel := RStart 7 :: put 0 1 0.
Lemma never_found k : exists s t, rrun 2 (started ++ passes k) (rstate0 true) = Some s /\ rs_pc s = RIdle /\ nth_error (rs_threads s) 0 = Some t /\ accepted_of t = [(0, 1)] /\ sent_of 0 s = [].
Proof.
  assert (X : exists s, rrun 2 (started ++ passes k) (rstate0 true) = Some s /\ aside s).
  { rewrite rrun_app. destruct (rrun 2 started (rstate0 true)) as [s0|] eqn:E; [|vm_compute in E; discriminate].
    assert (A : aside s0). { vm_compute in E. injection E as <-. constructor; [reflexivity..|]. eexists. split; [reflexivity|]. constructor; reflexivity. }
    clear E. revert s0 A. induction k as [|k IH]; intros s0 A; [exists s0; auto|]. cbn [passes]. rewrite rrun_app. destruct (blind_pass _ A) as (s1 & -> & A1). exact (IH _ A1). }
  destruct X as (s & R & [A B C D E (q & T & [_ _ _ _ _ Ac])]). exists s. eexists. split; [exact R|]. split; [exact C|]. rewrite T. split; [reflexivity|].
  split; [exact Ac|]. unfold sent_of. rewrite E. reflexivity.
Qed.

(** Two threads, buffers of two places: the first one fills its buffer while the sender has counted it, goes on while the sender pops, wraps around and ends while its buffer
    is in the list of a pass; the second one takes over its number.  All is sent. *)
Definition sample : list rlabel :=
  [RStart 7] ++ put 0 1 0 ++ [RSwap; RSnapshot; RCall; RRead 1] ++ put 0 2 0 ++ [RCall; RRead 2; RRead 0; RPush 0 3; RRead 0; RSend] ++
  [RAccess 0 1; RAccess 0 0; RAccess 0 0; RSwap; RSnapshot; ROrphan 0; RErase 0; RStart 7] ++ put 1 4 0 ++ take 2 2 1 ++ [RSend] ++
  [RSwap; RSnapshot] ++ take 3 3 1 ++ take 1 1 1 ++ [RSend].
Example sample_sent : match rrun 3 sample (rstate0 true) with
  | Some s => rs_sent s = [[(7, [Some (0, 1)])]; [(7, [Some (0, 2)])]; [(7, [Some (0, 3); Some (1, 4)])]] /\ map accepted_of (rs_threads s) = [[(0, 1); (0, 2); (0, 3)]; [(1, 4)]] /\ ended 0 s /\
      accesses 0 sample = 9 /\ length (called 0 sample) = 3
  | None => False
  end.
Proof. vm_compute. split; [reflexivity|]. split; [reflexivity|]. split; [eexists; split; reflexivity|]. auto. Qed.
(** The hypotheses of the theorem about ended threads: the first part of the run up to the end of the second pass, the rest. *)
Example sample_ended : match rrun 3 (firstn 38 sample) (rstate0 true) with
  | Some s => ended 0 s /\ rs_pc s = RIdle /\ sent_of 0 s = [Some (0, 1); Some (0, 2)] /\ In RSend (skipn 38 sample) /\
      match rrun 3 (skipn 38 sample) s with Some s' => sent_of 0 s' = [Some (0, 1); Some (0, 2); Some (0, 3)] | None => False end
  | None => False
  end.
Proof. vm_compute. split; [eexists; split; reflexivity|]. split; [reflexivity|]. split; [reflexivity|]. split; [auto 20|reflexivity]. Qed.
