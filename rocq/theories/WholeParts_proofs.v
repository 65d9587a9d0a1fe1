(** The parts of a traced process, and how they belong together (C104). *)
From Coq Require Import List Arith Bool Lia.
Import ListNotations.
From Verif Require RingBuffer_model RingBuffer_spec RingBuffer_proofs.
From Verif Require Import UnixSystem_model UnixSystem_proofs OMap_model Collector_model Collector_spec Collector_proofs RingsStep_proofs Rings_model Rings_spec Rings_proofs.
From Verif Require Switch_model Switch_spec Switch_proofs.
From Verif Require Import Whole_model Whole_spec.
Module SP := Switch_proofs.

(** ** What a step of the rings does to one of them *)
Lemma access_effect {A} (q q' : RingBuffer_model.st A) c : RingBuffer_model.step q (RingBuffer_model.AProd c) = Some q' ->
  (RingBuffer_model.pp q' <> RingBuffer_model.PIdle -> acc q' = acc q /\ unans q' = unans q) /\
  (RingBuffer_model.pp q' = RingBuffer_model.PIdle -> exists v b r, unans q = [v] /\ rev (RingBuffer_model.trace q') = RingBuffer_model.EPushRet v b :: r /\ acc q' = acc q ++ (if b then [v] else [])).
Proof.
  cbn [RingBuffer_model.step]. unfold RingBuffer_model.pstep, unans, acc. intros H.
  destruct (RingBuffer_model.pp q) as [|v w next|v w next|v next] eqn:P; [discriminate H| | |].
  - destruct (RingBuffer_model.readable _ _ _); [|discriminate H]. destruct (nth _ _ _) as [rv rc]. destruct (next =? rv); injection H as <-;
      cbn [RingBuffer_model.emit RingBuffer_model.set_pp RingBuffer_model.p_load RingBuffer_model.pp RingBuffer_model.trace]; split; intro N.
    + destruct (N eq_refl).
    + exists v, false. eexists. rewrite rev_unit. split; [reflexivity|]. split; [reflexivity|]. rewrite RingBuffer_proofs.acc_snoc, app_nil_r by exact I. reflexivity.
    + auto.
    + discriminate N.
  - injection H as <-. cbn. split; intro N; [auto|discriminate N].
  - injection H as <-. cbn [RingBuffer_model.emit RingBuffer_model.set_pp RingBuffer_model.p_store RingBuffer_model.pp RingBuffer_model.trace]. split; intro N; [destruct (N eq_refl)|].
    exists v, true. eexists. rewrite rev_unit. split; [reflexivity|]. split; [reflexivity|]. rewrite RingBuffer_proofs.accepted_app. reflexivity.
Qed.

Section Frame.
Variable n : nat.

Definition touches (j : nat) (l : rlabel) : Prop := match l with RPush k _ | RAccess k _ => k = j | _ => False end.
Definition alike (u u' : rthread) : Prop := acc (r_ring u') = acc (r_ring u) /\ RingBuffer_model.pp (r_ring u') = RingBuffer_model.pp (r_ring u).
Lemma set_frame s i t t' j u : nth_error (rs_threads s) i = Some t -> r_tid t' = r_tid t -> (i <> j \/ alike t t') -> nth_error (rs_threads s) j = Some u ->
  exists u', nth_error (set_nth i t' (rs_threads s)) j = Some u' /\ r_tid u' = r_tid u /\ alike u u'.
Proof.
  intros Ht Et Al Hj. destruct (Nat.eq_dec j i) as [->|N].
  - rewrite set_nth_same by (eapply nth_error_lt; eauto). rewrite Ht in Hj. injection Hj as <-. exists t'. split; [reflexivity|]. split; [exact Et|]. destruct Al as [X|X]; [destruct (X eq_refl)|exact X].
  - rewrite set_nth_other by exact N. exists u. repeat split; auto.
Qed.
Lemma frame l s s' j u : rinv n s -> rstep n l s = Some s' -> ~ touches j l -> nth_error (rs_threads s) j = Some u ->
  exists u', nth_error (rs_threads s') j = Some u' /\ r_tid u' = r_tid u /\ alike u u'.
Proof.
  intros I H T Hj. destruct l; cbn [rstep touches] in *.
  - destruct (existsb _ _); [discriminate|]. destruct (mfind _ _ _); [discriminate|]. destruct (RingBuffer_model.init n) as [q|]; [|discriminate]. injection H as <-.
    exists u. cbn [rs_threads]. rewrite nth_error_app1 by (eapply nth_error_lt; eauto). repeat split; auto.
  - destruct (nth_error (rs_threads s) i) as [t|] eqn:Ht; [|discriminate]. destruct (r_phase t); try discriminate. destruct (RingBuffer_model.step _ _) as [q|]; [|discriminate]. injection H as <-.
    apply (set_frame _ _ t); auto.
  - destruct (nth_error (rs_threads s) i) as [t|] eqn:Ht; [|discriminate]. destruct (r_phase t); try discriminate. destruct (RingBuffer_model.step _ _) as [q|]; [|discriminate]. injection H as <-.
    apply (set_frame _ _ t); auto.
  - destruct (nth_error (rs_threads s) i) as [t|] eqn:Ht; [|discriminate]. destruct (r_phase t); try discriminate. destruct (RingBuffer_model.pp _); try discriminate. injection H as <-.
    apply (set_frame _ _ t); auto. right. split; reflexivity.
  - destruct (nth_error (rs_threads s) i) as [t|] eqn:Ht; [|discriminate]. destruct (r_phase t); try discriminate. injection H as <-.
    apply (set_frame _ _ t); auto. right. split; reflexivity.
  - injection H as <-. exists u. repeat split; auto.
  - destruct (rs_pc s); try discriminate. injection H as <-. exists u. repeat split; auto.
  - destruct (rs_pc s); try discriminate. injection H as <-. exists u. repeat split; auto.
  - destruct (rs_pc s) as [| |g todo ev|]; try discriminate. destruct todo as [|[[tid b] o] rest]; [discriminate|].
    destruct (nth_error (rs_threads s) b) as [t|] eqn:Ht; [|discriminate].
    destruct g; try discriminate; (destruct (RingBuffer_model.step _ _) as [q|] eqn:Q; [|discriminate]); injection H as <-; destruct (call_effect _ _ _ Q) as (_ & _ & Ep & Ea & _);
      apply (set_frame _ _ t); auto; right; split; auto.
  - destruct (rs_pc s) as [| |g todo ev|] eqn:P; try discriminate. destruct todo as [|[[tid b] o] rest]; [discriminate|].
    destruct (nth_error (rs_threads s) b) as [t|] eqn:Ht; [|discriminate]. destruct (handed_over _ _ _); [|discriminate]. destruct (RingBuffer_model.step _ _) as [q|] eqn:Q; [|discriminate].
    assert (E : exists p, s' = with_rpc p (with_rthreads (set_nth b (with_ring q t) (rs_threads s)) s)).
    { destruct g, (result q) as [[]|]; try discriminate; injection H as <-; try (eexists; reflexivity); eexists; rewrite <- pc_self; reflexivity. }
    destruct E as (p & ->). cbn [with_rpc with_rthreads rs_threads]. apply (set_frame _ _ t); auto. right. unfold alike. cbn [with_ring r_ring].
    pose proof (I _ _ Ht) as [(rcs & R) _ _ O]. rewrite P in O. apply head_cons in O.
    destruct g; cbn [stage_ok] in O; [cbn [RingBuffer_model.step] in Q; unfold RingBuffer_model.cstep in Q; rewrite O in Q; discriminate| | |].
    + destruct (size_effect _ _ _ _ _ R O Q) as (Ep & Ea & _). auto.
    + destruct O as (O & _). cbn [RingBuffer_model.step] in Q; unfold RingBuffer_model.cstep in Q; rewrite O in Q; discriminate.
    + destruct O as [(k & Ec & _)|(r & cnt & k & out & Ec & _)].
      * destruct (into_load _ _ _ _ _ _ R Ec Q) as (Ep & Ea & _). auto.
      * destruct (into_step _ _ _ _ _ _ _ _ _ R Ec Q) as (Ep & Ea & _). auto.
  - destruct (rs_pc s) as [| |g todo ev|]; try discriminate. destruct g; try discriminate. destruct todo; try discriminate. injection H as <-.
    exists u. destruct (_ =? 0); repeat split; auto.
  - destruct (rs_pc s); try discriminate. injection H as <-. exists u. repeat split; auto.
Qed.

Lemma ring_count l s s' : rstep n l s = Some s' -> length (rs_threads s') = length (rs_threads s) \/
  (exists tid q, l = RStart tid /\ RingBuffer_model.init n = Some q /\ rs_threads s' = rs_threads s ++ [{| r_tid := tid; r_phase := TRunning; r_ring := q |}]).
Proof.
  intros H. destruct l; cbn [rstep] in H.
  - right. destruct (existsb _ _); [discriminate|]. destruct (mfind _ _ _); [discriminate|]. destruct (RingBuffer_model.init n) as [q|]; [|discriminate]. injection H as <-. eauto.
  - left. destruct (nth_error (rs_threads s) i) as [t|] eqn:Ht; [|discriminate]. destruct (r_phase t); try discriminate. destruct (RingBuffer_model.step _ _) as [q|]; [|discriminate]. injection H as <-. apply set_nth_length.
  - left. destruct (nth_error (rs_threads s) i) as [t|] eqn:Ht; [|discriminate]. destruct (r_phase t); try discriminate. destruct (RingBuffer_model.step _ _) as [q|]; [|discriminate]. injection H as <-. apply set_nth_length.
  - left. destruct (nth_error (rs_threads s) i) as [t|] eqn:Ht; [|discriminate]. destruct (r_phase t); try discriminate. destruct (RingBuffer_model.pp _); try discriminate. injection H as <-. apply set_nth_length.
  - left. destruct (nth_error (rs_threads s) i) as [t|] eqn:Ht; [|discriminate]. destruct (r_phase t); try discriminate. injection H as <-. apply set_nth_length.
  - left. injection H as <-. reflexivity.
  - left. destruct (rs_pc s); try discriminate. injection H as <-. reflexivity.
  - left. destruct (rs_pc s); try discriminate. injection H as <-. reflexivity.
  - left. destruct (rs_pc s) as [| |g todo ev|]; try discriminate. destruct todo as [|[[tid b] o] rest]; [discriminate|].
    destruct (nth_error (rs_threads s) b) as [t|] eqn:Ht; [|discriminate].
    destruct g; try discriminate; (destruct (RingBuffer_model.step _ _) as [q|] eqn:Q; [|discriminate]); injection H as <-; apply set_nth_length.
  - left. destruct (rs_pc s) as [| |g todo ev|] eqn:P; try discriminate. destruct todo as [|[[tid b] o] rest]; [discriminate|].
    destruct (nth_error (rs_threads s) b) as [t|] eqn:Ht; [|discriminate]. destruct (handed_over _ _ _); [|discriminate]. destruct (RingBuffer_model.step _ _) as [q|] eqn:Q; [|discriminate].
    destruct g, (result q) as [[]|]; try discriminate; injection H as <-; apply set_nth_length.
  - left. destruct (rs_pc s) as [| |g todo ev|]; try discriminate. destruct g; try discriminate. destruct todo; try discriminate. injection H as <-. destruct (_ =? 0); reflexivity.
  - left. destruct (rs_pc s); try discriminate. injection H as <-. reflexivity.
Qed.
End Frame.

(** ** Thread ids do not change *)
Definition ids (s : S.state) : list nat := map S.t_id (S.s_threads s).
Lemma set_ids i t t' (l : list S.thread) : nth_error l i = Some t -> S.t_id t' = S.t_id t -> map S.t_id (S.set_nth i t' l) = map S.t_id l.
Proof. intros N E. rewrite SP.map_set. apply SP.set_same. rewrite nth_error_map, N. cbn. now rewrite E. Qed.
Lemma own_ids i t s t' k s' : nth_error (S.s_threads s) i = Some t -> S.own_flag i t s = (t', k, s') -> ids s' = ids s /\ nth_error (S.s_threads s') i = Some t' /\ S.t_id t' = S.t_id t.
Proof.
  intros N E. destruct (SP.own_flag_seen _ _ _ _ _ _ N E) as (A & _ & _ & _ & _ & B & _). split; [|auto].
  unfold S.own_flag in E. destruct (S.t_flag t); injection E as <- <- <-; [reflexivity|]. unfold ids. cbn. now apply (set_ids _ t).
Qed.
Lemma ids_step l s s' : S.step l s = Some s' -> ids s' = ids s ++ match l with S.Start tid => [tid] | _ => [] end.
Proof.
  intros E. destruct l as [tid|j|j e|j|j|j room|j b|b|j isp b|j|h r|h|h]; cbn [S.step] in E; rewrite ?app_nil_r.
  - destruct (existsb _ _); [discriminate E|]. injection E as <-. unfold ids. cbn. now rewrite map_app.
  - destruct (S.idle j s) as [t|] eqn:I; [|discriminate E]. destruct (SP.idle_some _ _ _ I) as (N & _). destruct (S.t_saved t); [|discriminate E]. injection E as <-. now apply (set_ids _ t).
  - destruct (S.idle j s) as [t|] eqn:I; [|discriminate E]. destruct (SP.idle_some _ _ _ I) as (N & _). destruct (S.own_flag j t s) as [[t' k] s1] eqn:F. injection E as <-.
    destruct (own_ids _ _ _ _ _ _ N F) as (A & B & C). rewrite <- A. now apply (set_ids _ t').
  - destruct (nth_error (S.s_threads s) j) as [t|] eqn:N; [|discriminate E]. destruct (S.t_pc t); try discriminate E. injection E as <-. now apply (set_ids _ t).
  - destruct (nth_error (S.s_threads s) j) as [t|] eqn:N; [|discriminate E]. destruct (S.t_pc t); try discriminate E. destruct (S.t_flag t); [|discriminate E]. injection E as <-. now apply (set_ids _ t).
  - destruct (nth_error (S.s_threads s) j) as [t|] eqn:N; [|discriminate E]. destruct (S.t_pc t); try discriminate E. injection E as <-. now apply (set_ids _ t).
  - destruct (S.idle j s) as [t|] eqn:I; [|discriminate E]. destruct (SP.idle_some _ _ _ I) as (N & _). destruct (S.own_flag j t s) as [[t' k] s1] eqn:F. injection E as <-.
    exact (proj1 (own_ids _ _ _ _ _ _ N F)).
  - injection E as <-. reflexivity.
  - destruct (S.idle j s) as [t|] eqn:I; [|discriminate E]. destruct (SP.idle_some _ _ _ I) as (N & _). destruct isp.
    + injection E as <-. now apply (set_ids _ t).
    + destruct (S.own_flag j t s) as [[t' k] s1] eqn:F. injection E as <-. destruct (own_ids _ _ _ _ _ _ N F) as (A & B & C). rewrite <- A. now apply (set_ids _ t').
  - destruct (S.idle j s) as [t|] eqn:I; [|discriminate E]. destruct (SP.idle_some _ _ _ I) as (N & _). destruct (S.t_saved t) as [|[[|] b] r]; [discriminate E| |].
    + injection E as <-. now apply (set_ids _ t).
    + destruct (S.own_flag j t s) as [[t' k] s1] eqn:F. injection E as <-. destruct (own_ids _ _ _ _ _ _ N F) as (A & B & C). rewrite <- A. now apply (set_ids _ t').
  - destruct (S.s_jobs s h); [discriminate E|]. injection E as <-. reflexivity.
  - destruct (S.s_jobs s h) as [q|]; [|discriminate E]. destruct (S.j_todo q) as [|[b|k b| |tid k] r]; try discriminate E; injection E as <-; reflexivity.
  - destruct (S.s_jobs s h) as [q|]; [|discriminate E]. destruct (S.j_todo q); [|discriminate E]. injection E as <-. reflexivity.
Qed.
