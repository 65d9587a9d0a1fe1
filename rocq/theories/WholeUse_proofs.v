(** What a file has while tracing is on, while it is off, and after a request (C104). *)
From Coq Require Import String List Arith NArith ZArith Bool Lia Floats.SpecFloat Sorting.Sorted Sorting.Permutation.
Import ListNotations.
From Verif Require RingBuffer_model RingBuffer_proofs.
From Verif Require Import Protocol_model Json_model Json_spec UnixSystem_proofs Collector_model Collector_spec Collector_proofs RingsStep_proofs Rings_model Rings_spec Rings_proofs.
From Verif Require Import TraceEvent_model Names_model Native_model Record_spec EndToEnd_model EndToEnd_lists File_spec.
From Verif Require Import Whole_model Whole_spec WholeParts_proofs WholeProc_proofs WholeSim_proofs WholeFile_proofs.
Local Notation length := List.length.

Lemma throughout_app (P : S.state -> Prop) a : forall b s s1, S.run a s = Some s1 -> SS.throughout P (a ++ b) s -> SS.throughout P b s1.
Proof.
  induction a as [|l a IH]; intros b s s1 R T; cbn [S.run] in R; [injection R as <-; exact T|]. destruct (S.step l s) as [s'|] eqn:E; [|discriminate R].
  cbn [app SS.throughout] in T. rewrite E in T. exact (IH _ _ _ R (proj2 T)).
Qed.
Lemma history_app p a b : history p (a ++ b) = history p a ++ history p b.
Proof. unfold history, own_steps. now rewrite !flat_map_app. Qed.

(** A full buffer holds, or seems to hold, [n - 1] events. *)
Lemma refused_full n (q q' : RingBuffer_model.st C.event) rcs c v r : RingBuffer_proofs.Inv n q rcs -> RingBuffer_model.step q (RingBuffer_model.AProd c) = Some q' -> RingBuffer_model.pp q' = RingBuffer_model.PIdle ->
  rev (RingBuffer_model.trace q') = RingBuffer_model.EPushRet v false :: r -> n - 1 <= length (acc q).
Proof.
  intros I H P T. cbn [RingBuffer_model.step] in H. unfold RingBuffer_model.pstep in H. destruct (RingBuffer_model.pp q) as [|x w next|x w next|x next] eqn:Pq; [discriminate H| | |].
  - destruct (RingBuffer_model.readable _ _ _) eqn:Re; [|discriminate H]. destruct (nth _ _ _) as [rv rc] eqn:Nt. destruct (Nat.eqb_spec next rv) as [Eq|]; injection H as <-; [|discriminate P].
    unfold RingBuffer_model.readable in Re. apply andb_prop in Re. destruct Re as (R1 & R2). apply Nat.leb_le in R1. apply Nat.ltb_lt in R2. rewrite <- (RingBuffer_proofs.i_rlen _ _ _ I) in R2.
    pose proof (RingBuffer_proofs.i_ppc _ _ _ I) as Hp. rewrite Pq in Hp. destruct Hp as (_ & Hn). rewrite (RingBuffer_proofs.i_rhist _ _ _ I) in Nt by exact R2. injection Nt as Nt _.
    pose proof (RingBuffer_proofs.i_room _ _ _ I) as Ro. pose proof (RingBuffer_proofs.i_rmono _ _ _ I _ _ R1 R2) as Mo. pose proof (RingBuffer_proofs.i_pos _ _ _ I) as Pos.
    pose proof (RingBuffer_proofs.rc_le _ _ _ _ I R2) as Le. pose proof (RingBuffer_proofs.ret_le_acc _ _ _ I) as RW. unfold acc.
    rewrite <- Eq, Hn in Nt. pose proof (RingBuffer_proofs.mod_lt_sep n _ _ Pos Nt ltac:(lia)). lia.
  - injection H as <-. discriminate P.
  - injection H as <-. cbn [RingBuffer_model.emit RingBuffer_model.trace RingBuffer_model.set_pp RingBuffer_model.p_store] in T. rewrite rev_unit in T. discriminate T.
Qed.

Section Use.
Variables (n : nat) (pid : nat -> Z) (what : nat -> nat -> tev) (fw : spec_float -> bytes) (fr : bytes -> option spec_float).

Lemma refused_step c i w w' : rinv n (w_rings w) -> winv w -> wstep n (WReturn i c false) w = Some w' -> n - 1 <= length (SS.events (w_switch w) i) /\ SS.under_way (SS.place (w_switch w) i) <> [].
Proof.
  intros I W H. cbn [wstep] in H. destruct (buffer_of i w) as [j|] eqn:Hb; [|discriminate H]. unfold rings_step in H. destruct (rstep n (RAccess j c) (w_rings w)) as [r|] eqn:St; [|discriminate H].
  cbn [w_rings] in H. destruct (pushing j r) eqn:Pu; [discriminate H|]. destruct (push_result j r) as [b|] eqn:Pr; [|discriminate H]. destruct (Bool.eqb b false) eqn:Eb; [|discriminate H].
  apply eqb_prop in Eb. subst b. unfold switch_step in H. cbn [w_switch] in H. destruct (S.step (S.Push i false) (w_switch w)) as [s'|] eqn:Sw; [|discriminate H].
  pose proof (SP.own_step _ _ _ i Sw eq_refl) as (e & P1 & _). split; [|rewrite P1; discriminate]. apply buffer_some in Hb. destruct (wi_link _ W _ _ Hb) as (u & Hu & _ & L2 & _).
  cbn [rstep] in St. rewrite Hu in St. destruct (r_phase u); try discriminate St. destruct (RingBuffer_model.step _ _) as [q|] eqn:Q; [|discriminate St]. injection St as <-.
  unfold pushing in Pu. unfold push_result in Pr. cbn [with_rthreads rs_threads] in Pu, Pr. rewrite UnixSystem_proofs.set_nth_same in Pu, Pr by (eapply nth_error_lt; eauto). cbn [with_ring r_ring] in Pu, Pr.
  destruct (RingBuffer_model.pp q) eqn:Pq; try discriminate Pu. destruct (rev (RingBuffer_model.trace q)) as [|[| v b | | | | ] rest] eqn:Tr; try discriminate Pr. injection Pr as ->.
  pose proof (I _ _ Hu) as [(rcs & Rv) _ _ _]. pose proof (refused_full _ _ _ _ _ _ _ Rv Q Pq Tr) as X. rewrite L2, map_length in X. exact X.
Qed.

(** A thread that comes to fewer tracepoints than its buffer has places finds room each time. *)
Theorem whole_room ls s p i : xrun n pid what ls x0 = Some s -> length (SS.come_to i (history p ls)) <= n - 1 -> found_room p i ls.
Proof.
  intros H L. unfold found_room. apply Forall_forall. intros a Ha. destruct a as [tid|j|j e|j|j|j room|j b|b|j isp b|j|h r|h|h]; try exact Logic.I. intros ->. destruct room; [reflexivity|]. exfalso.
  unfold history in Ha. apply in_flat_map in Ha. destruct Ha as (a & Ha & Hs). apply own_in in Ha.
  apply in_split in Ha. destruct Ha as (l1 & l2 & ->). rewrite xrun_app in H. destruct (xrun n pid what l1 x0) as [x1|] eqn:H1; [|discriminate H].
  cbn [xrun xstep] in H. destruct (wstep n a (x_proc x1 p)) as [w|] eqn:W; [|discriminate H].
  assert (exists c, a = WReturn i c false) as (c & ->).
  { destruct a; cbn [switching] in Hs; try (destruct Hs as [Hs|[]]; try discriminate Hs); try contradiction; [subst l; cbn in W; discriminate W|]. injection Hs as -> ->. eauto. }
  destruct (xrun_sim _ _ _ _ _ _ _ (rel0 n) H1) as (els & e & R & _). destruct (refused_step _ _ _ _ (re_rinv _ _ _ R p) (re_winv _ _ _ R p) W) as (A & B).
  pose proof (kept i _ _ _ (history_run n pid what p _ _ _ H1)) as K. assert (Z : SS.events S.state0 i = [] /\ SS.under_way (SS.place S.state0 i) = []) by (destruct i; auto). destruct Z as (Z1 & Z2).
  change (switches x0 p) with S.state0 in K. rewrite Z1, Z2 in K. cbn [app] in K. apply subseq_length in K. rewrite history_app, come_app, !app_length in *. unfold switches in K.
  destruct (SS.under_way (SS.place (w_switch (x_proc x1 p)) i)); [destruct (B eq_refl)|]. cbn [length] in K. lia.
Qed.

Section Recording.
Variables (k : nat) (live : nat -> bool) (ls1 : list xlabel) (s1 : xsys) (ls2 : list xlabel) (s2 : xsys) (m : mapping) (before after : list (json spec_float)).
Hypothesis Re : recording n pid what k live ls1 s1 ls2 s2.
Hypothesis Tw : times_written fw fr what.
Hypothesis Nu : names_utf8 m.
Hypothesis Wb : Forall (wf fw fr) before.
Hypothesis Wa : Forall (wf fw fr) after.

Lemma recorded_all : exists os, file_shows fw fr pid what m k s2 before after os /\
  forall p i, live p = true -> exists new, SS.events (switches s2 p) i = SS.events (switches s1 p) i ++ new /\ has_of what p i ls1 ls2 os new.
Proof.
  destruct (whole_recorded n pid what fw fr k live ls1 s1 ls2 s2 m before after Re Tw Nu Wb Wa) as (os & F & O). exists os. split; [exact F|]. intros p i Hp.
  destruct (O p i Hp) as (old & new & O1 & O2 & O3 & O4). exists new. split; [exact O2|]. exists old.
  pose proof (history_run n pid what p _ _ _ (rc_before _ _ _ _ _ _ _ _ _ Re)) as R1. pose proof (history_run n pid what p _ _ _ (rc_during _ _ _ _ _ _ _ _ _ Re)) as R2.
  split; [exact (subseq_trans _ _ (events_come i _ _ R1) _ O1)|]. split; [exact O3|]. intro Ri. apply O4.
  assert (R12 : S.run (history p (ls1 ++ ls2)) S.state0 = Some (switches s2 p)). { rewrite history_app, SP.run_app. change (switches x0 p) with S.state0 in R1. rewrite R1. exact R2. }
  exact (subseq_sorted _ _ _ (events_come i _ _ R12) Ri).
Qed.

Theorem whole_while : exists os, file_shows fw fr pid what m k s2 before after os /\
  forall p i, live p = true -> exists new, has_of what p i ls1 ls2 os new /\
    (SS.throughout (fun u => S.s_proc u = true /\ SS.thread_on u i = true) (history p ls2) (switches s1 p) -> found_room p i ls2 ->
       new ++ SS.under_way (SS.place (switches s2 p) i) = SS.under_way (SS.place (switches s1 p) i) ++ SS.come_to i (history p ls2)) /\
    (SS.throughout (fun u => S.s_proc u = false) (history p ls2) (switches s1 p) -> new = [] \/ new = SS.past_process (SS.place (switches s1 p) i)) /\
    (SS.throughout (fun u => SS.thread_on u i = false) (history p ls2) (switches s1 p) -> new = [] \/ new = SS.past_both (SS.place (switches s1 p) i)).
Proof.
  destruct recorded_all as (os & F & O). exists os. split; [exact F|]. intros p i Hp. destruct (O p i Hp) as (new & E & Ho). exists new. split; [exact Ho|].
  pose proof (history_run n pid what p _ _ _ (rc_during _ _ _ _ _ _ _ _ _ Re)) as R2. split; [|split].
  - intros T Ro. pose proof (SP.records i _ _ _ R2 T Ro) as X. rewrite E, <- app_assoc in X. exact (app_inv_head _ _ _ X).
  - intros T. destruct (SP.stops_process i _ _ _ R2 T) as (x & X1 & X2). rewrite E in X1. apply app_inv_head in X1. subst x. exact X2.
  - intros T. destruct (SP.stops_thread i _ _ _ R2 T) as (x & X1 & X2). rewrite E in X1. apply app_inv_head in X1. subst x. exact X2.
Qed.

Lemma answered_throughout p r u : answered p ls1 ls2 r u ->
  SS.throughout (fun v => S.s_proc v = SS.wanted_process r (S.s_proc u) /\ forall i, SS.not_ended u i -> SS.thread_on v i = SS.wanted_of r u i) (history p ls2) (switches s1 p).
Proof.
  intros (h0 & h & hs & h2 & Eh & R0 & Nr & Na & Q). pose proof (history_run n pid what p _ _ _ (rc_before _ _ _ _ _ _ _ _ _ Re)) as R1. pose proof (history_run n pid what p _ _ _ (rc_during _ _ _ _ _ _ _ _ _ Re)) as R2.
  change (switches x0 p) with S.state0 in R1. rewrite Eh, SP.run_app, R0, SP.run_app in R1. destruct (S.run (SS.handling h r hs) u) as [v|] eqn:Rh; [|discriminate R1].
  apply Forall_app in Q. destruct Q as (Q1 & Q2). assert (R12 : S.run (h2 ++ history p ls2) v = Some (switches s2 p)) by (rewrite SP.run_app, R1; exact R2).
  exact (throughout_app _ _ _ _ _ R1 (SP.calm_after _ _ _ _ _ _ _ _ R0 Nr Q1 Na Rh Q2 R12)).
Qed.
Theorem whole_asked : exists os, file_shows fw fr pid what m k s2 before after os /\
  forall p i r u, live p = true -> answered p ls1 ls2 r u -> exists new, has_of what p i ls1 ls2 os new /\
    (SS.wanted_process r (S.s_proc u) = true -> SS.not_ended u i -> SS.wanted_of r u i = true -> found_room p i ls2 ->
       new ++ SS.under_way (SS.place (switches s2 p) i) = SS.under_way (SS.place (switches s1 p) i) ++ SS.come_to i (history p ls2)) /\
    (SS.wanted_process r (S.s_proc u) = false -> new = [] \/ new = SS.past_process (SS.place (switches s1 p) i)) /\
    (SS.not_ended u i -> SS.wanted_of r u i = false -> new = [] \/ new = SS.past_both (SS.place (switches s1 p) i)).
Proof.
  destruct whole_while as (os & F & O). exists os. split; [exact F|]. intros p i r u Hp An. destruct (O p i Hp) as (new & Ho & A & B & C). exists new. split; [exact Ho|].
  pose proof (answered_throughout _ _ _ An) as T. split; [|split].
  - intros W1 Ne W2 Ro. apply A; [|exact Ro]. refine (SP.throughout_impl _ _ _ _ _ T). intros v (V1 & V2). split; [congruence|]. rewrite (V2 i Ne). exact W2.
  - intros W1. apply B. refine (SP.throughout_impl _ _ _ _ _ T). intros v (V1 & V2). congruence.
  - intros Ne W2. apply C. refine (SP.throughout_impl _ _ _ _ _ T). intros v (V1 & V2). rewrite (V2 i Ne). exact W2.
Qed.
End Recording.
End Use.
