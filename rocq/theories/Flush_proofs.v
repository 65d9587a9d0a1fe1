(** From any state a recording can be completed by the library's own threads (C107). *)
From Coq Require Import String List Arith NArith ZArith Bool Lia Floats.SpecFloat Sorting.Permutation.
Import ListNotations.
From Verif Require RingBuffer_model Collector_model Collector_proofs Rings_spec Rings_proofs RingsUse_proofs.
From Verif Require EndToEnd_proofs EndToEnd_parts OMap_model.
From Verif Require Import Collector_proofs RingsStep_proofs Rings_proofs.
From Verif Require Import Protocol_model Json_model Json_spec TraceEvent_model Names_model Collector_spec Native_model Record_model Record_spec Cbor_model EndToEnd_model EndToEnd_spec File_spec.
From Verif Require Import Whole_model Whole_spec WholeParts_proofs WholeProc_proofs WholeSim_proofs WholeFile_proofs Flush_spec FlushRings_proofs FlushParts_proofs.
Local Notation length := List.length.

Section Flush.
Variables (n : nat) (pid : nat -> Z) (what : nat -> nat -> tev).
Local Notation xstep := (xstep n pid what).
Local Notation xrun := (xrun n pid what).

(** ** What is true of every state *)
Record xok (s : xsys) : Prop := {
  xo_rel : exists e, rel n s e;
  xo_stage : forall p, staged (w_rings (x_proc s p));
  xo_net : forall p, netok (x_net s p)
}.
Lemma netok_run ls : forall a b, netok a -> U.run ls a = Some b -> netok b.
Proof. induction ls as [|l ls IH]; intros a b K H; cbn [U.run] in H; [injection H as <-; exact K|]. destruct (U.step l a) as [c|] eqn:E; [|discriminate H]. eauto using netok_step. Qed.
Lemma xok_step l s s' : xok s -> xstep l s = Some s' -> xok s'.
Proof.
  intros [(e & R) W K] H. destruct (xstep_sim _ _ _ _ _ _ _ R H) as (els & e' & R' & _). constructor; [eauto| |].
  - intro p. destruct l as [q a|q a|a]; cbn [Whole_model.xstep] in H.
    + destruct (wstep n a (x_proc s q)) as [w|] eqn:E; [|discriminate H]. destruct (U.run _ _); [|discriminate H]. injection H as <-. cbn [x_proc].
      destruct (Nat.eq_dec p q) as [->|N]; [rewrite upd_at|rewrite upd_other by exact N; auto]. destruct (wstep_parts _ _ _ _ E) as (_ & [->|(rl & Rs)]); [auto|exact (staged_step _ _ _ _ Rs (W q))].
    + destruct (reserved a); [discriminate H|]. destruct (U.step _ _); [|discriminate H]. destruct (P.lrun _ _); [|discriminate H]. injection H as <-. exact (W p).
    + destruct a; try discriminate H; (destruct (P.lstep _ _); [|discriminate H]; injection H as <-; exact (W p)).
  - intro p. destruct l as [q a|q a|a]; cbn [Whole_model.xstep] in H.
    + destruct (wstep n a (x_proc s q)) as [w|] eqn:E; [|discriminate H]. destruct (U.run _ _) as [nn|] eqn:Un; [|discriminate H]. injection H as <-. cbn [x_net].
      destruct (Nat.eq_dec p q) as [->|N]; [rewrite upd_at|rewrite upd_other by exact N; auto]. eauto using netok_run.
    + destruct (reserved a); [discriminate H|]. destruct (U.step _ _) as [nn|] eqn:Un; [|discriminate H]. destruct (P.lrun _ _); [|discriminate H]. injection H as <-. cbn [x_net].
      destruct (Nat.eq_dec p q) as [->|N]; [rewrite upd_at|rewrite upd_other by exact N; auto]. eauto using netok_step.
    + destruct a; try discriminate H; (destruct (P.lstep _ _); [|discriminate H]; injection H as <-; exact (K p)).
Qed.
Lemma xok_run ls : forall s s', xok s -> xrun ls s = Some s' -> xok s'.
Proof. induction ls as [|l ls IH]; intros s s' K H; cbn [Whole_model.xrun] in H; [injection H as <-; exact K|]. destruct (xstep l s) as [s1|] eqn:E; [|discriminate H]. eauto using xok_step. Qed.
Lemma xok0 : xok x0.
Proof. constructor; [exists e0; apply rel0|intro p; exact Logic.I|intro p; exact netok0]. Qed.

(** ** The sender of a process *)
(** Only process [p] and its transport change, and of these not the switches and the connection. *)
Record only (p : nat) (s s' : xsys) : Prop := {
  on_proc : forall q, q <> p -> x_proc s' q = x_proc s q;
  on_net : forall q, q <> p -> x_net s' q = x_net s q;
  on_switch : forall q, w_switch (x_proc s' q) = w_switch (x_proc s q);
  on_still : still (x_net s p) (x_net s' p)
}.
Lemma only_refl p s : only p s s. Proof. constructor; auto using still_refl. Qed.
Lemma only_trans p a b c : only p a b -> only p b c -> only p a c.
Proof.
  intros [A1 A2 A3 A4] [B1 B2 B3 B4]. constructor; [| | |eapply still_trans; eauto]; intros q; [intro N; rewrite B1, A1 by exact N; reflexivity|intro N; rewrite B2, A2 by exact N; reflexivity|now rewrite B3, A3].
Qed.

Lemma make_still nm ds : forall a, exists b, U.run (map (U.MakeBcast nm) ds) a = Some b /\ still a b.
Proof.
  induction ds as [|d ds IH]; intros a; [exists a; split; [reflexivity|apply still_refl]|]. cbn [map U.run U.step].
  match goal with |- context [U.run _ ?x] => destruct (IH x) as (b & E & X) end. exists b. split; [exact E|]. exact X.
Qed.

Lemma sender_step p a s r : Rings_spec.of_sender a -> R.rstep n a (w_rings (x_proc s p)) = Some r ->
  exists s', xstep (XProc p (WSender a)) s = Some s' /\ w_rings (x_proc s' p) = r /\ only p s s' /\ x_prov s' = x_prov s.
Proof.
  intros Of Rs. assert (Ob : of_sender a = true) by (destruct a; try contradiction; reflexivity). cbn [Whole_model.xstep wstep]. rewrite Ob. unfold rings_step. rewrite Rs. cbn [w_rings].
  set (new := skipn _ (R.rs_sent r)). destruct (make_still receiver (map (filed_packet pid what p) new) (x_net s p)) as (b & E & X). rewrite map_map in E. rewrite E.
  eexists. split; [reflexivity|]. cbn [x_proc x_net x_prov]. rewrite upd_at. split; [reflexivity|]. split; [|reflexivity]. constructor; cbn [x_proc x_net].
  - intros q N. now apply upd_other.
  - intros q N. now apply upd_other.
  - intros q. destruct (Nat.eq_dec q p) as [->|N]; [now rewrite upd_at|now rewrite upd_other].
  - rewrite upd_at. exact X.
Qed.
Lemma sender_run p ls : forall s r, Forall Rings_spec.of_sender ls -> R.rrun n ls (w_rings (x_proc s p)) = Some r ->
  exists s', xrun (map (fun a => XProc p (WSender a)) ls) s = Some s' /\ w_rings (x_proc s' p) = r /\ only p s s' /\ x_prov s' = x_prov s.
Proof.
  induction ls as [|a ls IH]; intros s r F H; cbn [R.rrun] in H.
  - injection H as <-. exists s. split; [reflexivity|]. split; [reflexivity|]. split; [apply only_refl|reflexivity].
  - destruct (R.rstep n a _) as [r1|] eqn:E; [|discriminate H]. inversion F as [|? ? F1 F2]; subst. destruct (sender_step _ _ _ _ F1 E) as (s1 & X1 & W1 & O1 & V1). rewrite <- W1 in H.
    destruct (IH _ _ F2 H) as (s2 & X2 & W2 & O2 & V2). exists s2. cbn [map Whole_model.xrun]. rewrite X1. split; [exact X2|]. split; [exact W2|]. split; [eapply only_trans; eauto|congruence].
Qed.

(** ** Its transport *)
Lemma begins_run (ds : list (nat * bytes)) : forall q, exists q', P.lrun (map (fun x => P.LBegin (snd x)) ds) q = Some q' /\ P.p_srcs q' = P.p_srcs q.
Proof.
  induction ds as [|d ds IH]; intros q; [exists q; split; reflexivity|]. cbn [map P.lrun P.lstep]. match goal with |- context [P.lrun _ ?x] => destruct (IH x) as (b & E & X) end. exists b. split; [exact E|]. exact X.
Qed.
Lemma net_step p a s b : reserved a = false -> U.step a (x_net s p) = Some b -> still (x_net s p) b ->
  exists s', xstep (XNet p a) s = Some s' /\ x_net s' p = b /\ x_proc s' = x_proc s /\ only p s s'.
Proof.
  intros Re St X. cbn [Whole_model.xstep]. rewrite Re, St. cbv zeta. match goal with |- context [P.lrun ?l ?r] => assert (Y : exists q, P.lrun l r = Some q) end. { match goal with |- context [P.lrun (map _ ?x) _] => destruct (begins_run x (x_prov s)) as (q & E & _); exists q; exact E end. } destruct Y as (q & E). rewrite E. eexists. split; [reflexivity|].
  cbn [x_net x_proc]. rewrite upd_at. split; [reflexivity|]. split; [reflexivity|]. constructor; cbn [x_proc x_net]; auto; [intros r N; now apply upd_other|rewrite upd_at; exact X].
Qed.

Lemma queue_empty p : forall k s, length (U.s_queue (x_net s p)) = k -> U.s_up (x_net s p) = true ->
  exists ls s', xrun ls s = Some s' /\ Forall background ls /\ only p s s' /\ x_proc s' = x_proc s /\ U.s_queue (x_net s' p) = [].
Proof.
  induction k as [|k IH]; intros s L Up.
  - exists [], s. split; [reflexivity|]. split; [constructor|]. split; [apply only_refl|]. split; [reflexivity|]. now apply length_zero_iff_nil.
  - destruct (disp_one (x_net s p) Up) as (b & St & X & L1 & _); [intros E; rewrite E in L; discriminate L|]. destruct (net_step p U.DispBcast s b eq_refl St X) as (s1 & X1 & N1 & P1 & O1).
    destruct (IH s1) as (ls & s2 & R2 & F2 & O2 & P2 & Q2); [rewrite N1; lia|rewrite N1; destruct X as (-> & _); exact Up|].
    exists (XNet p U.DispBcast :: ls), s2. cbn [Whole_model.xrun]. rewrite X1. split; [exact R2|]. split; [constructor; [exact Logic.I|exact F2]|]. split; [eapply only_trans; eauto|]. split; [congruence|exact Q2].
Qed.
Lemma input_empty p : forall i s, xok s -> U.c_in (U.s_cl (x_net s p) 0) = i -> U.s_up (x_net s p) = true -> U.c_open (U.s_cl (x_net s p) 0) = true -> U.s_queue (x_net s p) = [] ->
  exists ls s', xrun ls s = Some s' /\ Forall background ls /\ only p s s' /\ x_proc s' = x_proc s /\ U.s_queue (x_net s' p) = [] /\ U.c_in (U.s_cl (x_net s' p) 0) = [].
Proof.
  induction i as [|i r IH]; intros s K E Up Op Q.
  - exists [], s. split; [reflexivity|]. split; [constructor|]. split; [apply only_refl|]. auto.
  - destruct (recv_one (x_net s p) i r (xo_net _ K p) Up Op E) as (b & St & X & E1 & Q1). destruct (net_step p (U.CliRecv 0 None) s b eq_refl St X) as (s1 & X1 & N1 & P1 & O1).
    destruct X as (U1 & _ & U3 & _). destruct (IH s1) as (ls & s2 & R2 & F2 & O2 & P2 & Q2); [eapply xok_step; eauto|now rewrite N1|now rewrite N1, U1|now rewrite N1, U3|now rewrite N1, Q1|].
    exists (XNet p (U.CliRecv 0 None) :: ls), s2. cbn [Whole_model.xrun]. rewrite X1. split; [exact R2|]. split; [constructor; [exact Logic.I|exact F2]|]. split; [eapply only_trans; eauto|]. split; [congruence|exact Q2].
Qed.

(** ** One process *)
Lemma reached_still p s s' : still (x_net s p) (x_net s' p) -> reached p s -> reached p s'.
Proof. intros (_ & A & B & C) (X & Y & Z). unfold reached. rewrite A, B, C. auto. Qed.
Lemma process_flushed p s : xok s -> able p s -> exists ls s', xrun ls s = Some s' /\ Forall background ls /\ only p s s' /\ arrived p s' /\ reached p s'.
Proof.
  intros K (Up & Go & Re). destruct (xo_rel _ K) as (e & [A B C _ T _ _]). destruct (T p) as (T1 & T2).
  destruct (rings_flushed n _ _ (A p) (C p) (B p) T2 T1 (xo_stage _ K p) Go) as (rs & r & R1 & F1 & _ & _ & Sent).
  destruct (sender_run p _ _ _ F1 R1) as (s1 & X1 & W1 & O1 & _). pose proof (xok_run _ _ _ K X1) as K1.
  pose proof (on_still _ _ _ O1) as (Up1 & _ & Op1 & _). rewrite Up in Up1. destruct Re as (Re1 & Re2 & Re3). rewrite Re2 in Op1.
  destruct (queue_empty p _ s1 eq_refl Up1) as (l2 & s2 & X2 & F2 & O2 & P2 & Q2). pose proof (xok_run _ _ _ K1 X2) as K2. pose proof (on_still _ _ _ O2) as (Up2 & _ & Op2 & _). rewrite Up1 in Up2. rewrite Op1 in Op2.
  destruct (input_empty p _ s2 K2 eq_refl Up2 Op2 Q2) as (l3 & s3 & X3 & F3 & O3 & P3 & Q3 & I3).
  exists (map (fun a => XProc p (WSender a)) rs ++ l2 ++ l3), s3. rewrite xrun_app, X1, xrun_app, X2. split; [exact X3|]. pose proof (only_trans _ _ _ _ O1 (only_trans _ _ _ _ O2 O3)) as O.
  split; [|split; [exact O|split; [|apply (reached_still _ _ _ (on_still _ _ _ O)); split; [exact Re1|]; split; [exact Re2|exact Re3]]]].
  - apply Forall_app. split; [|now apply Forall_app]. apply Forall_map. eapply Forall_impl; [|exact F1]. intros []; cbn; intros X; try contradiction; discriminate.
  - split; [|split].
    + rewrite P3, P2. rewrite W1. exact Sent.
    + rewrite Q3. intros nm d [].
    + rewrite I3. intros m g [].
Qed.

(** ** All of them *)
Lemma all_flushed ps : forall s, xok s -> (forall p, In p ps -> able p s) -> NoDup ps ->
  exists ls s', xrun ls s = Some s' /\ Forall background ls /\ (forall q, w_switch (x_proc s' q) = w_switch (x_proc s q)) /\ (forall q, ~ In q ps -> x_proc s' q = x_proc s q /\ x_net s' q = x_net s q) /\
    forall p, In p ps -> arrived p s' /\ reached p s'.
Proof.
  induction ps as [|p ps IH]; intros s K A D.
  - exists [], s. split; [reflexivity|]. split; [constructor|]. split; [auto|]. split; [auto|intros p []].
  - inversion D as [|? ? Np D']; subst. destruct (process_flushed p s K) as (l1 & s1 & X1 & F1 & O1 & Ar1 & Re1); [apply A; left; reflexivity|]. pose proof (xok_run _ _ _ K X1) as K1.
    destruct (IH s1 K1) as (l2 & s2 & X2 & F2 & W2 & E2 & Ar2); [|exact D'|].
    { intros q Hq. assert (q <> p) by congruence. specialize (A q (or_intror Hq)). unfold able, reached in *. rewrite (on_net _ _ _ O1), (on_proc _ _ _ O1) by assumption. exact A. }
    exists (l1 ++ l2), s2. rewrite xrun_app, X1. split; [exact X2|]. split; [now apply Forall_app|]. split; [intro q; now rewrite W2, (on_switch _ _ _ O1)|]. split.
    + intros q Hq. destruct (E2 q) as (E3 & E4); [intro X; apply Hq; right; exact X|]. rewrite E3, E4. assert (q <> p) by (intros ->; apply Hq; left; reflexivity). now rewrite (on_net _ _ _ O1), (on_proc _ _ _ O1).
    + intros q [<-|Hq]; [|auto]. destruct (E2 p Np) as (E3 & E4). unfold arrived, reached in *. now rewrite E3, E4.
Qed.

Lemma serving_run ls : forall s q, Forall serving ls -> P.lrun ls (x_prov s) = Some q -> exists s', xrun (map XPrv ls) s = Some s' /\ x_proc s' = x_proc s /\ x_net s' = x_net s /\ x_prov s' = q.
Proof.
  induction ls as [|a ls IH]; intros s q F H; cbn [P.lrun] in H.
  - injection H as <-. exists s. auto.
  - inversion F as [|? ? F1 F2]; subst. destruct (P.lstep a (x_prov s)) as [q1|] eqn:E; [|discriminate H].
    destruct (IH {| x_proc := x_proc s; x_net := x_net s; x_prov := q1 |} q F2 H) as (s' & X & Y). exists s'. cbn [map Whole_model.xrun Whole_model.xstep]. destruct a; try contradiction; rewrite E; auto.
Qed.

Theorem flushed ls s ps : xrun ls x0 = Some s -> (forall p, In p ps -> able p s) ->
  exists ls2 s2, xrun ls2 s = Some s2 /\ Forall background ls2 /\ all_returned s2 /\ (forall p, In p ps -> arrived p s2 /\ reached p s2) /\
    (forall p, switches s2 p = switches s p) /\ (forall q, ~ In q ps -> x_proc s2 q = x_proc s q /\ x_net s2 q = x_net s q).
Proof.
  intros H A. pose proof (xok_run _ _ _ xok0 H) as K. set (qs := nodup Nat.eq_dec ps).
  destruct (all_flushed qs s K) as (l1 & s1 & X1 & F1 & W1 & E1 & Ar1); [intros p Hp; apply A; now apply nodup_In in Hp|apply NoDup_nodup|].
  destruct (serve_all _ (x_prov s1) (le_n _)) as (l2 & q & R2 & F2 & D2). destruct (serving_run _ _ _ F2 R2) as (s2 & X2 & P2 & N2 & V2).
  exists (l1 ++ map XPrv l2), s2. rewrite xrun_app, X1. split; [exact X2|]. split.
  { apply Forall_app. split; [exact F1|]. apply Forall_map. eapply Forall_impl; [|exact F2]. intros []; cbn; auto. }
  split; [unfold all_returned; rewrite V2; exact D2|]. split; [|split].
  - intros p Hp. destruct (Ar1 p) as (B1 & B2); [now apply nodup_In|]. unfold arrived, reached in *. now rewrite P2, N2.
  - intros p. unfold switches. rewrite P2. apply W1.
  - intros r Hr. rewrite P2, N2. apply E1. intros X. apply Hr. now apply nodup_In in X.
Qed.

(** ** What nobody can complete *)
Lemma sender_gone p l s s' : xstep l s = Some s' -> R.rs_pc (w_rings (x_proc s p)) = R.RStopped ->
  R.rs_pc (w_rings (x_proc s' p)) = R.RStopped /\ R.rs_sent (w_rings (x_proc s' p)) = R.rs_sent (w_rings (x_proc s p)).
Proof.
  intros H Pc. destruct l as [q a|q a|a]; cbn [Whole_model.xstep] in H.
  - destruct (wstep n a (x_proc s q)) as [w|] eqn:E; [|discriminate H]. destruct (U.run _ _) as [nn|] eqn:Un; [|discriminate H]. injection H as <-. cbn [x_proc].
    destruct (Nat.eq_dec p q) as [->|N]; [rewrite upd_at|rewrite upd_other by exact N; auto]. destruct (wstep_parts _ _ _ _ E) as (_ & [->|(rl & Rs)]); [auto|].
    destruct rl; cbn [R.rstep] in Rs; rewrite ?Pc in Rs; try discriminate Rs.
    + destruct (existsb _ _); [discriminate Rs|]. destruct (OMap_model.mfind _ _ _); [discriminate Rs|]. destruct (RingBuffer_model.init n); [|discriminate Rs]. injection Rs as <-. auto.
    + destruct (nth_error _ _) as [t|]; [|discriminate Rs]. destruct (R.r_phase t); try discriminate Rs. destruct (RingBuffer_model.step _ _); [|discriminate Rs]. injection Rs as <-. auto.
    + destruct (nth_error _ _) as [t|]; [|discriminate Rs]. destruct (R.r_phase t); try discriminate Rs. destruct (RingBuffer_model.step _ _); [|discriminate Rs]. injection Rs as <-. auto.
    + destruct (nth_error _ _) as [t|]; [|discriminate Rs]. destruct (R.r_phase t); try discriminate Rs. destruct (RingBuffer_model.pp _); try discriminate Rs. injection Rs as <-. auto.
    + destruct (nth_error _ _) as [t|]; [|discriminate Rs]. destruct (R.r_phase t); try discriminate Rs. injection Rs as <-. auto.
    + injection Rs as <-. auto.
  - destruct (reserved a); [discriminate H|]. destruct (U.step _ _); [|discriminate H]. destruct (P.lrun _ _); [|discriminate H]. injection H as <-. auto.
  - destruct a; try discriminate H; (destruct (P.lstep _ _); [|discriminate H]; injection H as <-; auto).
Qed.
Lemma sender_stays p ls : forall s s', xrun ls s = Some s' -> R.rs_pc (w_rings (x_proc s p)) = R.RStopped -> R.rs_sent (w_rings (x_proc s' p)) = R.rs_sent (w_rings (x_proc s p)).
Proof.
  induction ls as [|l ls IH]; intros s s' H Pc; cbn [Whole_model.xrun] in H; [injection H as <-; reflexivity|]. destruct (xstep l s) as [s1|] eqn:E; [|discriminate H].
  destruct (sender_gone _ _ _ _ E Pc) as (P1 & S1). rewrite <- S1. eauto.
Qed.
(** Sent and not yet sent, of a thread. *)
Lemma split_accepted s e p j t : rel n s e -> nth_error (R.rs_threads (w_rings (x_proc s p))) j = Some t ->
  acc_of j (e_col e p) = Rings_spec.accepted_of t /\ exists more, map Some (Rings_spec.accepted_of t) = Rings_spec.sent_of j (w_rings (x_proc s p)) ++ more.
Proof.
  intros R Hu. pose proof (re_sim _ _ _ R p) as Si. pose proof (re_cinv _ _ _ R p) as Ci. destruct (re_att _ _ _ R p) as (_ & Lo).
  destruct (Forall2_at _ _ _ (sm_threads _ _ Si) _ _ Hu) as (t' & Ht' & _ & _ & T & _). pose proof (ci_acc _ Ci _ _ Ht') as Ac. rewrite Lo in Ac. cbn [app] in Ac. rewrite T in Ac.
  change (Rings_spec.accepted_of t) with (acc (R.r_ring t)). split; [unfold acc_of; rewrite Ht'; exact T|].
  unfold Rings_spec.sent_of. rewrite (sm_sent _ _ Si), all_wrap, of_wrap. rewrite Ac, !map_app. eauto.
Qed.
Theorem sender_ended ls s p j t ls2 s2 : xrun ls x0 = Some s -> R.rs_pc (w_rings (x_proc s p)) = R.RStopped -> nth_error (R.rs_threads (w_rings (x_proc s p))) j = Some t ->
  Rings_spec.sent_of j (w_rings (x_proc s p)) <> map Some (Rings_spec.accepted_of t) -> xrun ls2 s = Some s2 -> ~ arrived p s2.
Proof.
  intros H Pc Ht Ne H2 (Ar & _). destruct (xrun_sim _ _ _ _ _ _ _ (rel0 n) H) as (els1 & e1 & R1 & _). destruct (xrun_sim _ _ _ _ _ _ _ R1 H2) as (els2 & e2 & R2 & F2).
  destruct (split_accepted _ _ _ _ _ R1 Ht) as (A1 & more & M1). pose proof (fo_acc _ _ _ _ _ _ _ _ F2 p j) as Fa. rewrite A1 in Fa.
  pose proof (sender_stays p _ _ _ H2 Pc) as Sn. assert (L : Rings_spec.accepted_of t <> []) by (intros Z; rewrite Z in M1, Ne; cbn [map] in M1, Ne; symmetry in M1; apply app_eq_nil in M1; destruct M1; congruence).
  destruct (nth_error (R.rs_threads (w_rings (x_proc s2 p))) j) as [t2|] eqn:Ht2.
  - destruct (split_accepted _ _ _ _ _ R2 Ht2) as (A2 & _). rewrite A2 in Fa. specialize (Ar _ _ Ht2). unfold Rings_spec.sent_of in Ar. rewrite Sn in Ar. change (Rings_spec.sent_of j (w_rings (x_proc s p)) = map Some (Rings_spec.accepted_of t2)) in Ar.
    rewrite Fa, map_app in Ar. pose proof (f_equal (@length _) Ar) as La. pose proof (f_equal (@length _) M1) as Lm. rewrite app_length in La, Lm.
    assert (Z : more = []) by (apply length_zero_iff_nil; lia). rewrite Z, app_nil_r in M1. apply Ne. symmetry. exact M1.
  - apply nth_error_None in Ht2. rewrite (Forall2_len _ _ _ (sm_threads _ _ (re_sim _ _ _ R2 p))) in Ht2. apply nth_error_None in Ht2.
    assert (Z : acc_of j (e_col e2 p) = []) by (unfold acc_of; now rewrite Ht2). rewrite Z in Fa. symmetry in Fa. apply app_eq_nil in Fa. destruct Fa. contradiction.
Qed.

(** The queue of a server that is gone stays. *)
Lemma queue_step l s s' : U.step l s = Some s' -> U.s_up s = false -> U.s_up s' = false /\ forall x, In x (U.s_queue s) -> In x (U.s_queue s').
Proof.
  intros H Up. destruct l; cbn [U.step] in H; rewrite ?Up in H; cbn [negb orb] in H; rewrite ?orb_true_r in H; try discriminate H;
    repeat match type of H with context [match ?x with _ => _ end] => destruct x; try discriminate H end;
    match type of H with Some ?y = Some ?z => assert (X : z = y) by congruence; clear H; subst s' end; cbn [U.s_up U.s_queue U.with_cl U.with_conn U.with_calls U.with_up]; (split; [first [exact Up|reflexivity]|]); intros x Hx; try exact Hx.
  apply in_or_app. auto.
Qed.
Lemma queue_run ls : forall s s', U.run ls s = Some s' -> U.s_up s = false -> U.s_up s' = false /\ forall x, In x (U.s_queue s) -> In x (U.s_queue s').
Proof.
  induction ls as [|l ls IH]; intros s s' H Up; cbn [U.run] in H; [injection H as <-; auto|]. destruct (U.step l s) as [s1|] eqn:E; [|discriminate H].
  destruct (queue_step _ _ _ E Up) as (U1 & Q1). destruct (IH _ _ H U1) as (U2 & Q2). auto.
Qed.
Lemma queue_xstep p l s s' : xstep l s = Some s' -> U.s_up (x_net s p) = false -> U.s_up (x_net s' p) = false /\ forall x, In x (U.s_queue (x_net s p)) -> In x (U.s_queue (x_net s' p)).
Proof.
  intros H Up. destruct l as [q a|q a|a]; cbn [Whole_model.xstep] in H.
  - destruct (wstep n a (x_proc s q)) as [w|] eqn:E; [|discriminate H]. destruct (U.run _ _) as [nn|] eqn:Un; [|discriminate H]. injection H as <-. cbn [x_net].
    destruct (Nat.eq_dec p q) as [->|N]; [rewrite upd_at|rewrite upd_other by exact N; auto]. eapply queue_run; eassumption.
  - destruct (reserved a); [discriminate H|]. destruct (U.step _ _) as [nn|] eqn:Un; [|discriminate H]. destruct (P.lrun _ _); [|discriminate H]. injection H as <-. cbn [x_net].
    destruct (Nat.eq_dec p q) as [->|N]; [rewrite upd_at|rewrite upd_other by exact N; auto]. eapply queue_step; eassumption.
  - destruct a; try discriminate H; (destruct (P.lstep _ _); [|discriminate H]; injection H as <-; auto).
Qed.
Theorem server_gone p d ls2 : forall s s2, U.s_up (x_net s p) = false -> In (receiver, d) (U.s_queue (x_net s p)) -> xrun ls2 s = Some s2 -> ~ arrived p s2.
Proof.
  induction ls2 as [|l ls IH]; intros s s2 Up Q H; cbn [Whole_model.xrun] in H.
  - injection H as <-. intros (_ & A & _). exact (A _ _ Q eq_refl).
  - destruct (xstep l s) as [s1|] eqn:E; [|discriminate H]. destruct (queue_xstep p _ _ _ E Up) as (U1 & Q1). eapply IH; eauto.
Qed.

(** ** A recording *)
Variables (fw : spec_float -> bytes) (fr : bytes -> option spec_float).
Lemma background_alone k ls : Forall background ls -> left_alone k ls.
Proof. intros F. rewrite Forall_forall in F. split; [intros b|]; intros X; exact (F _ X). Qed.
Lemma background_light ls : Forall background ls -> filter by_process ls = [].
Proof. induction 1 as [|l ls B F IH]; [reflexivity|]. cbn [filter]. destruct l as [p []|p a|a]; cbn in *; try contradiction; exact IH. Qed.
Lemma background_start ls p tid : Forall background ls -> ~ In (XProc p (WStart tid)) ls.
Proof. intros F X. rewrite Forall_forall in F. exact (F _ X). Qed.
Lemma alone_app k a b : left_alone k a -> left_alone k b -> left_alone k (a ++ b).
Proof. intros (A1 & A2) (B1 & B2). split; [intros c|]; intros X; apply in_app_or in X; destruct X as [X|X]; [exact (A1 _ X)|exact (B1 _ X)|exact (A2 X)|exact (B2 X)]. Qed.

Theorem completes k ps ls1 s1 ls2 s2 m before after : possible pid what (ls1 ++ ls2) -> xrun ls1 x0 = Some s1 -> xrun ls2 s1 = Some s2 -> records k s1 -> left_alone k ls2 ->
  (forall p, In p ps -> reached p s1 /\ able p s2) -> times_written fw fr what -> names_utf8 m -> Forall (wf fw fr) before -> Forall (wf fw fr) after ->
  exists ls3 s3 os, xrun ls3 s2 = Some s3 /\ Forall background ls3 /\ file_shows fw fr pid what m k s3 before after os /\
    forall p i, In p ps -> exists old new, subseq old (SS.events (switches s1 p) i) /\ SS.events (switches s2 p) i = SS.events (switches s1 p) i ++ new /\
      Permutation (of_thread p i os) (old ++ new) /\ (rising what p (SS.events (switches s2 p) i) -> of_thread p i os = old ++ new).
Proof.
  intros Po H1 H2 Rc La Ab Tw Nu Wb Wa. assert (H12 : xrun (ls1 ++ ls2) x0 = Some s2) by now rewrite xrun_app, H1.
  destruct (flushed _ _ ps H12) as (ls3 & s3 & H3 & F & Al & Ar & Sw & _); [intros p Hp; apply Ab, Hp|].
  set (live := fun p => existsb (Nat.eqb p) ps). assert (Li : forall p, live p = true <-> In p ps).
  { intro p. unfold live. rewrite existsb_exists. split; [intros (q & Hq & E); apply Nat.eqb_eq in E; now subst|intro Hp; exists p; split; [exact Hp|apply Nat.eqb_refl]]. }
  destruct (whole_recorded n pid what fw fr k live ls1 s1 (ls2 ++ ls3) s3 m before after) as (os & Fs & X); auto.
  { constructor; auto.
    - destruct Po as (P1 & P2 & P3 & P4). split; [exact P1|]. split; [exact P2|]. split.
      + intros p tid Hin. rewrite app_assoc in Hin. apply in_app_or in Hin. destruct Hin as [Hin|Hin]; [eauto|]. destruct (background_start _ _ _ F Hin).
      + rewrite app_assoc, filter_app, (background_light _ F), app_nil_r. exact P4.
    - rewrite xrun_app, H2. exact H3.
    - apply alone_app; [exact La|now apply background_alone].
    - intros p Hp. apply Li in Hp. destruct (Ar p Hp). split; [apply Ab, Hp|]. auto. }
  exists ls3, s3, os. split; [exact H3|]. split; [exact F|]. split; [exact Fs|]. intros p i Hp. destruct (X p i) as (old & new & X1 & X2 & X3 & X4); [now apply Li|].
  rewrite Sw in X2, X4. eauto 7.
Qed.
End Flush.
