(** From the tracepoints to the file (C104). *)
From Coq Require Import String List Arith NArith ZArith Bool Lia Floats.SpecFloat Sorting.Sorted Sorting.Permutation.
Import ListNotations.
From Verif Require RingBuffer_model RingBuffer_proofs.
From Verif Require Import Protocol_model Json_model Json_spec UnixSystem_proofs Collector_model Collector_spec Collector_proofs RingsStep_proofs Rings_model Rings_spec Rings_proofs.
From Verif Require Import TraceEvent_model Names_model Native_model Native_spec Cbor_model Record_model Record_spec EndToEnd_model EndToEnd_spec EndToEnd_lists File_spec File_proofs.
From Verif Require Delivery_proofs.
From Verif Require Import Whole_model Whole_spec WholeParts_proofs WholeProc_proofs WholeSim_proofs.
Local Notation length := List.length.

(** ** The events of a thread are some of those it came to *)
Lemma come_app i a b : SS.come_to i (a ++ b) = SS.come_to i a ++ SS.come_to i b.
Proof. induction a as [|l a IH]; [reflexivity|]. cbn [app SS.come_to]. rewrite IH. destruct l; try reflexivity. destruct (Nat.eqb _ i); reflexivity. Qed.
Lemma kept i hs : forall s s', S.run hs s = Some s' ->
  subseq (SS.events s' i ++ SS.under_way (SS.place s' i)) (SS.events s i ++ SS.under_way (SS.place s i) ++ SS.come_to i hs).
Proof.
  induction hs as [|l hs IH]; intros s s' R; cbn [S.run] in R.
  - injection R as <-. cbn. rewrite app_nil_r. apply subseq_refl.
  - destruct (S.step l s) as [s1|] eqn:E; [|discriminate R]. refine (subseq_trans _ _ _ _ (IH _ _ R)). destruct (SP.own_dec i l) as [O|O].
    + pose proof (SP.own_step _ _ _ _ E O) as H. destruct l as [tid|j|j e|j|j|j room|j b|b|j isp b|j|h r|h|h]; try contradiction; cbn in O; subst j.
      * destruct H as (H1 & H2 & H3). rewrite H1, H2, H3. cbn [SS.under_way SS.come_to app]. rewrite Nat.eqb_refl. apply subseq_refl.
      * destruct H as (e & H1 & H2 & H3). rewrite H1, H2, H3. cbn [SS.under_way SS.come_to app]. destruct (S.s_proc s); [apply subseq_refl|].
        apply Delivery_proofs.subseq_app_both; [apply subseq_refl|]. cbn. constructor. apply subseq_refl.
      * destruct H as (e & H1 & H2 & H3). rewrite H1, H2, H3. cbn [SS.under_way SS.come_to app]. destruct (SS.thread_on s i); [apply subseq_refl|].
        apply Delivery_proofs.subseq_app_both; [apply subseq_refl|]. cbn. constructor. apply subseq_refl.
      * destruct H as (e & H1 & H2 & H3). rewrite H1, H2, H3. cbn [SS.under_way SS.come_to app]. rewrite <- app_assoc. apply Delivery_proofs.subseq_app_both; [apply subseq_refl|].
        destruct room; cbn; [apply subseq_refl|constructor; apply subseq_refl].
    + rewrite SP.come_other by exact O. destruct (SP.other_step _ _ _ i E O) as (-> & ->). apply subseq_refl.
Qed.
Lemma events_grow i hs : forall s s', S.run hs s = Some s' -> exists new, SS.events s' i = SS.events s i ++ new.
Proof.
  induction hs as [|l hs IH]; intros s s' R; cbn [S.run] in R.
  - injection R as <-. exists []. now rewrite app_nil_r.
  - destruct (S.step l s) as [s1|] eqn:E; [|discriminate R]. destruct (IH _ _ R) as (x & ->). destruct (SP.own_dec i l) as [O|O].
    + pose proof (SP.own_step _ _ _ _ E O) as H. destruct l as [tid|j|j e|j|j|j room|j b|b|j isp b|j|h r|h|h]; try contradiction.
      * destruct H as (_ & _ & ->). eauto.
      * destruct H as (e & _ & _ & ->). eauto.
      * destruct H as (e & _ & _ & ->). eauto.
      * destruct H as (e & _ & _ & ->). rewrite <- app_assoc. eauto.
    + destruct (SP.other_step _ _ _ i E O) as (-> & _). eauto.
Qed.
Lemma events_come i hs s : S.run hs S.state0 = Some s -> subseq (SS.events s i) (SS.come_to i hs).
Proof.
  intros R. pose proof (kept i _ _ _ R) as K. assert (Z : SS.events S.state0 i = [] /\ SS.under_way (SS.place S.state0 i) = []) by (destruct i; auto). destruct Z as (Z1 & Z2).
  rewrite Z1, Z2 in K. exact (subseq_trans _ _ K _ (subseq_prefix _ _)).
Qed.

(** ** Which thread a buffer belongs to *)
Fixpoint owner (j : nat) (l : list (option nat)) : nat :=
  match l with
  | [] => 0
  | Some k :: r => if k =? j then 0 else S (owner j r)
  | None :: r => S (owner j r)
  end.
Lemma owner_ok j l : (exists i, nth_error l i = Some (Some j)) -> nth_error l (owner j l) = Some (Some j).
Proof.
  induction l as [|[k|] l IH]; intros (i & H).
  - destruct i; discriminate H.
  - cbn [owner]. destruct (Nat.eqb_spec k j) as [->|N]; [reflexivity|]. destruct i as [|i]; [injection H as ->; contradiction|]. cbn. apply IH. eauto.
  - cbn [owner]. destruct i as [|i]; [discriminate H|]. cbn. apply IH. eauto.
Qed.
Definition placed (s : xsys) (o : origin) : from :=
  {| f_process := fst o; f_thread := owner (fst (snd o)) (w_buffer (x_proc s (fst o))); f_content := snd (snd o) |}.

(** A thread keeps its buffer. *)
Lemma buffer_step n l w w' i j : wstep n l w = Some w' -> nth_error (w_buffer w) i = Some (Some j) -> nth_error (w_buffer w') i = Some (Some j).
Proof.
  assert (X : forall a u u', switch_step a u = Some u' -> w_buffer u' = w_buffer u).
  { intros a u u' H. unfold switch_step in H. destruct (S.step a (w_switch u)); [|discriminate H]. injection H as <-. reflexivity. }
  assert (Y : forall a u u', rings_step n a u = Some u' -> w_buffer u' = w_buffer u).
  { intros a u u' H. unfold rings_step in H. destruct (rstep n a (w_rings u)); [|discriminate H]. injection H as <-. reflexivity. }
  intros H Hi. destruct l; cbn [wstep] in H.
  - destruct (existsb _ _); [discriminate H|]. destruct (switch_step _ w) as [w1|] eqn:E; [|discriminate H]. injection H as <-. cbn [w_buffer]. rewrite nth_error_app1 by (eapply nth_error_lt; eauto). exact Hi.
  - now rewrite (X _ _ _ H).
  - destruct (nth_error (w_buffer w) i0) as [[|]|] eqn:E0; try discriminate H. destruct (S.idle i0 (w_switch w)) as [t|]; [|discriminate H]. destruct (rings_step _ _ w) as [w1|] eqn:E; [|discriminate H]. injection H as <-.
    cbn [w_buffer]. rewrite SP.nth_set. destruct (Nat.eqb_spec i i0) as [->|]; [congruence|exact Hi].
  - destruct (buffer_of i0 w); [|discriminate H]. destruct (running _ w); [|discriminate H]. now rewrite (X _ _ _ H).
  - destruct (of_switch l); [|discriminate H]. now rewrite (X _ _ _ H).
  - destruct (buffer_of i0 w); [|discriminate H]. destruct (pc_of i0 w) as [[| | |]|]; try discriminate H. now rewrite (Y _ _ _ H).
  - destruct (buffer_of i0 w); [|discriminate H]. destruct (rings_step _ _ w) as [w1|] eqn:E; [|discriminate H]. destruct (pushing _ _); [|discriminate H]. injection H as <-. now rewrite (Y _ _ _ E).
  - destruct (buffer_of i0 w); [|discriminate H]. destruct (rings_step _ _ w) as [w1|] eqn:E; [|discriminate H]. destruct (pushing _ _); [discriminate H|]. destruct (push_result _ _); [|discriminate H].
    destruct (Bool.eqb _ _); [|discriminate H]. now rewrite (X _ _ _ H), (Y _ _ _ E).
  - destruct (buffer_of i0 w); [|discriminate H]. destruct (pc_of i0 w) as [[| | |]|]; try discriminate H. now rewrite (Y _ _ _ H).
  - destruct (buffer_of i0 w); [|discriminate H]. now rewrite (Y _ _ _ H).
  - destruct (of_sender l); [|discriminate H]. now rewrite (Y _ _ _ H).
Qed.
Lemma buffer_run n ls : forall w w' i j, wrun n ls w = Some w' -> nth_error (w_buffer w) i = Some (Some j) -> nth_error (w_buffer w') i = Some (Some j).
Proof.
  induction ls as [|l ls IH]; intros w w' i j H Hi; cbn [wrun] in H; [injection H as <-; exact Hi|]. destruct (wstep n l w) as [w1|] eqn:E; [|discriminate H].
  exact (IH _ _ _ _ H (buffer_step _ _ _ _ _ _ E Hi)).
Qed.

Section File.
Variables (n : nat) (pid : nat -> Z) (what : nat -> nat -> tev) (fw : spec_float -> bytes) (fr : bytes -> option spec_float).
Local Notation cap := (n - 1).

(** The buffer behind an event of the other model. *)
Lemma origin_owner x e m o j : rel n x e -> read_as pid what m e o j ->
  let w := x_proc x (fst o) in nth_error (w_buffer w) (owner (fst (snd o)) (w_buffer w)) = Some (Some (fst (snd o))) /\ shows_event pid what m x (placed x o) j.
Proof.
  intros R (en & (r & (t & Ht & ->) & Sh) & Ev) w. pose proof (sm_threads _ _ (re_sim _ _ _ R (fst o))) as F.
  assert (L : fst (snd o) < length (rs_threads (w_rings w))). { unfold w. rewrite (Forall2_len _ _ _ F). eapply nth_error_lt; eauto. }
  pose proof (owner_ok _ _ (wi_owner _ (re_winv _ _ _ R (fst o)) _ L)) as Ow. fold w in Ow. split; [exact Ow|].
  destruct (wi_link _ (re_winv _ _ _ R (fst o)) _ _ Ow) as (u & Hu & Li & _). destruct (Forall2_at _ _ _ F _ _ Hu) as (t' & Ht' & T & _). rewrite Ht in Ht'. injection Ht' as <-.
  unfold ids in Li. rewrite nth_error_map in Li. destruct (nth_error (S.s_threads (w_switch (x_proc x (fst o)))) _) as [th|] eqn:Hth; [|discriminate Li].
  exists th, en. cbn [placed f_process f_thread f_content]. unfold switches. split; [exact Hth|]. cbn in Li. injection Li as Li. rewrite Li, <- T. auto.
Qed.

Lemma thread_events x e p i j : rel n x e -> nth_error (w_buffer (x_proc x p)) i = Some (Some j) -> acc_of j (e_col e p) = map (pair j) (SS.events (switches x p) i).
Proof.
  intros R Hi. destruct (wi_link _ (re_winv _ _ _ R p) _ _ Hi) as (u & Hu & _ & A & _). destruct (Forall2_at _ _ _ (sm_threads _ _ (re_sim _ _ _ R p)) _ _ Hu) as (t & Ht & _ & _ & T & _).
  unfold acc_of. rewrite Ht, T. exact A.
Qed.

(** The contents of one thread, here and there. *)
Lemma thread_contents x e m os js p i : rel n x e -> Forall2 (read_as pid what m e) os js ->
  match buffer_of i (x_proc x p) with
  | Some j => map (pair j) (of_thread p i (map (placed x) os)) = of_origin p j os
  | None => of_thread p i (map (placed x) os) = []
  end.
Proof.
  intros R F. assert (G : forall o, In o os -> let w := x_proc x (fst o) in nth_error (w_buffer w) (owner (fst (snd o)) (w_buffer w)) = Some (Some (fst (snd o)))).
  { intros o Ho. clear - R F Ho. induction F as [|a b os js H1 H2 IH]; [destruct Ho|]. destruct Ho as [->|Ho]; [exact (proj1 (origin_owner _ _ _ _ _ R H1))|auto]. }
  clear F. destruct (buffer_of i (x_proc x p)) as [j|] eqn:B.
  - apply buffer_some in B. unfold of_thread, of_origin, Collector_spec.of_thread. induction os as [|[q [k y]] os IH]; [reflexivity|].
    assert (IH' := IH (fun o Ho => G o (or_intror Ho))). specialize (G _ (or_introl eq_refl)). cbn [fst snd] in G. cbn [map filter placed f_process f_thread fst snd].
    destruct (Nat.eqb_spec q p) as [->|Nq]; cbn [andb]; [|exact IH']. cbn [map filter fst snd].
    destruct (Nat.eqb_spec k j) as [->|Nk].
    + rewrite (wi_inj _ (re_winv _ _ _ R p) _ _ _ G B), Nat.eqb_refl. cbn [map f_content]. f_equal. exact IH'.
    + destruct (Nat.eqb_spec (owner k (w_buffer (x_proc x p))) i) as [Ek|_]; [rewrite Ek in G; congruence|exact IH'].
  - unfold of_thread. induction os as [|[q [k y]] os IH]; [reflexivity|].
    assert (IH' := IH (fun o Ho => G o (or_intror Ho))). specialize (G _ (or_introl eq_refl)). cbn [fst snd] in G. cbn [map filter placed f_process f_thread fst snd].
    destruct (Nat.eqb_spec q p) as [->|Nq]; cbn [andb]; [|exact IH'].
    destruct (Nat.eqb_spec (owner k (w_buffer (x_proc x p))) i) as [Ek|_]; [|exact IH']. exfalso. rewrite Ek in G. apply buffer_some in G. congruence.
Qed.
Lemma pair_inj (j : nat) (a b : list nat) : map (pair j) a = map (pair j) b -> a = b.
Proof. revert b. induction a as [|x a IH]; intros [|y b] H; try discriminate H; [reflexivity|]. cbn in H. injection H as -> H. f_equal. auto. Qed.
Lemma pair_sub (j : nat) (l : list C.event) (b : list nat) : subseq l (map (pair j) b) -> exists a, l = map (pair j) a /\ subseq a b.
Proof.
  remember (map (pair j) b) as c eqn:E. intro H. revert b E. induction H as [l|y l l' H IH|y l l' H IH]; intros b E.
  - exists []. split; [reflexivity|constructor].
  - destruct b as [|z b]; [discriminate E|]. cbn in E. injection E as -> E. destruct (IH _ E) as (a & -> & X). exists (z :: a). split; [reflexivity|]. now constructor.
  - destruct b as [|z b]; [discriminate E|]. cbn in E. injection E as -> E. destruct (IH _ E) as (a & -> & X). exists a. split; [reflexivity|]. now constructor.
Qed.
Lemma pair_perm (j : nat) (a b : list nat) : Permutation (map (pair j) a) (map (pair j) b) -> Permutation a b.
Proof. intro H. apply (Permutation_map snd) in H. rewrite !map_map in H. cbn in H. now rewrite !map_id in H. Qed.
Lemma pair_rising p j l : rising what p l -> increasing what p (map (pair j) l).
Proof.
  unfold rising, increasing. induction 1 as [|a l H IH F]; cbn [map]; constructor; [exact IH|]. rewrite Forall_forall in *. intros y Hy. apply in_map_iff in Hy. destruct Hy as (z & <- & Hz). cbn. auto.
Qed.

Lemma sensible_of ls els x e : possible pid what ls -> xrun n pid what ls x0 = Some x -> follows n pid what ls els x e0 e -> sensible pid what els.
Proof.
  intros (P1 & P2 & P3 & P4) H F. split; [exact P1|]. split; [exact P2|]. split.
  - intros p tid Hin. apply (P3 p tid). apply (started _ _ _ p _ _ _ H). exact (fo_ids _ _ _ _ _ _ _ _ F _ _ Hin).
  - pose proof (fo_len _ _ _ _ _ _ _ _ F). lia.
Qed.

Theorem whole_sound ls s k m before after : possible pid what ls -> times_written fw fr what -> names_utf8 m -> xrun n pid what ls x0 = Some s ->
  Forall (wf fw fr) before -> Forall (wf fw fr) after ->
  exists os, file_shows fw fr pid what m k s before after os /\
  forall p i, (exists l, subseq l (SS.come_to i (history p ls)) /\ Permutation (of_thread p i os) l) /\
              (rising what p (SS.come_to i (history p ls)) -> subseq (of_thread p i os) (SS.come_to i (history p ls))).
Proof.
  intros Po Tw Nu H Wb Wa. destruct (xrun_sim _ _ _ _ _ _ _ (rel0 n) H) as (els & e & R & F). pose proof (sensible_of _ _ _ _ Po H F) as Se.
  destruct (file_sound fw fr pid what cap els e k m before after Se Tw Nu (fo_run _ _ _ _ _ _ _ _ F) Wb Wa) as (res & t & js & os & Fi & Co & Pa & Re & Or).
  exists (map (placed s) os). split.
  - exists res, t, js. unfold interval in Fi. rewrite (re_prov _ _ _ R) in Fi. split; [exact Fi|]. split; [exact Co|]. split; [exact Pa|].
    clear - Re R. induction Re as [|o j os js H1 H2 IH]; [constructor|]. constructor; [exact (proj2 (origin_owner _ _ _ _ _ R H1))|exact IH].
  - intros p i. pose proof (thread_contents _ _ _ _ _ p i R Re) as Tc. pose proof (events_come i _ _ (history_run n pid what p _ _ _ H)) as Ec.
    destruct (buffer_of i (x_proc s p)) as [j|] eqn:B.
    + apply buffer_some in B. destruct (Or p j) as ((l & L1 & L2) & L3). pose proof (fo_acc _ _ _ _ _ _ _ _ F p j) as Fa.
      assert (Z : acc_of j (e_col e0 p) = []) by (unfold acc_of; cbn; now destruct j). rewrite Z in Fa. cbn [app] in Fa. rewrite (thread_events _ _ _ _ _ R B) in Fa. rewrite <- Fa in *. rewrite <- Tc in *. split.
      * destruct (pair_sub _ _ _ L1) as (a & -> & Sa). exists a. split; [exact (subseq_trans _ _ Ec _ Sa)|]. exact (pair_perm _ _ _ L2).
      * intro Ri. assert (Ri' : rising what p (SS.events (switches s p) i)) by exact (subseq_sorted _ _ _ Ec Ri). specialize (L3 (pair_rising _ _ _ Ri')).
        destruct (pair_sub _ _ _ L3) as (a & Ea & Sa). apply pair_inj in Ea. rewrite Ea. exact (subseq_trans _ _ Ec _ Sa).
    + rewrite Tc. split; [exists []; split; constructor|constructor].
Qed.

Lemma arrived_drained x e p : rel n x e -> arrived p x -> drained p e.
Proof.
  intros R (A1 & A2 & A3). pose proof (re_sim _ _ _ R p) as Si. pose proof (re_cinv _ _ _ R p) as Ci. destruct (re_att _ _ _ R p) as (_ & Lo).
  assert (K : forall j t, nth_error (cs_threads (e_col e p)) j = Some t -> Collector_spec.of_thread j (flat_map snd (ev_map (e_col e p))) = [] /\ th_buf t = []).
  { intros j t Ht. assert (exists u, nth_error (rs_threads (w_rings (x_proc x p))) j = Some u) as (u & Hu).
    { destruct (nth_error (rs_threads (w_rings (x_proc x p))) j) eqn:E; [eauto|]. apply nth_error_None in E. rewrite (Forall2_len _ _ _ (sm_threads _ _ Si)) in E. apply nth_error_lt in Ht. lia. }
    destruct (Forall2_at _ _ _ (sm_threads _ _ Si) _ _ Hu) as (t' & Ht' & _ & _ & T & _). rewrite Ht in Ht'. injection Ht' as <-.
    specialize (A1 _ _ Hu). unfold sent_of in A1. rewrite (sm_sent _ _ Si), all_wrap, of_wrap in A1. pose proof (ci_acc _ Ci _ _ Ht) as Ac. rewrite Lo, T in Ac. cbn [app] in Ac.
    change (accepted_of u) with (acc (r_ring u)) in A1. rewrite Ac in A1. apply (f_equal (@length _)) in A1. rewrite !map_length, !app_length in A1.
    split; apply length_zero_iff_nil; lia. }
  split; [intros j t Ht; exact (proj2 (K _ _ Ht))|]. split.
  - rewrite in_hand_map. destruct (flat_map snd (ev_map (e_col e p))) as [|v r] eqn:E; [reflexivity|]. exfalso.
    assert (Hv : In v (flat_map snd (ev_map (e_col e p)))) by (rewrite E; left; reflexivity). apply in_flat_map in Hv. destruct Hv as ((k & l) & H1 & H2).
    destruct (ci_out _ Ci (ev_map (e_col e p)) k l v) as (t & Ht & _); [rewrite !in_app_iff; right; right; left; reflexivity|exact H1|exact H2|].
    destruct (K _ _ Ht) as (Z & _). rewrite ?E in Z. unfold Collector_spec.of_thread in Z. cbn [filter] in Z. rewrite Nat.eqb_refl in Z. discriminate Z.
  - rewrite (re_net _ _ _ R). auto.
Qed.

(** ** A recording *)
Theorem whole_recorded k live ls1 s1 ls2 s2 m before after : recording n pid what k live ls1 s1 ls2 s2 -> times_written fw fr what -> names_utf8 m ->
  Forall (wf fw fr) before -> Forall (wf fw fr) after ->
  exists os, file_shows fw fr pid what m k s2 before after os /\
  forall p i, live p = true -> exists old new, subseq old (SS.events (switches s1 p) i) /\ SS.events (switches s2 p) i = SS.events (switches s1 p) i ++ new /\
    Permutation (of_thread p i os) (old ++ new) /\ (rising what p (SS.events (switches s2 p) i) -> of_thread p i os = old ++ new).
Proof.
  intros [Po H1 H2 Rc La Al Li] Tw Nu Wb Wa. destruct (xrun_sim _ _ _ _ _ _ _ (rel0 n) H1) as (els1 & e1 & R1 & F1). destruct (xrun_sim _ _ _ _ _ _ _ R1 H2) as (els2 & e2 & R2 & F2).
  pose proof F1 as [A1 A2 A3 A4 A5 A6 A7]. pose proof F2 as [B1 B2 B3 B4 B5 B6 B7].
  assert (Se : sensible pid what (els1 ++ els2)).
  { destruct Po as (P1 & P2 & P3 & P4). split; [exact P1|]. split; [exact P2|]. split.
    - intros p tid Hin. apply (P3 p tid). assert (H12 : xrun n pid what (ls1 ++ ls2) x0 = Some s2) by (rewrite xrun_app, H1; exact H2). apply (started _ _ _ p _ _ _ H12).
      apply in_app_or in Hin. destruct Hin as [Hin|Hin]; [|exact (B5 _ _ Hin)]. exact (ids_mono_run _ _ _ p _ _ _ H2 _ (A5 _ _ Hin)).
    - rewrite !filter_app, !app_length in *. lia. }
  assert (Re1 : EndToEnd_spec.recording k e1) by (unfold EndToEnd_spec.recording; rewrite (re_prov _ _ _ R1); exact Rc).
  assert (Un : undisturbed k els2) by (destruct La as (L1 & L2); split; [intros b X; exact (L1 b (B6 _ X))|intros X; exact (L2 (B6 _ X))]).
  assert (St : settled e2) by (unfold settled; rewrite (re_prov _ _ _ R2); exact Al).
  assert (Lv : forall p, live p = true -> connected p e1 /\ connected p e2 /\ drained p e2 /\ EndToEnd_spec.roomy cap (steps_of p els2) (e_col e1 p)).
  { intros p Hp. destruct (Li p Hp) as (L1 & L2 & L3). unfold connected. rewrite (re_net _ _ _ R1), (re_net _ _ _ R2). split; [exact L1|]. split; [exact L2|]. split; [exact (arrived_drained _ _ _ R2 L3)|exact (B4 p)]. }
  destruct (file_complete fw fr pid what cap els1 e1 els2 e2 k m live before after Se Tw Nu A1 B1 Re1 Un St Lv Wb Wa) as (res & t & js & os & Fi & Co & Pa & Re & Or).
  exists (map (placed s2) os). split.
  - exists res, t, js. unfold interval in Fi. rewrite (re_prov _ _ _ R2) in Fi. split; [exact Fi|]. split; [exact Co|]. split; [exact Pa|].
    clear - Re R2. induction Re as [|o j os js H1 H2 IH]; [constructor|]. constructor; [exact (proj2 (origin_owner _ _ _ _ _ R2 H1))|exact IH].
  - intros p i Hp. pose proof (thread_contents _ _ _ _ _ p i R2 Re) as Tc. pose proof (history_run n pid what p _ _ _ H2) as Hr. destruct (events_grow i _ _ _ Hr) as (new & Gn).
    destruct (buffer_of i (x_proc s2 p)) as [j|] eqn:B.
    + apply buffer_some in B. destruct (Or p j Hp) as (old & O1 & O2 & O3). pose proof (thread_events _ _ _ _ _ R2 B) as T2.
      assert (Z : acc_of j (e_col e0 p) = []) by (unfold acc_of; cbn; now destruct j).
      assert (T1 : acc_of j (e_col e1 p) = map (pair j) (SS.events (switches s1 p) i)).
      { destruct (buffer_of i (x_proc s1 p)) as [j'|] eqn:B1'.
        - apply buffer_some in B1'. assert (j' = j) as ->. { pose proof (buffer_run _ _ _ _ _ _ (own_run n pid what p _ _ _ H2) B1') as X. congruence. }
          exact (thread_events _ _ _ _ _ R1 B1').
        - destruct (wi_none _ (re_winv _ _ _ R1 p) _ B1') as (E0 & _). unfold switches. rewrite E0. unfold acc_of. cbn [map]. destruct (nth_error (cs_threads (e_col e1 p)) j) as [t'|] eqn:Ht; [|reflexivity]. exfalso.
          assert (Lj : j < length (rs_threads (w_rings (x_proc s1 p)))) by (rewrite (Forall2_len _ _ _ (sm_threads _ _ (re_sim _ _ _ R1 p))); eapply nth_error_lt; eauto).
          destruct (wi_owner _ (re_winv _ _ _ R1 p) _ Lj) as (i' & Hi'). pose proof (buffer_run _ _ _ _ _ _ (own_run n pid what p _ _ _ H2) Hi') as X.
          pose proof (wi_inj _ (re_winv _ _ _ R2 p) _ _ _ X B) as ->. apply buffer_some in Hi'. congruence. }
      pose proof (A3 p j) as Fa. rewrite Z in Fa. cbn [app] in Fa. rewrite T1 in Fa. pose proof (B3 p j) as Fb. rewrite T1, T2, Gn, map_app in Fb. apply app_inv_head in Fb.
      rewrite EndToEnd_proofs.traced_app in O3. rewrite <- Fa in O1, O3. rewrite <- Fb, <- Tc in O2, O3. destruct (pair_sub _ _ _ O1) as (o' & -> & So). exists o', new. split; [exact So|]. split; [exact Gn|].
      rewrite <- map_app in O2, O3. split; [exact (pair_perm _ _ _ O2)|]. intro Ri. apply (pair_inj j). rewrite Gn in Ri. rewrite map_app. rewrite map_app in O3. apply O3. rewrite <- map_app. now apply pair_rising.
    + destruct (wi_none _ (re_winv _ _ _ R2 p) _ B) as (E0 & _). unfold switches in *. rewrite E0 in Gn. symmetry in Gn. apply app_eq_nil in Gn. destruct Gn as (G1 & G2). exists [], []. rewrite E0, G1, Tc.
      split; [constructor|]. split; [reflexivity|]. split; [constructor|auto].
Qed.
End File.
