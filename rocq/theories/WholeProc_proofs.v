(** Switches and buffers of a process agree (C104). *)
From Coq Require Import List Arith Bool Lia.
Import ListNotations.
From Verif Require RingBuffer_model RingBuffer_spec RingBuffer_proofs.
From Verif Require Import UnixSystem_model UnixSystem_proofs OMap_model Collector_model Collector_spec Collector_proofs RingsStep_proofs Rings_model Rings_spec Rings_proofs.
From Verif Require Switch_model Switch_spec Switch_proofs.
From Verif Require Import Whole_model Whole_spec WholeParts_proofs.

Definition linked (sw : S.state) (i j : nat) (u : rthread) : Prop :=
  nth_error (ids sw) i = Some (r_tid u) /\ acc (r_ring u) = map (pair j) (SS.events sw i) /\
  (unans (r_ring u) = [] \/ exists e, SS.place sw i = S.AtPush e /\ unans (r_ring u) = [(j, e)]).
Record winv (w : process) : Prop := {
  wi_len : length (w_buffer w) = length (ids (w_switch w));
  wi_link : forall i j, nth_error (w_buffer w) i = Some (Some j) -> exists u, nth_error (rs_threads (w_rings w)) j = Some u /\ linked (w_switch w) i j u;
  wi_inj : forall i i' j, nth_error (w_buffer w) i = Some (Some j) -> nth_error (w_buffer w) i' = Some (Some j) -> i = i';
  wi_owner : forall j, j < length (rs_threads (w_rings w)) -> exists i, nth_error (w_buffer w) i = Some (Some j);
  wi_none : forall i, buffer_of i w = None -> SS.events (w_switch w) i = [] /\ SS.place (w_switch w) i = S.Idle
}.

Lemma buffer_some i j w : buffer_of i w = Some j <-> nth_error (w_buffer w) i = Some (Some j).
Proof. unfold buffer_of. destruct (nth_error (w_buffer w) i) as [o|]; split; congruence. Qed.
Lemma ids_lt s i t : nth_error (S.s_threads s) i = Some t -> i < length (ids s).
Proof. intro H. unfold ids. rewrite map_length. eapply nth_error_lt; eauto. Qed.

(** A step of the switches only. *)
Lemma switch_winv a w w' : winv w -> switch_step a w = Some w' ->
  match a with S.Start _ | S.Push _ _ => False | S.Enter i _ => buffer_of i w <> None | _ => True end -> winv w'.
Proof.
  intros [A B C D E] H G. unfold switch_step in H. destruct (S.step a (w_switch w)) as [s'|] eqn:St; [|discriminate H]. injection H as <-.
  pose proof (ids_step _ _ _ St) as Ei. assert (Ei' : ids s' = ids (w_switch w)). { rewrite Ei. destruct a; try contradiction; apply app_nil_r. }
  assert (Ev : forall i, SS.events s' i = SS.events (w_switch w) i).
  { intro i. destruct (SP.own_dec i a) as [O|O]; [|apply (SP.other_step _ _ _ _ St O)]. pose proof (SP.own_step _ _ _ _ St O) as X.
    destruct a; try contradiction; [destruct X as (_ & _ & X); exact X|destruct X as (e & _ & _ & X); exact X|destruct X as (e & _ & _ & X); exact X]. }
  assert (Pl : forall i e, SS.place (w_switch w) i = S.AtPush e -> SS.place s' i = S.AtPush e).
  { intros i e Q. destruct (SP.own_dec i a) as [O|O]; [|destruct (SP.other_step _ _ _ _ St O) as (_ & ->); exact Q]. pose proof (SP.own_step _ _ _ _ St O) as X.
    exfalso. destruct a; try contradiction; [destruct X as (X & _)|destruct X as (e' & X & _)|destruct X as (e' & X & _)]; congruence. }
  constructor; cbn [w_switch w_rings w_buffer].
  - congruence.
  - intros i j Hj. destruct (B i j Hj) as (u & Hu & L1 & L2 & L3). exists u. split; [exact Hu|]. split; [congruence|]. split; [congruence|].
    destruct L3 as [L3|(e & P1 & P2)]; [auto|]. right. exists e. auto.
  - exact C.
  - exact D.
  - intros i Hi. destruct (E i Hi) as (E1 & E2). rewrite Ev. split; [exact E1|]. destruct (SP.own_dec i a) as [O|O]; [|destruct (SP.other_step _ _ _ _ St O) as (_ & ->); exact E2].
    pose proof (SP.own_step _ _ _ _ St O) as X. exfalso. destruct a; try contradiction.
    + cbn in O. subst i0. exact (G Hi).
    + destruct X as (e' & X & _). congruence.
    + destruct X as (e' & X & _). congruence.
Qed.

(** A step of the rings only that neither makes a buffer nor is a step of [push]. *)
Lemma rings_winv n l w w' : rinv n (w_rings w) -> winv w -> rings_step n l w = Some w' ->
  match l with RStart _ | RPush _ _ | RAccess _ _ => False | _ => True end -> winv w'.
Proof.
  intros I [A B C D E] H G. unfold rings_step in H. destruct (rstep n l (w_rings w)) as [r|] eqn:St; [|discriminate H]. injection H as <-.
  destruct (ring_count _ _ _ _ St) as [Len|(tid & q & -> & _)]; [|contradiction].
  constructor; cbn [w_switch w_rings w_buffer]; auto.
  - intros i j Hj. destruct (B i j Hj) as (u & Hu & L1 & L2 & L3). destruct (frame n l _ _ j u I St) as (u' & Hu' & T & A1 & A2); [destruct l; auto; contradiction|exact Hu|].
    exists u'. split; [exact Hu'|]. unfold linked, unans. rewrite T, A1, A2. auto.
  - rewrite Len. exact D.
Qed.

Lemma other_rings n l w r j0 : rinv n (w_rings w) -> winv w -> rstep n l (w_rings w) = Some r -> match l with RPush k _ | RAccess k _ => k = j0 | _ => False end ->
  forall i j, j <> j0 -> nth_error (w_buffer w) i = Some (Some j) -> exists u, nth_error (rs_threads r) j = Some u /\ linked (w_switch w) i j u.
Proof.
  intros I [A B C D E] St G i j N Hj. destruct (B i j Hj) as (u & Hu & L1 & L2 & L3). destruct (frame n l _ _ j u I St) as (u' & Hu' & T & A1 & A2); [destruct l; try contradiction; cbn; congruence|exact Hu|].
  exists u'. split; [exact Hu'|]. unfold linked, unans. rewrite T, A1, A2. auto.
Qed.

Lemma pc_place i w p : pc_of i w = Some p -> SS.place (w_switch w) i = p.
Proof. unfold pc_of, SS.place. destruct (nth_error _ i); cbn; congruence. Qed.

Lemma wstep_winv n l w w' : rinv n (w_rings w) -> winv w -> wstep n l w = Some w' -> winv w'.
Proof.
  intros I W H. pose proof W as [A B C D E]. destruct l; cbn [wstep] in H.
  - (* WStart *) destruct (existsb _ _); [discriminate H|]. unfold switch_step in H. destruct (S.step (S.Start tid) (w_switch w)) as [s'|] eqn:St; [|discriminate H]. injection H as <-.
    pose proof (ids_step _ _ _ St) as Ei. cbn in Ei.
    assert (O : forall i, ~ SP.own i (S.Start tid)) by (intros i X; exact X).
    assert (Ev : forall i, SS.events s' i = SS.events (w_switch w) i /\ SS.place s' i = SS.place (w_switch w) i) by (intro i; exact (SP.other_step _ _ _ _ St (O i))).
    assert (Old : forall i j, nth_error (w_buffer w ++ [None]) i = Some (Some j) -> nth_error (w_buffer w) i = Some (Some j)).
    { intros i j Hi. destruct (lt_dec i (length (w_buffer w))) as [L|L]; [rewrite nth_error_app1 in Hi by exact L; exact Hi|]. rewrite nth_error_app2 in Hi by lia.
      destruct (i - length (w_buffer w)) as [|[|z]]; cbn in Hi; discriminate. }
    constructor; cbn [w_switch w_rings w_buffer].
    + rewrite Ei, !app_length, A. reflexivity.
    + intros i j Hi. apply Old in Hi. destruct (B _ _ Hi) as (u & Hu & L1 & L2 & L3). exists u. split; [exact Hu|]. destruct (Ev i) as (E1 & E2). unfold linked. rewrite E1, E2, Ei.
      rewrite nth_error_app1 by (eapply nth_error_lt; eauto). auto.
    + intros i i' j Hi Hi'. apply Old in Hi. apply Old in Hi'. eauto.
    + intros j Hj. destruct (D _ Hj) as (i & Hi). exists i. rewrite nth_error_app1 by (eapply nth_error_lt; eauto). exact Hi.
    + intros i Hi. destruct (Ev i) as (-> & ->). apply E. unfold buffer_of in *. cbn [w_buffer] in Hi. destruct (nth_error (w_buffer w) i) as [o|] eqn:N; [|reflexivity].
      rewrite nth_error_app1, N in Hi by (eapply nth_error_lt; eauto). exact Hi.
  - (* WEnd *) exact (switch_winv _ _ _ W H Logic.I).
  - (* WBuffer *) destruct (nth_error (w_buffer w) i) as [[|]|] eqn:Hb; try discriminate H. destruct (S.idle i (w_switch w)) as [t|] eqn:Id; [|discriminate H].
    unfold rings_step in H. destruct (rstep n (RStart (S.t_id t)) (w_rings w)) as [r|] eqn:St; [|discriminate H]. injection H as <-.
    destruct (SP.idle_some _ _ _ Id) as (Ht & _ & _). destruct (ring_count _ _ _ _ St) as [Len|(tid & q & Etid & Q & Er)].
    { exfalso. cbn [rstep] in St. destruct (existsb _ _); [discriminate St|]. destruct (mfind _ _ _); [discriminate St|]. destruct (RingBuffer_model.init n); [|discriminate St]. injection St as <-. cbn in Len. rewrite app_length in Len. cbn in Len. lia. }
    injection Etid as <-. destruct (init_effect _ _ Q) as (_ & Ea & _ & _ & Eu). pose proof (nth_error_lt _ _ _ Hb) as Lb.
    assert (Fr : forall i' j, nth_error (w_buffer w) i' = Some (Some j) -> j < length (rs_threads (w_rings w))).
    { intros i' j Hj. destruct (B _ _ Hj) as (u & Hu & _). eapply nth_error_lt; eauto. }
    assert (No : buffer_of i w = None) by (unfold buffer_of; now rewrite Hb).
    constructor; cbn [w_switch w_rings w_buffer].
    + rewrite SP.len_set. exact A.
    + intros i' j Hj. rewrite SP.nth_set in Hj. destruct (Nat.eqb_spec i' i) as [->|N].
      * rewrite Hb in Hj. injection Hj as <-. rewrite Er, nth_error_app2, Nat.sub_diag by lia. eexists. split; [reflexivity|]. unfold linked. cbn [r_tid r_ring].
        rewrite Ea, Eu. destruct (E _ No) as (-> & _). split; [unfold ids; rewrite nth_error_map, Ht; reflexivity|]. auto.
      * destruct (B _ _ Hj) as (u & Hu & L). exists u. rewrite Er, nth_error_app1 by (eapply nth_error_lt; eauto). auto.
    + intros i1 i2 j H1 H2. rewrite SP.nth_set in H1, H2. destruct (Nat.eqb_spec i1 i) as [->|N1], (Nat.eqb_spec i2 i) as [->|N2]; auto.
      * rewrite Hb in H1. injection H1 as <-. apply Fr in H2. lia.
      * rewrite Hb in H2. injection H2 as <-. apply Fr in H1. lia.
      * eauto.
    + intros j Hj. rewrite Er, app_length in Hj. cbn in Hj. destruct (Nat.eq_dec j (length (rs_threads (w_rings w)))) as [->|N].
      * exists i. rewrite SP.nth_set, Nat.eqb_refl, Hb. reflexivity.
      * destruct (D j ltac:(lia)) as (i' & Hi'). exists i'. rewrite SP.nth_set. destruct (Nat.eqb_spec i' i) as [->|]; [congruence|exact Hi'].
    + intros i' Hi'. apply E. unfold buffer_of in Hi' |- *. cbn [w_buffer] in Hi'. rewrite SP.nth_set in Hi'. destruct (Nat.eqb_spec i' i) as [Q'|Q']; [rewrite Q', Hb; reflexivity|exact Hi'].
  - (* WEnter *) destruct (buffer_of i w) as [j|] eqn:Hb; [|discriminate H]. destruct (running j w); [|discriminate H]. apply (switch_winv _ _ _ W H). congruence.
  - (* WSwitch *) destruct (of_switch l) eqn:O; [|discriminate H]. apply (switch_winv _ _ _ W H). destruct l; try exact Logic.I; discriminate O.
  - (* WPush *) destruct (buffer_of i w) as [j|] eqn:Hb; [|discriminate H]. destruct (pc_of i w) as [p|] eqn:Hp; [|discriminate H]. destruct p as [| | |e]; try discriminate H.
    apply pc_place in Hp. unfold rings_step in H. destruct (rstep n (RPush j e) (w_rings w)) as [r|] eqn:St; [|discriminate H]. injection H as <-.
    apply buffer_some in Hb. constructor; cbn [w_switch w_rings w_buffer]; auto.
    + intros i' j' Hj'. destruct (Nat.eq_dec j' j) as [->|N]; [|eapply (other_rings _ _ _ _ j I W St); eauto]. assert (i' = i) as -> by eauto.
      destruct (B _ _ Hb) as (u & Hu & L1 & L2 & L3). cbn [rstep] in St. rewrite Hu in St. destruct (r_phase u); try discriminate St.
      destruct (RingBuffer_model.step _ _) as [q|] eqn:Q; [|discriminate St]. injection St as <-. destruct (push_effect _ _ _ Q) as (U & U' & _ & Ea & _).
      exists (with_ring q u). cbn [with_rthreads rs_threads]. rewrite set_nth_same by (eapply nth_error_lt; eauto). split; [reflexivity|]. unfold linked. cbn [with_ring r_tid r_ring].
      rewrite Ea, U'. split; [exact L1|]. split; [exact L2|]. right. eauto.
    + destruct (ring_count _ _ _ _ St) as [->|(tid & q & X & _)]; [exact D|discriminate X].
  - (* WAccess *) destruct (buffer_of i w) as [j|] eqn:Hb; [|discriminate H]. unfold rings_step in H. destruct (rstep n (RAccess j c) (w_rings w)) as [r|] eqn:St; [|discriminate H].
    cbn [w_rings] in H. destruct (pushing j r) eqn:Pu; [|discriminate H]. injection H as <-. apply buffer_some in Hb.
    constructor; cbn [w_switch w_rings w_buffer]; auto.
    + intros i' j' Hj'. destruct (Nat.eq_dec j' j) as [->|N]; [|eapply (other_rings _ _ _ _ j I W St); eauto]. assert (i' = i) as -> by eauto.
      destruct (B _ _ Hb) as (u & Hu & L1 & L2 & L3). cbn [rstep] in St. rewrite Hu in St. destruct (r_phase u); try discriminate St.
      destruct (RingBuffer_model.step _ _) as [q|] eqn:Q; [|discriminate St]. injection St as <-. destruct (access_effect _ _ _ Q) as (X & _).
      unfold pushing in Pu. cbn [with_rthreads rs_threads] in *. rewrite set_nth_same in * by (eapply nth_error_lt; eauto). cbn [with_ring r_ring] in Pu.
      destruct X as (Ea & Eu). { intro Y. rewrite Y in Pu. discriminate Pu. }
      exists (with_ring q u). split; [reflexivity|]. unfold linked. cbn [with_ring r_tid r_ring]. rewrite Ea, Eu. auto.
    + destruct (ring_count _ _ _ _ St) as [->|(tid & q & X & _)]; [exact D|discriminate X].
  - (* WReturn *) destruct (buffer_of i w) as [j|] eqn:Hb; [|discriminate H]. unfold rings_step in H. destruct (rstep n (RAccess j c) (w_rings w)) as [r|] eqn:St; [|discriminate H].
    cbn [w_rings] in H. destruct (pushing j r) eqn:Pu; [discriminate H|]. destruct (push_result j r) as [b|] eqn:Pr; [|discriminate H]. destruct (Bool.eqb b room) eqn:Eb; [|discriminate H].
    apply eqb_prop in Eb. subst b. unfold switch_step in H. cbn [w_switch w_rings w_buffer] in H. destruct (S.step (S.Push i room) (w_switch w)) as [s'|] eqn:Sw; [|discriminate H]. injection H as <-.
    pose proof Hb as Hb'. apply buffer_some in Hb. pose proof (SP.own_step _ _ _ i Sw eq_refl) as (e & P1 & P2 & P3). pose proof (ids_step _ _ _ Sw) as Ei. rewrite app_nil_r in Ei.
    assert (Oth : forall i', i' <> i -> SS.events s' i' = SS.events (w_switch w) i' /\ SS.place s' i' = SS.place (w_switch w) i').
    { intros i' N. apply (SP.other_step _ _ _ _ Sw). cbn. congruence. }
    constructor; cbn [w_switch w_rings w_buffer].
    + congruence.
    + intros i' j' Hj'. destruct (Nat.eq_dec j' j) as [->|N].
      * assert (i' = i) as -> by eauto. destruct (B _ _ Hb) as (u & Hu & L1 & L2 & L3). cbn [rstep] in St. rewrite Hu in St. destruct (r_phase u); try discriminate St.
        destruct (RingBuffer_model.step _ _) as [q|] eqn:Q; [|discriminate St]. injection St as <-. destruct (access_effect _ _ _ Q) as (_ & X).
        unfold pushing in Pu. unfold push_result in Pr. cbn [with_rthreads rs_threads] in *. rewrite set_nth_same in * by (eapply nth_error_lt; eauto). cbn [with_ring r_ring] in Pu, Pr.
        destruct (RingBuffer_model.pp q) eqn:Pq; try discriminate Pu. destruct (X eq_refl) as (v & b & rest & U & Tr & Ea). rewrite Tr in Pr. injection Pr as ->.
        exists (with_ring q u). split; [reflexivity|]. unfold linked. cbn [with_ring r_tid r_ring]. rewrite Ea, Ei, P3, map_app, L2. split; [exact L1|].
        split; [|left; unfold unans; now rewrite Pq]. f_equal. destruct L3 as [L3|(e' & Q1 & Q2)]; [congruence|]. rewrite U in Q2. injection Q2 as ->.
        assert (e' = e) as -> by congruence. destruct room; reflexivity.
      * destruct (other_rings _ _ _ _ j I W St eq_refl i' j' N Hj') as (u & Hu & L1 & L2 & L3). exists u. split; [exact Hu|].
        assert (N' : i' <> i). { intros ->. rewrite Hb in Hj'. congruence. }
        destruct (Oth i' N') as (E1 & E2). unfold linked. rewrite E1, E2, Ei. auto.
    + exact C.
    + destruct (ring_count _ _ _ _ St) as [->|(tid & q & X & _)]; [exact D|discriminate X].
    + intros i' Hi'. assert (N' : i' <> i). { intros ->. unfold buffer_of in Hi', Hb'. cbn [w_buffer] in Hi'. congruence. }
      destruct (Oth i' N') as (-> & ->). apply E. exact Hi'.
  - (* WOrphan *) destruct (buffer_of i w) as [j|]; [|discriminate H]. destruct (pc_of i w) as [[| | |]|]; try discriminate H. exact (rings_winv _ _ _ _ I W H Logic.I).
  - (* WErase *) destruct (buffer_of i w) as [j|]; [|discriminate H]. exact (rings_winv _ _ _ _ I W H Logic.I).
  - (* WSender *) destruct (of_sender l) eqn:O; [|discriminate H]. apply (rings_winv _ _ _ _ I W H). destruct l; try exact Logic.I; discriminate O.
Qed.

Lemma winv0 : winv process0.
Proof.
  constructor; cbn.
  - reflexivity.
  - intros [|i] j H; discriminate H.
  - intros [|i] i' j H; discriminate H.
  - intros j H. lia.
  - intros i _. destruct i; auto.
Qed.

(** ** The two parts of a step *)
Lemma wstep_parts n l w w' : wstep n l w = Some w' ->
  S.run (switching l) (w_switch w) = Some (w_switch w') /\ (w_rings w' = w_rings w \/ exists rl, rstep n rl (w_rings w) = Some (w_rings w')).
Proof.
  assert (X : forall a u u', switch_step a u = Some u' -> S.run [a] (w_switch u) = Some (w_switch u') /\ w_rings u' = w_rings u).
  { intros a u u' H. unfold switch_step in H. cbn [S.run]. destruct (S.step a (w_switch u)); [|discriminate H]. injection H as <-. auto. }
  assert (Y : forall a u u', rings_step n a u = Some u' -> w_switch u' = w_switch u /\ rstep n a (w_rings u) = Some (w_rings u')).
  { intros a u u' H. unfold rings_step in H. destruct (rstep n a (w_rings u)); [|discriminate H]. injection H as <-. auto. }
  intros H. destruct l; cbn [wstep switching] in *.
  - destruct (existsb _ _); [discriminate H|]. destruct (switch_step _ w) as [w1|] eqn:E; [|discriminate H]. injection H as <-. cbn [w_switch w_rings]. destruct (X _ _ _ E). auto.
  - destruct (X _ _ _ H). auto.
  - destruct (nth_error (w_buffer w) i) as [[|]|]; try discriminate H. destruct (S.idle i (w_switch w)) as [t|]; [|discriminate H]. destruct (rings_step _ _ w) as [w1|] eqn:E; [|discriminate H]. injection H as <-.
    cbn [w_switch w_rings]. destruct (Y _ _ _ E) as (-> & R). split; [reflexivity|]. right. eauto.
  - destruct (buffer_of i w); [|discriminate H]. destruct (running _ w); [|discriminate H]. destruct (X _ _ _ H). auto.
  - destruct (of_switch l); [|discriminate H]. destruct (X _ _ _ H). auto.
  - destruct (buffer_of i w); [|discriminate H]. destruct (pc_of i w) as [[| | |]|]; try discriminate H. destruct (Y _ _ _ H) as (-> & R). split; [reflexivity|]. right. eauto.
  - destruct (buffer_of i w); [|discriminate H]. destruct (rings_step _ _ w) as [w1|] eqn:E; [|discriminate H]. destruct (pushing _ _); [|discriminate H]. injection H as <-.
    destruct (Y _ _ _ E) as (-> & R). split; [reflexivity|]. right. eauto.
  - destruct (buffer_of i w); [|discriminate H]. destruct (rings_step _ _ w) as [w1|] eqn:E; [|discriminate H]. destruct (pushing _ _); [discriminate H|]. destruct (push_result _ _); [|discriminate H].
    destruct (Bool.eqb _ _); [|discriminate H]. destruct (Y _ _ _ E) as (E1 & R). destruct (X _ _ _ H) as (E2 & E3). rewrite E1 in E2. split; [exact E2|]. rewrite E3. right. eauto.
  - destruct (buffer_of i w); [|discriminate H]. destruct (pc_of i w) as [[| | |]|]; try discriminate H. destruct (Y _ _ _ H) as (-> & R). split; [reflexivity|]. right. eauto.
  - destruct (buffer_of i w); [|discriminate H]. destruct (Y _ _ _ H) as (-> & R). split; [reflexivity|]. right. eauto.
  - destruct (of_sender l); [|discriminate H]. destruct (Y _ _ _ H) as (-> & R). split; [reflexivity|]. right. eauto.
Qed.
