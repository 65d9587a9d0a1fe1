(** Proofs about the collection of trace events. *)
From Coq Require Import List Arith Bool Lia.
Import ListNotations.
From Verif Require Import UnixSystem_model UnixSystem_proofs OMap_model OMap_proofs Collector_model Collector_spec.

(** ** Lists of events *)
Lemma of_thread_app i a b : of_thread i (a ++ b) = of_thread i a ++ of_thread i b.
Proof. apply filter_app. Qed.

Lemma all_events_app a b : all_events (a ++ b) = all_events a ++ all_events b.
Proof. apply flat_map_app. Qed.

Lemma of_thread_all i l : Forall (fun e => fst e = i) l -> of_thread i l = l.
Proof.
  induction 1 as [|e l H1 H2 IH]; cbn; auto. rewrite H1, Nat.eqb_refl. f_equal. exact IH.
Qed.
Lemma of_thread_none i b l : Forall (fun e => fst e = b) l -> i <> b -> of_thread i l = [].
Proof.
  intros H Hn. induction H as [|e l H1 H2 IH]; cbn; auto. destruct (fst e =? i) eqn:E; auto. apply Nat.eqb_eq in E. congruence.
Qed.

Lemma of_thread_nil i : of_thread i [] = [].
Proof. reflexivity. Qed.
Lemma all_events_one m : all_events [m] = flat_map snd m.
Proof. unfold all_events. cbn. apply app_nil_r. Qed.
Arguments of_thread : simpl never.
Arguments all_events : simpl never.

Notation nordered := (@ordered nat (list event) Nat.ltb).

Lemma append_ordered tid es m : nordered m -> nordered (append_to tid es m).
Proof. intros H. unfold append_to. apply ordered_insert; auto using nat_order. Qed.

(** Appending the events of thread [b] under its own thread id. *)
Lemma append_events i tid es : forall m, nordered m ->
  (forall k l e, In (k, l) m -> In e l -> fst e = i -> es <> [] -> of_thread i es <> [] -> k = tid) ->
  of_thread i (flat_map snd (append_to tid es m)) = of_thread i (flat_map snd m) ++ of_thread i es.
Proof.
  induction m as [|[k l] m IH]; intros HO Hk.
  { cbn. now rewrite app_nil_r. }
  inversion HO as [|? ? Hs Hf]; subst.
  assert (Hnil : forall k' l', In (k', l') ((k, l) :: m) -> k' <> tid -> of_thread i es = [] \/ of_thread i l' = []).
  { intros k' l' Hin Hne. destruct (of_thread i es) as [|e0 r0] eqn:E; auto. right.
    destruct (of_thread i l') as [|e r] eqn:E'; auto. exfalso. apply Hne.
    assert (In e (of_thread i l')) as Hi by (rewrite E'; left; reflexivity).
    apply filter_In in Hi. destruct Hi as (Hi & He). apply Nat.eqb_eq in He.
    apply (Hk k' l' e); auto; [intros ->; discriminate|congruence]. }
  assert (Hrest : (forall k' l', In (k', l') m -> k' <> tid) -> of_thread i es = [] \/ of_thread i (flat_map snd m) = []).
  { intros Hne. destruct (of_thread i es) as [|e0 r0] eqn:E; auto. right.
    assert (forall k' l', In (k', l') m -> of_thread i l' = []) as Ha.
    { intros k' l' Hin. destruct (Hnil k' l' (or_intror Hin) (Hne _ _ Hin)); [congruence|auto]. }
    clear -Ha. induction m as [|[k l] m IH]; cbn; auto. rewrite of_thread_app, (Ha k l) by (left; reflexivity). cbn.
    apply IH. intros; apply (Ha k'); right; auto. }
  unfold append_to. cbn [mfind minsert]. rewrite Forall_forall in Hf.
  destruct (tid <? k) eqn:E1.
  - cbn [flat_map snd]. rewrite of_thread_app.
    assert (Hgt : forall k' l', In (k', l') m -> k' <> tid).
    { intros k' l' Hin ->. specialize (Hf _ Hin). unfold lt_keys in Hf. cbn in Hf. apply Nat.ltb_lt in Hf, E1. lia. }
    assert (k <> tid) as Hkt by (apply Nat.ltb_lt in E1; lia).
    destruct (Hrest Hgt) as [H|H].
    { rewrite H. now rewrite app_nil_r. }
    destruct (Hnil k l (or_introl eq_refl) Hkt) as [H'|H'].
    { rewrite H'. now rewrite app_nil_r. }
    rewrite of_thread_app, H', H. cbn. now rewrite app_nil_r.
  - destruct (k <? tid) eqn:E2.
    + cbn [flat_map snd]. rewrite !of_thread_app, <- app_assoc. f_equal.
      apply IH; auto. intros k' l' e Hin. apply (Hk k' l' e). right. exact Hin.
    + apply Nat.ltb_ge in E1, E2. assert (k = tid) by lia. subst k. cbn [flat_map snd]. rewrite !of_thread_app.
      assert (Hgt : forall k' l', In (k', l') m -> k' <> tid).
      { intros k' l' Hin ->. specialize (Hf _ Hin). unfold lt_keys in Hf. cbn in Hf. apply Nat.ltb_lt in Hf. lia. }
      destruct (Hrest Hgt) as [H|H]; rewrite H; now rewrite ?app_nil_r.
Qed.

Lemma in_append tid es m k l : In (k, l) (append_to tid es m) -> (k = tid /\ forall e, In e l -> In e es \/ exists l', In (tid, l') m /\ In e l') \/ In (k, l) m.
Proof.
  unfold append_to. intros H. apply in_insert in H. destruct H as [H|H]; auto. left. injection H as -> ->. split; auto.
  intros e He. destruct (mfind Nat.ltb tid m) as [old|] eqn:E; auto.
  apply in_app_or in He. destruct He as [He|He]; auto. right. exists old. split; auto. eapply find_in; eauto using nat_order.
Qed.

(** ** The invariant *)
Definition ev_map (s : cstate) : list (nat * list event) := match cs_pc s with SCollecting _ ev => ev | _ => [] end.
Definition todo_all (s : cstate) : list (nat * nat) := match cs_pc s with SSwapped l => l | SCollecting todo _ => map fst todo | _ => [] end.
Definition todo_orph (s : cstate) : list (nat * nat) := match cs_pc s with SSwapped l => l | SCollecting todo _ => map fst (filter snd todo) | _ => [] end.

Lemma in_hand_map s : in_hand s = flat_map snd (ev_map s).
Proof. unfold in_hand, ev_map. destruct (cs_pc s); auto. Qed.

Record cinv (s : cstate) : Prop := {
  ci_acc : forall i t, nth_error (cs_threads s) i = Some t ->
    th_accepted t = of_thread i (all_events (cs_lost s ++ cs_sent s)) ++ of_thread i (flat_map snd (ev_map s)) ++ th_buf t;
  ci_tag : forall i t, nth_error (cs_threads s) i = Some t -> Forall (fun e => fst e = i) (th_buf t);
  ci_att : cs_attached s = false -> cs_sent s = [];
  ci_out : forall m k l e, In m (cs_lost s ++ cs_sent s ++ [ev_map s]) -> In (k, l) m -> In e l ->
    exists t, nth_error (cs_threads s) (fst e) = Some t /\ th_tid t = k;
  ci_ent : forall k b, In (k, b) (cs_orphans s ++ todo_all s) -> exists t, nth_error (cs_threads s) b = Some t /\ th_tid t = k;
  ci_orph : forall k b, In (k, b) (cs_orphans s ++ todo_orph s) -> exists t, nth_error (cs_threads s) b = Some t /\ th_phase t <> TRunning;
  ci_act1 : forall k b, In (k, b) (cs_active s) -> exists t, nth_error (cs_threads s) b = Some t /\ th_tid t = k /\ th_phase t <> TGone;
  ci_act2 : forall i t, nth_error (cs_threads s) i = Some t -> th_phase t <> TGone -> In (th_tid t, i) (cs_active s);
  ci_aord : @ordered nat nat Nat.ltb (cs_active s);
  ci_mord : nordered (ev_map s);
  ci_safe : forall i t, nth_error (cs_threads s) i = Some t -> th_phase t <> TRunning -> th_buf t <> [] -> In (th_tid t, i) (cs_orphans s ++ todo_orph s);
}.

Lemma cinv0 : forall b, cinv {| cs_threads := []; cs_active := []; cs_orphans := []; cs_pc := SIdle; cs_attached := b; cs_sent := []; cs_lost := [] |}.
Proof.
  intros b. constructor; cbn; intros; try (destruct i; discriminate); try contradiction; auto; try (constructor); try (destruct i; discriminate).
  destruct H as [<-|[]]. contradiction.
Qed.

Section Cap.
Variable cap : nat.

(** Threads keep their id; a thread that has left the running phase does not return. *)
Definition extends (l l' : list tthread) : Prop :=
  forall i t, nth_error l i = Some t -> exists t', nth_error l' i = Some t' /\ th_tid t' = th_tid t /\ (th_phase t <> TRunning -> th_phase t' <> TRunning) /\
    (exists more, th_accepted t' = th_accepted t ++ more).

Lemma extends_refl l : extends l l.
Proof. intros i t H. exists t. repeat split; auto. exists []. now rewrite app_nil_r. Qed.
Lemma extends_trans a b c : extends a b -> extends b c -> extends a c.
Proof.
  intros H1 H2 i t H. destruct (H1 _ _ H) as (t1 & E1 & T1 & P1 & m1 & A1). destruct (H2 _ _ E1) as (t2 & E2 & T2 & P2 & m2 & A2).
  exists t2. split; auto. split; [congruence|]. split; auto. exists (m1 ++ m2). now rewrite A2, A1, app_assoc.
Qed.
Lemma extends_set l i t t' : nth_error l i = Some t -> th_tid t' = th_tid t -> (th_phase t <> TRunning -> th_phase t' <> TRunning) ->
  (exists more, th_accepted t' = th_accepted t ++ more) -> extends l (set_nth i t' l).
Proof.
  intros H Ht Hp Ha k u Hk. destruct (Nat.eq_dec k i) as [->|Hn].
  - exists t'. rewrite set_nth_same by (eapply nth_error_lt; eauto). assert (u = t) by congruence. subst u. auto.
  - exists u. rewrite set_nth_other by auto. repeat split; auto. exists []. now rewrite app_nil_r.
Qed.
Lemma extends_snoc l x : extends l (l ++ [x]).
Proof.
  intros i t H. exists t. rewrite nth_error_app1 by (eapply nth_error_lt; eauto). repeat split; auto. exists []. now rewrite app_nil_r.
Qed.

Lemma step_extends l s s' : cstep cap l s = Some s' -> extends (cs_threads s) (cs_threads s').
Proof.
  destruct l as [tid|i x|i|i| | | |k| |]; cbn [cstep]; intros H.
  - destruct (existsb _ _); [discriminate|]. destruct (mfind _ _ _); [discriminate|]. injection H as <-. apply extends_snoc.
  - unfold tnth in H. destruct (nth_error _ i) as [t|] eqn:E; [|discriminate]. destruct (th_phase t) eqn:Ep; try discriminate.
    injection H as <-. destruct (length (th_buf t) <? cap); [|apply extends_refl]. cbn. eapply extends_set; eauto; cbn; auto; try congruence. eauto.
  - unfold tnth in H. destruct (nth_error _ i) as [t|] eqn:E; [|discriminate]. destruct (th_phase t) eqn:Ep; try discriminate.
    injection H as <-. cbn. eapply extends_set; eauto; cbn; auto; try congruence. exists []. now rewrite app_nil_r.
  - unfold tnth in H. destruct (nth_error _ i) as [t|] eqn:E; [|discriminate]. destruct (th_phase t) eqn:Ep; try discriminate.
    injection H as <-. cbn. eapply extends_set; eauto; cbn; auto; try congruence. exists []. now rewrite app_nil_r.
  - injection H as <-. apply extends_refl.
  - destruct (cs_pc s); try discriminate. injection H as <-. apply extends_refl.
  - destruct (cs_pc s); try discriminate. injection H as <-. apply extends_refl.
  - destruct (cs_pc s) as [| |[|[[tid b] o] rest] ev|]; try discriminate. destruct (nth_error _ b) as [t|] eqn:E; [|discriminate].
    destruct (if o then k =? length (th_buf t) else k <=? length (th_buf t)); [|discriminate]. injection H as <-. cbn. eapply extends_set; eauto; cbn; auto. exists []. now rewrite app_nil_r.
  - destruct (cs_pc s) as [| |[|e rest] ev|]; try discriminate. injection H as <-. destruct (count_events ev =? 0); apply extends_refl.
  - destruct (cs_pc s); try discriminate. injection H as <-. apply extends_refl.
Qed.

Lemma count_zero m : count_events m = 0 -> flat_map snd m = [].
Proof. unfold count_events. destruct (flat_map snd m); [auto|discriminate]. Qed.

Lemma step_cinv l s s' : cinv s -> cstep cap l s = Some s' -> cinv s'.
Proof.
  intros I H. pose proof (step_extends _ _ _ H) as X.
  assert (Out : forall m k l e, In m (cs_lost s ++ cs_sent s ++ [ev_map s]) -> In (k, l) m -> In e l ->
            exists t, nth_error (cs_threads s') (fst e) = Some t /\ th_tid t = k).
  { intros m k0 l0 e A B C. destruct (ci_out _ I _ _ _ _ A B C) as (t & Et & Ek). destruct (X _ _ Et) as (t' & Et' & T & _). exists t'. split; auto. congruence. }
  assert (Ent : forall k b, In (k, b) (cs_orphans s ++ todo_all s) -> exists t, nth_error (cs_threads s') b = Some t /\ th_tid t = k).
  { intros k0 b A. destruct (ci_ent _ I _ _ A) as (t & Et & Ek). destruct (X _ _ Et) as (t' & Et' & T & _). exists t'. split; auto. congruence. }
  assert (Orp : forall k b, In (k, b) (cs_orphans s ++ todo_orph s) -> exists t, nth_error (cs_threads s') b = Some t /\ th_phase t <> TRunning).
  { intros k0 b A. destruct (ci_orph _ I _ _ A) as (t & Et & Ek). destruct (X _ _ Et) as (t' & Et' & T & P & _). exists t'. split; auto. }
  destruct l as [tid|i x|i|i| | | |k| |]; cbn [cstep] in H.
  - (* TStart *)
    destruct (existsb _ _) eqn:Ex; [discriminate|]. destruct (mfind _ _ _) eqn:Ef; [discriminate|]. injection H as <-.
    assert (New : forall i t, nth_error (cs_threads s ++ [{| th_tid := tid; th_phase := TRunning; th_buf := []; th_accepted := [] |}]) i = Some t ->
              nth_error (cs_threads s) i = Some t \/ (i = length (cs_threads s) /\ {| th_tid := tid; th_phase := TRunning; th_buf := []; th_accepted := [] |} = t))
      by (intros; now apply nth_error_snoc).
    assert (Fresh : forall m, In m (cs_lost s ++ cs_sent s ++ [ev_map s]) -> of_thread (length (cs_threads s)) (flat_map snd m) = []).
    { intros m Hm. destruct (of_thread _ _) as [|e r] eqn:E; auto. exfalso.
      assert (In e (of_thread (length (cs_threads s)) (flat_map snd m))) as Hi by (rewrite E; left; reflexivity).
      apply filter_In in Hi. destruct Hi as (Hi & He). apply Nat.eqb_eq in He. apply in_flat_map in Hi. destruct Hi as ((k & l) & Hkl & Hel).
      destruct (ci_out _ I _ _ _ _ Hm Hkl Hel) as (t & Et & _). rewrite He in Et. apply nth_error_lt in Et. lia. }
    assert (Fresh2 : of_thread (length (cs_threads s)) (all_events (cs_lost s ++ cs_sent s)) = []).
    { assert (forall m, In m (cs_lost s ++ cs_sent s) -> of_thread (length (cs_threads s)) (flat_map snd m) = []) as F.
      { intros m Hm. apply Fresh. rewrite app_assoc. apply in_or_app. auto. }
      revert F. generalize (cs_lost s ++ cs_sent s). induction l as [|m l IH]; intros F; auto.
      unfold all_events. cbn [flat_map]. rewrite of_thread_app, F by (left; reflexivity). cbn. apply IH. intros; apply F; right; auto. }
    constructor; cbn [cs_threads cs_active cs_orphans cs_pc cs_attached cs_sent cs_lost].
    + intros i t Ht. apply New in Ht. destruct Ht as [Ht|(-> & <-)].
      * apply (ci_acc _ I _ _ Ht).
      * cbn. rewrite Fresh2. cbn. rewrite app_nil_r. symmetry. apply (Fresh (ev_map s)). rewrite !in_app_iff. cbn. auto.
    + intros i t Ht. apply New in Ht. destruct Ht as [Ht|(-> & <-)]; [apply (ci_tag _ I _ _ Ht)|constructor].
    + apply (ci_att _ I).
    + exact Out.
    + exact Ent.
    + exact Orp.
    + intros k b Hin. apply in_insert in Hin. destruct Hin as [E|Hin].
      * injection E as -> ->. eexists. rewrite nth_error_app2, Nat.sub_diag by lia. cbn. split; [reflexivity|]. cbn. split; congruence.
      * destruct (ci_act1 _ I _ _ Hin) as (t & Et & R). exists t. rewrite nth_error_app1 by (eapply nth_error_lt; eauto). auto.
    + intros i t Ht Hp. apply (find_in _ nat_order). apply New in Ht. destruct Ht as [Ht|(-> & <-)].
      * pose proof (in_find _ nat_order _ _ _ (ci_aord _ I) (ci_act2 _ I _ _ Ht Hp)) as Hf.
        rewrite (find_insert_other _ nat_order); auto; [apply (ci_aord _ I)|]. intros E. rewrite E in Hf. congruence.
      * cbn. apply (find_insert_same _ nat_order).
    + apply ordered_insert; auto using nat_order. apply (ci_aord _ I).
    + apply (ci_mord _ I).
    + intros i t Ht Hp Hb. apply New in Ht. destruct Ht as [Ht|(-> & <-)]; [apply (ci_safe _ I _ _ Ht Hp Hb)|]. cbn in Hb. congruence.
  - (* TEmit *)
    unfold tnth in H. destruct (nth_error (cs_threads s) i) as [t|] eqn:E; [|discriminate]. destruct (th_phase t) eqn:Ep; try discriminate.
    injection H as <-. destruct (length (th_buf t) <? cap); [|exact I]. pose proof (nth_error_lt _ _ _ E) as Hlt.
    constructor; cbn [with_threads cs_threads cs_active cs_orphans cs_pc cs_attached cs_sent cs_lost].
    + intros j u Hu. apply (set_nth_case _ _ _ _ _ Hlt) in Hu. destruct Hu as [(-> & ->)|(Hn & Hu)].
      * cbn. rewrite (ci_acc _ I _ _ E). now rewrite <- !app_assoc.
      * apply (ci_acc _ I _ _ Hu).
    + intros j u Hu. apply (set_nth_case _ _ _ _ _ Hlt) in Hu. destruct Hu as [(-> & ->)|(Hn & Hu)].
      * cbn. apply Forall_app. split; [apply (ci_tag _ I _ _ E)|]. repeat constructor.
      * apply (ci_tag _ I _ _ Hu).
    + apply (ci_att _ I).
    + exact Out.
    + exact Ent.
    + exact Orp.
    + intros k b Hin. destruct (ci_act1 _ I _ _ Hin) as (u & Eu & Tu & Pu). destruct (Nat.eq_dec b i) as [->|Hn].
      * rewrite set_nth_same by assumption. eexists. split; [reflexivity|]. cbn. assert (u = t) by congruence. subst. split; congruence.
      * rewrite set_nth_other by assumption. exists u. auto.
    + intros j u Hu Hp. apply (set_nth_case _ _ _ _ _ Hlt) in Hu. destruct Hu as [(-> & ->)|(Hn & Hu)].
      * cbn. apply (ci_act2 _ I _ _ E). congruence.
      * apply (ci_act2 _ I _ _ Hu Hp).
    + apply (ci_aord _ I).
    + apply (ci_mord _ I).
    + intros j u Hu Hp Hb. apply (set_nth_case _ _ _ _ _ Hlt) in Hu. destruct Hu as [(-> & ->)|(Hn & Hu)].
      * cbn in Hp. congruence.
      * apply (ci_safe _ I _ _ Hu Hp Hb).
  - (* TOrphan *)
    unfold tnth in H. destruct (nth_error (cs_threads s) i) as [t|] eqn:E; [|discriminate]. destruct (th_phase t) eqn:Ep; try discriminate.
    injection H as <-. pose proof (nth_error_lt _ _ _ E) as Hlt.
    assert (Hact : In (th_tid t, i) (cs_active s)) by (apply (ci_act2 _ I _ _ E); congruence).
    rewrite (in_find _ nat_order _ _ _ (ci_aord _ I) Hact) in *.
    constructor; cbn [cs_threads cs_active cs_orphans cs_pc cs_attached cs_sent cs_lost].
    + intros j u Hu. apply (set_nth_case _ _ _ _ _ Hlt) in Hu. destruct Hu as [(-> & ->)|(Hn & Hu)].
      * apply (ci_acc _ I _ _ E).
      * apply (ci_acc _ I _ _ Hu).
    + intros j u Hu. apply (set_nth_case _ _ _ _ _ Hlt) in Hu. destruct Hu as [(-> & ->)|(Hn & Hu)]; [apply (ci_tag _ I _ _ E)|apply (ci_tag _ I _ _ Hu)].
    + apply (ci_att _ I).
    + exact Out.
    + intros k b Hin. change (todo_all _) with (todo_all s) in Hin. rewrite !in_app_iff in Hin. destruct Hin as [[Hin|[Hin|[]]]|Hin]; try (apply Ent; rewrite in_app_iff; now auto).
      injection Hin as <- <-. rewrite set_nth_same by assumption. eexists. split; [reflexivity|]. reflexivity.
    + intros k b Hin. change (todo_orph _) with (todo_orph s) in Hin. rewrite !in_app_iff in Hin. destruct Hin as [[Hin|[Hin|[]]]|Hin]; try (apply (Orp k); rewrite in_app_iff; now auto).
      injection Hin as <- <-. rewrite set_nth_same by assumption. eexists. split; [reflexivity|]. cbn. congruence.
    + intros k b Hin. destruct (ci_act1 _ I _ _ Hin) as (u & Eu & Tu & Pu). destruct (Nat.eq_dec b i) as [->|Hn].
      * rewrite set_nth_same by assumption. eexists. split; [reflexivity|]. cbn. assert (u = t) by congruence. subst. split; congruence.
      * rewrite set_nth_other by assumption. exists u. auto.
    + intros j u Hu Hp. apply (set_nth_case _ _ _ _ _ Hlt) in Hu. destruct Hu as [(-> & ->)|(Hn & Hu)]; [exact Hact|apply (ci_act2 _ I _ _ Hu Hp)].
    + apply (ci_aord _ I).
    + apply (ci_mord _ I).
    + intros j u Hu Hp Hb. change (todo_orph _) with (todo_orph s). rewrite !in_app_iff. apply (set_nth_case _ _ _ _ _ Hlt) in Hu. destruct Hu as [(-> & ->)|(Hn & Hu)].
      * cbn. auto.
      * pose proof (ci_safe _ I _ _ Hu Hp Hb) as Hs. rewrite in_app_iff in Hs. tauto.
  - (* TErase *)
    unfold tnth in H. destruct (nth_error (cs_threads s) i) as [t|] eqn:E; [|discriminate]. destruct (th_phase t) eqn:Ep; try discriminate.
    injection H as <-. pose proof (nth_error_lt _ _ _ E) as Hlt.
    assert (Hact : In (th_tid t, i) (cs_active s)) by (apply (ci_act2 _ I _ _ E); congruence).
    pose proof (in_find _ nat_order _ _ _ (ci_aord _ I) Hact) as Hfi.
    constructor; cbn [cs_threads cs_active cs_orphans cs_pc cs_attached cs_sent cs_lost].
    + intros j u Hu. apply (set_nth_case _ _ _ _ _ Hlt) in Hu. destruct Hu as [(-> & ->)|(Hn & Hu)].
      * apply (ci_acc _ I _ _ E).
      * apply (ci_acc _ I _ _ Hu).
    + intros j u Hu. apply (set_nth_case _ _ _ _ _ Hlt) in Hu. destruct Hu as [(-> & ->)|(Hn & Hu)]; [apply (ci_tag _ I _ _ E)|apply (ci_tag _ I _ _ Hu)].
    + apply (ci_att _ I).
    + exact Out.
    + exact Ent.
    + exact Orp.
    + intros k b Hin.
      assert (k <> th_tid t) as Hk.
      { intros ->. pose proof (in_find _ nat_order _ _ _ (ordered_erase _ nat_order (th_tid t) _ (ci_aord _ I)) Hin) as Hf.
        rewrite (find_erase_same _ nat_order) in Hf by apply (ci_aord _ I). discriminate. }
      apply in_erase in Hin. destruct (ci_act1 _ I _ _ Hin) as (u & Eu & Tu & Pu). destruct (Nat.eq_dec b i) as [->|Hn].
      * congruence.
      * rewrite set_nth_other by assumption. exists u. auto.
    + intros j u Hu Hp. apply (set_nth_case _ _ _ _ _ Hlt) in Hu. destruct Hu as [(-> & ->)|(Hn & Hu)].
      * cbn in Hp. congruence.
      * apply (find_in _ nat_order). pose proof (in_find _ nat_order _ _ _ (ci_aord _ I) (ci_act2 _ I _ _ Hu Hp)) as Hf.
        rewrite (find_erase_other _ nat_order); auto; [apply (ci_aord _ I)|]. intros Et. rewrite Et in Hf. congruence.
    + apply ordered_erase; auto using nat_order. apply (ci_aord _ I).
    + apply (ci_mord _ I).
    + intros j u Hu Hp Hb. apply (set_nth_case _ _ _ _ _ Hlt) in Hu. destruct Hu as [(-> & ->)|(Hn & Hu)].
      * cbn in *. apply (ci_safe _ I _ _ E); congruence.
      * apply (ci_safe _ I _ _ Hu Hp Hb).
  - (* SAttach *)
    injection H as <-. destruct I. constructor; auto. discriminate.
  - (* SSwap *)
    destruct (cs_pc s) eqn:Epc; try discriminate. injection H as <-. destruct I as [I1 I2 I3 I4 I5 I6 I7 I8 I9 I10 I11].
    unfold ev_map, todo_all, todo_orph in *. rewrite Epc in *. rewrite app_nil_r in *.
    constructor; unfold ev_map, todo_all, todo_orph; cbn [cs_threads cs_active cs_orphans cs_pc cs_attached cs_sent cs_lost app]; auto.
  - (* SSnapshot *)
    destruct (cs_pc s) as [|l|todo ev|] eqn:Epc; try discriminate. injection H as <-. destruct I as [I1 I2 I3 I4 I5 I6 I7 I8 I9 I10 I11].
    unfold ev_map, todo_all, todo_orph in *. rewrite Epc in *.
    assert (M1 : forall a : list (nat * nat), map fst (map (fun e => (e, true)) l ++ map (fun e => (e, false)) a) = l ++ a).
    { intros a. rewrite map_app, !map_map. cbn. now rewrite !map_id. }
    assert (M2 : forall a : list (nat * nat), map fst (filter snd (map (fun e => (e, true)) l ++ map (fun e => (e, false)) a)) = l).
    { intros a. rewrite filter_app. assert (filter snd (map (fun e => (e, false)) a) = []) as -> by (induction a; cbn; auto).
      rewrite app_nil_r. clear. induction l as [|y l IH]; cbn; auto. now rewrite IH. }
    constructor; unfold ev_map, todo_all, todo_orph; cbn [with_pc cs_threads cs_active cs_orphans cs_pc cs_attached cs_sent cs_lost]; rewrite ?M1, ?M2; auto.
    intros k b Hin. rewrite !in_app_iff in Hin. destruct Hin as [Hin|[Hin|Hin]]; try (apply I5; rewrite in_app_iff; now auto).
    destruct (I7 _ _ Hin) as (t & Et & Tt & _). eauto.
  - (* SCollect *)
    destruct (cs_pc s) as [| |[|[[tid b] o] rest] ev|] eqn:Epc; try discriminate. destruct (nth_error (cs_threads s) b) as [t|] eqn:E; [|discriminate].
    destruct (if o then k =? length (th_buf t) else k <=? length (th_buf t)) eqn:Ek; [|discriminate]. injection H as <-.
    pose proof (nth_error_lt _ _ _ E) as Hlt.
    destruct I as [I1 I2 I3 I4 I5 I6 I7 I8 I9 I10 I11].
    unfold ev_map, todo_all, todo_orph in *. rewrite Epc in *. cbn [map fst] in *.
    assert (Tid : th_tid t = tid).
    { destruct (I5 tid b) as (u & Eu & Tu); [rewrite in_app_iff; right; left; reflexivity|]. congruence. }
    assert (Tagk : Forall (fun e => fst e = b) (firstn k (th_buf t))).
    { pose proof (I2 _ _ E) as F. rewrite <- (firstn_skipn k (th_buf t)) in F. apply Forall_app in F. tauto. }
    assert (App : forall i, of_thread i (flat_map snd (append_to tid (firstn k (th_buf t)) ev)) = of_thread i (flat_map snd ev) ++ of_thread i (firstn k (th_buf t))).
    { intros i. apply append_events; auto. intros k' l' e Hin He Hf _ Hne.
      assert (i = b). { destruct (Nat.eq_dec i b); auto. rewrite (of_thread_none _ _ _ Tagk) in Hne by assumption. congruence. }
      subst b. destruct (I4 ev k' l' e) as (u & Eu & Tu); auto; [rewrite !in_app_iff; cbn; auto|]. rewrite Hf in Eu. congruence. }
    constructor; unfold ev_map, todo_all, todo_orph; cbn [with_pc with_threads cs_threads cs_active cs_orphans cs_pc cs_attached cs_sent cs_lost].
    + intros j u Hu. rewrite App. apply (set_nth_case _ _ _ _ _ Hlt) in Hu. destruct Hu as [(-> & ->)|(Hn & Hu)].
      * cbn [th_accepted th_buf]. rewrite (I1 _ _ E). rewrite (of_thread_all b (firstn _ _)) by assumption.
        rewrite <- !app_assoc, firstn_skipn. reflexivity.
      * rewrite (I1 _ _ Hu). rewrite (of_thread_none j b (firstn _ _)) by assumption. now rewrite app_nil_r.
    + intros j u Hu. apply (set_nth_case _ _ _ _ _ Hlt) in Hu. destruct Hu as [(-> & ->)|(Hn & Hu)].
      * cbn. pose proof (I2 _ _ E) as F. rewrite <- (firstn_skipn k (th_buf t)) in F. apply Forall_app in F. tauto.
      * apply (I2 _ _ Hu).
    + exact I3.
    + intros m k0 l e Hm Hk Hl. rewrite !in_app_iff in Hm. destruct Hm as [Hm|[Hm|[<-|[]]]].
      * apply (Out m k0 l e); auto. rewrite !in_app_iff. auto.
      * apply (Out m k0 l e); auto. rewrite !in_app_iff. auto.
      * apply in_append in Hk. destruct Hk as [(-> & Hk)|Hk].
        -- destruct (Hk e Hl) as [He|(l' & Hl' & He)].
           ++ rewrite Forall_forall in Tagk. rewrite (Tagk _ He), set_nth_same by assumption. eexists. split; [reflexivity|]. exact Tid.
           ++ apply (Out ev tid l' e); auto. rewrite !in_app_iff. cbn. auto.
        -- apply (Out ev k0 l e); auto. rewrite !in_app_iff. cbn. auto.
    + intros k0 b0 Hin. apply Ent. rewrite in_app_iff in *. cbn. tauto.
    + intros k0 b0 Hin. apply (Orp k0). rewrite in_app_iff in *. cbn. destruct o; cbn; tauto.
    + intros k0 b0 Hin. destruct (I7 _ _ Hin) as (u & Eu & Tu & Pu). destruct (Nat.eq_dec b0 b) as [->|Hn].
      * rewrite set_nth_same by assumption. eexists. split; [reflexivity|]. cbn. assert (u = t) by congruence. subst. split; congruence.
      * rewrite set_nth_other by assumption. exists u. auto.
    + intros j u Hu Hp. apply (set_nth_case _ _ _ _ _ Hlt) in Hu. destruct Hu as [(-> & ->)|(Hn & Hu)]; [apply (I8 _ _ E); exact Hp|apply (I8 _ _ Hu Hp)].
    + exact I9.
    + apply append_ordered. exact I10.
    + intros j u Hu Hp Hb. apply (set_nth_case _ _ _ _ _ Hlt) in Hu. destruct Hu as [(-> & ->)|(Hn & Hu)].
      * cbn [th_tid th_buf th_phase] in *. assert (th_buf t <> []) as Hb'. { intros Hx. rewrite Hx in Hb. destruct k; cbn in Hb; congruence. }
        pose proof (I11 _ _ E Hp Hb') as Hs. rewrite in_app_iff in *. destruct Hs as [Hs|Hs]; auto. right.
        destruct o; cbn in Hs; auto. destruct Hs as [Hs|Hs]; auto. exfalso. apply Nat.eqb_eq in Ek. subst k. now rewrite skipn_all in Hb.
      * pose proof (I11 _ _ Hu Hp Hb) as Hs. rewrite in_app_iff in *. destruct Hs as [Hs|Hs]; auto. right.
        destruct o; cbn in Hs; auto. destruct Hs as [Hs|Hs]; auto. congruence.
  - (* SSend *)
    destruct (cs_pc s) as [| |[|e rest] ev|] eqn:Epc; try discriminate. injection H as <-. destruct I as [I1 I2 I3 I4 I5 I6 I7 I8 I9 I10 I11].
    unfold ev_map, todo_all, todo_orph in *. rewrite Epc in *. cbn [map fst filter] in *. rewrite app_nil_r in *.
    destruct (count_events ev =? 0) eqn:Ec.
    + apply Nat.eqb_eq, count_zero in Ec. rewrite Ec in *.
      constructor; unfold ev_map, todo_all, todo_orph; cbn [with_pc cs_threads cs_active cs_orphans cs_pc cs_attached cs_sent cs_lost]; rewrite ?app_nil_r; auto.
      * intros m k0 l e Hm Hk Hl. rewrite !in_app_iff in Hm. destruct Hm as [Hm|[Hm|[<-|[]]]]; [| |contradiction]; apply (Out m k0 l e); auto; rewrite !in_app_iff; auto.
      * constructor.
    + assert (Ev : forall i, of_thread i (all_events (cs_lost s ++ cs_sent s)) ++ of_thread i (flat_map snd ev) =
                    of_thread i (all_events ((if cs_attached s then cs_lost s else cs_lost s ++ [ev]) ++ (if cs_attached s then cs_sent s ++ [ev] else cs_sent s)))).
      { intros i. rewrite <- of_thread_app. f_equal. destruct (cs_attached s) eqn:Ea.
        - rewrite app_assoc, (all_events_app _ [ev]), all_events_one. reflexivity.
        - rewrite (I3 eq_refl), !app_nil_r, all_events_app, all_events_one. reflexivity. }
      constructor; unfold ev_map, todo_all, todo_orph; cbn [cs_threads cs_active cs_orphans cs_pc cs_attached cs_sent cs_lost]; rewrite ?app_nil_r; auto.
      * intros i t Ht. rewrite (I1 _ _ Ht), app_assoc, Ev. reflexivity.
      * intros Ha. rewrite Ha. auto.
      * intros m k0 l e Hm Hk Hl. rewrite !in_app_iff in Hm.
        assert (Hm' : In m (cs_lost s ++ cs_sent s ++ [ev]) \/ m = []).
        { rewrite !in_app_iff. destruct (cs_attached s); rewrite ?in_app_iff in Hm; cbn in *; intuition auto. }
        destruct Hm' as [Hm'|Hm']; [|subst m; contradiction]. apply (Out m k0 l e); auto.
      * constructor.
  - (* SStop *)
    destruct (cs_pc s) eqn:Epc; try discriminate. injection H as <-. destruct I as [I1 I2 I3 I4 I5 I6 I7 I8 I9 I10 I11].
    unfold ev_map, todo_all, todo_orph in *. rewrite Epc in *.
    constructor; unfold ev_map, todo_all, todo_orph; cbn [with_pc cs_threads cs_active cs_orphans cs_pc cs_attached cs_sent cs_lost]; auto.
Qed.

Lemma run_cinv ls : forall s s', cinv s -> crun cap ls s = Some s' -> cinv s'.
Proof.
  induction ls as [|l ls IH]; cbn; intros s s' I H; [injection H as <-; auto|].
  destruct (cstep cap l s) as [s1|] eqn:E; [|discriminate]. eauto using step_cinv.
Qed.
Lemma run_extends ls : forall s s', crun cap ls s = Some s' -> extends (cs_threads s) (cs_threads s').
Proof.
  induction ls as [|l ls IH]; cbn; intros s s' H; [injection H as <-; apply extends_refl|].
  destruct (cstep cap l s) as [s1|] eqn:E; [|discriminate]. eauto using extends_trans, step_extends.
Qed.

Lemma crun_app a : forall b s, crun cap (a ++ b) s = match crun cap a s with Some s1 => crun cap b s1 | None => None end.
Proof. induction a as [|l a IH]; cbn; intros b s; auto. destruct (cstep cap l s); auto. Qed.
Lemma crun_cons l ls s : crun cap (l :: ls) s = match cstep cap l s with Some s1 => crun cap ls s1 | None => None end.
Proof. reflexivity. Qed.
Lemma crun_snoc ls l s s' : crun cap (ls ++ [l]) s = Some s' -> exists s1, crun cap ls s = Some s1 /\ cstep cap l s1 = Some s'.
Proof.
  rewrite crun_app. destruct (crun cap ls s) as [s1|]; [|discriminate]. cbn. destruct (cstep cap l s1) as [s2|] eqn:E; [|discriminate].
  intros H. injection H as <-. eauto.
Qed.

(** Once there is a transport, nothing that is collected is thrown away. *)
Lemma step_attached l s s' : cs_attached s = true -> cstep cap l s = Some s' -> cs_attached s' = true /\ cs_lost s' = cs_lost s.
Proof.
  intros Ha H. destruct l as [tid|i x|i|i| | | |k| |]; cbn [cstep] in H.
  - destruct (existsb _ _); [discriminate|]. destruct (mfind _ _ _); [discriminate|]. injection H as <-. auto.
  - destruct (tnth i s) as [t|]; [|discriminate]. destruct (th_phase t); try discriminate. injection H as <-. destruct (length (th_buf t) <? cap); auto.
  - destruct (tnth i s) as [t|]; [|discriminate]. destruct (th_phase t); try discriminate. injection H as <-. auto.
  - destruct (tnth i s) as [t|]; [|discriminate]. destruct (th_phase t); try discriminate. injection H as <-. auto.
  - injection H as <-. auto.
  - destruct (cs_pc s); try discriminate. injection H as <-. auto.
  - destruct (cs_pc s); try discriminate. injection H as <-. auto.
  - destruct (cs_pc s) as [| |[|[[tid b] o] rest] ev|]; try discriminate. destruct (nth_error _ b) as [t|]; [|discriminate].
    destruct (if o then k =? length (th_buf t) else k <=? length (th_buf t)); [|discriminate]. injection H as <-. auto.
  - destruct (cs_pc s) as [| |[|e rest] ev|]; try discriminate. injection H as <-. rewrite Ha. destruct (count_events ev =? 0); auto.
  - destruct (cs_pc s); try discriminate. injection H as <-. auto.
Qed.
Lemma run_attached ls : forall s s', cs_attached s = true -> crun cap ls s = Some s' -> cs_attached s' = true /\ cs_lost s' = cs_lost s.
Proof.
  induction ls as [|l ls IH]; intros s s' Ha H; [injection H as <-; auto|]. rewrite crun_cons in H.
  destruct (cstep cap l s) as [s1|] eqn:E; [|discriminate]. destruct (step_attached _ _ _ Ha E) as (A1 & L1).
  destruct (IH _ _ A1 H). split; congruence.
Qed.

Theorem exactly_once ls s i t : crun cap ls c_attached = Some s -> nth_error (cs_threads s) i = Some t ->
  th_accepted t = of_thread i (all_events (cs_sent s)) ++ of_thread i (in_hand s) ++ th_buf t.
Proof.
  intros H Ht. pose proof (run_cinv _ _ _ (cinv0 true) H) as I. destruct (run_attached _ c_attached _ eq_refl H) as (_ & L).
  pose proof (ci_acc _ I _ _ Ht) as E. rewrite L in E. cbn in E. now rewrite in_hand_map.
Qed.

(** The same with a transport that comes later: what was collected earlier is lost, all the rest is sent. *)
Theorem once_or_lost ls s i t : crun cap ls c0 = Some s -> nth_error (cs_threads s) i = Some t ->
  th_accepted t = of_thread i (all_events (cs_lost s)) ++ of_thread i (all_events (cs_sent s)) ++ of_thread i (in_hand s) ++ th_buf t.
Proof.
  intros H Ht. pose proof (run_cinv _ _ _ (cinv0 false) H) as I.
  pose proof (ci_acc _ I _ _ Ht) as E. rewrite in_hand_map. rewrite E, all_events_app, of_thread_app, <- app_assoc. reflexivity.
Qed.

(** ** What is accepted is what was emitted *)
Lemma emissions_app i a b : emissions i (a ++ b) = emissions i a ++ emissions i b.
Proof.
  induction a as [|l a IH]; cbn; auto. destruct l; auto. destruct (i0 =? i); cbn; now rewrite IH.
Qed.
Lemma subseq_refl {A} (l : list A) : subseq l l.
Proof. induction l; constructor; auto. Qed.
Lemma subseq_snoc_both {A} (l l' : list A) x : subseq l l' -> subseq (l ++ [x]) (l' ++ [x]).
Proof.
  induction 1 as [l|y l l' H IH|y l l' H IH]; cbn.
  - induction l as [|y l IHl]; cbn; [apply subseq_refl|apply sub_skip; exact IHl].
  - now apply sub_keep.
  - now apply sub_skip.
Qed.
Lemma subseq_snoc {A} (l l' : list A) x : subseq l l' -> subseq l (l' ++ [x]).
Proof. induction 1; cbn; constructor; auto. Qed.
Lemma subseq_length {A} (l l' : list A) : subseq l l' -> length l <= length l'.
Proof. induction 1; cbn; lia. Qed.
Lemma subseq_in {A} (l l' : list A) x : subseq l l' -> In x l -> In x l'.
Proof. induction 1; cbn; intuition. Qed.

Definition acc_of (i : nat) (s : cstate) : list event := match nth_error (cs_threads s) i with Some t => th_accepted t | None => [] end.

Lemma step_acc l s s' i : cstep cap l s = Some s' ->
  acc_of i s' = acc_of i s \/ (exists x t, l = TEmit i x /\ nth_error (cs_threads s) i = Some t /\ length (th_buf t) < cap /\ acc_of i s' = acc_of i s ++ [(i, x)]).
Proof.
  assert (Set_ : forall j t t', nth_error (cs_threads s) j = Some t -> th_accepted t' = th_accepted t ->
            match nth_error (set_nth j t' (cs_threads s)) i with Some t => th_accepted t | None => [] end = acc_of i s).
  { intros j t t' Hj Ha. unfold acc_of. destruct (Nat.eq_dec i j) as [->|Hn].
    - rewrite set_nth_same by (eapply nth_error_lt; eauto). now rewrite Hj.
    - now rewrite set_nth_other. }
  intros H. destruct l as [tid|j x|j|j| | | |k| |]; cbn [cstep] in H.
  - destruct (existsb _ _); [discriminate|]. destruct (mfind _ _ _); [discriminate|]. injection H as <-. left. unfold acc_of. cbn.
    destruct (Nat.lt_ge_cases i (length (cs_threads s))).
    + now rewrite nth_error_app1.
    + rewrite nth_error_app2 by assumption. replace (nth_error (cs_threads s) i) with (@None tthread) by (symmetry; now apply nth_error_None).
      destruct (i - length (cs_threads s)) as [|[|]]; reflexivity.
  - unfold tnth in H. destruct (nth_error (cs_threads s) j) as [t|] eqn:E; [|discriminate]. destruct (th_phase t); try discriminate. injection H as <-.
    destruct (length (th_buf t) <? cap) eqn:El; [|auto]. apply Nat.ltb_lt in El. destruct (Nat.eq_dec i j) as [->|Hn].
    + right. exists x, t. split; auto. split; auto. split; auto. unfold acc_of. cbn. rewrite set_nth_same by (eapply nth_error_lt; eauto). now rewrite E.
    + left. unfold acc_of. cbn. now rewrite set_nth_other.
  - unfold tnth in H. destruct (nth_error (cs_threads s) j) as [t|] eqn:E; [|discriminate]. destruct (th_phase t); try discriminate. injection H as <-.
    left. eapply Set_; eauto.
  - unfold tnth in H. destruct (nth_error (cs_threads s) j) as [t|] eqn:E; [|discriminate]. destruct (th_phase t); try discriminate. injection H as <-.
    left. eapply Set_; eauto.
  - injection H as <-. auto.
  - destruct (cs_pc s); try discriminate. injection H as <-. auto.
  - destruct (cs_pc s); try discriminate. injection H as <-. auto.
  - destruct (cs_pc s) as [| |[|[[tid b] o] rest] ev|]; try discriminate. destruct (nth_error _ b) as [t|] eqn:E; [|discriminate].
    destruct (if o then k =? length (th_buf t) else k <=? length (th_buf t)); [|discriminate]. injection H as <-. left. eapply Set_; eauto.
  - destruct (cs_pc s) as [| |[|e rest] ev|]; try discriminate. injection H as <-. left. destruct (count_events ev =? 0); auto.
  - destruct (cs_pc s); try discriminate. injection H as <-. auto.
Qed.

Lemma emissions_one i l : emissions i [l] = match l with TEmit j x => if j =? i then [(i, x)] else [] | _ => [] end.
Proof. destruct l; reflexivity. Qed.

Lemma accepted_subseq b i : forall ls s, crun cap ls {| cs_threads := []; cs_active := []; cs_orphans := []; cs_pc := SIdle; cs_attached := b; cs_sent := []; cs_lost := [] |} = Some s ->
  subseq (acc_of i s) (emissions i ls) /\ (length (emissions i ls) <= cap -> acc_of i s = emissions i ls).
Proof.
  induction ls as [|l ls IH] using rev_ind; intros s H.
  { cbn in H. injection H as <-. unfold acc_of. cbn. destruct i; cbn; split; try constructor; auto. }
  pose proof H as Hall. apply crun_snoc in H. destruct H as (s1 & H1 & H2). specialize (IH _ H1). destruct IH as (IH1 & IH2).
  rewrite emissions_app, emissions_one. destruct (step_acc _ _ _ i H2) as [E|(x & t & -> & Ht & Hl & E)]; rewrite E.
  - split.
    + destruct l; rewrite ?app_nil_r; auto. destruct (i0 =? i); rewrite ?app_nil_r; auto. now apply subseq_snoc.
    + intros Hlen. assert (length (emissions i ls) <= cap) as Hle by (rewrite app_length in Hlen; lia). rewrite (IH2 Hle).
      destruct l as [|j x| | | | | | | |]; rewrite ?app_nil_r; auto. destruct (j =? i) eqn:Ej; rewrite ?app_nil_r; auto.
      apply Nat.eqb_eq in Ej. subst j. exfalso. rewrite app_length in Hlen. cbn in Hlen.
      cbn [cstep] in H2. unfold tnth in H2. destruct (nth_error (cs_threads s1) i) as [t|] eqn:Et; [|discriminate].
      destruct (th_phase t); try discriminate. injection H2 as H2. destruct (length (th_buf t) <? cap) eqn:El.
      * subst s. unfold acc_of in E. cbn in E. rewrite set_nth_same in E by (eapply nth_error_lt; eauto). rewrite Et in E. cbn in E.
        apply (f_equal (@length _)) in E. rewrite app_length in E. cbn in E. lia.
      * apply Nat.ltb_ge in El. pose proof (run_cinv _ _ _ (cinv0 b) H1) as I. pose proof (ci_acc _ I _ _ Et) as Ea.
        pose proof (IH2 Hle) as E1. unfold acc_of in E1. rewrite Et in E1. apply (f_equal (@length _)) in Ea. rewrite !app_length, E1 in Ea. lia.
  - rewrite Nat.eqb_refl. split; [now apply subseq_snoc_both|]. intros Hlen. rewrite app_length in Hlen. rewrite IH2 by lia. reflexivity.
Qed.

Theorem accepted_emitted ls s i t : crun cap ls c_attached = Some s -> nth_error (cs_threads s) i = Some t ->
  subseq (th_accepted t) (emissions i ls) /\ (length (emissions i ls) <= cap -> th_accepted t = emissions i ls).
Proof.
  intros H Ht. pose proof (accepted_subseq true i ls s H) as A. unfold acc_of in A. now rewrite Ht in A.
Qed.

(** Everything in a broadcast was emitted by a thread with the thread id it is filed under. *)
Theorem only_emitted ls s m k l e : crun cap ls c_attached = Some s -> In m (cs_sent s) -> In (k, l) m -> In e l ->
  In e (emissions (fst e) ls) /\ exists t, nth_error (cs_threads s) (fst e) = Some t /\ th_tid t = k.
Proof.
  intros H Hm Hk He. pose proof (run_cinv _ _ _ (cinv0 true) H) as I.
  destruct (ci_out _ I m k l e) as (t & Et & Tt); auto; [rewrite !in_app_iff; auto|]. split; [|eauto].
  destruct (accepted_emitted _ _ _ _ H Et) as (A & _). eapply subseq_in; [exact A|].
  rewrite (exactly_once _ _ _ _ H Et). apply in_or_app. left. apply filter_In. split; [|apply Nat.eqb_refl].
  apply in_flat_map. exists m. split; auto. apply in_flat_map. exists (k, l). auto.
Qed.

(** A new thread gets a buffer of its own: no buffer is left in the active map under its id. *)
Theorem fresh_buffer ls s tid : crun cap ls c0 = Some s \/ crun cap ls c_attached = Some s ->
  (forall i t, nth_error (cs_threads s) i = Some t -> th_tid t = tid -> th_phase t = TGone) -> mfind Nat.ltb tid (cs_active s) = None.
Proof.
  intros H Hg. assert (I : cinv s) by (destruct H as [H|H]; eapply run_cinv; [|exact H|idtac|exact H]; apply cinv0).
  destruct (mfind Nat.ltb tid (cs_active s)) as [b|] eqn:E; auto. exfalso. apply (find_in _ nat_order) in E.
  destruct (ci_act1 _ I _ _ E) as (t & Et & Tt & Pt). exact (Pt (Hg _ _ Et Tt)).
Qed.

(** ** Two rounds *)
Definition popped (i : nat) (s : cstate) : list event := of_thread i (all_events (cs_lost s ++ cs_sent s)) ++ of_thread i (flat_map snd (ev_map s)).

Lemma acc_popped s i t : cinv s -> nth_error (cs_threads s) i = Some t -> th_accepted t = popped i s ++ th_buf t.
Proof. intros I Ht. unfold popped. rewrite <- app_assoc. apply (ci_acc _ I _ _ Ht). Qed.

(** How many rounds the sender has completed, read off its remaining steps. *)
Definition dn (i n : nat) (s : cstate) : Prop := n <= length (popped i s).

Inductive prog (i n : nat) (s : cstate) : list clabel -> Prop :=
  | pr_idle0 ks1 ks2 : cs_pc s = SIdle -> prog i n s (round ks1 ++ round ks2)
  | pr_swap0 l ks1 ks2 : cs_pc s = SSwapped l -> prog i n s (SSnapshot :: map SCollect ks1 ++ SSend :: round ks2)
  | pr_coll0 todo ev ks1 ks2 : cs_pc s = SCollecting todo ev ->
      dn i n s \/ In i (map (fun e => snd (fst e)) todo) \/ In i (map snd (cs_orphans s)) -> prog i n s (map SCollect ks1 ++ SSend :: round ks2)
  | pr_idle1 ks2 : cs_pc s = SIdle -> dn i n s \/ In i (map snd (cs_orphans s)) -> prog i n s (round ks2)
  | pr_swap1 l ks2 : cs_pc s = SSwapped l -> dn i n s \/ In i (map snd l) -> prog i n s (SSnapshot :: map SCollect ks2 ++ [SSend])
  | pr_coll1 todo ev ks2 : cs_pc s = SCollecting todo ev -> dn i n s \/ In i (map (fun e => snd (fst e)) todo) -> prog i n s (map SCollect ks2 ++ [SSend])
  | pr_end : cs_pc s = SIdle -> dn i n s -> prog i n s [].

Lemma dn_mono i n l s s' : cinv s -> cinv s' -> cstep cap l s = Some s' -> dn i n s -> dn i n s'.
Proof.
  intros I I' H D. unfold dn in *. enough (length (popped i s) <= length (popped i s')) by lia. clear D.
  destruct l as [tid|j x|j|j| | | |k| |]; cbn [cstep] in H.
  - destruct (existsb _ _); [discriminate|]. destruct (mfind _ _ _); [discriminate|]. injection H as <-. auto.
  - destruct (tnth j s) as [t|]; [|discriminate]. destruct (th_phase t); try discriminate. injection H as <-. destruct (length (th_buf t) <? cap); auto.
  - destruct (tnth j s) as [t|]; [|discriminate]. destruct (th_phase t); try discriminate. injection H as <-. auto.
  - destruct (tnth j s) as [t|]; [|discriminate]. destruct (th_phase t); try discriminate. injection H as <-. auto.
  - injection H as <-. auto.
  - unfold popped, ev_map. destruct (cs_pc s); try discriminate. injection H as <-. auto.
  - unfold popped, ev_map. destruct (cs_pc s); try discriminate. injection H as <-. auto.
  - destruct (cs_pc s) as [| |[|[[tid b] o] rest] ev|] eqn:Epc; try discriminate. destruct (nth_error (cs_threads s) b) as [t|] eqn:E; [|discriminate].
    destruct (if o then k =? length (th_buf t) else k <=? length (th_buf t)); [|discriminate]. injection H as Hs.
    assert (Eth := f_equal cs_threads Hs). cbn [with_pc with_threads cs_threads] in Eth. symmetry in Eth. clear Hs.
    pose proof (nth_error_lt _ _ _ E) as Hlt.
    destruct (nth_error (cs_threads s) i) as [u|] eqn:Eu.
    + pose proof (acc_popped _ _ _ I Eu) as A. destruct (Nat.eq_dec i b) as [->|Hn].
      * assert (u = t) by congruence. subst u.
        pose proof (acc_popped _ b {| th_tid := th_tid t; th_phase := th_phase t; th_buf := skipn k (th_buf t); th_accepted := th_accepted t |} I') as A'.
        rewrite Eth, set_nth_same in A' by assumption. specialize (A' eq_refl). cbn [th_accepted th_buf] in A'.
        rewrite A in A'. apply (f_equal (@length _)) in A'. rewrite !app_length, skipn_length in A'. lia.
      * pose proof (acc_popped _ i u I') as A'. rewrite Eth, set_nth_other in A' by assumption. specialize (A' Eu).
        rewrite A in A'. apply (f_equal (@length _)) in A'. rewrite !app_length in A'. lia.
    + assert (popped i s = []) as ->; [|cbn; lia].
      unfold popped. rewrite <- of_thread_app. destruct (of_thread i _) as [|e r] eqn:Ee; auto. exfalso.
      assert (In e (of_thread i (all_events (cs_lost s ++ cs_sent s) ++ flat_map snd (ev_map s)))) as Hi by (rewrite Ee; left; reflexivity).
      apply filter_In in Hi. destruct Hi as (Hi & He). apply Nat.eqb_eq in He. apply in_app_or in Hi.
      assert (exists m kk ll, In m (cs_lost s ++ cs_sent s ++ [ev_map s]) /\ In (kk, ll) m /\ In e ll) as (m & kk & ll & B1 & B2 & B3).
      { destruct Hi as [Hi|Hi].
        - apply in_flat_map in Hi. destruct Hi as (m & Hm & Hi). apply in_flat_map in Hi. destruct Hi as ((kk & ll) & B2 & B3).
          exists m, kk, ll. split; auto. rewrite app_assoc, in_app_iff. auto.
        - apply in_flat_map in Hi. destruct Hi as ((kk & ll) & B2 & B3). exists (ev_map s), kk, ll. split; auto. rewrite !in_app_iff. cbn. auto. }
      destruct (ci_out _ I _ _ _ _ B1 B2 B3) as (u & Eu' & _). congruence.
  - destruct (cs_pc s) as [| |[|e rest] ev|] eqn:Epc; try discriminate. injection H as <-. unfold popped, ev_map. rewrite Epc.
    destruct (count_events ev =? 0) eqn:Ec.
    + apply Nat.eqb_eq, count_zero in Ec. cbn. rewrite Ec. reflexivity.
    + cbn. rewrite of_thread_nil, app_nil_r. rewrite <- of_thread_app. destruct (cs_attached s) eqn:Ea.
      * rewrite app_assoc, (all_events_app _ [ev]), all_events_one. reflexivity.
      * rewrite (ci_att _ I Ea), !app_nil_r, all_events_app, all_events_one. reflexivity.
  - unfold popped, ev_map. destruct (cs_pc s); try discriminate. injection H as <-. auto.
Qed.

(** A step that is not the sender's leaves it where it is, and takes nothing from the orphans. *)
Lemma other_frame l s s' : is_sender l = false -> cstep cap l s = Some s' -> cs_pc s' = cs_pc s /\ (forall b, In b (map snd (cs_orphans s)) -> In b (map snd (cs_orphans s'))).
Proof.
  intros Hs H. destruct l as [tid|j x|j|j| | | |k| |]; try discriminate; cbn [cstep] in H.
  - destruct (existsb _ _); [discriminate|]. destruct (mfind _ _ _); [discriminate|]. injection H as <-. auto.
  - destruct (tnth j s) as [t|]; [|discriminate]. destruct (th_phase t); try discriminate. injection H as <-. destruct (length (th_buf t) <? cap); auto.
  - destruct (tnth j s) as [t|]; [|discriminate]. destruct (th_phase t); try discriminate. injection H as <-. cbn. split; auto.
    intros b Hb. destruct (mfind _ _ _); auto. rewrite map_app, in_app_iff. auto.
  - destruct (tnth j s) as [t|]; [|discriminate]. destruct (th_phase t); try discriminate. injection H as <-. auto.
  - injection H as <-. auto.
Qed.

Lemma other_prog i n l s s' rest : cinv s -> cinv s' -> is_sender l = false -> cstep cap l s = Some s' -> prog i n s rest -> prog i n s' rest.
Proof.
  intros I I' Hs H P. destruct (other_frame _ _ _ Hs H) as (Epc & Ho). pose proof (dn_mono i n _ _ _ I I' H) as D.
  destruct P as [ks1 ks2 E|l0 ks1 ks2 E|todo ev ks1 ks2 E P|ks2 E P|l0 ks2 E P|todo ev ks2 E P|E P]; rewrite <- Epc in E.
  - now apply pr_idle0.
  - eapply pr_swap0; eauto.
  - eapply pr_coll0; eauto. destruct P as [P|[P|P]]; auto.
  - apply pr_idle1; auto. destruct P as [P|P]; auto.
  - eapply pr_swap1; eauto. destruct P as [P|P]; auto.
  - eapply pr_coll1; eauto. destruct P as [P|P]; auto.
  - apply pr_end; auto.
Qed.

Definition has (i n : nat) (s : cstate) : Prop := n <= length (acc_of i s).

Lemma has_mono i n l s s' : cstep cap l s = Some s' -> has i n s -> has i n s'.
Proof.
  intros H D. unfold has in *. destruct (step_acc _ _ _ i H) as [E|(x & t & _ & _ & _ & E)]; rewrite E; auto. rewrite app_length. lia.
Qed.

Lemma drained i n s t : cinv s -> has i n s -> nth_error (cs_threads s) i = Some t -> th_buf t = [] -> dn i n s.
Proof.
  intros I D Ht Hb. unfold has, acc_of in D. rewrite Ht, (acc_popped _ _ _ I Ht), Hb, app_nil_r in D. exact D.
Qed.

Lemma map_snd_fst (todo : list (nat * nat * bool)) : map (fun e => snd (fst e)) todo = map snd (map fst todo).
Proof. now rewrite map_map. Qed.

Lemma collect_prog i n k s s' tid b o rest ev : cinv s -> cinv s' -> has i n s -> exact_count (SCollect k) s ->
  cs_pc s = SCollecting ((tid, b, o) :: rest) ev -> cstep cap (SCollect k) s = Some s' ->
  (exists ev', cs_pc s' = SCollecting rest ev') /\ cs_orphans s' = cs_orphans s /\ (i = b -> dn i n s').
Proof.
  intros I I' D X Epc H. pose proof (has_mono i n _ _ _ H D) as D'. cbn [cstep] in H. cbn [exact_count] in X. rewrite Epc in *. destruct (nth_error (cs_threads s) b) as [t|] eqn:E; [|discriminate].
  destruct (if o then k =? length (th_buf t) else k <=? length (th_buf t)) eqn:Ek; [|discriminate].
  assert (H' := H). injection H' as Hs. split; [subst s'; cbn; eauto|]. split; [subst s'; reflexivity|].
  intros ->. eapply drained; [exact I'| | |].
  - exact D'.
  - subst s'. cbn. rewrite set_nth_same by (eapply nth_error_lt; eauto). reflexivity.
  - cbn. subst k. apply skipn_all.
Qed.

Lemma sender_prog i n l s s' rest : cinv s -> cinv s' -> has i n s -> exact_count l s -> cstep cap l s = Some s' -> prog i n s (l :: rest) -> is_sender l = true -> prog i n s' rest.
Proof.
  intros I I' D X H P _. pose proof (dn_mono i n _ _ _ I I' H) as M.
  remember (l :: rest) as q eqn:Eq. destruct P as [ks1 ks2 E|l0 ks1 ks2 E|todo ev ks1 ks2 E P'|ks2 E P'|l0 ks2 E P'|todo ev ks2 E P'|E P'].
  - unfold round in Eq; cbn [app map] in Eq; injection Eq as <- <-. cbn [cstep] in H. rewrite E in H. injection H as <-. rewrite <- app_assoc. cbn [app]. change (SSwap :: SSnapshot :: map SCollect ks2 ++ [SSend]) with (round ks2). eapply pr_swap0. reflexivity.
  - unfold round in Eq; cbn [app map] in Eq; injection Eq as <- <-. cbn [cstep] in H. rewrite E in H. injection H as <-. eapply pr_coll0; [reflexivity|].
    destruct (nth_error (cs_threads s) i) as [t|] eqn:Ei.
    2:{ left. unfold has, acc_of in D. rewrite Ei in D. cbn in D. unfold dn. lia. }
    destruct (th_buf t) as [|e0 r0] eqn:Eb; [left; eapply M, drained; eauto|].
    right. rewrite map_snd_fst. cbn [with_pc cs_orphans]. rewrite map_app, map_app, !map_map. cbn [fst]. rewrite in_app_iff.
    assert (Hin : In (th_tid t, i) (cs_active s) \/ In (th_tid t, i) (cs_orphans s) \/ In (th_tid t, i) l0).
    { destruct (th_phase t) eqn:Ep.
      - left. apply (ci_act2 _ I _ _ Ei). congruence.
      - left. apply (ci_act2 _ I _ _ Ei). congruence.
      - right. pose proof (ci_safe _ I _ _ Ei) as S. unfold todo_orph in S. rewrite E, in_app_iff in S. apply S; congruence. }
    destruct Hin as [Hin|[Hin|Hin]]; apply (in_map snd) in Hin; cbn [snd] in Hin; auto.
  - destruct ks1 as [|k ks1].
    + unfold round in Eq; cbn [app map] in Eq; injection Eq as <- <-. cbn [cstep] in H. rewrite E in H. destruct todo as [|e todo]; [|discriminate]. injection H as <-.
      apply pr_idle1.
      * destruct (count_events ev =? 0); reflexivity.
      * destruct P' as [P'|[[]|P']]; [left; apply M; exact P'|]. right. destruct (count_events ev =? 0); exact P'.
    + unfold round in Eq; cbn [app map] in Eq; injection Eq as <- <-. destruct todo as [|[[tid b] o] todo]; [cbn [cstep] in H; rewrite E in H; discriminate|].
      destruct (collect_prog i n k s s' _ _ _ _ _ I I' D X E H) as ((ev' & E') & O' & Db).
      eapply pr_coll0; [exact E'|]. rewrite O'. destruct P' as [P'|[[P'|P']|P']]; auto.
  - unfold round in Eq; cbn [app map] in Eq; injection Eq as <- <-. cbn [cstep] in H. rewrite E in H. injection H as <-. eapply pr_swap1; [reflexivity|]. destruct P' as [P'|P']; auto.
  - unfold round in Eq; cbn [app map] in Eq; injection Eq as <- <-. cbn [cstep] in H. rewrite E in H. injection H as <-. eapply pr_coll1; [reflexivity|].
    destruct P' as [P'|P']; auto. right. rewrite map_snd_fst, !map_app, !map_map. cbn [fst snd]. rewrite in_app_iff. auto.
  - destruct ks2 as [|k ks2].
    + unfold round in Eq; cbn [app map] in Eq; injection Eq as <- <-. cbn [cstep] in H. rewrite E in H. destruct todo as [|e todo]; [|discriminate]. injection H as <-.
      destruct P' as [P'|[]]. apply pr_end; [destruct (count_events ev =? 0); reflexivity|]. apply M. exact P'.
    + unfold round in Eq; cbn [app map] in Eq; injection Eq as <- <-. destruct todo as [|[[tid b] o] todo]; [cbn [cstep] in H; rewrite E in H; discriminate|].
      destruct (collect_prog i n k s s' _ _ _ _ _ I I' D X E H) as ((ev' & E') & O' & Db).
      eapply pr_coll1; [exact E'|]. destruct P' as [P'|[P'|P']]; auto.
  - discriminate.
Qed.

Lemma run_prog i n : forall ls s s', cinv s -> has i n s -> exact_run cap ls s -> crun cap ls s = Some s' -> prog i n s (sender_steps ls) -> prog i n s' [].
Proof.
  induction ls as [|l ls IH]; intros s s' I D X H P; [cbn in H; injection H as <-; exact P|].
  rewrite crun_cons in H. cbn [exact_run] in X. destruct X as (X & Xr). destruct (cstep cap l s) as [s1|] eqn:E; [|discriminate].
  pose proof (step_cinv _ _ _ I E) as I1. pose proof (has_mono _ _ _ _ _ E D) as D1.
  eapply IH; eauto. unfold sender_steps in P. cbn [filter] in P. destruct (is_sender l) eqn:Es.
  - exact (sender_prog i n l s s1 _ I I1 D X E P Es).
  - exact (other_prog i n l s s1 _ I I1 Es E P).
Qed.

Theorem two_rounds ls1 ls2 s s' i t ks1 ks2 :
  crun cap ls1 c_attached = Some s -> cs_pc s = SIdle -> nth_error (cs_threads s) i = Some t ->
  crun cap ls2 s = Some s' -> exact_run cap ls2 s -> sender_steps ls2 = round ks1 ++ round ks2 ->
  exists more, of_thread i (all_events (cs_sent s')) = th_accepted t ++ more.
Proof.
  intros H1 Hpc Ht H2 X Es. pose proof (run_cinv _ _ _ (cinv0 true) H1) as I. pose proof (run_cinv _ _ _ I H2) as I'.
  assert (D : has i (length (th_accepted t)) s) by (unfold has, acc_of; rewrite Ht; lia).
  assert (P : prog i (length (th_accepted t)) s' []).
  { apply (run_prog i _ ls2 s s' I D X H2). rewrite Es. now apply pr_idle0. }
  assert (Pe : cs_pc s' = SIdle /\ dn i (length (th_accepted t)) s').
  { remember (@nil clabel) as q eqn:Eq. destruct P as [ks k2 E|l0 ks k2 E|todo ev ks k2 E P'|k2 E P'|l0 k2 E P'|todo ev k2 E P'|E P']; try discriminate; auto;
      [destruct ks|destruct k2]; discriminate. }
  destruct Pe as (Epc & Dn). destruct (run_extends _ _ _ H2 _ _ Ht) as (t' & Et' & _ & _ & more & Am).
  pose proof (acc_popped _ _ _ I' Et') as A. rewrite Am in A.
  destruct (run_attached _ c_attached _ eq_refl H1) as (A1 & L1). destruct (run_attached _ _ _ A1 H2) as (_ & L2). cbn in L1.
  unfold dn, popped in *. unfold ev_map in *. rewrite Epc, L2, L1 in *. cbn in *. rewrite of_thread_nil, app_nil_r in *.
  clear -A Dn. revert A Dn. generalize (of_thread i (all_events (cs_sent s'))) (th_accepted t). intros x y. revert x.
  induction y as [|a y IH]; intros x A Dn; [exists x; reflexivity|]. destruct x as [|b x]; [cbn in Dn; lia|]. cbn in A, Dn. injection A as -> A.
  destruct (IH x A) as (m & Em); [lia|]. exists m. cbn. now rewrite Em.
Qed.
End Cap.

(** ** A round can always be made *)
Section Round.
Variable cap : nat.

Lemma collect_all : forall todo s ev, cinv s -> cs_pc s = SCollecting todo ev ->
  exists ks s', crun cap (map SCollect ks ++ [SSend]) s = Some s' /\ exact_run cap (map SCollect ks ++ [SSend]) s /\ cs_pc s' = SIdle.
Proof.
  induction todo as [|[[tid b] o] todo IH]; intros s ev I E.
  - exists []. cbn [map app crun exact_run cstep exact_count]. rewrite E. eexists. split; [reflexivity|]. split; [auto|]. destruct (count_events ev =? 0); reflexivity.
  - destruct (ci_ent _ I tid b) as (t & Et & Tt). { unfold todo_all. rewrite E. rewrite in_app_iff. right. left. reflexivity. }
    assert (H : exists s1 ev1, cstep cap (SCollect (length (th_buf t))) s = Some s1 /\ cs_pc s1 = SCollecting todo ev1).
    { cbn [cstep]. rewrite E, Et. rewrite Nat.eqb_refl, Nat.leb_refl. destruct o; do 2 eexists; (split; [reflexivity|reflexivity]). }
    destruct H as (s1 & ev1 & H & E1). destruct (IH s1 ev1 (step_cinv cap _ _ _ I H) E1) as (ks & s' & R & X & P).
    exists (length (th_buf t) :: ks), s'. cbn [map app]. rewrite crun_cons. cbn [exact_run]. rewrite H. repeat (split; auto).
    cbn [exact_count]. rewrite E, Et. reflexivity.
Qed.

Theorem round_possible ls s : crun cap ls c_attached = Some s -> cs_pc s = SIdle ->
  exists ks s', crun cap (round ks) s = Some s' /\ exact_run cap (round ks) s /\ cs_pc s' = SIdle.
Proof.
  intros H E. pose proof (run_cinv cap _ _ _ (cinv0 true) H) as I.
  assert (H1 : exists s1 l1, cstep cap SSwap s = Some s1 /\ cs_pc s1 = SSwapped l1) by (cbn [cstep]; rewrite E; do 2 eexists; split; reflexivity).
  destruct H1 as (s1 & l1 & H1 & E1).
  assert (H2 : exists s2 todo, cstep cap SSnapshot s1 = Some s2 /\ cs_pc s2 = SCollecting todo []) by (cbn [cstep]; rewrite E1; do 2 eexists; split; reflexivity).
  destruct H2 as (s2 & todo & H2 & E2).
  pose proof (step_cinv cap _ _ _ (step_cinv cap _ _ _ I H1) H2) as I2.
  destruct (collect_all todo s2 [] I2 E2) as (ks & s' & R & X & P). exists ks, s'. unfold round.
  rewrite crun_cons, H1, crun_cons, H2. cbn [exact_run exact_count]. rewrite H1. cbn [exact_run exact_count]. rewrite H2. auto.
Qed.

(** ** What is lost *)
Lemma stopped_step l s s' : cs_pc s = SStopped -> cstep cap l s = Some s' -> cs_pc s' = SStopped /\ cs_sent s' = cs_sent s.
Proof.
  intros E H. destruct l as [tid|i x|i|i| | | |k| |]; cbn [cstep] in H; try (rewrite E in H; discriminate).
  - destruct (existsb _ _); [discriminate|]. destruct (mfind _ _ _); [discriminate|]. injection H as <-. auto.
  - destruct (tnth i s) as [t|]; [|discriminate]. destruct (th_phase t); try discriminate. injection H as <-. destruct (length (th_buf t) <? cap); auto.
  - destruct (tnth i s) as [t|]; [|discriminate]. destruct (th_phase t); try discriminate. injection H as <-. auto.
  - destruct (tnth i s) as [t|]; [|discriminate]. destruct (th_phase t); try discriminate. injection H as <-. auto.
  - injection H as <-. auto.
Qed.
Theorem stopped_run ls : forall s s', cs_pc s = SStopped -> crun cap ls s = Some s' -> cs_sent s' = cs_sent s.
Proof.
  induction ls as [|l ls IH]; intros s s' E H; [injection H as <-; auto|]. rewrite crun_cons in H.
  destruct (cstep cap l s) as [s1|] eqn:E1; [|discriminate]. destruct (stopped_step _ _ _ E E1) as (P & S). rewrite <- S. eauto.
Qed.
End Round.

(** ** Thread-local objects *)
Definition pointers (l : list tls) : list nat := flat_map (fun t => match t with LPointer k => [k] | _ => [] end) l.
Definition user_kinds (l : list tls) : list nat := flat_map (fun t => match t with LUser ks => ks | _ => [] end) l.

Lemma has_pointer_iff k l : has_pointer k l = true <-> In k (pointers l).
Proof.
  unfold has_pointer, pointers. induction l as [|t l IH]; cbn; [intuition discriminate|]. rewrite orb_true_iff, in_app_iff, IH.
  destruct t; cbn; try (intuition discriminate). rewrite Nat.eqb_eq. intuition.
Qed.
Lemma kmem_iff k l : kmem k l = true <-> In k l.
Proof. unfold kmem. rewrite existsb_exists. split; [intros (x & H & E); apply Nat.eqb_eq in E; now subst|]. intros H. exists k. rewrite Nat.eqb_refl. auto. Qed.

Fixpoint well_ordered (l : list tls) : Prop :=
  match l with
  | [] => True
  | LUser ks :: l' => (forall k, In k ks -> In k (pointers l')) /\ well_ordered l'
  | _ :: l' => well_ordered l'
  end.

Lemma use_kinds_ok ks : forall s, (forall k, In k ks -> In k (pointers (ex_stack s))) -> (forall k, In k (ex_dead s) -> ~ In k (pointers (ex_stack s))) ->
  use_kinds ks s = ENext {| ex_stack := ex_stack s; ex_dead := ex_dead s; ex_callback := ex_callback s; ex_events := ex_events s ++ ks |}.
Proof.
  induction ks as [|k ks IH]; intros s H D; cbn.
  - rewrite app_nil_r. destruct s; reflexivity.
  - unfold use_kind. assert (kmem k (ex_dead s) = false) as ->.
    { destruct (kmem k (ex_dead s)) eqn:E; auto. apply kmem_iff in E. exfalso. apply (D _ E). apply H. left. reflexivity. }
    assert (has_pointer k (ex_stack s) = true) as -> by (apply has_pointer_iff, H; left; reflexivity).
    rewrite IH; cbn; auto; [|intros; apply H; right; auto]. now rewrite <- app_assoc.
Qed.

Theorem exit_ok : forall fuel s, well_ordered (ex_stack s) -> NoDup (pointers (ex_stack s)) -> (forall k, In k (ex_dead s) -> ~ In k (pointers (ex_stack s))) ->
  length (ex_stack s) <= fuel -> exists s', exit_run fuel s = ENext s' /\ ex_events s' = ex_events s ++ user_kinds (ex_stack s) /\ ex_stack s' = [].
Proof.
  induction fuel as [|f IH]; intros s W N D L.
  - destruct s as [st dead cb ev]. cbn in *. destruct st; [|cbn in L; lia]. eexists. split; [reflexivity|]. cbn. now rewrite app_nil_r.
  - destruct s as [st dead cb ev]. cbn [ex_stack ex_dead ex_callback ex_events exit_run] in *. destruct st as [|[k| |ks] st].
    + eexists. split; [reflexivity|]. cbn. now rewrite app_nil_r.
    + cbn in W, N, D, L. inversion N as [|? ? Nk N']; subst.
      destruct (IH {| ex_stack := st; ex_dead := k :: dead; ex_callback := cb; ex_events := ev |}) as (s' & A & B & C); cbn [ex_stack ex_dead ex_events]; auto; try lia.
      * intros k0 [->|H]; auto. intros H'. apply (D _ H). right. exact H'.
      * exists s'. auto.
    + cbn in W, N, D, L. destruct (IH {| ex_stack := st; ex_dead := dead; ex_callback := Some false; ex_events := ev |}) as (s' & A & B & C); cbn [ex_stack ex_dead ex_events]; auto; try lia.
      exists s'. auto.
    + cbn in W, N, D, L. destruct W as (W1 & W2).
      rewrite use_kinds_ok; cbn [ex_stack ex_dead ex_callback ex_events]; auto.
      destruct (IH {| ex_stack := st; ex_dead := dead; ex_callback := cb; ex_events := ev ++ ks |}) as (s' & A & B & C); cbn [ex_stack ex_dead ex_events] in *; auto; try lia.
      exists s'. split; auto. split; auto. rewrite B. cbn. now rewrite <- app_assoc.
Qed.

(** Objects constructed after each kind they use was first used by the thread. *)
Fixpoint late_objects (seen : list nat) (ls : list live) : Prop :=
  match ls with
  | [] => True
  | Trace k _ :: ls' => late_objects (k :: seen) ls'
  | Construct ks :: ls' => (forall k, In k ks -> In k seen) /\ late_objects seen ls'
  end.

Lemma live_ok : forall ls s seen, late_objects seen ls -> (forall k, In k seen <-> In k (pointers (ex_stack s))) -> ex_dead s = [] ->
  well_ordered (ex_stack s) -> NoDup (pointers (ex_stack s)) ->
  exists s', live_run ls s = ENext s' /\ well_ordered (ex_stack s') /\ NoDup (pointers (ex_stack s')) /\ ex_dead s' = [] /\
    ex_events s' = ex_events s ++ flat_map (fun l => match l with Trace _ x => [x] | _ => [] end) ls /\
    user_kinds (ex_stack s') = flat_map (fun l => match l with Construct ks => ks | _ => [] end) (rev ls) ++ user_kinds (ex_stack s).
Proof.
  induction ls as [|[k x|ks] ls IH]; intros s seen L S D W N.
  - exists s. cbn. rewrite app_nil_r. auto 10.
  - cbn [live_run late_objects] in *. unfold use_kind. rewrite D. cbn [kmem existsb].
    set (s1 := if has_pointer k (ex_stack s) then _ else _).
    assert (H1 : exists s', s1 = ENext s' /\ (forall k0, In k0 (k :: seen) <-> In k0 (pointers (ex_stack s'))) /\ ex_dead s' = [] /\ well_ordered (ex_stack s') /\
               NoDup (pointers (ex_stack s')) /\ ex_events s' = ex_events s ++ [x] /\ user_kinds (ex_stack s') = user_kinds (ex_stack s)).
    { subst s1. destruct (has_pointer k (ex_stack s)) eqn:Ek.
      - eexists. split; [reflexivity|]. cbn. apply has_pointer_iff in Ek. repeat (split; auto); intros.
        + destruct H as [<-|H]; auto. now apply S.
        + right. now apply S.
      - assert (~ In k (pointers (ex_stack s))) as Nk by (rewrite <- has_pointer_iff; congruence).
        eexists. split; [reflexivity|]. cbn [ex_stack ex_dead ex_events].
        assert (Q : pointers (LPointer k :: match ex_callback s with Some _ => ex_stack s | None => LCallback :: ex_stack s end) = k :: pointers (ex_stack s)) by (destruct (ex_callback s); reflexivity).
        rewrite Q. split; [intros k0; cbn; rewrite S; reflexivity|]. split; [reflexivity|].
        split; [destruct (ex_callback s); exact W|]. split; [constructor; auto|]. split; [reflexivity|]. destruct (ex_callback s); reflexivity. }
    destruct H1 as (s' & -> & S' & D' & W' & N' & E' & U').
    destruct (IH s' _ L S' D' W' N') as (s2 & A & B & C & F & G & H). exists s2. do 4 (split; [assumption|]). split.
    + rewrite G, E'. cbn. now rewrite <- app_assoc.
    + rewrite H, U'. cbn. rewrite flat_map_app. cbn. now rewrite app_nil_r.
  - cbn [live_run late_objects] in *. destruct L as (L1 & L2).
    destruct (IH {| ex_stack := LUser ks :: ex_stack s; ex_dead := ex_dead s; ex_callback := ex_callback s; ex_events := ex_events s |} seen L2) as (s2 & A & B & C & F & G & H); auto.
    { cbn. split; auto. intros k Hk. apply S. auto. }
    exists s2. do 4 (split; [assumption|]). split; [exact G|]. rewrite H. cbn. rewrite flat_map_app, <- app_assoc. cbn. now rewrite app_nil_r.
Qed.

Theorem teardown_ok ls : late_objects [] ls -> exists s s', live_run ls ex0 = ENext s /\ exit_run (length (ex_stack s)) s = ENext s' /\ ex_stack s' = [] /\
  ex_events s' = flat_map (fun l => match l with Trace _ x => [x] | _ => [] end) ls ++ flat_map (fun l => match l with Construct ks => ks | _ => [] end) (rev ls).
Proof.
  intros L. destruct (live_ok ls ex0 [] L) as (s & A & B & C & D & E & F); cbn; auto; [intuition|constructor|].
  destruct (exit_ok (length (ex_stack s)) s B C) as (s' & G & H & J); auto; [rewrite D; intros k []|].
  exists s, s'. do 3 (split; [assumption|]). rewrite H, E, F. cbn. now rewrite app_nil_r.
Qed.

Theorem teardown_ub k x : exists s, live_run [Construct [k]; Trace k x] ex0 = ENext s /\ exit_run (length (ex_stack s)) s = EUB.
Proof. eexists. split; [reflexivity|]. cbn. unfold use_kind. cbn. rewrite Nat.eqb_refl. reflexivity. Qed.

Theorem before_transport : exists ls s t, crun 4 ls c0 = Some s /\ nth_error (cs_threads s) 0 = Some t /\ th_accepted t = [(0, 5)] /\ cs_attached s = true /\
  forall ls' s', crun 4 ls' s = Some s' -> emissions 0 ls' = [] -> of_thread 0 (all_events (cs_sent s')) = [].
Proof.
  set (ls := [TStart 7; TEmit 0 5; SSwap; SSnapshot; SCollect 1; SSend; SAttach]).
  destruct (crun 4 ls c0) as [s|] eqn:E; [|vm_compute in E; discriminate]. pose proof E as E'. vm_compute in E'. injection E' as Es.
  exists ls, s. eexists. split; [exact E|]. split; [subst s; reflexivity|]. split; [reflexivity|]. split; [subst s; reflexivity|].
  intros ls' s' H He.
  assert (Hall : crun 4 (ls ++ ls') c0 = Some s') by (rewrite crun_app, E; exact H).
  assert (At : cs_attached s = true) by (subst s; reflexivity). destruct (run_attached 4 _ _ _ At H) as (_ & L).
  destruct (run_extends 4 _ _ _ H 0 {| th_tid := 7; th_phase := TRunning; th_buf := []; th_accepted := [(0, 5)] |}) as (t' & Et' & _); [subst s; reflexivity|].
  pose proof (once_or_lost _ _ _ _ _ Hall Et') as O.
  destruct (accepted_subseq 4 false 0 _ _ Hall) as (Sub & _). unfold acc_of in Sub. rewrite Et', emissions_app, He in Sub.
  apply subseq_length in Sub. rewrite O, L in Sub. rewrite !app_length in Sub.
  assert (Lo : length (of_thread 0 (all_events (cs_lost s))) = 1) by (subst s; reflexivity). rewrite Lo in Sub. cbn in Sub.
  destruct (of_thread 0 (all_events (cs_sent s'))); auto. cbn in Sub. lia.
Qed.

Theorem at_shutdown : exists ls s t, crun 4 ls c_attached = Some s /\ nth_error (cs_threads s) 0 = Some t /\ th_accepted t = [(0, 5)] /\ cs_pc s = SStopped /\
  forall ls' s', crun 4 ls' s = Some s' -> cs_sent s' = [].
Proof.
  exists [TStart 7; TEmit 0 5; SStop]. do 2 eexists. split; [vm_compute; reflexivity|]. split; [reflexivity|]. split; [reflexivity|]. split; [reflexivity|].
  intros ls' s' H. apply stopped_run in H; [exact H|reflexivity].
Qed.
