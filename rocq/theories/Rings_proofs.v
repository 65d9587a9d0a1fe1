From Coq Require Import List Arith Bool Lia.
Import ListNotations.
From Verif Require RingBuffer_model RingBuffer_spec RingBuffer_proofs.
From Verif Require Import UnixSystem_model UnixSystem_proofs OMap_model OMap_proofs Collector_model Collector_spec Collector_proofs RingsStep_proofs Rings_model Rings_spec.

(** ** Filing *)
Definition wrap (m : list (nat * list event)) : filed := map (fun p => (fst p, map Some (snd p))) m.
Lemma find_wrap k m : mfind Nat.ltb k (wrap m) = option_map (map Some) (mfind Nat.ltb k m).
Proof. induction m as [|[k' l] m IH]; [reflexivity|]. cbn [wrap map fst snd mfind]. destruct (k <? k'); [reflexivity|]. destruct (k' <? k); [exact IH|reflexivity]. Qed.
Lemma insert_wrap k l m : wrap (minsert Nat.ltb k l m) = minsert Nat.ltb k (map Some l) (wrap m).
Proof.
  induction m as [|[k' l'] m IH]; [reflexivity|]. cbn [wrap map fst snd minsert]. destruct (k <? k'); [reflexivity|]. destruct (k' <? k); [|reflexivity].
  cbn [wrap map fst snd]. f_equal. exact IH.
Qed.
Lemma file_wrap tid es m : wrap (append_to tid es m) = file_under tid (map Some es) (wrap m).
Proof. unfold append_to, file_under. rewrite insert_wrap, find_wrap. destruct (mfind Nat.ltb tid m); cbn [option_map]; [now rewrite map_app|reflexivity]. Qed.
Lemma flat_wrap m : flat_map snd (wrap m) = map Some (flat_map snd m).
Proof. induction m as [|[k l] m IH]; [reflexivity|]. cbn. rewrite map_app. f_equal. exact IH. Qed.
Lemma all_wrap bs : all_filed (map wrap bs) = map Some (all_events bs).
Proof. unfold all_filed, all_events. induction bs as [|m bs IH]; [reflexivity|]. cbn [map flat_map]. rewrite map_app, flat_wrap. f_equal. exact IH. Qed.
Lemma of_wrap i l : filter (is_of i) (map Some l) = map Some (of_thread i l).
Proof. unfold of_thread. induction l as [|e l IH]; [reflexivity|]. cbn [map filter is_of]. destruct (fst e =? i); cbn [map]; now rewrite IH. Qed.

(** ** Lists *)
Lemma Forall2_at {A B} (R : A -> B -> Prop) l l' : Forall2 R l l' -> forall i x, nth_error l i = Some x -> exists y, nth_error l' i = Some y /\ R x y.
Proof. induction 1 as [|a b l l' H1 H2 IH]; intros [|i] x E; cbn in *; try discriminate; [injection E as <-; eauto|eauto]. Qed.
Lemma Forall2_set {A B} (R : A -> B -> Prop) l l' : Forall2 R l l' -> forall i x y, R x y -> Forall2 R (set_nth i x l) (set_nth i y l').
Proof. induction 1 as [|a b l l' H1 H2 IH]; intros [|i] x y Hxy; cbn; constructor; auto. Qed.
Lemma Forall2_set_l {A B} (R : A -> B -> Prop) l l' : Forall2 R l l' -> forall i x y, nth_error l' i = Some y -> R x y -> Forall2 R (set_nth i x l) l'.
Proof. induction 1 as [|a b l l' H1 H2 IH]; intros [|i] x y E Hxy; cbn in *; try discriminate; constructor; auto; [congruence|eauto]. Qed.
Lemma Forall2_len {A B} (R : A -> B -> Prop) l l' : Forall2 R l l' -> length l = length l'.
Proof. induction 1; cbn; congruence. Qed.
Lemma skipn_skip {A} (l : list A) : forall a b, skipn a (skipn b l) = skipn (b + a) l.
Proof. induction l as [|x l IH]; intros a b; [now rewrite !skipn_nil|]. destruct b; [reflexivity|]. cbn. apply IH. Qed.

Section Sim.
Variable n : nat.

Definition same (t : rthread) (u : tthread) : Prop :=
  th_tid u = r_tid t /\ th_phase u = r_phase t /\ th_accepted u = acc (r_ring t) /\ th_buf u = skipn (length (ret (r_ring t))) (acc (r_ring t)).
Definition same_pc (p : rpc) (c : spc) : Prop :=
  match p, c with
  | RIdle, SIdle | RStopped, SStopped => True
  | RSwapped l, SSwapped l' => l = l'
  | RCollecting _ todo ev, SCollecting todo' ev' => todo = todo' /\ ev = wrap ev'
  | _, _ => False
  end.
Record sim (s : rstate) (c : cstate) : Prop := {
  sm_threads : Forall2 same (rs_threads s) (cs_threads c);
  sm_active : rs_active s = cs_active c;
  sm_orphans : rs_orphans s = cs_orphans c;
  sm_pc : same_pc (rs_pc s) (cs_pc c);
  sm_att : rs_attached s = cs_attached c;
  sm_sent : rs_sent s = map wrap (cs_sent c);
  sm_lost : rs_lost s = map wrap (cs_lost c)
}.

Definition stage_ok (g : stage) (o : bool) (q : ring) : Prop :=
  match g with
  | Fresh => RingBuffer_model.cp q = RingBuffer_model.CIdle
  | Sizing => RingBuffer_model.cp q = RingBuffer_model.CLd RingBuffer_model.OSize
  | Sized k => RingBuffer_model.cp q = RingBuffer_model.CIdle /\ (o = true -> k = held_in q)
  | Popping => (exists k, RingBuffer_model.cp q = RingBuffer_model.CLd (RingBuffer_model.OPopInto k) /\ (o = true -> k = held_in q)) \/
               (exists r cnt k out, RingBuffer_model.cp q = RingBuffer_model.CInto r cnt k out /\ (o = true -> cnt = held_in q))
  end.
Definition cons_ok (p : rpc) (i : nat) (q : ring) : Prop :=
  match p with
  | RCollecting g ((_, b, o) :: _) _ => if b =? i then stage_ok g o q else RingBuffer_model.cp q = RingBuffer_model.CIdle
  | _ => RingBuffer_model.cp q = RingBuffer_model.CIdle
  end.
Record rok (p : rpc) (i : nat) (t : rthread) : Prop := {
  ok_ring : exists rcs, RingBuffer_proofs.Inv n (r_ring t) rcs;
  ok_tag : forall v, In v (unans (r_ring t)) -> fst v = i;
  ok_idle : r_phase t <> TRunning -> unans (r_ring t) = [];
  ok_cons : cons_ok p i (r_ring t)
}.
Definition rinv (s : rstate) : Prop := forall i t, nth_error (rs_threads s) i = Some t -> rok (rs_pc s) i t.

Lemma rinv_set s i t' p : rinv s -> i < length (rs_threads s) -> rok p i t' ->
  (forall j q, j <> i -> cons_ok (rs_pc s) j q -> cons_ok p j q) ->
  forall j t, nth_error (set_nth i t' (rs_threads s)) j = Some t -> rok p j t.
Proof.
  intros I Hi O K j t E. destruct (set_nth_case _ _ _ _ _ Hi E) as [(-> & ->)|(Hn & E')]; [exact O|].
  destruct (I _ _ E') as [A B C D]. constructor; auto.
Qed.

Lemma same_ring t u q : same t u -> acc q = acc (r_ring t) -> ret q = ret (r_ring t) -> same (with_ring q t) u.
Proof. unfold same. cbn [with_ring r_tid r_phase r_ring]. intros (A & B & C & D) Ea Er. now rewrite Ea, Er. Qed.

Definition emits (ls : list clabel) (c c' : cstate) : Prop := forall i, acc_of i c' = acc_of i c ++ emissions i ls.
Lemma emits_none c : emits [] c c.
Proof. intro i. now rewrite app_nil_r. Qed.
Lemma emits_step l c c' : cstep (n - 1) l c = Some c' -> match l with TEmit _ _ => False | _ => True end -> emits [l] c c'.
Proof.
  intros H N i. rewrite emissions_one. destruct (step_acc _ _ _ _ i H) as [E|(x & t & -> & _)]; [|contradiction]. rewrite E.
  destruct l; try contradiction; now rewrite app_nil_r.
Qed.

Definition simulated (s' : rstate) (c : cstate) : Prop := exists ls c', crun (n - 1) ls c = Some c' /\ sim s' c' /\ rinv s' /\ emits ls c c' /\ length ls <= 1.
Lemma one_step s' c l c' : cstep (n - 1) l c = Some c' -> match l with TEmit _ _ => False | _ => True end -> sim s' c' -> rinv s' -> simulated s' c.
Proof. intros H N A B. exists [l], c'. rewrite crun_cons, H. split; [reflexivity|]. split; [exact A|]. split; [exact B|]. split; [now apply emits_step|auto]. Qed.
Lemma no_step s' c : sim s' c -> rinv s' -> simulated s' c.
Proof. intros A B. exists [], c. split; [reflexivity|]. split; [exact A|]. split; [exact B|]. split; [apply emits_none|auto]. Qed.

(** A step on the ring of one thread that neither accepts nor returns anything. *)
Lemma sim_ring s c i t q p : sim s c -> nth_error (rs_threads s) i = Some t -> acc q = acc (r_ring t) -> ret q = ret (r_ring t) -> same_pc p (cs_pc c) ->
  sim (with_rpc p (with_rthreads (set_nth i (with_ring q t) (rs_threads s)) s)) c.
Proof.
  intros [A B C D E F G] Ht Ea Er Hp. destruct (Forall2_at _ _ _ A _ _ Ht) as (u & Hu & S0).
  constructor; cbn [with_rpc with_rthreads rs_threads rs_active rs_orphans rs_pc rs_attached rs_sent rs_lost]; auto.
  apply (Forall2_set_l _ _ _ A _ _ _ Hu). now apply same_ring.
Qed.
Lemma pc_self s q : with_rpc (rs_pc s) (with_rthreads q s) = with_rthreads q s.
Proof. reflexivity. Qed.

Lemma live_same l l' tid : Forall2 same l l' ->
  existsb (fun t => (r_tid t =? tid) && match r_phase t with TGone => false | _ => true end) l =
  existsb (fun t => (th_tid t =? tid) && match th_phase t with TGone => false | _ => true end) l'.
Proof. induction 1 as [|t u l l' (A & B & _) H2 IH]; [reflexivity|]. cbn [existsb]. now rewrite IH, A, B. Qed.


Lemma head_there s c g tid b o rest ev : sim s c -> cinv c -> rs_pc s = RCollecting g ((tid, b, o) :: rest) ev ->
  exists t, nth_error (rs_threads s) b = Some t /\ r_tid t = tid /\ (o = true -> r_phase t <> TRunning).
Proof.
  intros [A _ _ D _ _ _] K P. rewrite P in D. destruct (cs_pc c) as [|l|todo ev'|] eqn:Q; try contradiction. destruct D as (<- & _).
  destruct (ci_ent _ K tid b) as (u & Hu & Tu). { apply in_or_app. right. unfold todo_all. rewrite Q. left. reflexivity. }
  assert (A' : exists t, nth_error (rs_threads s) b = Some t).
  { destruct (nth_error (rs_threads s) b) eqn:E; [eauto|]. apply nth_error_None in E. rewrite (Forall2_len _ _ _ A) in E. apply nth_error_lt in Hu. lia. }
  destruct A' as (t & Ht). exists t. split; [exact Ht|]. destruct (Forall2_at _ _ _ A _ _ Ht) as (u' & Hu' & T1 & T2 & _). rewrite Hu in Hu'. injection Hu' as <-.
  split; [congruence|]. intros ->. destruct (ci_orph _ K tid b) as (u' & Hu' & Pu). { apply in_or_app. right. unfold todo_orph. rewrite Q. cbn. left. reflexivity. }
  rewrite Hu in Hu'. injection Hu' as <-. now rewrite <- T2.
Qed.

Ltac some H := apply (f_equal (fun o => match o with Some x => x | None => _ end)) in H.

Lemma sim_start s c tid s' : sim s c -> cinv c -> rinv s -> rstep n (RStart tid) s = Some s' -> simulated s' c.
Proof.
  intros S0 K I H. pose proof S0 as [A B C D E F G]. cbn [rstep] in H. destruct (existsb _ _) eqn:X; [discriminate|].
  destruct (mfind Nat.ltb tid (rs_active s)) eqn:M; [discriminate|]. destruct (RingBuffer_model.init n) as [q|] eqn:Q; [|discriminate].
  injection H as <-. destruct (init_effect _ _ Q) as (R & Ea & Er & Ec & Eu).
  eapply (one_step _ _ (TStart tid)); [|exact Logic.I| |].
  - cbn [cstep]. rewrite <- (live_same _ _ tid A), X, <- B, M. reflexivity.
  - constructor; cbn [rs_threads rs_active rs_orphans rs_pc rs_attached rs_sent rs_lost cs_threads cs_active cs_orphans cs_pc cs_attached cs_sent cs_lost]; auto.
    + apply Forall2_app; [exact A|]. constructor; [|constructor]. unfold same. cbn [th_tid th_phase th_accepted th_buf r_tid r_phase r_ring]. rewrite Ea, Er. auto.
    + now rewrite (Forall2_len _ _ _ A).
  - intros i t Ht. cbn [rs_threads rs_pc] in *. destruct (lt_dec i (length (rs_threads s))) as [L|L].
    + rewrite nth_error_app1 in Ht by exact L. exact (I _ _ Ht).
    + rewrite nth_error_app2 in Ht by lia. destruct (i - length (rs_threads s)) as [|z] eqn:Z; [|destruct z; discriminate].
      cbn in Ht. injection Ht as <-. constructor; cbn [r_ring r_phase]; auto.
      * rewrite Eu. intros v [].
      * unfold cons_ok. destruct (rs_pc s) as [|l|g todo ev|] eqn:P; auto. destruct todo as [|[[k b] o] rest]; auto.
        destruct (Nat.eqb_spec b i) as [->|]; [|exact Ec]. exfalso. destruct (head_there _ _ _ _ _ _ _ _ S0 K P) as (t & Ht & _). apply nth_error_lt in Ht. lia.
Qed.

(** What a producer step leaves alone. *)
Lemma cons_frame p i q q' : RingBuffer_model.cp q' = RingBuffer_model.cp q -> (forall g tid o rest ev, p = RCollecting g ((tid, i, o) :: rest) ev -> o = true -> held_in q' = held_in q) -> cons_ok p i q -> cons_ok p i q'.
Proof.
  intros E H. unfold cons_ok. destruct p as [|l|g todo ev|]; try (now rewrite E). destruct todo as [|[[k b] o] rest]; [now rewrite E|].
  destruct (Nat.eqb_spec b i) as [->|]; [|now rewrite E]. specialize (H g k o rest ev eq_refl). unfold stage_ok. rewrite E. destruct g; auto.
  - intros (A & B). split; auto. intro O. rewrite (H O). auto.
  - intros [(x & A & B)|(r & cnt & x & out & A & B)]; [left; exists x|right; exists r, cnt, x, out]; (split; auto; intro O; rewrite (H O); auto).
Qed.

Lemma sim_push s c i x s' : sim s c -> cinv c -> rinv s -> rstep n (RPush i x) s = Some s' -> simulated s' c.
Proof.
  intros S0 K I H. cbn [rstep] in H. destruct (nth_error (rs_threads s) i) as [t|] eqn:Ht; [|discriminate].
  destruct (r_phase t) eqn:Hp; try discriminate. destruct (RingBuffer_model.step (r_ring t) (RingBuffer_model.APush (i, x))) as [q|] eqn:Q; [|discriminate]. injection H as <-.
  destruct (push_effect _ _ _ Q) as (U & U' & Ec & Ea & Er). pose proof (I _ _ Ht) as [(rcs & R) T L O].
  apply no_step.
  - rewrite <- pc_self. apply (sim_ring _ _ _ _ _ _ S0 Ht Ea Er (sm_pc _ _ S0)).
  - refine (rinv_set s i _ (rs_pc s) I (nth_error_lt _ _ _ Ht) _ (fun _ _ _ X => X)). constructor; cbn [with_ring r_ring r_phase].
    + exact (step_ring _ _ _ _ _ R Q).
    + rewrite U'. intros v [<-|[]]. reflexivity.
    + congruence.
    + refine (cons_frame _ _ _ _ Ec _ O). intros. unfold held_in. now rewrite Ea, Er.
Qed.

Lemma sim_access s c i a s' : sim s c -> cinv c -> rinv s -> rstep n (RAccess i a) s = Some s' -> simulated s' c.
Proof.
  intros S0 K I H. cbn [rstep] in H. destruct (nth_error (rs_threads s) i) as [t|] eqn:Ht; [|discriminate].
  destruct (r_phase t) eqn:Hp; try discriminate. destruct (RingBuffer_model.step (r_ring t) (RingBuffer_model.AProd a)) as [q|] eqn:Q; [|discriminate]. injection H as <-.
  pose proof (I _ _ Ht) as [(rcs & R) T L O]. destruct (prod_effect _ _ _ _ _ R Q) as (Ec & Er & X).
  assert (NO : forall g tid o rest ev, rs_pc s = RCollecting g ((tid, i, o) :: rest) ev -> o = true -> False).
  { intros g tid o rest ev P Eo. destruct (head_there _ _ _ _ _ _ _ _ S0 K P) as (t' & Ht' & _ & N). rewrite Ht in Ht'. injection Ht' as <-. exact (N Eo Hp). }
  assert (OK : (forall v, In v (unans q) -> fst v = i) -> rok (rs_pc s) i (with_ring q t)).
  { intro U. constructor; cbn [with_ring r_ring r_phase]; [exact (step_ring _ _ _ _ _ R Q)|exact U|congruence|].
    refine (cons_frame _ _ _ _ Ec _ O). intros g tid o rest ev P Eo. destruct (NO _ _ _ _ _ P Eo). }
  destruct X as [(Ea & Eu)|[(v & Ea & Eu & Eu' & _)|(v & Eu & Ea & Eu' & Room)]].
  - apply no_step; [rewrite <- pc_self; apply (sim_ring _ _ _ _ _ _ S0 Ht Ea Er (sm_pc _ _ S0))|].
    refine (rinv_set s i _ (rs_pc s) I (nth_error_lt _ _ _ Ht) (OK _) (fun _ _ _ X => X)). rewrite Eu. exact T.
  - apply no_step; [rewrite <- pc_self; apply (sim_ring _ _ _ _ _ _ S0 Ht Ea Er (sm_pc _ _ S0))|].
    refine (rinv_set s i _ (rs_pc s) I (nth_error_lt _ _ _ Ht) (OK _) (fun _ _ _ X => X)). rewrite Eu'. intros w [].
  - pose proof (T v) as Tv. rewrite Eu in Tv. specialize (Tv (or_introl eq_refl)). destruct v as [j x]. cbn in Tv. subst j.
    pose proof S0 as [A B C D E F G]. destruct (Forall2_at _ _ _ A _ _ Ht) as (u & Hu & S1 & S2 & S3 & S4).
    destruct (ring_len _ _ _ R) as (L1 & L2).
    assert (Lb : (length (th_buf u) <? n - 1) = true). { apply Nat.ltb_lt. rewrite S4, skipn_length. exact Room. }
    assert (St : cstep (n - 1) (TEmit i x) c = Some (with_threads (set_nth i {| th_tid := th_tid u; th_phase := TRunning; th_buf := th_buf u ++ [(i, x)];
      th_accepted := th_accepted u ++ [(i, x)] |} (cs_threads c)) c)).
    { cbn [cstep]. unfold tnth. rewrite Hu, S2, Hp, Lb. reflexivity. }
    eexists [TEmit i x], _. rewrite crun_cons, St. split; [reflexivity|]. split; [|split; [|split]].
    + constructor; cbn [with_rthreads with_threads rs_threads rs_active rs_orphans rs_pc rs_attached rs_sent rs_lost cs_threads cs_active cs_orphans cs_pc cs_attached cs_sent cs_lost]; auto.
      apply Forall2_set; [exact A|]. unfold same. cbn [with_ring r_tid r_phase r_ring th_tid th_phase th_accepted th_buf].
      split; [exact S1|]. split; [congruence|]. rewrite Ea, Er, S3. split; [reflexivity|]. rewrite S4, skipn_app.
      replace (length (ret (r_ring t)) - length (acc (r_ring t))) with 0 by lia. reflexivity.
    + refine (rinv_set s i _ (rs_pc s) I (nth_error_lt _ _ _ Ht) (OK _) (fun _ _ _ X => X)). rewrite Eu'. intros w [].
    + intro j. rewrite emissions_one. destruct (step_acc _ _ _ _ j St) as [N|(y & u' & Ey & _ & _ & N)].
      * destruct (Nat.eqb_spec i j) as [->|]; [|now rewrite app_nil_r]. exfalso. unfold acc_of in N. cbn [with_threads cs_threads] in N.
        rewrite set_nth_same in N by (eapply nth_error_lt; eauto). rewrite Hu in N. cbn [th_accepted] in N. apply (f_equal (@length _)) in N. rewrite app_length in N. cbn in N. lia.
      * injection Ey as -> <-. now rewrite Nat.eqb_refl.
    + auto.
Qed.

Lemma sim_orphan s c i s' : sim s c -> cinv c -> rinv s -> rstep n (ROrphan i) s = Some s' -> simulated s' c.
Proof.
  intros S0 K I H. cbn [rstep] in H. destruct (nth_error (rs_threads s) i) as [t|] eqn:Ht; [|discriminate].
  destruct (r_phase t) eqn:Hp; try discriminate. destruct (RingBuffer_model.pp (r_ring t)) eqn:Q; try discriminate. injection H as <-.
  pose proof S0 as [A B C D E F G]. destruct (Forall2_at _ _ _ A _ _ Ht) as (u & Hu & S1 & S2 & S3 & S4). pose proof (I _ _ Ht) as [R T L O].
  eapply (one_step _ _ (TOrphan i)); [cbn [cstep]; unfold tnth; rewrite Hu, S2, Hp; reflexivity|exact Logic.I| |].
  - constructor; cbn [rs_threads rs_active rs_orphans rs_pc rs_attached rs_sent rs_lost cs_threads cs_active cs_orphans cs_pc cs_attached cs_sent cs_lost]; auto.
    + apply Forall2_set; [exact A|]. unfold same. cbn [with_phase r_tid r_phase r_ring th_tid th_phase th_accepted th_buf]. auto.
    + rewrite S1, B, C. reflexivity.
  - refine (rinv_set s i _ (rs_pc s) I (nth_error_lt _ _ _ Ht) _ (fun _ _ _ X => X)). constructor; cbn [with_phase r_ring r_phase]; auto.
    intros _. unfold unans. now rewrite Q.
Qed.

Lemma sim_erase s c i s' : sim s c -> cinv c -> rinv s -> rstep n (RErase i) s = Some s' -> simulated s' c.
Proof.
  intros S0 K I H. cbn [rstep] in H. destruct (nth_error (rs_threads s) i) as [t|] eqn:Ht; [|discriminate].
  destruct (r_phase t) eqn:Hp; try discriminate. injection H as <-.
  pose proof S0 as [A B C D E F G]. destruct (Forall2_at _ _ _ A _ _ Ht) as (u & Hu & S1 & S2 & S3 & S4). pose proof (I _ _ Ht) as [R T L O].
  eapply (one_step _ _ (TErase i)); [cbn [cstep]; unfold tnth; rewrite Hu, S2, Hp; reflexivity|exact Logic.I| |].
  - constructor; cbn [rs_threads rs_active rs_orphans rs_pc rs_attached rs_sent rs_lost cs_threads cs_active cs_orphans cs_pc cs_attached cs_sent cs_lost]; auto.
    + apply Forall2_set; [exact A|]. unfold same. cbn [with_phase r_tid r_phase r_ring th_tid th_phase th_accepted th_buf]. auto.
    + rewrite S1, B. reflexivity.
  - refine (rinv_set s i _ (rs_pc s) I (nth_error_lt _ _ _ Ht) _ (fun _ _ _ X => X)). constructor; cbn [with_phase r_ring r_phase]; auto.
    intros _. apply L. congruence.
Qed.

Lemma idle_ok s : rinv s -> match rs_pc s with RCollecting _ _ _ => False | _ => True end -> forall i t, nth_error (rs_threads s) i = Some t -> RingBuffer_model.cp (r_ring t) = RingBuffer_model.CIdle.
Proof. intros I P i t Ht. pose proof (ok_cons _ _ _ (I _ _ Ht)) as O. unfold cons_ok in O. destruct (rs_pc s); try contradiction; exact O. Qed.
Lemma rok_pc p p' i t : rok p i t -> (cons_ok p i (r_ring t) -> cons_ok p' i (r_ring t)) -> rok p' i t.
Proof. intros [A B C D] H. constructor; auto. Qed.

Lemma sim_sender s c l s' : sim s c -> cinv c -> rinv s -> match l with RAttach | RSwap | RSnapshot | RSend | RStop => True | _ => False end -> rstep n l s = Some s' -> simulated s' c.
Proof.
  intros S0 K I Hl H. pose proof S0 as [A B C D E F G]. destruct l; try contradiction; cbn [rstep] in H.
  - injection H as <-. eapply (one_step _ _ SAttach); [reflexivity|exact Logic.I| |exact I].
    constructor; cbn [rs_threads rs_active rs_orphans rs_pc rs_attached rs_sent rs_lost cs_threads cs_active cs_orphans cs_pc cs_attached cs_sent cs_lost]; auto.
  - destruct (rs_pc s) eqn:P; try discriminate. injection H as <-. destruct (cs_pc c) eqn:Q; try contradiction.
    eapply (one_step _ _ SSwap); [cbn [cstep]; rewrite Q; reflexivity|exact Logic.I| |].
    + constructor; cbn [rs_threads rs_active rs_orphans rs_pc rs_attached rs_sent rs_lost cs_threads cs_active cs_orphans cs_pc cs_attached cs_sent cs_lost]; auto.
    + intros i t Ht. cbn [rs_threads rs_pc] in *. apply (rok_pc _ _ _ _ (I _ _ Ht)). rewrite P. auto.
  - destruct (rs_pc s) as [|l| |] eqn:P; try discriminate. injection H as <-. destruct (cs_pc c) as [|l'| |] eqn:Q; try contradiction. cbn in D. subst l'.
    eapply (one_step _ _ SSnapshot); [cbn [cstep]; rewrite Q; reflexivity|exact Logic.I| |].
    + constructor; cbn [with_rpc with_pc rs_threads rs_active rs_orphans rs_pc rs_attached rs_sent rs_lost cs_threads cs_active cs_orphans cs_pc cs_attached cs_sent cs_lost]; auto.
      split; [now rewrite B|reflexivity].
    + intros i t Ht. cbn [with_rpc rs_threads rs_pc] in *. apply (rok_pc _ _ _ _ (I _ _ Ht)). rewrite P. unfold cons_ok. intro X.
      destruct (_ ++ _) as [|[[k b] o] rest]; auto. destruct (b =? i); auto.
  - destruct (rs_pc s) as [| |g todo ev|] eqn:P; try discriminate. destruct g; try discriminate. destruct todo; try discriminate. injection H as <-.
    destruct (cs_pc c) as [| |todo' ev'|] eqn:Q; try contradiction. destruct D as (<- & ->).
    assert (Cn : length (flat_map snd (wrap ev')) = count_events ev'). { rewrite flat_wrap, map_length. reflexivity. }
    eapply (one_step _ _ SSend); [cbn [cstep]; rewrite Q; reflexivity|exact Logic.I| |].
    + rewrite Cn. destruct (count_events ev' =? 0).
      * constructor; cbn [with_rpc with_pc rs_threads rs_active rs_orphans rs_pc rs_attached rs_sent rs_lost cs_threads cs_active cs_orphans cs_pc cs_attached cs_sent cs_lost]; auto; exact Logic.I.
      * constructor; cbn [rs_threads rs_active rs_orphans rs_pc rs_attached rs_sent rs_lost cs_threads cs_active cs_orphans cs_pc cs_attached cs_sent cs_lost]; auto; try exact Logic.I.
        -- rewrite E. destruct (cs_attached c); [rewrite F; now rewrite map_app|exact F].
        -- rewrite E. destruct (cs_attached c); [exact G|rewrite G; now rewrite map_app].
    + destruct (length (flat_map snd (wrap ev')) =? 0); intros i t Ht; cbn [with_rpc rs_threads rs_pc] in *; apply (rok_pc _ _ _ _ (I _ _ Ht)); rewrite P; auto.
  - destruct (rs_pc s) eqn:P; try discriminate. injection H as <-. destruct (cs_pc c) eqn:Q; try contradiction.
    eapply (one_step _ _ SStop); [cbn [cstep]; rewrite Q; reflexivity|exact Logic.I| |].
    + constructor; cbn [with_rpc with_pc rs_threads rs_active rs_orphans rs_pc rs_attached rs_sent rs_lost cs_threads cs_active cs_orphans cs_pc cs_attached cs_sent cs_lost]; auto; exact Logic.I.
    + intros i t Ht. cbn [with_rpc rs_threads rs_pc] in *. apply (rok_pc _ _ _ _ (I _ _ Ht)). rewrite P. auto.
Qed.

Lemma other_cons g g' tid b o rest ev j q : j <> b -> cons_ok (RCollecting g ((tid, b, o) :: rest) ev) j q -> cons_ok (RCollecting g' ((tid, b, o) :: rest) ev) j q.
Proof. intros N. unfold cons_ok. destruct (Nat.eqb_spec b j); [congruence|auto]. Qed.
Lemma head_cons g tid b o rest ev q : cons_ok (RCollecting g ((tid, b, o) :: rest) ev) b q <-> stage_ok g o q.
Proof. unfold cons_ok. now rewrite Nat.eqb_refl. Qed.

Lemma sim_call s c s' : sim s c -> cinv c -> rinv s -> rstep n RCall s = Some s' -> simulated s' c.
Proof.
  intros S0 K I H. cbn [rstep] in H. destruct (rs_pc s) as [| |g todo ev|] eqn:P; try discriminate. destruct todo as [|[[tid b] o] rest]; [discriminate|].
  destruct (nth_error (rs_threads s) b) as [t|] eqn:Ht; [|discriminate]. pose proof (I _ _ Ht) as [(rcs & R) T L O]. rewrite P in O. apply head_cons in O.
  assert (X : exists a g' q, RingBuffer_model.step (r_ring t) (RingBuffer_model.ACons a) = Some q /\ s' = with_rpc (RCollecting g' ((tid, b, o) :: rest) ev) (with_rthreads (set_nth b (with_ring q t) (rs_threads s)) s) /\
    (g = Fresh /\ a = RingBuffer_model.OSize /\ g' = Sizing \/ exists k, g = Sized k /\ a = RingBuffer_model.OPopInto k /\ g' = Popping)).
  { destruct g; try discriminate; (destruct (RingBuffer_model.step _ _) as [q|] eqn:Q; [|discriminate]); injection H as <-; eexists _, _, q; (split; [exact Q|]); (split; [reflexivity|]); [left; auto|right; eauto]. }
  destruct X as (a & g' & q & Q & -> & Y). destruct (call_effect _ _ _ Q) as (E0 & Ec & Ep & Ea & Er & _).
  apply no_step.
  - apply (sim_ring _ _ _ _ _ _ S0 Ht Ea Er). pose proof (sm_pc _ _ S0) as D. rewrite P in D. exact D.
  - refine (rinv_set s b _ _ I (nth_error_lt _ _ _ Ht) _ _).
    + constructor; cbn [with_ring r_ring r_phase].
      * exact (step_ring _ _ _ _ _ R Q).
      * unfold unans. rewrite Ep. exact T.
      * unfold unans. rewrite Ep. exact L.
      * cbn [with_rpc rs_pc]. apply head_cons. destruct Y as [(-> & -> & ->)|(k & -> & -> & ->)]; cbn [stage_ok] in *; [exact Ec|].
        left. exists k. split; [exact Ec|]. unfold held_in. rewrite Ea, Er. apply O.
    + intros j q' N. rewrite P. now apply other_cons.
Qed.

Lemma next_ok tid b o rest ev ev' g g' j q : (j <> b -> cons_ok (RCollecting g ((tid, b, o) :: rest) ev) j q) -> (j = b -> RingBuffer_model.cp q = RingBuffer_model.CIdle) -> g' = Fresh -> cons_ok (RCollecting g' rest ev') j q.
Proof.
  intros H H' ->. assert (E : RingBuffer_model.cp q = RingBuffer_model.CIdle).
  { destruct (Nat.eq_dec j b) as [->|N]; [auto|]. specialize (H N). unfold cons_ok in H. destruct (Nat.eqb_spec b j); [congruence|exact H]. }
  unfold cons_ok. destruct rest as [|[[k b'] o'] rest]; [exact E|]. destruct (b' =? j); exact E.
Qed.

Lemma sim_read s c a s' : sim s c -> cinv c -> rinv s -> rstep n (RRead a) s = Some s' -> simulated s' c.
Proof.
  intros S0 K I H. cbn [rstep] in H. destruct (rs_pc s) as [| |g todo ev|] eqn:P; try discriminate. destruct todo as [|[[tid b] o] rest]; [discriminate|].
  destruct (nth_error (rs_threads s) b) as [t|] eqn:Ht; [|discriminate]. pose proof (I _ _ Ht) as [(rcs & R) T L O]. rewrite P in O. apply head_cons in O.
  destruct (handed_over o (r_ring t) a) eqn:HO; [|discriminate]. destruct (RingBuffer_model.step (r_ring t) (RingBuffer_model.AStep a)) as [q|] eqn:Q; [|discriminate].
  change (result q) with (last_event q) in H. pose proof (sm_pc _ _ S0) as D. rewrite P in D.
  assert (NW : forall x, RingBuffer_model.cp (r_ring t) = RingBuffer_model.CLd x -> o = true -> S a = length (RingBuffer_model.whist (r_ring t))).
  { intros x Ex ->. unfold handed_over in HO. rewrite Ex in HO. now apply Nat.eqb_eq. }
  assert (QUIET : forall p, RingBuffer_model.pp q = RingBuffer_model.pp (r_ring t) -> acc q = acc (r_ring t) -> ret q = ret (r_ring t) -> (exists g', p = RCollecting g' ((tid, b, o) :: rest) ev /\ stage_ok g' o q) ->
    simulated (with_rpc p (with_rthreads (set_nth b (with_ring q t) (rs_threads s)) s)) c).
  { intros p Ep Ea Er (g' & -> & G'). apply no_step; [apply (sim_ring _ _ _ _ _ _ S0 Ht Ea Er); exact D|].
    refine (rinv_set s b _ _ I (nth_error_lt _ _ _ Ht) _ _).
    - constructor; cbn [with_ring r_ring r_phase]; [exact (step_ring _ _ _ _ _ R Q)|unfold unans; rewrite Ep; exact T|unfold unans; rewrite Ep; exact L|].
      cbn [with_rpc rs_pc]. now apply head_cons.
    - intros j q' N. rewrite P. now apply other_cons. }
  destruct g as [| |k|]; cbn [stage_ok] in O; try discriminate.
  - destruct (size_effect _ _ _ _ _ R O Q) as (Ep & Ea & Er & Ec & k & Ek & Nk). rewrite Ek in H. injection H as <-.
    apply QUIET; auto. exists (Sized k). split; [reflexivity|]. cbn [stage_ok]. split; [exact Ec|]. intro Eo. rewrite (Nk (NW _ O Eo)). unfold held_in. now rewrite Ea, Er.
  - destruct O as [(k & Ec & Hk)|(r & cnt & k & out & Ec & Hc)].
    + destruct (into_load _ _ _ _ _ _ R Ec Q) as (Ep & Ea & Er & En & r & cnt & Ec' & Nk). rewrite En in H. injection H as <-.
      rewrite <- pc_self. rewrite P. apply QUIET; auto. exists Popping. split; [reflexivity|]. cbn [stage_ok]. right. exists r, cnt, 0, []. split; [exact Ec'|].
      intro Eo. rewrite (Nk (NW _ Ec Eo)), (Hk Eo). unfold held_in. rewrite Ea, Er. lia.
    + destruct (into_step _ _ _ _ _ _ _ _ _ R Ec Q) as (Ep & Ea & [(Er & En & out' & Ec')|(vs & Ec' & En & Er & Ev & Hv)]); rewrite En in H; injection H as <-.
      * rewrite <- pc_self. rewrite P. apply QUIET; auto. exists Popping. split; [reflexivity|]. cbn [stage_ok]. right. exists r, cnt, (S k), out'. split; [exact Ec'|].
        intro Eo. rewrite (Hc Eo). unfold held_in. now rewrite Ea, Er.
      * destruct (cs_pc c) as [| |todo' ev'|] eqn:PC; try contradiction. destruct D as (<- & ->).
        pose proof S0 as [A B C _ E F G]. destruct (Forall2_at _ _ _ A _ _ Ht) as (u & Hu & S1 & S2 & S3 & S4). destruct (ring_len _ _ _ R) as (L1 & L2).
        assert (Lb : length (th_buf u) = held_in (r_ring t)). { rewrite S4, skipn_length. reflexivity. }
        eapply (one_step _ _ (SCollect cnt)); [|exact Logic.I| |].
        -- cbn [cstep]. rewrite PC, Hu. replace (if o then cnt =? length (th_buf u) else cnt <=? length (th_buf u)) with true; [reflexivity|].
           symmetry. rewrite Lb. destruct o; [apply Nat.eqb_eq; auto|apply Nat.leb_le; exact Hv].
        -- constructor; cbn [with_rpc with_pc with_rthreads with_threads rs_threads rs_active rs_orphans rs_pc rs_attached rs_sent rs_lost cs_threads cs_active cs_orphans cs_pc cs_attached cs_sent cs_lost]; auto.
           ++ apply Forall2_set; [exact A|]. unfold same. cbn [with_ring r_tid r_phase r_ring th_tid th_phase th_accepted th_buf].
              split; [exact S1|]. split; [exact S2|]. rewrite Ea. split; [exact S3|]. rewrite Er, S4, skipn_skip, app_length. f_equal. f_equal.
              rewrite Ev, map_length, firstn_length, skipn_length. unfold held_in in Hv. lia.
           ++ cbn [same_pc]. split; [reflexivity|]. rewrite file_wrap, S4, Ev. reflexivity.
        -- refine (rinv_set s b _ _ I (nth_error_lt _ _ _ Ht) _ _).
           ++ constructor; cbn [with_ring r_ring r_phase]; [exact (step_ring _ _ _ _ _ R Q)|unfold unans; rewrite Ep; exact T|unfold unans; rewrite Ep; exact L|].
              cbn [with_rpc rs_pc]. refine (next_ok tid b o rest [] _ Popping _ _ _ _ (fun _ => Ec') eq_refl). congruence.
           ++ intros j q' N X. rewrite P in X. refine (next_ok tid b o rest _ _ _ _ _ _ (fun _ => X) _ eq_refl). congruence.
Qed.

Lemma step_sim l s c s' : sim s c -> cinv c -> rinv s -> rstep n l s = Some s' -> simulated s' c.
Proof.
  intros S0 K I H. destruct l; eauto using sim_start, sim_push, sim_access, sim_orphan, sim_erase, sim_call, sim_read.
  all: refine (sim_sender _ _ _ _ S0 K I _ H); exact Logic.I.
Qed.

Lemma rrun_app a : forall b s, rrun n (a ++ b) s = match rrun n a s with Some s1 => rrun n b s1 | None => None end.
Proof. induction a as [|l a IH]; cbn [app rrun]; intros b s; [reflexivity|]. destruct (rstep n l s); auto. Qed.
Lemma rrun_cons l ls s : rrun n (l :: ls) s = match rstep n l s with Some s1 => rrun n ls s1 | None => None end.
Proof. reflexivity. Qed.

Lemma run_sim : forall ls s c s', sim s c -> cinv c -> rinv s -> rrun n ls s = Some s' ->
  exists cs c', crun (n - 1) cs c = Some c' /\ sim s' c' /\ rinv s' /\ cinv c' /\ emits cs c c'.
Proof.
  induction ls as [|l ls IH]; intros s c s' S0 K I H.
  - injection H as <-. exists [], c. split; [reflexivity|]. split; [exact S0|]. split; [exact I|]. split; [exact K|]. apply emits_none.
  - rewrite rrun_cons in H. destruct (rstep n l s) as [s1|] eqn:E; [|discriminate]. destruct (step_sim _ _ _ _ S0 K I E) as (cs & c1 & R1 & S1 & I1 & M1 & _).
    destruct (IH _ _ _ S1 (run_cinv _ _ _ _ K R1) I1 H) as (cs2 & c2 & R2 & S2 & I2 & K2 & M2).
    exists (cs ++ cs2), c2. rewrite crun_app, R1. split; [exact R2|]. split; [exact S2|]. split; [exact I2|]. split; [exact K2|].
    intro i. now rewrite M2, M1, emissions_app, app_assoc.
Qed.

Definition cstart (b : bool) : cstate := {| cs_threads := []; cs_active := []; cs_orphans := []; cs_pc := SIdle; cs_attached := b; cs_sent := []; cs_lost := [] |}.
Lemma sim0 b : sim (rstate0 b) (cstart b).
Proof. constructor; cbn; auto. Qed.
Lemma rinv0 b : rinv (rstate0 b).
Proof. intros [|i] t H; discriminate. Qed.

Lemma reached b ls s : rrun n ls (rstate0 b) = Some s -> exists cs c, crun (n - 1) cs (cstart b) = Some c /\ sim s c /\ rinv s /\ cinv c /\ (forall i, acc_of i c = emissions i cs).
Proof.
  intro H. destruct (run_sim _ _ _ _ (sim0 b) (cinv0 b) (rinv0 b) H) as (cs & c & R & S0 & I & K & M). exists cs, c.
  split; [exact R|]. split; [exact S0|]. split; [exact I|]. split; [exact K|]. intro i. rewrite M. unfold acc_of. now destruct i.
Qed.
End Sim.
