From Coq Require Import List Arith Bool Lia.
Import ListNotations.
From Verif Require RingBuffer_model RingBuffer_spec RingBuffer_proofs.
From Verif Require Import UnixSystem_model UnixSystem_proofs OMap_model OMap_proofs Collector_model Collector_spec Collector_proofs RingsStep_proofs Rings_model Rings_spec Rings_proofs RingsUse_proofs RingsPass_proofs RingsFresh_spec.

Section Fresh.
Variable n : nat.

Definition buffers (todo : list (nat * nat * bool)) : list nat := map (fun e => snd (fst e)) todo.
(** How far the pass is with the buffer of thread [i], of which [m] events are to be taken. *)
Definition far (m : nat) (g : stage) (q : ring) : Prop :=
  match g with
  | Fresh | Sizing => True
  | Sized k => m <= length (ret q) + k
  | Popping => (forall k, RingBuffer_model.cp q = RingBuffer_model.CLd (RingBuffer_model.OPopInto k) -> m <= length (ret q) + k) /\
               (forall r cnt k out, RingBuffer_model.cp q = RingBuffer_model.CInto r cnt k out -> m <= length (ret q) + cnt)
  end.
Definition way (i m : nat) (p : rpc) (q : ring) : Prop :=
  match p with
  | RCollecting g todo _ => m <= length (ret q) \/ In i (buffers (tl todo)) \/ (exists tid o rest, todo = (tid, i, o) :: rest /\ far m g q)
  | _ => True
  end.
Record going (i : nat) (base : list event) (s : rstate) : Prop := {
  go_there : exists t, nth_error (rs_threads s) i = Some t /\ r_phase t = TRunning /\ (exists x, acc (r_ring t) = base ++ x) /\ way i (length base) (rs_pc s) (r_ring t) }.

Lemma way_fresh i m todo ev q : In i (buffers todo) -> way i m (RCollecting Fresh todo ev) q.
Proof. destruct todo as [|[[tid b] o] rest]; [intros []|]. intros [H|H]; cbn in *; [subst; right; right; eauto 8|auto]. Qed.
Lemma way_same i m p q q' : ret q' = ret q -> RingBuffer_model.cp q' = RingBuffer_model.cp q -> way i m p q -> way i m p q'.
Proof.
  intros Er Ec. destruct p as [|l|g todo ev|]; auto. cbn [way]. rewrite Er. intros [H|[H|(tid & o & rest & -> & H)]]; auto. right. right. exists tid, o, rest. split; [reflexivity|].
  destruct g; cbn [far] in *; auto; rewrite ?Er, ?Ec; auto.
Qed.

Lemma going_step l s s' i base c : sim s c -> cinv c -> rinv n s -> rstep n l s = Some s' -> l <> ROrphan i -> up_to_date i l s -> going i base s -> going i base s'.
Proof.
  intros S0 K I H NO U [(t & Ht & Hp & Ha & W)].
  assert (SET : forall j t0 q, nth_error (rs_threads s) j = Some t0 -> (j = i -> (exists x, acc q = base ++ x) /\ way i (length base) (rs_pc s) q) ->
    going i base (with_rthreads (set_nth j (with_ring q t0) (rs_threads s)) s)).
  { intros j t0 q Hj X. constructor. cbn [with_rthreads rs_threads rs_pc]. destruct (Nat.eq_dec i j) as [<-|N].
    - rewrite Ht in Hj. injection Hj as <-. exists (with_ring q t). rewrite set_nth_same by (eapply nth_error_lt; eauto). destruct (X eq_refl). auto.
    - exists t. rewrite set_nth_other by congruence. auto. }
  assert (SETP : forall j t0 q p, nth_error (rs_threads s) j = Some t0 -> (j = i -> (exists x, acc q = base ++ x) /\ way i (length base) p q) -> (j <> i -> way i (length base) p (r_ring t)) ->
    going i base (with_rpc p (with_rthreads (set_nth j (with_ring q t0) (rs_threads s)) s))).
  { intros j t0 q p Hj X Y. constructor. cbn [with_rpc with_rthreads rs_threads rs_pc]. destruct (Nat.eq_dec i j) as [<-|N].
    - rewrite Ht in Hj. injection Hj as <-. exists (with_ring q t). rewrite set_nth_same by (eapply nth_error_lt; eauto). destruct (X eq_refl). auto.
    - exists t. rewrite set_nth_other by congruence. auto. }
  destruct l; cbn [rstep] in H.
  - destruct (existsb _ _); [discriminate|]. destruct (mfind _ _ _); [discriminate|]. destruct (RingBuffer_model.init n); [|discriminate]. injection H as <-.
    constructor. exists t. cbn [rs_threads rs_pc]. rewrite nth_error_app1 by (eapply nth_error_lt; eauto). auto.
  - destruct (nth_error (rs_threads s) i0) as [t0|] eqn:E; [|discriminate]. destruct (r_phase t0) eqn:P; try discriminate. destruct (RingBuffer_model.step _ _) as [q|] eqn:Q; [|discriminate]. injection H as <-.
    apply SET; [exact E|]. intros ->. rewrite Ht in E. injection E as <-. destruct (push_effect _ _ _ Q) as (_ & _ & Ec & Ea & Er). rewrite Ea. split; [exact Ha|]. exact (way_same _ _ _ _ _ Er Ec W).
  - destruct (nth_error (rs_threads s) i0) as [t0|] eqn:E; [|discriminate]. destruct (r_phase t0) eqn:P; try discriminate. destruct (RingBuffer_model.step _ _) as [q|] eqn:Q; [|discriminate]. injection H as <-.
    apply SET; [exact E|]. intros ->. rewrite Ht in E. injection E as <-. destruct (ok_ring _ _ _ _ (I _ _ Ht)) as (rcs & R). destruct (prod_effect _ _ _ _ _ R Q) as (Ec & Er & X).
    split; [|exact (way_same _ _ _ _ _ Er Ec W)]. destruct Ha as (x & Ha). destruct X as [(Ea & _)|[(v & Ea & _)|(v & _ & Ea & _)]]; rewrite Ea, Ha; eauto. rewrite <- app_assoc. eauto.
  - destruct (nth_error (rs_threads s) i0) as [t0|] eqn:E; [|discriminate]. destruct (r_phase t0) eqn:P; try discriminate. destruct (RingBuffer_model.pp _); try discriminate. injection H as <-.
    constructor. exists t. cbn [rs_threads rs_pc]. rewrite set_nth_other by congruence. auto.
  - destruct (nth_error (rs_threads s) i0) as [t0|] eqn:E; [|discriminate]. destruct (r_phase t0) eqn:P; try discriminate. injection H as <-.
    constructor. exists t. cbn [rs_threads rs_pc]. rewrite set_nth_other by congruence. auto.
  - injection H as <-. constructor. exists t. auto.
  - destruct (rs_pc s) eqn:PC; try discriminate. injection H as <-. constructor. exists t. cbn. auto.
  - destruct (rs_pc s) eqn:PC; try discriminate. injection H as <-. constructor. exists t. cbn [with_rpc rs_threads rs_pc]. split; [exact Ht|]. split; [exact Hp|]. split; [exact Ha|].
    apply way_fresh. pose proof S0 as [A B C D E F G]. destruct (Forall2_at _ _ _ A _ _ Ht) as (u & Hu & S1 & S2 & _).
    assert (X : In (th_tid u, i) (cs_active c)) by (apply (ci_act2 _ K); auto; congruence). rewrite <- B in X. unfold buffers. apply in_map_iff. exists (th_tid u, i, false). split; [reflexivity|].
    apply in_or_app. right. apply in_map_iff. eauto.
  - destruct (rs_pc s) as [| |g todo ev|] eqn:PC; try discriminate. destruct todo as [|[[tid b] o] rest]; [discriminate|]. destruct (nth_error (rs_threads s) b) as [t0|] eqn:E; [|discriminate].
    destruct g as [| |k|]; try discriminate.
    + destruct (RingBuffer_model.step _ _) as [q|] eqn:Q; [|discriminate]. injection H as <-. destruct (call_effect _ _ _ Q) as (_ & Ec & _ & Ea & Er & _). apply SETP; [exact E| |].
      * intros ->. rewrite Ht in E. injection E as <-. rewrite Ea. split; [exact Ha|]. right. right. exists tid, o, rest. cbn. auto.
      * intros N. cbn [way tl] in *. destruct W as [W|[W|(tid' & o' & rest' & X & _)]]; auto. injection X as -> -> -> ->. congruence.
    + destruct (RingBuffer_model.step _ _) as [q|] eqn:Q; [|discriminate]. injection H as <-. destruct (call_effect _ _ _ Q) as (_ & Ec & _ & Ea & Er & _). apply SETP; [exact E| |].
      * intros ->. rewrite Ht in E. injection E as <-. rewrite Ea. split; [exact Ha|]. cbn [way tl] in *. rewrite Er. destruct W as [W|[W|(tid' & o' & rest' & X & W)]]; auto.
        right. right. exists tid, o, rest. split; [reflexivity|]. cbn [far] in *. rewrite Ec, Er. split; [|discriminate]. intros k' Ek. injection Ek as <-. exact W.
      * intros N. cbn [way tl] in *. destruct W as [W|[W|(tid' & o' & rest' & X & _)]]; auto. injection X as -> -> -> ->. congruence.
  - unfold up_to_date in U. destruct (rs_pc s) as [| |g todo ev|] eqn:PC; try discriminate. destruct todo as [|[[tid b] o] rest]; [discriminate|]. destruct (nth_error (rs_threads s) b) as [t0|] eqn:E; [|discriminate].
    destruct (handed_over _ _ _); [|discriminate]. destruct (RingBuffer_model.step _ _) as [q|] eqn:Q; [|discriminate].
    pose proof (I _ _ E) as [(rcs & R) _ _ O]. rewrite ?PC in O. cbn [cons_ok] in O. rewrite Nat.eqb_refl in O. destruct (ring_len _ _ _ R) as (L1 & L2).
    assert (OTHER : b <> i -> forall g' ev', way i (length base) (RCollecting g' ((tid, b, o) :: rest) ev') (r_ring t) /\ way i (length base) (RCollecting Fresh rest ev') (r_ring t)).
    { intros N g' ev'. cbn [way tl] in W. destruct W as [W|[W|(tid' & o' & rest' & X & _)]]; [split; now left|split; [right; now left|now apply way_fresh]|]. injection X as -> -> -> ->. congruence. }
    change (result q) with (last_event q) in H.
    destruct g as [| |k|]; cbn [stage_ok] in O; [|..].
    + discriminate.
    + destruct (size_effect _ _ _ _ _ R O Q) as (_ & Ea & Er & Ec & k & El & Ek). rewrite El in H. injection H as <-. apply SETP; [exact E| |intro N; apply (OTHER N)].
      intros ->. rewrite Ht in E. injection E as <-. rewrite Ea. split; [exact Ha|]. cbn [way tl] in *. rewrite Er. destruct W as [W|[W|(tid' & o' & rest' & X & W)]]; auto.
      right. right. exists tid, o, rest. split; [reflexivity|]. cbn [far]. rewrite Er. rewrite (Ek (U eq_refl _ _ Ht O)). unfold held_in. destruct Ha as (x & Ha). rewrite Ha in *. rewrite app_length in *. lia.
    + destruct (last_event q); discriminate.
    + destruct O as [(k & O & _)|(r & cnt & k & out & O & _)].
      * destruct (into_load _ _ _ _ _ _ R O Q) as (_ & Ea & Er & El & r & cnt & Ec & Ek). rewrite El in H. injection H as <-. apply SET; [exact E|].
        intros ->. rewrite Ht in E. injection E as <-. rewrite Ea, ?PC. split; [exact Ha|]. cbn [way tl] in *. rewrite Er. destruct W as [W|[W|(tid' & o' & rest' & X & W)]]; auto.
        right. right. exists tid, o, rest. split; [reflexivity|]. cbn [far] in *. rewrite Ec, Er. split; [discriminate|]. intros r' cnt' k' out' Eq. injection Eq as <- <- <- <-.
        destruct W as (W & _). specialize (W _ O). rewrite (Ek (U eq_refl _ _ Ht O)). unfold held_in. destruct Ha as (x & Ha). rewrite Ha in *. rewrite app_length in *. lia.
      * destruct (into_step _ _ _ _ _ _ _ _ _ R O Q) as (_ & Ea & [(Er & El & out' & Ec)|(vs & Ec & El & Er & Ev & Lc)]); rewrite El in H; injection H as <-.
        -- apply SET; [exact E|]. intros ->. rewrite Ht in E. injection E as <-. rewrite Ea, ?PC. split; [exact Ha|]. cbn [way tl] in *. rewrite Er. destruct W as [W|[W|(tid' & o' & rest' & X & W)]]; auto.
           right. right. exists tid, o, rest. split; [reflexivity|]. cbn [far] in *. rewrite Ec, Er. split; [discriminate|]. intros r' cnt' k' o2 Eq. injection Eq as <- <- <- <-. exact (proj2 W _ _ _ _ O).
        -- apply SETP; [exact E| |intro N; apply (OTHER N); constructor]. intros ->. rewrite Ht in E. injection E as <-. rewrite Ea. split; [exact Ha|]. cbn [tl way] in W.
           destruct W as [W|[W|(tid' & o' & rest' & X & W)]]; [|now apply way_fresh|].
           ++ left. rewrite Er, app_length. lia.
           ++ left. destruct W as (_ & W). specialize (W _ _ _ _ O). rewrite Er, app_length, Ev, map_length, firstn_length, skipn_length. unfold held_in in Lc. lia.
  - destruct (rs_pc s) as [| |g todo ev|] eqn:PC; try discriminate. destruct g; try discriminate. destruct todo; try discriminate. injection H as <-. constructor. exists t.
    destruct (_ =? 0); cbn; auto.
  - destruct (rs_pc s) eqn:PC; try discriminate. injection H as <-. constructor. exists t. cbn. auto.
Qed.

(** The broadcast at the end of the pass. *)
Lemma sent_fresh s s' i base ls : rrun n ls (rstate0 true) = Some s -> going i base s -> rstep n RSend s = Some s' -> exists more, sent_of i s' = map Some base ++ more.
Proof.
  intros H [(t & Ht & _ & (x & Ha) & W)] St. assert (H' : rrun n (ls ++ [RSend]) (rstate0 true) = Some s') by (rewrite rrun_app, H; cbn [rrun]; now rewrite St).
  destruct (reached _ _ _ _ H') as (cs & c' & R' & S' & I' & K' & _). cbn [rstep] in St.
  destruct (rs_pc s) as [| |g todo ev|] eqn:PC; try discriminate. destruct g; try discriminate. destruct todo; try discriminate. cbn [way tl] in W.
  assert (L : length base <= length (ret (r_ring t))) by (destruct W as [W|[[]|(? & ? & ? & X & _)]]; [exact W|discriminate]).
  assert (TH : rs_threads s' = rs_threads s /\ rs_pc s' = RIdle) by (injection St as <-; destruct (_ =? 0); auto). destruct TH as (TH & PI).
  assert (Ht' : nth_error (rs_threads s') i = Some t) by now rewrite TH.
  destruct (whole_once _ _ _ _ _ _ H' Ht') as (rest & X & _ & Z). rewrite (Z eq_refl) in X. cbn [all_filed flat_map filter app] in X.
  unfold popped_of in X. rewrite PI in X. cbn [app] in X.
  destruct (Forall2_at _ _ _ (sm_threads _ _ S') _ _ Ht') as (u & Hu & _ & _ & M3 & M4). pose proof (ci_acc _ K' _ _ Hu) as A2.
  destruct (ok_ring _ _ _ _ (I' _ _ Ht')) as (rcs & Q). destruct (ring_len _ _ _ Q) as (L1 & _).
  destruct (run_attached (n - 1) cs (cstart true) c' eq_refl R') as (_ & LO). rewrite LO in A2. cbn [cstart cs_lost app] in A2.
  assert (EV : ev_map c' = []). { pose proof (sm_pc _ _ S') as D'. rewrite PI in D'. unfold ev_map. destruct (cs_pc c'); try contradiction; reflexivity. }
  rewrite EV in A2. cbn [flat_map] in A2. rewrite of_thread_nil in A2. cbn [app] in A2.
  assert (LS : length base <= length (sent_of i s')).
  { apply (f_equal (@length _)) in A2. rewrite app_length, M3, M4, skipn_length in A2. unfold sent_of. rewrite (sm_sent _ _ S'), all_wrap, of_wrap, map_length. lia. }
  change (accepted_of t) with (acc (r_ring t)) in X. rewrite Ha, map_app in X.
  exists (skipn (length base) (sent_of i s')). apply (f_equal (firstn (length base))) in X. rewrite firstn_app, map_length, Nat.sub_diag, firstn_O, app_nil_r, firstn_app in X.
  replace (length base - length (sent_of i s')) with 0 in X by lia. rewrite firstn_O, app_nil_r in X. rewrite firstn_all2 in X by (rewrite map_length; lia). rewrite X. symmetry. apply firstn_skipn.
Qed.

Lemma sent_of_grows ls s s' i : rrun n ls s = Some s' -> exists more, sent_of i s' = sent_of i s ++ more.
Proof. intro H. destruct (sent_grows_run _ _ _ _ H) as (m & E). unfold sent_of, all_filed. rewrite E, flat_map_app, filter_app. eauto. Qed.

Theorem fresh_sent ls1 s ls2 s' i t : rrun n ls1 (rstate0 true) = Some s -> rs_pc s = RIdle -> nth_error (rs_threads s) i = Some t -> r_phase t = TRunning ->
  rrun n ls2 s = Some s' -> In RSend ls2 -> ~ In (ROrphan i) ls2 -> loads_current n i ls2 s -> exists more, sent_of i s' = map Some (accepted_of t) ++ more.
Proof.
  intros H PC Ht Hp. assert (G : going i (accepted_of t) s).
  { constructor. exists t. rewrite PC. cbn. split; [exact Ht|]. split; [exact Hp|]. split; [|exact I]. exists []. now rewrite app_nil_r. }
  clear PC Ht Hp. revert ls1 s H G. induction ls2 as [|l ls2 IH]; intros ls1 s H G R HS NO LC; [destruct HS|].
  rewrite rrun_cons in R. cbn [loads_current] in LC. destruct (rstep n l s) as [s1|] eqn:St; [|discriminate]. destruct LC as (U & LC).
  destruct (reached _ _ _ _ H) as (cs & c & _ & S0 & I & K & _).
  assert (CASE : l = RSend \/ l <> RSend) by (destruct l; auto; right; discriminate). destruct CASE as [->|Nl].
  - destruct (sent_fresh _ _ _ _ _ H G St) as (m & E). destruct (sent_of_grows _ _ _ i R) as (m' & E'). rewrite E', E, <- app_assoc. eauto.
  - apply (IH (ls1 ++ [l]) s1); auto.
    + rewrite rrun_app, H. cbn [rrun]. now rewrite St.
    + apply (going_step l s s1 i _ c S0 K I St); auto. intros ->. apply NO. now left.
    + destruct HS as [->|HS]; [congruence|exact HS].
    + intro X. apply NO. now right.
Qed.
End Fresh.

(** Two events are accepted before the pass, a third while it is going on: the loads are up to date, and the two are sent. *)
Definition put3 (i x c : nat) : list rlabel := [RPush i x; RAccess i c; RAccess i 0; RAccess i 0].
Definition two_before : list rlabel := RStart 7 :: put3 0 1 0 ++ put3 0 2 0.
Definition one_within : list rlabel := [RSwap; RSnapshot; RCall; RRead 2; RCall] ++ put3 0 3 0 ++ [RRead 3; RRead 0; RRead 0; RRead 0; RSend].
Example fresh_case : match rrun 4 two_before (rstate0 true) with
  | Some s => rs_pc s = RIdle /\ (exists t, nth_error (rs_threads s) 0 = Some t /\ r_phase t = TRunning /\ accepted_of t = [(0, 1); (0, 2)]) /\ loads_current 4 0 one_within s /\
    ~ In (ROrphan 0) one_within /\ match rrun 4 one_within s with Some s' => sent_of 0 s' = [Some (0, 1); Some (0, 2)] | None => False end
  | None => False end.
Proof.
  destruct (rrun 4 two_before (rstate0 true)) as [s|] eqn:E; [|vm_compute in E; discriminate]. vm_compute in E. injection E as <-.
  split; [reflexivity|]. split; [eexists; split; [reflexivity|]; split; reflexivity|]. split; [|split; [|vm_compute; reflexivity]].
  - vm_compute. repeat split; intros _ t o H; injection H as <-; intro H; (discriminate || reflexivity).
  - cbn. intuition discriminate.
Qed.
