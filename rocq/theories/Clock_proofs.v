(** Proofs for C110. *)
From Coq Require Import List Arith NArith ZArith Ascii Bool Floats.SpecFloat Sorting.Permutation Sorting.Sorted Lia.
From Coq Require Import Reals Lra.
From Flocq Require Import Core.Core IEEE754.BinarySingleNaN.
Import ListNotations.
From Verif Require Import TraceEvent_model Names_model Native_model Native_spec Native_proofs FloatTime_proofs Config_spec Toggle_spec Clock_model Clock_spec.
From Verif Require Toggle_proofs.
Local Open Scope Z_scope.

(** * The recorded events *)
Definition event (c : Z) (l : action) : rev_t :=
  match l with
  | Trace pid tid type id v => (pid, tid, {| te_time := reading c; te_id := id; te_type := type; te_value := v |})
  | _ => (0, 0%N, {| te_time := 0; te_id := 0; te_type := 0; te_value := None |})
  end.

Lemma record_app l1 : forall c l2, record c (l1 ++ l2) = record c l1 ++ record (c + elapsed l1 + shifts l1) l2.
Proof.
  induction l1 as [|a l1 IH]; intros c l2; cbn [app record elapsed shifts]; [rewrite !Z.add_0_r; reflexivity|].
  destruct a as [d|z|pid tid type id v]; cbn [record elapsed shifts app]; rewrite IH; [f_equal; f_equal; lia|f_equal; f_equal; lia|reflexivity].
Qed.
Lemma record_length ls : forall c, length (record c ls) = points ls.
Proof. unfold points. induction ls as [|a ls IH]; intros c; [reflexivity|]. destruct a; cbn; rewrite ?IH; reflexivity. Qed.
Lemma record_point c a ls : is_point a = true -> record c (a :: ls) = event c a :: record c ls.
Proof. destruct a; cbn; intros; try discriminate. reflexivity. Qed.
Lemma nth_record c l1 a l2 : is_point a = true ->
  nth_error (record c (l1 ++ a :: l2)) (points l1) = Some (event (c + elapsed l1 + shifts l1) a).
Proof.
  intros H. rewrite record_app, nth_error_app2; rewrite record_length; [|lia]. rewrite Nat.sub_diag, record_point by auto. reflexivity.
Qed.
Lemma record_in c ls r : In r (record c ls) -> exists l1 a l2, ls = l1 ++ a :: l2 /\ is_point a = true /\ r = event (c + elapsed l1 + shifts l1) a.
Proof.
  revert c. induction ls as [|a ls IH]; intros c H; [destruct H|].
  assert (K : forall c', In r (record c' ls) -> c' = c + elapsed [a] + shifts [a] ->
    exists l1 b l2, a :: ls = l1 ++ b :: l2 /\ is_point b = true /\ r = event (c + elapsed l1 + shifts l1) b).
  { intros c' H' E. destruct (IH c' H') as (l1 & b & l2 & -> & Hb & ->). exists (a :: l1), b, l2. split; [reflexivity|]. split; [exact Hb|].
    f_equal. destruct a; cbn [elapsed shifts] in *; lia. }
  destruct a as [d|z|pid tid type id v]; cbn [record] in H.
  - apply (K _ H). cbn. lia.
  - apply (K _ H). cbn. lia.
  - destruct H as [<-|H]; [|apply (K _ H); cbn; lia]. exists [], (Trace pid tid type id v), ls. cbn [elapsed shifts app event is_point].
    repeat split. repeat f_equal. lia.
Qed.
Lemma own_event pid tid c a : is_point a = true -> of_thread pid tid (event c a) = is_own pid tid a.
Proof. destruct a; cbn; intros; try discriminate. reflexivity. Qed.
Lemma own_point pid tid a : is_own pid tid a = true -> is_point a = true.
Proof. destruct a; cbn; auto. Qed.
Lemma event_time c a : is_point a = true -> te_time (r_ev (event c a)) = reading c.
Proof. destruct a; cbn; intros; try discriminate. reflexivity. Qed.
Lemma reading_N c : 0 <= c < 2 ^ 61 -> Z.of_N (reading c) = c.
Proof. intros H. unfold reading. rewrite Z.mod_small by lia. lia. Qed.

Lemma elapsed_app l1 l2 : elapsed (l1 ++ l2) = elapsed l1 + elapsed l2.
Proof. induction l1 as [|a l1 IH]; cbn [app elapsed]; [lia|]. destruct a; rewrite IH; lia. Qed.
Lemma shifts_app l1 l2 : shifts (l1 ++ l2) = shifts l1 + shifts l2.
Proof. induction l1 as [|a l1 IH]; cbn [app shifts]; [lia|]. destruct a; rewrite IH; lia. Qed.
Lemma point_still a ls : is_point a = true -> elapsed (a :: ls) = elapsed ls /\ shifts (a :: ls) = shifts ls.
Proof. destruct a; cbn; intros; try discriminate. auto. Qed.

Lemma dated_tail c a ls : dated c (a :: ls) -> dated (c + elapsed [a] + shifts [a]) ls.
Proof.
  intros H l1 b l2 -> Hb. specialize (H (a :: l1) b l2 eq_refl Hb). destruct a; cbn [elapsed shifts] in *; lia.
Qed.
Lemma never_back_tail pid tid a ls : never_back pid tid (a :: ls) -> never_back pid tid ls.
Proof. intros H l1 b l2 d l3 -> Hb Hd. exact (H (a :: l1) b l2 d l3 eq_refl Hb Hd). Qed.

Lemma own_sorted pid tid ls : forall c, dated c ls -> never_back pid tid ls ->
  StronglySorted (fun a b => shown_before b a = false) (filter (of_thread pid tid) (record c ls)).
Proof.
  induction ls as [|a ls IH]; intros c D B; [constructor|].
  pose proof (dated_tail _ _ _ D) as D'. pose proof (never_back_tail _ _ _ _ B) as B'.
  specialize (IH _ D' B').
  destruct (is_point a) eqn:Ea.
  2: { destruct a; cbn [record elapsed shifts] in *; try discriminate; match type of IH with context [record ?x ls] =>
       match goal with |- context [record ?y ls] => replace y with x by lia end end; exact IH. }
  replace (c + elapsed [a] + shifts [a]) with c in IH, D' by (destruct (point_still a [] Ea) as [-> ->]; cbn; lia).
  rewrite record_point by auto. cbn [filter]. rewrite own_event by auto. destruct (is_own pid tid a) eqn:Eo; [|exact IH].
  constructor; [exact IH|]. apply Forall_forall. intros r Hr. apply filter_In in Hr. destruct Hr as [Hr Ho].
  destruct (record_in _ _ _ Hr) as (l1 & b & l2 & -> & Hb & ->). rewrite own_event in Ho by auto.
  unfold shown_before. rewrite !event_time by auto.
  pose proof (B [] a l1 b l2 eq_refl Eo Ho) as P. pose proof (D [] a _ eq_refl Ea) as R1. pose proof (D' l1 b l2 eq_refl Hb) as R2.
  cbn [elapsed shifts] in R1. apply ts_monotone.
  - apply N2Z.inj_le. rewrite !reading_N by lia. lia.
  - pose proof (reading_N _ R2). lia.
Qed.

(** * From the record to the entries *)
Lemma of_thread_self r : of_thread (r_pid r) (r_tid r) r = true.
Proof. unfold of_thread. now rewrite Z.eqb_refl, N.eqb_refl. Qed.
Lemma arrived_in evs cs r : arrived evs cs -> In r (received cs) <-> In r evs.
Proof.
  intros A. specialize (A (r_pid r) (r_tid r)).
  assert (K : forall l, In r l <-> In r (filter (of_thread (r_pid r) (r_tid r)) l)).
  { intros l. rewrite filter_In. pose proof (of_thread_self r). tauto. }
  rewrite (K (received cs)), (K evs), A. tauto.
Qed.
Lemma sound_proper ls c r : sound ls -> In r (record c ls) -> proper (r_ev r).
Proof.
  intros S H. destruct (record_in _ _ _ H) as (l1 & a & l2 & -> & Ha & ->). destruct a; try discriminate Ha.
  apply (S pid tid type id v). apply in_or_app. right. now left.
Qed.
Lemma good_of cs : (forall r, In r (received cs) -> proper (r_ev r)) -> Forall good_chunk cs.
Proof.
  intros H. apply Forall_forall. intros c Hc. apply Forall_forall. intros p Hp. apply Forall_forall. intros ev He.
  apply (H (nc_pid c, fst p, ev)). unfold received. apply in_flat_map. exists c. split; auto.
  unfold events_of. apply in_flat_map. exists p. split; auto. apply in_map_iff. exists ev. auto.
Qed.
Lemma good_chunks c ls cs : sound ls -> arrived (record c ls) cs -> Forall good_chunk cs.
Proof. intros S A. apply good_of. intros r Hr. apply (sound_proper ls c); auto. now apply (arrived_in _ _ _ A). Qed.

(** The stable order leaves selected events alone if they are in order already. *)
Lemma class_eq (P : rev_t -> bool) : forall l1 l2,
  Permutation l1 l2 -> StronglySorted (fun a b => shown_before b a = false) l1 -> StronglySorted (fun a b => shown_before b a = false) l2 ->
  (forall a, filter (same_time a) l1 = filter (same_time a) l2) -> l1 = l2.
Proof.
  induction l1 as [|x l1 IH]; intros l2 Hp S1 S2 Hc.
  - apply Permutation_nil in Hp. now subst.
  - destruct l2 as [|y l2]; [apply Permutation_sym, Permutation_nil in Hp; discriminate|].
    assert (Sx : forall z, same_time z z = true) by (intros z; unfold same_time, shown_before; now rewrite SFltb_irr).
    assert (E : x = y).
    { inversion S1 as [|? ? S1' F1]; subst. inversion S2 as [|? ? S2' F2]; subst. rewrite Forall_forall in F1, F2.
      assert (Hxy : shown_before x y = false).
      { assert (Hx : In x (y :: l2)) by (apply (Permutation_in _ Hp); now left).
        destruct Hx as [->|Hx]; [apply SFltb_irr|]. exact (F2 x Hx). }
      assert (Hyx : shown_before y x = false).
      { assert (Hy : In y (x :: l1)) by (apply (Permutation_in _ (Permutation_sym Hp)); now left).
        destruct Hy as [->|Hy]; [apply SFltb_irr|]. exact (F1 y Hy). }
      specialize (Hc x). cbn [filter] in Hc. rewrite Sx in Hc.
      assert (same_time x y = true) as Hs by (unfold same_time; now rewrite Hxy, Hyx). rewrite Hs in Hc. congruence. }
    subst y. f_equal. inversion S1; subst. inversion S2; subst. apply IH; auto.
    + now apply Permutation_cons_inv in Hp.
    + intros a. specialize (Hc a). cbn [filter] in Hc. destruct (same_time a x); congruence.
Qed.
Lemma filter_sorted {A} (R : A -> A -> Prop) (P : A -> bool) l : StronglySorted R l -> StronglySorted R (filter P l).
Proof.
  induction 1 as [|x l S IH F]; cbn; [constructor|]. destruct (P x); auto. constructor; auto.
  rewrite Forall_forall in *. intros y Hy. apply filter_In in Hy. apply F. tauto.
Qed.
Lemma filter_perm {A} (P : A -> bool) (l1 l2 : list A) : Permutation l1 l2 -> Permutation (filter P l1) (filter P l2).
Proof.
  induction 1 as [|x l1 l2 H IH|x y l|l1 l2 l3 H1 IH1 H2 IH2]; cbn; auto.
  - destruct (P x); auto.
  - destruct (P x), (P y); auto. apply perm_swap.
  - now transitivity (filter P l2).
Qed.
Lemma filter_comm {A} (P Q : A -> bool) l : filter P (filter Q l) = filter Q (filter P l).
Proof. induction l as [|x l IH]; cbn; auto. destruct (Q x) eqn:EQ, (P x) eqn:EP; cbn; rewrite ?EQ, ?EP, IH; auto. Qed.
Lemma order_filter order l P : time_order order l -> StronglySorted (fun a b => shown_before b a = false) (filter P l) -> filter P order = filter P l.
Proof.
  intros (Hp & HS & Hc) Hl. apply class_eq; auto using filter_perm, filter_sorted. intros a. rewrite filter_comm, Hc, filter_comm. reflexivity.
Qed.
Lemma Forall2_filter_both {A B} (R : A -> B -> Prop) f g : (forall a b, R a b -> g b = f a) ->
  forall l1 l2, Forall2 R l1 l2 -> Forall2 R (filter f l1) (filter g l2).
Proof. intros H. induction 1 as [|a b l1 l2 Hab H2 IH]; cbn; auto. rewrite (H a b Hab). destruct (f a); auto. Qed.
Lemma shows_thread m pid tid r e : shows m r e -> entry_of pid tid e = of_thread pid tid r.
Proof. intros S. unfold entry_of, of_thread. now rewrite (sh_pid _ _ _ S), (sh_tid _ _ _ S). Qed.

Theorem thread_order m c ls cs pid tid : sound ls -> dated c ls -> arrived (record c ls) cs -> never_back pid tid ls ->
  exists res, finish m (map CGood cs) = FEntries res /\
  Forall2 (shows m) (filter (of_thread pid tid) (record c ls)) (filter (entry_of pid tid) res).
Proof.
  intros S D A B. destruct (interval_complete m cs (good_chunks c ls cs S A)) as (res & order & E & O & F).
  exists res. split; [exact E|]. rewrite <- (A pid tid).
  rewrite <- (order_filter order (received cs) (of_thread pid tid) O); [|rewrite A; now apply own_sorted].
  apply Forall2_filter_both; auto. intros a b. apply shows_thread.
Qed.

(** * Any two tracepoints of the computer *)
Section Two.
Variables (m : mapping) (c : Z) (ls : list action) (l1 : list action) (a : action) (l2 : list action) (b : action) (l3 : list action) (ra rb : rev_t).
Hypothesis D : dated c ls.
Hypothesis E : ls = l1 ++ a :: l2 ++ b :: l3.
Hypothesis Pa : is_point a = true.
Hypothesis Pb : is_point b = true.
Hypothesis Na : nth_error (record c ls) (points l1) = Some ra.
Hypothesis Nb : nth_error (record c ls) (points l1 + 1 + points l2) = Some rb.

Lemma two_times : exists x y, ra = event x a /\ rb = event y b /\ 0 <= x < 2 ^ 61 /\ 0 <= y < 2 ^ 61 /\ y - x = elapsed l2 + shifts l2.
Proof.
  pose proof (nth_record c l1 a (l2 ++ b :: l3) Pa) as Ea. rewrite <- E, Na in Ea. injection Ea as Ea.
  assert (E2 : ls = (l1 ++ a :: l2) ++ b :: l3) by (rewrite <- app_assoc; exact E).
  pose proof (nth_record c (l1 ++ a :: l2) b l3 Pb) as Eb. rewrite <- E2 in Eb.
  replace (points (l1 ++ a :: l2)) with (points l1 + 1 + points l2)%nat in Eb.
  2: { unfold points. rewrite filter_app, app_length. cbn [filter]. rewrite Pa. cbn [length]. lia. }
  rewrite Nb in Eb. injection Eb as Eb.
  exists (c + elapsed l1 + shifts l1), (c + elapsed (l1 ++ a :: l2) + shifts (l1 ++ a :: l2)).
  split; [exact Ea|]. split; [exact Eb|]. split; [exact (D l1 a _ E Pa)|]. split; [exact (D _ b _ E2 Pb)|].
  rewrite elapsed_app, shifts_app. destruct (point_still a l2 Pa) as [-> ->]. lia.
Qed.
Lemma two_shown ea eb : shows m ra ea -> shows m rb eb ->
  (Rabs (SF2R radix2 (en_ts eb) - SF2R radix2 (en_ts ea) - IZR (elapsed l2 + shifts l2) / 1000) < 1)%R.
Proof.
  destruct two_times as (x & y & -> & -> & Hx & Hy & <-). intros Sa Sb. rewrite (sh_time _ _ _ Sa), (sh_time _ _ _ Sb), !event_time by auto.
  pose proof (reading_N x Hx) as Rx. pose proof (reading_N y Hy) as Ry.
  pose proof (ts_accurate (reading x) ltac:(lia)) as Tx. pose proof (ts_accurate (reading y) ltac:(lia)) as Ty.
  rewrite Rx in Tx. rewrite Ry in Ty. rewrite minus_IZR. apply Rabs_def2 in Tx, Ty. apply Rabs_def1; lra.
Qed.
Lemma two_later : 1000 <= elapsed l2 + shifts l2 -> shown_before ra rb = true.
Proof.
  destruct two_times as (x & y & -> & -> & Hx & Hy & <-). intros H. unfold shown_before. rewrite !event_time by auto.
  pose proof (reading_N x Hx) as Rx. pose proof (reading_N y Hy) as Ry. apply ts_strict; lia.
Qed.
Lemma two_earlier : elapsed l2 + shifts l2 <= -1000 -> shown_before rb ra = true.
Proof.
  destruct two_times as (x & y & -> & -> & Hx & Hy & <-). intros H. unfold shown_before. rewrite !event_time by auto.
  pose proof (reading_N x Hx) as Rx. pose proof (reading_N y Hy) as Ry. apply ts_strict; lia.
Qed.
End Two.

Lemma sorted_middle {A} (R : A -> A -> Prop) l1 a l2 b l3 : StronglySorted R (l1 ++ a :: l2 ++ b :: l3) -> R a b.
Proof.
  induction l1 as [|x l1 IH]; cbn; intros S; inversion S as [|? ? S' F]; subst; auto.
  rewrite Forall_forall in F. apply F. apply in_or_app. right. now left.
Qed.
Lemma entries_sorted m : forall order res, Forall2 (shows m) order res -> StronglySorted (fun a b => shown_before b a = false) order ->
  StronglySorted (fun a b => ts_ltb b a = false) res.
Proof.
  induction 1 as [|r e order res S F IH]; intros H; [constructor|]. inversion H as [|? ? H' G]; subst. constructor; [auto|].
  apply Forall_forall. intros e' He'. rewrite Forall_forall in G.
  assert (exists r', In r' order /\ shows m r' e') as (r' & Hr' & S').
  { clear -F He'. induction F as [|r0 e0 o s S0 F IH]; [destruct He'|]. destruct He' as [<-|He']; [exists r0; split; [now left|auto]|].
    destruct (IH He') as (r' & H1 & H2). exists r'. split; [now right|auto]. }
  specialize (G r' Hr'). unfold ts_ltb. rewrite (sh_time _ _ _ S), (sh_time _ _ _ S'). exact G.
Qed.
Lemma shows_ltb m ra rb ea eb : shows m ra ea -> shows m rb eb -> ts_ltb ea eb = shown_before ra rb.
Proof. intros Sa Sb. unfold ts_ltb, shown_before. now rewrite (sh_time _ _ _ Sa), (sh_time _ _ _ Sb). Qed.

Theorem two_points m c ls cs : sound ls -> dated c ls -> arrived (record c ls) cs ->
  exists res, finish m (map CGood cs) = FEntries res /\
  forall l1 a l2 b l3 ra rb, ls = l1 ++ a :: l2 ++ b :: l3 -> is_point a = true -> is_point b = true ->
  nth_error (record c ls) (points l1) = Some ra -> nth_error (record c ls) (points l1 + 1 + points l2) = Some rb ->
  (exists ea, In ea res /\ shows m ra ea) /\ (exists eb, In eb res /\ shows m rb eb) /\
  (forall ea eb, shows m ra ea -> shows m rb eb ->
    (Rabs (SF2R radix2 (en_ts eb) - SF2R radix2 (en_ts ea) - IZR (elapsed l2 + shifts l2) / 1000) < 1)%R) /\
  (1000 <= elapsed l2 + shifts l2 -> forall r1 eb r2 ea r3, res = r1 ++ eb :: r2 ++ ea :: r3 -> shows m ra ea -> ~ shows m rb eb) /\
  (elapsed l2 + shifts l2 <= -1000 -> forall r1 ea r2 eb r3, res = r1 ++ ea :: r2 ++ eb :: r3 -> shows m ra ea -> ~ shows m rb eb).
Proof.
  intros S D A. destruct (interval_complete m cs (good_chunks c ls cs S A)) as (res & order & Ef & O & F).
  exists res. split; [exact Ef|]. intros l1 a l2 b l3 ra rb E Pa Pb Na Nb.
  assert (Hin : forall r, In r (record c ls) -> exists e, In e res /\ shows m r e).
  { intros r Hr. apply (arrived_in _ _ _ A) in Hr. destruct O as (Hp & _). apply (Permutation_in _ (Permutation_sym Hp)) in Hr. clear -F Hr.
    induction F as [|r0 e0 o s S0 F IH]; [destruct Hr|]. destruct Hr as [->|Hr]; [exists e0; split; [now left|auto]|].
    destruct (IH Hr) as (e & H1 & H2). exists e. split; [now right|auto]. }
  assert (SE : StronglySorted (fun a b => ts_ltb b a = false) res) by (destruct O as (_ & HS & _); exact (entries_sorted m _ _ F HS)).
  split; [apply Hin; exact (nth_error_In _ _ Na)|]. split; [apply Hin; exact (nth_error_In _ _ Nb)|].
  split; [intros ea eb; exact (two_shown m c ls l1 a l2 b l3 ra rb D E Pa Pb Na Nb ea eb)|].
  split; intros H r1 e1 r2 e2 r3 -> Sa Sb; apply sorted_middle in SE.
  - pose proof (two_later c ls l1 a l2 b l3 ra rb D E Pa Pb Na Nb H) as L. rewrite <- (shows_ltb m _ _ _ _ Sa Sb) in L. congruence.
  - pose proof (two_earlier c ls l1 a l2 b l3 ra rb D E Pa Pb Na Nb H) as L. rewrite <- (shows_ltb m _ _ _ _ Sb Sa) in L. congruence.
Qed.

(** * If the clock goes back between two tracepoints of the thread *)
Lemma own_nth pid tid c l1 a l2 : is_own pid tid a = true ->
  nth_error (filter (of_thread pid tid) (record c (l1 ++ a :: l2))) (own_points pid tid l1) = Some (event (c + elapsed l1 + shifts l1) a).
Proof.
  intros H. pose proof (own_point _ _ _ H) as P.
  assert (L : forall l d, length (filter (of_thread pid tid) (record d l)) = own_points pid tid l).
  { clear. unfold own_points. induction l as [|x l IH]; intros d; [reflexivity|]. destruct x; cbn [record filter is_own]; try apply IH.
    unfold of_thread at 1. cbn [r_pid r_tid fst snd]. destruct ((pid0 =? pid) && (tid0 =? tid)%N); cbn [length]; rewrite IH; reflexivity. }
  rewrite record_app, filter_app, nth_error_app2; rewrite L; [|lia]. rewrite Nat.sub_diag, record_point by auto. cbn [filter].
  rewrite own_event, H by auto. reflexivity.
Qed.
Lemma nth_middle {A} : forall (l : list A) i j x y, (i < j)%nat -> nth_error l i = Some x -> nth_error l j = Some y ->
  exists l1 l2 l3, l = l1 ++ x :: l2 ++ y :: l3.
Proof.
  intros l i j x y H Hi Hj. apply nth_error_split in Hi. destruct Hi as (l1 & l' & -> & <-).
  rewrite nth_error_app2 in Hj by lia. destruct (j - length l1)%nat as [|k] eqn:Ek; [lia|]. cbn in Hj. apply nth_error_split in Hj.
  destruct Hj as (l2 & l3 & -> & _). eauto.
Qed.
Lemma Forall2_nth {A B} (R : A -> B -> Prop) l1 l2 : Forall2 R l1 l2 -> forall i x, nth_error l1 i = Some x -> exists y, nth_error l2 i = Some y /\ R x y.
Proof. induction 1 as [|a b l1 l2 H F IH]; intros [|i] x; cbn; try discriminate; [intros [= ->]; eauto|apply IH]. Qed.

Theorem thread_broken m c ls cs pid tid l1 a l2 b l3 : sound ls -> dated c ls -> arrived (record c ls) cs ->
  ls = l1 ++ a :: l2 ++ b :: l3 -> is_own pid tid a = true -> is_own pid tid b = true -> elapsed l2 + shifts l2 <= -1000 ->
  exists res, finish m (map CGood cs) = FEntries res /\
  ~ Forall2 (shows m) (filter (of_thread pid tid) (record c ls)) (filter (entry_of pid tid) res).
Proof.
  intros S D A E Oa Ob H. destruct (interval_complete m cs (good_chunks c ls cs S A)) as (res & order & Ef & O & F).
  exists res. split; [exact Ef|]. intros G.
  assert (SE : StronglySorted (fun a b => ts_ltb b a = false) res) by (destruct O as (_ & HS & _); exact (entries_sorted m _ _ F HS)).
  apply (filter_sorted _ (entry_of pid tid)) in SE.
  pose proof (own_nth pid tid c l1 a (l2 ++ b :: l3) Oa) as Na. rewrite <- E in Na.
  assert (E2 : ls = (l1 ++ a :: l2) ++ b :: l3) by (rewrite <- app_assoc; exact E).
  pose proof (own_nth pid tid c (l1 ++ a :: l2) b l3 Ob) as Nb. rewrite <- E2 in Nb.
  destruct (Forall2_nth _ _ _ G _ _ Na) as (ea & Ia & Sa). destruct (Forall2_nth _ _ _ G _ _ Nb) as (eb & Ib & Sb).
  destruct (nth_middle (filter (entry_of pid tid) res) (own_points pid tid l1) (own_points pid tid (l1 ++ a :: l2)) ea eb) as (r1 & r2 & r3 & Er); auto.
  { unfold own_points. rewrite filter_app, app_length. cbn [filter]. rewrite Oa. cbn [length]. lia. }
  rewrite Er in SE. apply sorted_middle in SE. rewrite (shows_ltb m _ _ _ _ Sb Sa) in SE. unfold shown_before in SE.
  rewrite !event_time in SE by (eapply own_point; eauto).
  pose proof (D l1 a _ E (own_point _ _ _ Oa)) as Ra. pose proof (D _ b _ E2 (own_point _ _ _ Ob)) as Rb.
  rewrite elapsed_app, shifts_app in Rb, SE. destruct (point_still a l2 (own_point _ _ _ Oa)) as [X1 X2]. rewrite X1, X2 in Rb, SE.
  rewrite ts_strict in SE; [discriminate| |]; pose proof (reading_N _ Ra); pose proof (reading_N _ Rb); lia.
Qed.

(** * What a reader sees of the blocks of a thread *)
Lemma read_shown m : forall rs es, Forall2 (shows m) rs es -> forall st k,
  read st k es = shown st (recorded k (repeat true (length rs)) (map r_ev rs)).
Proof.
  induction 1 as [|r e rs es S F IH]; intros st k; [reflexivity|]. cbn [read length repeat map recorded shown].
  pose proof (sh_phase _ _ _ S) as P. unfold SCOPE_ENTRY, SCOPE_EXIT in *.
  destruct (te_type (r_ev r)) as [|t]; [inversion P|].
  inversion P as [H1 H2 H3|H1 H2 H3|H1 H2 H3|H1 H2 H3|H1 H2 H3|H1 H2 H3]; cbn; try (destruct st as [|b st]); rewrite ?IH; reflexivity.
Qed.
Lemma shown_types : forall es es', map te_type es = map te_type es' -> forall st k,
  shown st (recorded k (repeat true (length es)) es) = shown st (recorded k (repeat true (length es')) es').
Proof.
  induction es as [|e es IH]; intros [|e' es'] H st k; try discriminate; [reflexivity|]. cbn [map] in H. injection H as H1 H2.
  cbn [length repeat recorded shown]. rewrite H1. destruct (te_type e' =? SCOPE_ENTRY)%N; [now apply IH|].
  destruct (te_type e' =? SCOPE_EXIT)%N; [destruct st; [|f_equal]|]; now apply IH.
Qed.
Lemma own_types pid tid ls : forall c,
  map (fun r => (te_type (r_ev r), te_id (r_ev r))) (filter (of_thread pid tid) (record c ls)) =
  map (fun l => match l with Trace _ _ type id _ => (type, id) | _ => (0%N, 0%N) end) (filter (is_own pid tid) ls).
Proof.
  induction ls as [|x ls IH]; intros c; [reflexivity|]. destruct x; cbn [record filter is_own]; try apply IH.
  unfold of_thread at 1. cbn [r_pid r_tid fst snd]. destruct ((pid0 =? pid) && (tid0 =? tid)%N); cbn [map]; rewrite IH; reflexivity.
Qed.
Lemma find_own pid tid : forall ls x, (x < own_points pid tid ls)%nat -> exists l1 a l2, ls = l1 ++ a :: l2 /\ is_own pid tid a = true /\ own_points pid tid l1 = x.
Proof.
  unfold own_points. induction ls as [|y ls IH]; intros x H; [cbn in H; lia|]. cbn [filter] in H. destruct (is_own pid tid y) eqn:E.
  - destruct x as [|x]; [exists [], y, ls; auto|]. cbn [length] in H. destruct (IH x ltac:(lia)) as (l1 & a & l2 & -> & Ha & <-).
    exists (y :: l1), a, l2. cbn. rewrite E. auto.
  - destruct (IH x H) as (l1 & a & l2 & -> & Ha & <-). exists (y :: l1), a, l2. cbn. rewrite E. auto.
Qed.
Lemma own_points_app pid tid l1 l2 : own_points pid tid (l1 ++ l2) = (own_points pid tid l1 + own_points pid tid l2)%nat.
Proof. unfold own_points. now rewrite filter_app, app_length. Qed.
Lemma find_two pid tid ls x y : (x < y)%nat -> (y < own_points pid tid ls)%nat -> exists l1 a l2 b l3, ls = l1 ++ a :: l2 ++ b :: l3 /\
  is_own pid tid a = true /\ is_own pid tid b = true /\ own_points pid tid l1 = x /\ y = (x + 1 + own_points pid tid l2)%nat.
Proof.
  intros H Hy. destruct (find_own pid tid ls x ltac:(lia)) as (l1 & a & l' & -> & Ha & Hx).
  rewrite own_points_app in Hy. unfold own_points in Hy at 2. cbn [filter] in Hy. rewrite Ha in Hy. cbn [length] in Hy. fold (own_points pid tid l') in Hy.
  destruct (find_own pid tid l' (y - x - 1)%nat ltac:(lia)) as (l2 & b & l3 & -> & Hb & Hl). exists l1, a, l2, b, l3. repeat split; auto. lia.
Qed.
Lemma shape_begin k b l : Toggle_proofs.shape k b l -> forall x y, In (x, y) b -> exists e, nth_error l (x - k) = Some e /\ te_type e = SCOPE_ENTRY.
Proof.
  induction 1 as [k|k e N1 N2|k b1 l1 b2 l2 H1 IH1 H2 IH2|k b l e1 e2 T1 T2 H IH]; intros x y I; try contradiction.
  - apply in_app_or in I as [I|I].
    + destruct (IH1 _ _ I) as (e & He & Ht). exists e. split; [|exact Ht]. pose proof (Toggle_proofs.shape_range _ _ _ H1 _ _ I) as Q.
      rewrite nth_error_app1; [exact He|lia].
    + destruct (IH2 _ _ I) as (e & He & Ht). exists e. split; [|exact Ht]. pose proof (Toggle_proofs.shape_range _ _ _ H2 _ _ I) as Q.
      rewrite nth_error_app2 by lia. rewrite <- He. f_equal. lia.
  - destruct I as [I|I]; [injection I as <- <-; exists e1; rewrite Nat.sub_diag; auto|].
    destruct (IH _ _ I) as (e & He & Ht). exists e. split; [|exact Ht]. pose proof (Toggle_proofs.shape_range _ _ _ H _ _ I) as Q.
    replace (x - k)%nat with (S (x - S k)) by lia. cbn [nth_error]. rewrite nth_error_app1; [exact He|lia].
Qed.

Theorem thread_blocks m c ls cs pid tid p : sound ls -> dated c ls -> arrived (record c ls) cs -> never_back pid tid ls ->
  scoped_only p -> runs pid tid p ls ->
  exists res, finish m (map CGood cs) = FEntries res /\
  let own := filter (entry_of pid tid) res in
  length own = length (events_of p) /\
  (forall x y, In (x, y) (read [] 0 own) <-> In (x, y) (blocks p)) /\
  forall x y, In (x, y) (blocks p) ->
    exists l1 a l2 b l3 ea eb ex, ls = l1 ++ a :: l2 ++ b :: l3 /\ is_own pid tid a = true /\ is_own pid tid b = true /\
      own_points pid tid l1 = x /\ y = (x + 1 + own_points pid tid l2)%nat /\
      nth_error own x = Some ea /\ nth_error own y = Some eb /\ nth_error (events_of p) x = Some ex /\ en_name ea = scope_name m pid (te_id ex) /\
      (Rabs (SF2R radix2 (en_ts eb) - SF2R radix2 (en_ts ea) - IZR (elapsed l2 + shifts l2) / 1000) < 1)%R.
Proof.
  intros S D A B SO R. destruct (thread_order m c ls cs pid tid S D A B) as (res & Ef & F). exists res. split; [exact Ef|]. cbv zeta.
  set (rs := filter (of_thread pid tid) (record c ls)) in *. set (own := filter (entry_of pid tid) res) in *.
  assert (T : map (fun r => (te_type (r_ev r), te_id (r_ev r))) rs = map (fun e => (te_type e, te_id e)) (Toggle_spec.events_of p)).
  { unfold rs. rewrite own_types. exact R. }
  assert (T1 : map te_type (map r_ev rs) = map te_type (Toggle_spec.events_of p)).
  { apply (f_equal (map fst)) in T. rewrite !map_map in *. exact T. }
  assert (LR : length rs = length (Toggle_spec.events_of p)) by (apply (f_equal (@length _)) in T; now rewrite !map_length in T).
  split; [rewrite <- LR; symmetry; exact (Native_proofs.Forall2_length F)|].
  assert (W : forall x y, In (x, y) (read [] 0 own) <-> In (x, y) (blocks p)).
  { intros x y. rewrite (read_shown m rs own F). rewrite <- (map_length r_ev rs), (shown_types _ _ T1). now apply Toggle_proofs.whole_record. }
  split; [exact W|]. intros x y Hxy.
  pose proof (Toggle_proofs.shape_range _ _ _ (Toggle_proofs.program_shape p 0%nat SO) _ _ Hxy) as Q.
  change (Toggle_proofs.ev p) with (Toggle_spec.events_of p) in Q.
  assert (LO : own_points pid tid ls = length (Toggle_spec.events_of p)).
  { unfold own_points. apply (f_equal (@length _)) in R. now rewrite !map_length in R. }
  destruct (find_two pid tid ls x y ltac:(lia) ltac:(lia)) as (l1 & a & l2 & b & l3 & E & Oa & Ob & Hx & Hy).
  pose proof (own_nth pid tid c l1 a (l2 ++ b :: l3) Oa) as Na. rewrite <- E, Hx in Na. fold rs in Na.
  assert (E2 : ls = (l1 ++ a :: l2) ++ b :: l3) by (rewrite <- app_assoc; exact E).
  pose proof (own_nth pid tid c (l1 ++ a :: l2) b l3 Ob) as Nb. rewrite <- E2 in Nb. fold rs in Nb.
  replace (own_points pid tid (l1 ++ a :: l2)) with y in Nb.
  2: { rewrite own_points_app, Hx. unfold own_points at 1. cbn [filter]. rewrite Oa. cbn [length]. fold (own_points pid tid l2). lia. }
  destruct (Forall2_nth _ _ _ F _ _ Na) as (ea & Ia & Sa). destruct (Forall2_nth _ _ _ F _ _ Nb) as (eb & Ib & Sb).
  destruct (nth_error (Toggle_spec.events_of p) x) as [ex|] eqn:Ex; [|apply nth_error_None in Ex; lia].
  exists l1, a, l2, b, l3, ea, eb, ex. repeat (split; [assumption|]). split; [reflexivity|].
  pose proof (own_point _ _ _ Oa) as Pa. pose proof (own_point _ _ _ Ob) as Pb. split.
  - assert (Tx : nth_error (map (fun r => (te_type (r_ev r), te_id (r_ev r))) rs) x = Some (te_type ex, te_id ex)).
    { rewrite T. exact (map_nth_error (fun e => (te_type e, te_id e)) _ _ Ex). }
    rewrite (map_nth_error (fun r => (te_type (r_ev r), te_id (r_ev r))) _ _ Na) in Tx. injection Tx as Ty Ti.
    rewrite (sh_name _ _ _ Sa), Ty, Ti.
    assert (Hex : te_type ex = SCOPE_ENTRY).
    { destruct (shape_begin _ _ _ (Toggle_proofs.program_shape p 0%nat SO) _ _ Hxy) as (e & He & Ht).
      change (Toggle_proofs.ev p) with (Toggle_spec.events_of p) in He. rewrite Nat.sub_0_r, Ex in He. now injection He as ->. }
    rewrite Hex. cbn.
    replace (r_pid (event (c + elapsed l1 + shifts l1) a)) with pid; [reflexivity|].
    destruct a; try discriminate Pa. cbn in Oa |- *. apply andb_true_iff in Oa. destruct Oa as [Oa _]. apply Z.eqb_eq in Oa. auto.
  - apply (two_shown m c ls l1 a l2 b l3 (event (c + elapsed l1 + shifts l1) a) (event (c + elapsed (l1 ++ a :: l2) + shifts (l1 ++ a :: l2)) b)); auto.
    + pose proof (nth_record c l1 a (l2 ++ b :: l3) Pa) as N1. rewrite <- E in N1. exact N1.
    + pose proof (nth_record c (l1 ++ a :: l2) b l3 Pb) as N2. rewrite <- E2 in N2. rewrite <- N2. f_equal.
      unfold points. rewrite filter_app, app_length. cbn [filter]. rewrite Pa. cbn [length]. lia.
Qed.
