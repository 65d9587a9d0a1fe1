(** Proofs for C105: the order is the one in which the endpoints were called. *)
From Coq Require Import List Arith NArith Bool Lia.
Import ListNotations.
From Verif Require Import Protocol_model UnixSystem_model UnixSystem_spec UnixSystem_proofs Linear_model Linear_spec Linear_proofs.

Section Proofs.
Context {St Op : Type}.
Variable handle : bytes -> bytes -> St -> St * result.
Variable own : Op -> St -> St.
Notation lstep := (lstep handle own).
Notation lrun := (lrun handle own).
Notation legal := (legal handle own).
Notation entry := (entry Op).
Notation trace := (trace handle own).
Notation did := (did handle).

Lemma in_calls_of c i (l : list entry) m r : In (m, r) (calls_of c i l) <-> In (Call c m r) l /\ req_id m = i.
Proof.
  unfold calls_of. rewrite in_flat_map. split.
  - intros ([c' m' r'|o] & He & H); [|destruct H]. destruct (Nat.eqb_spec c' c) as [->|]; [|destruct H]. destruct (N.eqb_spec (req_id m') i) as [Ei|]; [|destruct H]. destruct H as [H|[]]. injection H as -> ->. auto.
  - intros (H & E). exists (Call c m r). split; [exact H|]. rewrite Nat.eqb_refl, E, N.eqb_refl. left. reflexivity.
Qed.
Lemma calls_of_app c i (a b : list entry) : calls_of c i (a ++ b) = calls_of c i a ++ calls_of c i b. Proof. apply flat_map_app. Qed.
Definition cc (c : nat) (k : list (nat * msg * option bytes)) : list (msg * option bytes) := map (fun e => (snd (fst e), snd e)) (filter (fun e => fst (fst e) =? c) k).
Lemma cc_app c a b : cc c (a ++ b) = cc c a ++ cc c b. Proof. unfold cc. now rewrite filter_app, map_app. Qed.
Lemma in_cc c k m a : In (m, a) (cc c k) <-> In (c, m, a) k.
Proof.
  unfold cc. rewrite in_map_iff. split.
  - intros ([[c' m'] a'] & E & H). cbn in E. injection E as -> ->. apply filter_In in H. destruct H as (H & Q). cbn in Q. apply Nat.eqb_eq in Q. subst. exact H.
  - intros H. exists (c, m, a). split; [reflexivity|]. apply filter_In. split; [exact H|]. apply Nat.eqb_refl.
Qed.
Lemma kocc_calls c i (t : list entry) : Forall quiet t -> kocc i (cc c (flat_map logged t)) = length (calls_of c i t).
Proof.
  induction 1 as [|e t Q F IH]; [reflexivity|]. cbn [flat_map]. rewrite cc_app, kocc_app, IH. change (e :: t) with ([e] ++ t). rewrite calls_of_app, app_length. f_equal.
  destruct e as [c' m [d| |]|o]; [| |destruct Q|reflexivity]; cbn [logged calls_of flat_map app]; unfold cc; cbn [filter fst]; (destruct (c' =? c); [|reflexivity]); cbn [map fst snd]; unfold kocc; cbn [filter fst]; destruct (req_id m =? i)%N; reflexivity.
Qed.
Lemma occ_in i l m g : In (Full m g) l -> req_id m = i -> 1 <= occ i l.
Proof.
  intros H E. unfold occ. induction l as [|x l IH]; [destruct H|]. cbn [filter]. destruct H as [->|H].
  - rewrite (proj2 (N.eqb_eq _ _) E). cbn. lia.
  - specialize (IH H). destruct x as [m' g'|m'|]; try exact IH. destruct (req_id m' =? i)%N; cbn; lia.
Qed.

Section Run.
Variables (st : St) (ls : list (llabel Op)) (s : lsys St).
Hypothesis run0 : lrun ls (lsys0 st) = Some s.
Let order : list entry := trace ls (lsys0 st).
Lemma reached0 c : reached (fair_to c) (l_net (lsys0 st)).
Proof. exists []. split; [constructor|reflexivity]. Qed.
Lemma all_calls : s_calls (l_net s) = flat_map logged order.
Proof. rewrite (calls_run _ _ _ _ _ run0). reflexivity. Qed.
Lemma ccalls_order c : ccalls c (l_net s) = cc c (flat_map logged order).
Proof. unfold ccalls. rewrite all_calls. reflexivity. Qed.
Lemma count_order c i : Forall (fair c) ls -> length (calls_of c i order) <= occ i (c_out (s_cl (l_net s) c)) + kocc i (ccalls c (l_net s)).
Proof.
  intros F. rewrite ccalls_order. destruct (quiet_shape _ _ _ _ _ run0) as [Q|(t & c' & m & E & Q)]; [fold order in Q|fold order in E].
  - rewrite (kocc_calls c i order Q). lia.
  - rewrite E, calls_of_app, app_length, flat_map_app. cbn [flat_map logged]. rewrite !app_nil_r, (kocc_calls c i t Q).
    assert (L : length (calls_of c i [Call (Op := Op) c' m Throws]) <= occ i (c_out (s_cl (l_net s) c))); [|lia].
    cbn [calls_of flat_map]. destruct (Nat.eqb_spec c' c) as [->|]; [|cbn; lia]. destruct (N.eqb_spec (req_id m) i) as [Ei|]; [|cbn; lia]. cbn [andb app length].
    destruct (thrown_there _ _ _ _ _ c m run0 F (reached0 c)) as (g & Hg); [fold order; rewrite E; apply in_or_app; right; left; reflexivity|]. exact (occ_in _ _ _ _ Hg Ei).
Qed.
Lemma known_order c m r : Forall (fair c) ls -> In (Call c m r) order -> known (s_cl (l_net s) c) m.
Proof.
  intros F H. pose proof (Inv2_reached c _ (net_reached _ _ _ _ _ _ run0 F)) as I2.
  assert (K : forall a, In (c, m, a) (logged (Call c m r : entry)) -> In (m, a) (ccalls c (l_net s))).
  { intros a Ha. rewrite ccalls_order. apply in_cc. apply in_flat_map. eauto. }
  destruct r as [d| |].
  - apply (o_call _ _ I2 m (Some d)). apply K. left. reflexivity.
  - apply (o_call _ _ I2 m None). apply K. left. reflexivity.
  - destruct (thrown_there _ _ _ _ _ c m run0 F (reached0 c) H) as (g & Hg). exact (o_out _ _ I2 m g Hg).
Qed.
Lemma once_order c i : Forall (fair c) ls -> i <> 0%N -> length (calls_of c i order) <= credit i (s_cl (l_net s) c).
Proof.
  intros F Hi. pose proof (count_order c i F). pose proof (o_cnt _ _ (Inv2_reached c _ (net_reached _ _ _ _ _ _ run0 F)) i Hi). lia.
Qed.
Lemma id_of c k q : Forall (fair c) ls -> request_of (l_net s) c k q -> r_id q = (N.of_nat k + 1)%N.
Proof. intros F H. exact (i_id _ (Inv1_reached _ _ c (net_reached _ _ _ _ _ _ run0 F)) k q H). Qed.
Lemma credit_one i x : credit i x <= 1. Proof. unfold credit. destruct (nth_error _ _) as [q|]; [destruct (sent q)|]; lia. Qed.

Lemma made_order c m r : Forall (fair c) ls -> In (Call c m r) order -> req_id m <> 0%N -> exists k q, request_of (l_net s) c k q /\ out q /\ msg_of q = m.
Proof.
  intros F H Hn. destruct (known_order c m r F H) as [E|(k & q & Hq & ->)]; [destruct (Hn E)|]. exists k, q. split; [exact Hq|]. split; [|reflexivity].
  pose proof (id_of c k q F Hq) as Hid. pose proof (once_order c (r_id q) F Hn) as O.
  assert (L : 1 <= length (calls_of c (r_id q) order)).
  { assert (Hin : In (msg_of q, r) (calls_of c (r_id q) order)) by (apply in_calls_of; auto). destruct (calls_of c (r_id q) order); [destruct Hin|cbn; lia]. }
  unfold credit in O. replace (N.to_nat (r_id q) - 1) with k in O by lia. rewrite Hq in O. unfold sent in O. unfold out. destruct (r_stage q); auto; lia.
Qed.
Lemma msg_by_id c k q m r : Forall (fair c) ls -> request_of (l_net s) c k q -> In (Call c m r) order -> req_id m = r_id q -> m = msg_of q.
Proof.
  intros F Hq H E. pose proof (id_of c k q F Hq) as Hid. destruct (made_order c m r F H) as (k' & q' & Hq' & _ & <-); [lia|].
  pose proof (id_of c k' q' F Hq') as Hid'. cbn in E. assert (k' = k) by lia. subst k'. unfold request_of in *. rewrite Hq in Hq'. injection Hq' as ->. reflexivity.
Qed.
Lemma once c k q : Forall (fair c) ls -> request_of (l_net s) c k q -> calls_of c (r_id q) order = [] \/ exists r, calls_of c (r_id q) order = [(msg_of q, r)].
Proof.
  intros F Hq. pose proof (id_of c k q F Hq) as Hid. pose proof (once_order c (r_id q) F ltac:(lia)) as O. pose proof (credit_one (r_id q) (s_cl (l_net s) c)) as O1.
  assert (M : forall m r, In (m, r) (calls_of c (r_id q) order) -> m = msg_of q) by (intros m r H; apply in_calls_of in H; destruct H; eapply msg_by_id; eauto).
  destruct (calls_of c (r_id q) order) as [|[m r] [|y z]]; [left; reflexivity| |cbn in O; lia]. right. exists r. rewrite (M m r (or_introl eq_refl)). reflexivity.
Qed.
Lemma value c k q d : Forall (fair c) ls -> request_of (l_net s) c k q -> r_val q = Value d -> calls_of c (r_id q) order = [(msg_of q, Answer d)].
Proof.
  intros F Hq V. pose proof (net_reached _ _ _ _ _ _ run0 F) as R.
  assert (Hin : In (msg_of q, Answer d) (calls_of c (r_id q) order)).
  { apply in_calls_of. split; [|reflexivity]. pose proof (response_of_request c _ k q d R Hq V) as E. assert (H : In (msg_of q, Some d) (calls_for c (r_id q) (l_net s))) by (rewrite E; left; reflexivity).
    rewrite ccalls_calls_for in H. apply filter_In in H. destruct H as (H & _). rewrite ccalls_order in H. apply in_cc in H. apply in_flat_map in H. destruct H as (e & He & H).
    destruct e as [c' m [d'| |]|o]; cbn [logged] in H; try (destruct H as [H|[]]); try discriminate H; try (destruct H; fail). injection H as -> -> ->. exact He. }
  destruct (once c k q F Hq) as [E|(r & E)]; rewrite E in Hin; [destruct Hin|]. destruct Hin as [Z|[]]. injection Z as ->. exact E.
Qed.
Lemma unmade c k : Forall (fair c) ls -> never_made s c k -> calls_of c (N.of_nat k + 1) order = [].
Proof.
  intros F N. destruct (calls_of c (N.of_nat k + 1) order) as [|[m r] z] eqn:E; [reflexivity|exfalso].
  assert (H : In (m, r) (calls_of c (N.of_nat k + 1) order)) by (rewrite E; left; reflexivity). apply in_calls_of in H. destruct H as (H & Ei).
  destruct (made_order c m r F H) as (k' & q' & Hq' & _ & <-); [lia|]. pose proof (id_of c k' q' F Hq') as Hid. cbn in Ei. assert (k' = k) by lia. subst k'.
  unfold request_of in Hq'. unfold never_made in N. apply nth_error_lt in Hq'. lia.
Qed.
End Run.

(** ** In the order sent *)
Definition no (i : N) (l : list item) : Prop := forall m g, In (Full m g) l -> req_id m <> i.
Definition ordered (i1 i2 : N) (l : list item) : Prop := forall x y m g, l = x ++ Full m g :: y -> req_id m = i2 -> no i1 y.
Lemma no_pushed c s p k q : Inv1 (s_cl s c) -> pushed c s p -> nth_error (c_reqs (s_cl s c)) k = Some q -> sent q = true -> no (N.of_nat k + 1) p.
Proof.
  intros I1 P Hq Sq m g Hin E. destruct (P m g Hin) as [Z|(r & q' & Hr & T & ->)]; [lia|]. pose proof (i_id _ I1 r q' Hr) as Hid. cbn in E. assert (r = k) by lia. subst r. rewrite Hq in Hr. injection Hr as <-.
  unfold sent in Sq. rewrite T in Sq. discriminate Sq.
Qed.
Lemma no_app i a b : no i a -> no i b -> no i (a ++ b).
Proof. intros A B m g H. apply in_app_or in H. destruct H; eauto. Qed.
Lemma ordered_app i1 i2 a b : ordered i1 i2 a -> no i1 b -> ordered i1 i2 (a ++ b).
Proof.
  intros O N x y m g E Ei. revert a O E. induction x as [|z x IH]; intros [|w a] O E; cbn in E.
  - subst b. intros m' g' H. apply (N m' g'). right. exact H.
  - injection E as -> <-. apply no_app; [exact (O [] a m g eq_refl Ei)|exact N].
  - subst b. intros m' g' H. apply (N m' g'). right. apply in_or_app. right. right. exact H.
  - injection E as -> E. apply (IH a); [|exact E]. intros x' y' m' g' -> Em. exact (O (z :: x') y' m' g' eq_refl Em).
Qed.
Lemma ordered_tl i1 i2 z a : ordered i1 i2 (z :: a) -> ordered i1 i2 a.
Proof. intros O x y m g -> E. exact (O (z :: x) y m g eq_refl E). Qed.
Lemma gone ls : forall s s' c k q, lrun ls s = Some s' -> Forall (fair c) ls -> reached (fair_to c) (l_net s) -> request_of (l_net s) c k q -> sent q = true -> no (N.of_nat k + 1) (c_out (s_cl (l_net s) c)) ->
  forall m r, In (Call c m r) (trace ls s) -> req_id m <> (N.of_nat k + 1)%N.
Proof.
  induction ls as [|l ls IH]; intros s s' c k q H F R Hq Sq N m r Hin; [destruct Hin|]. cbn [Linear_model.lrun] in H. cbn [Linear_proofs.trace] in Hin. destruct (lstep l s) as [s1|] eqn:E; [|discriminate H].
  inversion F as [|? ? F1 F2]; subst. pose proof (lstep_reached _ _ _ _ _ _ E F1 R) as R1. destruct (lstep_extends _ _ _ _ _ _ E F1 R k q Hq) as (q1 & Hq1 & _ & S1). specialize (S1 Sq).
  pose proof (Inv1_reached _ _ c R) as I1.
  assert (N1 : no (N.of_nat k + 1) (c_out (s_cl (l_net s1) c)) /\ forall m r, In (Call c m r) (did l s) -> req_id m <> (N.of_nat k + 1)%N).
  { destruct (way _ _ _ _ _ c E F1 R) as [(p & Ep & Pp & Nd)|[(i & Ei & Nd)|[(m' & g & r' & Em & Nd & _)|(m' & g & Ig & _ & Nd & Eo)]]].
    - split; [rewrite Ep; apply no_app; [exact N|eapply no_pushed; eauto]|]. intros m0 r0 Hi. destruct (Nd _ _ Hi).
    - split; [intros m0 g0 Hi; apply (N m0 g0); rewrite Ei; right; exact Hi|]. rewrite Nd. intros m0 r0 [].
    - split; [intros m0 g0 Hi; apply (N m0 g0); rewrite Em; right; exact Hi|]. rewrite Nd. intros m0 r0 [Z|[]]. injection Z as -> ->. apply (N m0 g). rewrite Em. left. reflexivity.
    - split; [rewrite Eo; exact N|]. rewrite Nd. intros m0 r0 [Z|[]]. injection Z as Zm _. subst m0. apply (N m' g). rewrite <- Eo. exact Ig. }
  destruct N1 as (N1 & D1). apply in_app_or in Hin. destruct Hin as [Hin|Hin]; [exact (D1 m r Hin)|]. exact (IH _ _ _ _ _ H F2 R1 Hq1 S1 N1 m r Hin).
Qed.
Lemma before_app (l a b : list entry) x y : before (b ++ a) x y -> before (l ++ b ++ a) x y.
Proof. intros (u & v & E & Hx & Hy). exists (l ++ u), v. rewrite E, app_assoc. split; [reflexivity|]. split; [apply in_or_app; right; exact Hx|exact Hy]. Qed.
Lemma before_later (l a : list entry) x y : before a x y -> before (l ++ a) x y.
Proof. intros H. exact (before_app l a [] x y H). Qed.
Lemma fifo ls : forall s s' c k q i2 m1 m2 r1 r2, lrun ls s = Some s' -> Forall (fair c) ls -> reached (fair_to c) (l_net s) -> request_of (l_net s) c k q -> sent q = true ->
  ordered (N.of_nat k + 1) i2 (c_out (s_cl (l_net s) c)) -> req_id m1 = (N.of_nat k + 1)%N -> req_id m2 = i2 -> i2 <> (N.of_nat k + 1)%N ->
  In (Call c m1 r1) (trace ls s) -> In (Call c m2 r2) (trace ls s) -> before (trace ls s) (Call c m1 r1) (Call c m2 r2).
Proof.
  induction ls as [|l ls IH]; intros s s' c k q i2 m1 m2 r1 r2 H F R Hq Sq O E1 E2 Ne H1 H2; [destruct H1|]. cbn [Linear_model.lrun] in H. cbn [Linear_proofs.trace] in H1, H2 |- *. destruct (lstep l s) as [s1|] eqn:E; [|discriminate H].
  inversion F as [|? ? F1 F2]; subst. pose proof (lstep_reached _ _ _ _ _ _ E F1 R) as R1. destruct (lstep_extends _ _ _ _ _ _ E F1 R k q Hq) as (q1 & Hq1 & _ & S1). specialize (S1 Sq).
  pose proof (Inv1_reached _ _ c R) as I1. apply in_app_or in H1. apply in_app_or in H2.
  destruct (way _ _ _ _ _ c E F1 R) as [(p & Ep & Pp & Nd)|[(i & Ei & Nd)|[(m' & g & r' & Em & Nd & _)|(m' & g & Ig & U & Nd & Eo)]]].
  - destruct H1 as [H1|H1]; [destruct (Nd _ _ H1)|]. destruct H2 as [H2|H2]; [destruct (Nd _ _ H2)|]. apply before_later.
    refine (IH _ _ _ _ _ _ _ _ _ _ H F2 R1 Hq1 S1 _ E1 eq_refl Ne H1 H2). rewrite Ep. apply ordered_app; [exact O|eapply no_pushed; eauto].
  - rewrite Nd in H1, H2 |- *. destruct H1 as [[]|H1]. destruct H2 as [[]|H2]. refine (IH _ _ _ _ _ _ _ _ _ _ H F2 R1 Hq1 S1 _ E1 eq_refl Ne H1 H2). rewrite Ei in O. exact (ordered_tl _ _ _ _ O).
  - rewrite Nd in H1, H2 |- *. rewrite Em in O. destruct H2 as [[Z|[]]|H2].
    + injection Z as -> ->. exfalso. destruct H1 as [[Z|[]]|H1]; [injection Z as -> _; exact (Ne E1)|].
      exact (gone _ _ _ _ _ _ H F2 R1 Hq1 S1 (O [] _ m2 g eq_refl eq_refl) _ _ H1 E1).
    + destruct H1 as [[Z|[]]|H1].
      * exists [Call c m' r'], (trace ls s1). split; [reflexivity|]. split; [left; exact Z|exact H2].
      * apply before_later. refine (IH _ _ _ _ _ _ _ _ _ _ H F2 R1 Hq1 S1 (ordered_tl _ _ _ _ O) E1 eq_refl Ne H1 H2).
  - rewrite Nd, (down_run _ _ _ _ _ U H) in H1, H2. exfalso. destruct H1 as [[Z|[]]|[]]. destruct H2 as [[Z2|[]]|[]]. rewrite Z in Z2. injection Z2 as -> _. exact (Ne E1).
Qed.

Theorem linear_run st ls s : lrun ls (lsys0 st) = Some s -> linear handle own st ls s (trace ls (lsys0 st)).
Proof.
  intros H. constructor.
  - exact (trace_legal _ _ _ _ _ H).
  - exact (trace_dids _ _ _ _ _ H).
  - intros c m r F Hin Hn. exact (made_order st ls s H c m r F Hin Hn).
  - intros c k q F Hq. exact (once st ls s H c k q F Hq).
  - intros c k q d F Hq V. exact (value st ls s H c k q d F Hq V).
  - intros ls1 ls2 s1 -> H1. exists (trace ls1 (lsys0 st)), (trace ls2 s1). pose proof H as H'. rewrite lrun_app, H1 in H.
    pose proof (trace_app handle own ls1 ls2 _ _ H1) as Ea. split; [exact Ea|]. split; [exact (trace_legal _ _ _ _ _ H1)|]. split; [exact (trace_dids _ _ _ _ _ H1)|]. split; [exact (trace_dids _ _ _ _ _ H)|]. split.
    + intros c k q d F Hq V. pose proof F as F'. apply Forall_app in F'. destruct F' as (F1 & F2). pose proof (value st ls1 s1 H1 c k q d F1 Hq V) as E1. split; [exact E1|].
      destruct (net_run _ _ _ _ _ H) as (us & Ru & Fu). destruct (later_run _ us _ _ c k q (net_reached _ _ _ _ _ _ H1 F1) (Fu c F2) Ru Hq) as (q' & Hq' & L1 & _ & L2 & _).
      assert (V' : r_val q' = Value d) by (rewrite L2; [exact V|rewrite V; discriminate]). pose proof (value st _ s H' c k q' d F Hq' V') as E. rewrite Ea, calls_of_app in E.
      assert (Ei : r_id q' = r_id q) by exact (f_equal req_id L1). rewrite Ei, E1 in E. exact (f_equal (@tl _) E).
    + intros c k q F Nm Hq. pose proof (id_of st _ s H' c k q F Hq) as Hid. rewrite Hid. apply Forall_app in F. apply (unmade st ls1 s1 H1 c k (proj1 F) Nm).
  - intros ls1 ls2 s1 c k1 q1 k2 q2 r1 r2 -> H1 F Hq1 Ou Nm Hq2 In1 In2. pose proof H as H'. rewrite lrun_app, H1 in H. pose proof F as F'. apply Forall_app in F'. destruct F' as (F1 & F2).
    pose proof (trace_app handle own ls1 ls2 _ _ H1) as Ea. pose proof (net_reached _ _ _ _ _ _ H1 F1) as R1.
    pose proof (id_of st ls1 s1 H1 c k1 q1 F1 Hq1) as Id1. pose proof (id_of st _ s H' c k2 q2 F Hq2) as Id2. pose proof (unmade st ls1 s1 H1 c k2 F1 Nm) as Un.
    assert (Lt : k1 < k2) by (unfold never_made in Nm; apply nth_error_lt in Hq1; lia). rewrite Ea in In1, In2 |- *. apply in_app_or in In2. destruct In2 as [In2|In2].
    { exfalso. assert (X : In (msg_of q2, r2) (calls_of c (N.of_nat k2 + 1) (trace ls1 (lsys0 st)))) by (apply in_calls_of; split; [exact In2|exact Id2]). rewrite Un in X. destruct X. }
    apply in_app_or in In1. destruct In1 as [In1|In1].
    { exists (trace ls1 (lsys0 st)), (trace ls2 s1). auto. }
    apply before_later. refine (fifo ls2 s1 s c k1 q1 (N.of_nat k2 + 1) (msg_of q1) (msg_of q2) _ _ H F2 R1 Hq1 _ _ Id1 Id2 _ In1 In2); [unfold sent; destruct Ou as [->| ->]; reflexivity| |lia].
    intros x y m g Eo Em. exfalso. destruct (o_out _ _ (Inv2_reached c _ R1) m g) as [Z|(k & q & Hk & ->)]; [rewrite Eo; apply in_or_app; right; left; reflexivity|lia|].
    pose proof (i_id _ (Inv1_reached _ _ c R1) k q Hk) as Hid. cbn in Em. assert (k = k2) by lia. subst k. unfold never_made in Nm. apply nth_error_lt in Hk. lia.
Qed.
End Proofs.
