From Coq Require Import List Arith NArith Bool Lia.
From Verif Require Import OMap_model OMap_proofs UnixSystem_model UnixSystem_proofs Names_proofs Tracker_model Tracker_spec.
Import ListNotations.
Local Open Scope nat_scope.

(** * Counting the entries of a list that are as wanted *)
Definition cnt {A} (f : A -> bool) (l : list A) : nat := length (filter f l).
Definition one (b : bool) : nat := if b then 1 else 0.
Arguments cnt : simpl never.

Lemma cnt_set {A} (f : A -> bool) c' : forall l t c, nth_error l t = Some c -> cnt f (set_nth t c' l) + one (f c) = cnt f l + one (f c').
Proof.
  induction l as [|a l IH]; intros [|t] c E; cbn in E; try discriminate.
  - injection E as ->. unfold cnt, one. cbn. destruct (f c), (f c'); cbn; lia.
  - specialize (IH _ _ E). unfold cnt in *. cbn. destruct (f a); cbn; lia.
Qed.
Lemma cnt_pos {A} (f : A -> bool) l t c : nth_error l t = Some c -> f c = true -> 0 < cnt f l.
Proof.
  intros E F. unfold cnt. apply nth_error_In in E. assert (H : In c (filter f l)) by (apply filter_In; auto). destruct (filter f l); [destruct H|cbn; lia].
Qed.
Lemma cnt_one {A} (f : A -> bool) : forall l t u c d, cnt f l <= 1 -> nth_error l t = Some c -> nth_error l u = Some d -> f c = true -> f d = true -> t = u.
Proof.
  induction l as [|a l IH]; intros [|t] [|u] c d H E E' F F'; cbn in E, E'; try discriminate; auto; unfold cnt in *; cbn in H.
  - injection E as ->. rewrite F in H. cbn in H. pose proof (cnt_pos f l _ _ E' F'). unfold cnt in *. lia.
  - injection E' as ->. rewrite F' in H. cbn in H. pose proof (cnt_pos f l _ _ E F). unfold cnt in *. lia.
  - f_equal. eapply IH; eauto. destruct (f a); cbn in H; lia.
Qed.
Lemma cnt_repeat {A} (f : A -> bool) a n : f a = false -> cnt f (repeat a n) = 0.
Proof. intros F. unfold cnt. induction n; cbn; auto. now rewrite F. Qed.

Section Tracker.
Context {V : Type}.
Variable blank : V.
Implicit Types (l : list (done (V := V))) (h : list (event V)) (s : state V) (o : op V).
Notation step := (step blank). Notation run := (run blank). Notation body := (body blank).
Notation tab := (list (N * V)).

(** * The operations one after the other *)
Definition apply o (m : tab) : tab :=
  match o with
  | Insert k v => minsert N.ltb k v m
  | Erase k => merase N.ltb k m
  | Clear => []
  | _ => m
  end.
Definition after l : tab := fold_left (fun m d => apply (what d) m) l [].

Lemma after_snoc l d : after (l ++ [d]) = apply (what d) (after l).
Proof. unfold after. now rewrite fold_left_app. Qed.
Lemma current_snoc k (os : list (op V)) o : current k (os ++ [o]) = write k o (current k os).
Proof. unfold current. now rewrite fold_left_app. Qed.

Lemma after_ordered l : ordered N.ltb (after l).
Proof.
  induction l as [|d l IH] using rev_ind; [apply ordered_nil|]. rewrite after_snoc.
  destruct (what d); cbn; auto using (ordered_insert N.ltb N_order), (ordered_erase N.ltb N_order). apply ordered_nil.
Qed.

Lemma after_current l k : find k (after l) = current k (map what l).
Proof.
  induction l as [|d l IH] using rev_ind; [reflexivity|]. rewrite after_snoc, map_app. cbn [map]. rewrite current_snoc, <- IH.
  unfold find. destruct (what d); cbn [apply write]; auto.
  - destruct (N.eqb_spec k0 k) as [->|Hk]; [apply (find_insert_same N.ltb N_order)|apply (find_insert_other N.ltb N_order); auto using after_ordered].
  - destruct (N.eqb_spec k0 k) as [->|Hk]; [apply (find_erase_same N.ltb N_order)|apply (find_erase_other N.ltb N_order)]; auto using after_ordered.
Qed.

(** * The invariant *)
Definition excl (c : pc V) : bool := match c with Inside _ o _ => exclusive o | _ => false end.
Definition shar (c : pc V) : bool := match c with Inside _ o _ => negb (exclusive o) | _ => false end.

(** How the table [T] stands to the table [A] of the operations finished so far while an operation is inside. *)
Definition ok o (p : progress V) (A T : tab) : Prop :=
  match o, p with
  | Insert _ _, Start => T = A
  | Insert k v, Made => T = match find k A with Some _ => A | None => minsert N.ltb k blank A end
  | Insert k v, Done r => T = minsert N.ltb k v A /\ r = Unit
  | Erase k, Start => T = A
  | Erase k, Done r => T = merase N.ltb k A /\ r = Unit
  | Clear, Start => True
  | Clear, Done r => T = [] /\ r = Unit
  | GetMap, Start => True
  | GetMap, Copied c => c = firstn (length c) A
  | GetMap, Done r => r = Table A
  | GetValue k, Start => True
  | GetValue k, Done r => r = match find k A with Some v => Value v | None => Threw end
  | Exists k, Start => True
  | Exists k, Done r => r = Answer (match find k A with Some _ => true | None => false end)
  | _, _ => False
  end.

Record inv (s : state V) (h : list (event V)) (l : list (done (V := V))) : Prop := {
  v_shared : cnt shar (s_threads s) = s_shared s;
  v_excl : cnt excl (s_threads s) = one (s_unique s);
  v_alone : s_unique s = true -> s_shared s = 0;
  v_table : s_unique s = false -> s_table s = after l;
  v_ok : forall t i o p, nth_error (s_threads s) t = Some (Inside i o p) -> ok o p (after l) (s_table s);
  v_seq : sequential l;
  v_nodup : NoDup (map who l);
  v_calls : forall i t o, In (Called i t o) h -> i < s_calls s;
  v_called : forall i t t' o o', In (Called i t o) h -> In (Called i t' o') h -> t = t' /\ o = o';
  v_linned : forall i o r, In (i, o, r) l -> exists t, In (Called i t o) h;
  v_ret : forall i t r, In (Returned i t r) h -> exists o, In (i, o, r) l /\ In (Called i t o) h;
  v_rt : forall i j t u r o, before (Returned i t r) (Called j u o) h -> In j (map who l) -> before i j (map who l);
  v_pend : forall t i o, nth_error (s_threads s) t = Some (Waiting i o) \/ (exists p, nth_error (s_threads s) t = Some (Inside i o p)) ->
             In (Called i t o) h /\ ~ In i (map who l);
  v_leave : forall t i o r, nth_error (s_threads s) t = Some (Leaving i o r) -> In (Called i t o) h /\ In (i, o, r) l
}.

Lemma inv_start n : inv (start n) [] [].
Proof.
  constructor; cbn; auto; try contradiction.
  - apply cnt_repeat. reflexivity.
  - apply cnt_repeat. reflexivity.
  - intros t i o p E. apply nth_error_In, repeat_spec in E. discriminate.
  - intros a d b E. now destruct a.
  - constructor.
  - intros t i o [E|(p & E)]; apply nth_error_In, repeat_spec in E; discriminate.
  - intros t i o r E. apply nth_error_In, repeat_spec in E. discriminate.
Qed.

(** The end of an operation follows the table of the finished ones. *)
Lemma ok_done o r (A T : tab) l : A = after l -> (exclusive o = false -> T = A) -> ok o (Done r) A T -> says (map what l) o r /\ T = apply o A.
Proof.
  intros -> HT H. destruct o; cbn in *; try match type of H with _ /\ _ => destruct H as [-> ->] end; split; auto.
  - subst r. split; [apply (ordered_NoDup N.ltb N_order), after_ordered|]. intros k v. rewrite <- after_current. unfold find.
    split; [apply (in_find N.ltb N_order), after_ordered|apply (find_in N.ltb N_order)].
  - subst r. pose proof (after_current l k). destruct (find k (after l)); congruence.
  - subst r. pose proof (after_current l k) as E. destruct (find k (after l)); split; intros; congruence.
Qed.

Lemma sequential_snoc l d : sequential l -> says (map what l) (what d) (gave d) -> sequential (l ++ [d]).
Proof.
  intros H Hs a e b E. destruct b as [|b0 b] using rev_ind.
  - apply app_inj_tail in E as [-> ->]. auto.
  - rewrite app_comm_cons, app_assoc in E. apply app_inj_tail in E as [E _]. eapply H; eauto.
Qed.

Lemma before_snoc {A} (x y : A) (l : list A) : before x y l -> forall z, before x y (l ++ [z]).
Proof. intros (a & b & c & ->) z. exists a, b, (c ++ [z]). repeat (rewrite <- !app_assoc; cbn [app]). reflexivity. Qed.
Lemma before_last {A} (x y : A) (l : list A) : In x l -> before x y (l ++ [y]).
Proof. intros H. apply in_split in H as (a & b & ->). exists a, b, []. rewrite <- !app_assoc. reflexivity. Qed.
Lemma before_snoc_inv {A} (x y : A) (l : list A) z : before x y (l ++ [z]) -> before x y l \/ (y = z /\ In x l).
Proof.
  intros (a & b & c & E). destruct c as [|c0 c] using rev_ind.
  - right. replace (a ++ x :: b ++ [y]) with ((a ++ x :: b) ++ [y]) in E by (now rewrite <- app_assoc).
    apply app_inj_tail in E as [-> ->]. split; auto. apply in_or_app. right. now left.
  - left. exists a, b, c. clear IHc. replace (a ++ x :: b ++ y :: c ++ [c0]) with ((a ++ x :: b ++ y :: c) ++ [c0]) in E
      by (repeat (rewrite <- !app_assoc; cbn [app]); reflexivity). now apply app_inj_tail in E as [-> _].
Qed.
Lemma before_in {A} (x y : A) (l : list A) : before x y l -> In x l /\ In y l.
Proof.
  intros (a & b & c & ->). split; apply in_or_app; right; [now left|right; apply in_or_app; right; now left].
Qed.

(** A step that moves only the thread [t], within the same call. *)
Lemma body_ok o p p' (A T T' : tab) : (exclusive o = false -> T = A) -> ok o p A T -> body o p T = Some (p', T') ->
  ok o p' A T' /\ (exclusive o = false -> T' = T).
Proof.
  intros HA Hok Hb. destruct o, p; cbn in *; try discriminate; try contradiction.
  - injection Hb as <- <-. subst. split; [reflexivity|discriminate].
  - injection Hb as <- <-. subst. split; [|discriminate]. split; auto. destruct (find k A) eqn:E; auto.
    rename A into A0. clear - E. unfold find in E. revert E. induction A0 as [|[k' v'] A IH]; cbn; intros E.
    + rewrite N.ltb_irrefl. reflexivity.
    + destruct (N.ltb k k') eqn:E1.
      * cbn. rewrite N.ltb_irrefl. reflexivity.
      * destruct (N.ltb k' k) eqn:E2; [|discriminate]. cbn. rewrite E1, E2. f_equal. auto.
  - injection Hb as <- <-. split; auto.
  - specialize (HA eq_refl). subst T. destruct (nth_error A (length m)) eqn:E; injection Hb as <- <-; split; auto.
    + rewrite app_length. cbn. replace (length m + 1) with (S (length m)) by lia.
      rewrite Hok at 1. clear - E. revert E. generalize (length m) as n. intros n. revert A.
      induction n; intros [|a A] E; cbn in *; try discriminate; [now injection E as ->|]. f_equal. auto.
    + apply nth_error_None in E. rewrite Hok. rewrite firstn_all2 by lia. reflexivity.
  - specialize (HA eq_refl). subst T. injection Hb as <- <-. split; auto.
  - specialize (HA eq_refl). subst T. injection Hb as <- <-. split; auto.
  - injection Hb as <- <-. subst. split; [auto|discriminate].
  - destruct T; injection Hb as <- <-; split; auto; discriminate.
Qed.

Lemma threads_case s t c k (x : pc V) : t < length (s_threads s) -> nth_error (put s t c) k = Some x ->
  (k = t /\ x = c) \/ (k <> t /\ nth_error (s_threads s) k = Some x).
Proof. apply set_nth_case. Qed.

(** The order of the calls grows when a lock is released. *)
Definition grown (x : label V) s : list (done (V := V)) :=
  match x with
  | Release t => match nth_error (s_threads s) t with Some (Inside i o (Done r)) => [(i, o, r)] | _ => [] end
  | _ => []
  end.

Lemma inv_step x s h l s' e : inv s h l -> step x s = Some (s', e) -> inv s' (h ++ e) (l ++ grown x s).
Proof.
  intros I Hs. destruct x as [t o|t|t|t|t]; cbn [Tracker_model.step grown] in *.
  - (* a call *)
    destruct (nth_error (s_threads s) t) as [[]|] eqn:E; try discriminate. injection Hs as <- <-. rewrite app_nil_r.
    pose proof (nth_error_lt _ _ _ E) as Ht.
    pose proof (cnt_set shar (Waiting (s_calls s) o) _ _ _ E) as C1. pose proof (cnt_set excl (Waiting (s_calls s) o) _ _ _ E) as C2.
    cbn in C1, C2. destruct I. constructor; cbn; unfold put in *; auto; try lia.
    + intros t0 i o0 p H. destruct (set_nth_case _ _ _ _ _ Ht H) as [[-> H0]|[Hn H0]]; [discriminate|eauto].
    + intros i t0 o0 Hi. apply in_app_or in Hi as [Hi|[Hi|[]]]; [apply v_calls0 in Hi; lia|injection Hi as <- _ _; lia].
    + intros i t1 t2 o1 o2 Hi Hj. apply in_app_or in Hi as [Hi|[Hi|[]]]; apply in_app_or in Hj as [Hj|[Hj|[]]]; eauto.
      * injection Hj as <- _ _. apply v_calls0 in Hi. lia.
      * injection Hi as <- _ _. apply v_calls0 in Hj. lia.
      * injection Hi as _ <- <-. injection Hj as _ <- <-. auto.
    + intros i o0 r Hi. destruct (v_linned0 _ _ _ Hi) as (t0 & H0). exists t0. apply in_or_app. auto.
    + intros i t0 r Hi. apply in_app_or in Hi as [Hi|[Hi|[]]]; [|discriminate]. destruct (v_ret0 _ _ _ Hi) as (o0 & H1 & H2). exists o0. split; auto. apply in_or_app. auto.
    + intros i j t0 u r o0 Hb Hj. apply before_snoc_inv in Hb as [Hb|[Hb _]]; [eauto|]. injection Hb as -> _ _. exfalso.
      apply in_map_iff in Hj as (((j & oj) & rj) & Ej & Hj). cbn in Ej. unfold who in Ej. cbn in Ej. subst j. destruct (v_linned0 _ _ _ Hj) as (tj & Hc). apply v_calls0 in Hc. lia.
    + intros t0 i o0 H. assert (Hx : (t0 = t /\ i = s_calls s /\ o0 = o) \/
          (t0 <> t /\ (nth_error (s_threads s) t0 = Some (Waiting i o0) \/ exists p, nth_error (s_threads s) t0 = Some (Inside i o0 p)))).
      { destruct H as [H|(p & H)]; destruct (set_nth_case _ _ _ _ _ Ht H) as [[-> H0]|[Hn H0]].
        - injection H0 as -> ->. auto. - right. split; auto. - discriminate. - right. split; eauto. }
      destruct Hx as [(-> & -> & ->)|(Hn & Hx)].
      * split; [apply in_or_app; right; now left|]. intros Hi. apply in_map_iff in Hi as (((j & oj) & rj) & Ej & Hj). unfold who in Ej. cbn in Ej. subst j.
        destruct (v_linned0 _ _ _ Hj) as (tj & Hc). apply v_calls0 in Hc. lia.
      * destruct (v_pend0 _ _ _ Hx) as [H1 H2]. split; auto. apply in_or_app. auto.
    + intros t0 i o0 r H. destruct (set_nth_case _ _ _ _ _ Ht H) as [[-> H0]|[Hn H0]]; [discriminate|]. destruct (v_leave0 _ _ _ _ H0) as [H1 H2]. split; auto. apply in_or_app. auto.
  - (* the lock is taken *)
    destruct (nth_error (s_threads s) t) as [[]|] eqn:E; try discriminate. destruct (s_unique s) eqn:U; [discriminate|].
    pose proof (nth_error_lt _ _ _ E) as Ht. pose proof (cnt_set shar (Inside i o Start) _ _ _ E) as C1. pose proof (cnt_set excl (Inside i o Start) _ _ _ E) as C2. cbn in C1, C2.
    assert (R : forall m u n, (if exclusive o then u = true /\ n = 0 /\ s_shared s = 0 else u = false /\ n = S (s_shared s)) -> m = s_table s ->
       inv {| s_table := m; s_unique := u; s_shared := n; s_threads := put s t (Inside i o Start); s_calls := s_calls s |} (h ++ []) (l ++ [])).
    { intros m u n Hun ->. rewrite !app_nil_r. destruct I. rewrite U in *. specialize (v_table0 eq_refl). constructor; cbn; unfold put; auto.
      - destruct (exclusive o); cbn in C1; destruct Hun; lia.
      - destruct (exclusive o); cbn in C2, v_excl0; destruct Hun; subst; cbn; lia.
      - destruct (exclusive o); destruct Hun; [intros _; lia|congruence].
      - intros t0 i0 o0 p H. destruct (set_nth_case _ _ _ _ _ Ht H) as [[-> H0]|[Hn H0]]; [|eauto]. injection H0 as -> -> ->. rewrite v_table0. destruct o; cbn; auto.
      - intros t0 i0 o0 H. apply v_pend0. destruct H as [H|(p & H)]; destruct (set_nth_case _ _ _ _ _ Ht H) as [[-> H0]|[Hn H0]]; eauto; [discriminate|].
        injection H0 as -> -> ->. auto.
      - intros t0 i0 o0 r H. destruct (set_nth_case _ _ _ _ _ Ht H) as [[-> H0]|[Hn H0]]; [discriminate|eauto]. }
    destruct (exclusive o) eqn:X.
    + destruct (s_shared s) eqn:SH; [|discriminate]. injection Hs as <- <-. apply R; auto.
    + injection Hs as <- <-. apply R; auto.
  - (* a step of the body *)
    destruct (nth_error (s_threads s) t) as [[| |i o p|]|] eqn:E; try discriminate. destruct (body o p (s_table s)) as [[p' m]|] eqn:B; [|discriminate]. injection Hs as <- <-. rewrite !app_nil_r.
    pose proof (nth_error_lt _ _ _ E) as Ht. pose proof (cnt_set shar (Inside i o p') _ _ _ E) as C1. pose proof (cnt_set excl (Inside i o p') _ _ _ E) as C2. cbn in C1, C2.
    destruct I. assert (T1 : exclusive o = false -> s_unique s = false).
    { intros X. destruct (s_unique s) eqn:U; auto. specialize (v_alone0 eq_refl). assert (0 < cnt shar (s_threads s)) by (eapply cnt_pos; [exact E|cbn; now rewrite X]). lia. }
    assert (T2 : exclusive o = true -> s_unique s = true).
    { intros X. destruct (s_unique s) eqn:U; auto. cbn in v_excl0. assert (0 < cnt excl (s_threads s)) by (eapply cnt_pos; [exact E|cbn; now rewrite X]). lia. }
    destruct (body_ok o p p' (after l) (s_table s) m (fun X => v_table0 (T1 X)) (v_ok0 _ _ _ _ E) B) as [K1 K2].
    constructor; cbn; unfold put; auto; try lia.
    + intros U. destruct (exclusive o) eqn:X; [rewrite T2 in U; [discriminate|auto]|]. rewrite K2; auto.
    + intros t0 i0 o0 q H. destruct (set_nth_case _ _ _ _ _ Ht H) as [[-> H0]|[Hn H0]]; [injection H0 as -> -> ->; auto|].
      destruct (exclusive o) eqn:X; [|rewrite K2; eauto]. exfalso. specialize (T2 eq_refl). destruct (exclusive o0) eqn:X0.
      * apply Hn. eapply (cnt_one excl (s_threads s)); eauto. rewrite v_excl0, T2. cbn. lia.
      * rewrite (v_alone0 T2) in v_shared0. assert (0 < cnt shar (s_threads s)) by (eapply cnt_pos; [exact H0|cbn; now rewrite X0]). lia.
    + intros t0 i0 o0 H. apply v_pend0. destruct H as [H|(q & H)]; destruct (set_nth_case _ _ _ _ _ Ht H) as [[-> H0]|[Hn H0]]; eauto; [discriminate|].
      injection H0 as -> -> ->. eauto.
    + intros t0 i0 o0 r H. destruct (set_nth_case _ _ _ _ _ Ht H) as [[-> H0]|[Hn H0]]; [discriminate|eauto].
  - (* the lock is released *)
    destruct (nth_error (s_threads s) t) as [[| |i o [| | |r]|]|] eqn:E; try discriminate. injection Hs as <- <-. rewrite !app_nil_r.
    pose proof (nth_error_lt _ _ _ E) as Ht. pose proof (cnt_set shar (Leaving i o r) _ _ _ E) as C1. pose proof (cnt_set excl (Leaving i o r) _ _ _ E) as C2. cbn in C1, C2.
    destruct I. assert (T1 : exclusive o = false -> s_unique s = false).
    { intros X. destruct (s_unique s) eqn:U; auto. specialize (v_alone0 eq_refl). assert (0 < cnt shar (s_threads s)) by (eapply cnt_pos; [exact E|cbn; now rewrite X]). lia. }
    assert (T2 : exclusive o = true -> s_unique s = true).
    { intros X. destruct (s_unique s) eqn:U; auto. cbn in v_excl0. assert (0 < cnt excl (s_threads s)) by (eapply cnt_pos; [exact E|cbn; now rewrite X]). lia. }
    destruct (ok_done o r (after l) (s_table s) l eq_refl (fun X => v_table0 (T1 X)) (v_ok0 _ _ _ _ E)) as [K1 K2].
    destruct (v_pend0 t i o (or_intror (ex_intro _ _ E))) as [P1 P2].
    constructor; cbn; unfold put; auto.
    + destruct (exclusive o); cbn in C1; lia.
    + destruct (exclusive o); cbn in C2; [rewrite T2 in v_excl0 by auto; cbn in v_excl0|]; cbn; lia.
    + destruct (exclusive o) eqn:X; [discriminate|]. rewrite T1 by auto. discriminate.
    + intros _. rewrite after_snoc. cbn. auto.
    + intros t0 i0 o0 q H. destruct (set_nth_case _ _ _ _ _ Ht H) as [[-> H0]|[Hn H0]]; [discriminate|].
      rewrite after_snoc. unfold what. cbn [fst snd]. destruct (exclusive o) eqn:X.
      * exfalso. specialize (T2 eq_refl). destruct (exclusive o0) eqn:X0.
        -- apply Hn. eapply (cnt_one excl (s_threads s)); eauto. rewrite v_excl0, T2. cbn. lia.
        -- rewrite (v_alone0 T2) in v_shared0. assert (0 < cnt shar (s_threads s)) by (eapply cnt_pos; [exact H0|cbn; now rewrite X0]). lia.
      * replace (apply o (after l)) with (after l) by (destruct o; try discriminate; reflexivity). eauto.
    + apply sequential_snoc; auto.
    + rewrite map_app. apply NoDup_snoc; auto.
    + intros i0 o0 r0 H. apply in_app_or in H as [H|[H|[]]]; [eauto|]. injection H as <- <- <-. eauto.
    + intros i0 t0 r0 H. destruct (v_ret0 _ _ _ H) as (o0 & H1 & H2). exists o0. split; auto. apply in_or_app. auto.
    + intros i0 j t0 u r0 o0 Hb Hj. rewrite map_app in *. cbn [map] in *. apply in_app_or in Hj as [Hj|[Hj|[]]].
      * apply before_snoc. eapply v_rt0; eauto.
      * unfold who in Hj at 1. cbn in Hj. subst j. unfold who at 2. cbn [fst]. apply before_last. destruct (before_in _ _ _ Hb) as [Hr _].
        destruct (v_ret0 _ _ _ Hr) as (o1 & H1 & _). apply in_map_iff. exists (i0, o1, r0). auto.
    + intros t0 i0 o0 H. assert (Hx : t0 <> t /\ (nth_error (s_threads s) t0 = Some (Waiting i0 o0) \/ exists p, nth_error (s_threads s) t0 = Some (Inside i0 o0 p))).
      { destruct H as [H|(q & H)]; destruct (set_nth_case _ _ _ _ _ Ht H) as [[-> H0]|[Hn H0]]; try discriminate; split; eauto. }
      destruct Hx as [Hn Hx]. destruct (v_pend0 _ _ _ Hx) as [H1 H2]. split; auto. rewrite map_app. intros Hi. apply in_app_or in Hi as [Hi|[Hi|[]]]; auto.
      unfold who in Hi. cbn in Hi. subst i0. destruct (v_called0 _ _ _ _ _ P1 H1) as [Heq _]. auto.
    + intros t0 i0 o0 r0 H. destruct (set_nth_case _ _ _ _ _ Ht H) as [[-> H0]|[Hn H0]].
      * injection H0 as -> -> ->. split; auto. apply in_or_app. right. now left.
      * destruct (v_leave0 _ _ _ _ H0). split; auto. apply in_or_app. auto.
  - (* the return *)
    destruct (nth_error (s_threads s) t) as [[| | |i o r]|] eqn:E; try discriminate. injection Hs as <- <-. rewrite app_nil_r.
    pose proof (nth_error_lt _ _ _ E) as Ht. pose proof (cnt_set shar Outside _ _ _ E) as C1. pose proof (cnt_set excl Outside _ _ _ E) as C2. cbn in C1, C2.
    destruct I. destruct (v_leave0 _ _ _ _ E) as [L1 L2]. constructor; cbn; unfold put; auto; try lia.
    + intros t0 i0 o0 p H. destruct (set_nth_case _ _ _ _ _ Ht H) as [[-> H0]|[Hn H0]]; [discriminate|eauto].
    + intros i0 t0 o0 Hi. apply in_app_or in Hi as [Hi|[Hi|[]]]; [eauto|discriminate].
    + intros i0 t1 t2 o1 o2 Hi Hj. apply in_app_or in Hi as [Hi|[Hi|[]]]; apply in_app_or in Hj as [Hj|[Hj|[]]]; try discriminate. eauto.
    + intros i0 o0 r0 Hi. destruct (v_linned0 _ _ _ Hi) as (t0 & H0). exists t0. apply in_or_app. auto.
    + intros i0 t0 r0 Hi. apply in_app_or in Hi as [Hi|[Hi|[]]].
      * destruct (v_ret0 _ _ _ Hi) as (o0 & H1 & H2). exists o0. split; auto. apply in_or_app. auto.
      * injection Hi as <- <- <-. exists o. split; auto. apply in_or_app. auto.
    + intros i0 j t0 u r0 o0 Hb Hj. apply before_snoc_inv in Hb as [Hb|[Hb _]]; [eauto|discriminate].
    + intros t0 i0 o0 H. assert (Hx : nth_error (s_threads s) t0 = Some (Waiting i0 o0) \/ exists p, nth_error (s_threads s) t0 = Some (Inside i0 o0 p)).
      { destruct H as [H|(q & H)]; destruct (set_nth_case _ _ _ _ _ Ht H) as [[-> H0]|[Hn H0]]; try discriminate; eauto. }
      destruct (v_pend0 _ _ _ Hx) as [H1 H2]. split; auto. apply in_or_app. auto.
    + intros t0 i0 o0 r0 H. destruct (set_nth_case _ _ _ _ _ Ht H) as [[-> H0]|[Hn H0]]; [discriminate|]. destruct (v_leave0 _ _ _ _ H0). split; auto. apply in_or_app. auto.
Qed.

Lemma inv_run xs : forall s h l s' e, inv s h l -> run xs s = Some (s', e) -> exists l', inv s' (h ++ e) l'.
Proof.
  induction xs as [|x xs IH]; intros s h l s' e I H; cbn in H.
  - injection H as <- <-. rewrite app_nil_r. eauto.
  - destruct (step x s) as [[s1 e1]|] eqn:E; [|discriminate]. destruct (run xs s1) as [[s2 e2]|] eqn:E2; [|discriminate]. injection H as <- <-.
    rewrite app_assoc. eapply IH; eauto. eapply inv_step; eauto.
Qed.

(** * The theorems *)
Theorem linearized n xs s h : run xs (start n) = Some (s, h) -> linearizable h.
Proof.
  intros H. destruct (inv_run _ _ _ _ _ _ (inv_start n) H) as (l & I). cbn [app] in I. exists l. destruct I. unfold explained. auto 10.
Qed.

Theorem apart n xs s h : run xs (start n) = Some (s, h) -> told_apart h.
Proof.
  intros H. destruct (inv_run _ _ _ _ _ _ (inv_start n) H) as (l & I). cbn [app] in I. destruct I. split; [eauto|].
  intros i t r t' r' H1 H2. destruct (v_ret0 _ _ _ H1) as (o & A1 & B1). destruct (v_ret0 _ _ _ H2) as (o' & A2 & B2).
  destruct (v_called0 _ _ _ _ _ B1 B2) as [-> _]. split; auto.
  assert (HH : forall (l : list (done (V := V))) i o r o' r', NoDup (map who l) -> In (i, o, r) l -> In (i, o', r') l -> r = r').
  { clear. induction l as [|d l IH]; cbn; [contradiction|]. intros i o r o' r' ND [->|Ha] [Hb|Hb]; inversion ND; subst.
    - congruence.
    - exfalso. apply H1. apply in_map_iff. exists (i, o', r'). auto.
    - exfalso. apply H1. apply in_map_iff. exists (i, o, r). auto.
    - eauto. }
  eauto.
Qed.

Theorem never_stuck n xs s h : run xs (start n) = Some (s, h) -> at_rest s \/ exists x s' e, goes_on x /\ step x s = Some (s', e).
Proof.
  intros H. destruct (inv_run _ _ _ _ _ _ (inv_start n) H) as (l & I). cbn [app] in I. clear H.
  assert (In' : forall t i o p, nth_error (s_threads s) t = Some (Inside i o p) -> exists x s' e, goes_on x /\ step x s = Some (s', e)).
  { intros t i o p E. pose proof (v_ok _ _ _ I _ _ _ _ E) as K.
    destruct p as [| |c|r]; [| | |exists (Release t); cbn; rewrite E; eauto].
    - exists (Touch t). cbn. rewrite E. destruct o; cbn; eauto. destruct (s_table s); eauto.
    - exists (Touch t). cbn. rewrite E. destruct o; cbn in *; try contradiction; eauto.
    - exists (Touch t). cbn. rewrite E. destruct o; cbn in *; try contradiction. destruct (nth_error (s_table s) (length c)); eauto. }
  assert (Cnt : forall f, 0 < cnt f (s_threads s) -> exists t c, nth_error (s_threads s) t = Some c /\ f c = true).
  { intros f. unfold cnt. destruct (filter f (s_threads s)) as [|c cs] eqn:F; cbn; [lia|]. intros _.
    assert (Hc : In c (filter f (s_threads s))) by (rewrite F; now left). apply filter_In in Hc as [Hc Hf]. apply In_nth_error in Hc as (t & Ht). eauto. }
  destruct (Forall_Exists_dec (fun c : pc V => c = Outside) ltac:(intros []; [left; reflexivity|right; discriminate..]) (s_threads s)) as [Hf|He]; [left; auto|right].
  apply Exists_exists in He as (c & Hin & Hc). apply In_nth_error in Hin as (t & E). destruct c as [|i o|i o p|i o r]; [congruence| |eauto|exists (Return t); cbn; rewrite E; eauto].
  destruct (s_unique s) eqn:U.
  - pose proof (v_excl _ _ _ I) as C. rewrite U in C. cbn in C. destruct (Cnt excl ltac:(lia)) as (u & d & Eu & Fd). destruct d; cbn in Fd; try discriminate. eauto.
  - destruct (exclusive o) eqn:X.
    + destruct (s_shared s) eqn:SH.
      * exists (Acquire t). cbn. rewrite E, U, X, SH. eauto.
      * pose proof (v_shared _ _ _ I) as C. destruct (Cnt shar ltac:(lia)) as (u & d & Eu & Fd). destruct d; cbn in Fd; try discriminate. eauto.
    + exists (Acquire t). cbn. rewrite E, U, X. eauto.
Qed.
End Tracker.
