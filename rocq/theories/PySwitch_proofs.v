(** The switch of the tracing state. *)
From Coq Require Import List Arith Bool Lia.
Import ListNotations.
From Verif Require Import UnixSystem_model Collector_spec Collector_proofs Delivery_proofs PySwitch_model PySwitch_spec.

Lemma upd_same {A} (f : nat -> A) k v : upd f k v k = v.
Proof. unfold upd. now rewrite Nat.eqb_refl. Qed.
Lemma upd_other {A} (f : nat -> A) k v n : n <> k -> upd f k v n = f n.
Proof. unfold upd. intros H. now apply Nat.eqb_neq in H as ->. Qed.

Section Ind.
Variable P : stmt -> Prop.
Hypothesis HP : forall n, P (Point n). Hypothesis HU : forall w l, Forall P l -> P (Use w l).
Fixpoint stmt_full_ind (s : stmt) : P s :=
  match s with
  | Point n => HP n
  | Use w l => HU w l ((fix go l : Forall P l := match l with [] => Forall_nil _ | x :: l' => Forall_cons x (stmt_full_ind x) (go l') end) l)
  end.
End Ind.

Lemma not_within_use w l : not_within (Use w l) <-> ~ In w (all_uses l) /\ never_within l.
Proof.
  cbn [not_within]. unfold all_uses, never_within. split; intros [H1 H2]; (split; [exact H1|]); clear H1.
  - induction l as [|x l IH]; constructor; [apply H2|apply IH, H2].
  - induction H2 as [|x l Hx Hl IH]; [exact I|]. split; auto.
Qed.

Section Proofs.
Variable target : nat -> bool.
Notation step := (step target). Notation run := (run target). Notation all_seen := (all_seen target).

Lemma run_app a b s : run (a ++ b) s = match run a s with Some s' => run b s' | None => None end.
Proof. revert s. induction a as [|l a IH]; intros s; cbn; [reflexivity|]. destruct (step l s); auto. Qed.

(** What matters to a thread: its state, its value at hand, its events, the switchers it uses. *)
Record sees (t : nat) (W : list nat) (s s' : world) : Prop := {
  se_on : w_on s t = w_on s' t;
  se_tmp : w_tmp s t = w_tmp s' t;
  se_log : events_of t (w_log s) = events_of t (w_log s');
  se_old : forall w, In w W -> w_old s w = w_old s' w
}.
Lemma sees_refl t W s : sees t W s s.
Proof. constructor; auto. Qed.
Lemma sees_trans t W a b c : sees t W a b -> sees t W b c -> sees t W a c.
Proof. intros [A1 A2 A3 A4] [B1 B2 B3 B4]. constructor; try congruence. intros w Hw. rewrite (A4 w Hw). auto. Qed.

Lemma events_snoc t log e : events_of t (log ++ [e]) = events_of t log ++ (if Nat.eqb (fst e) t then [snd e] else []).
Proof. unfold events_of. rewrite filter_app, map_app. cbn. now destruct (Nat.eqb (fst e) t). Qed.

(** A step of another thread is not seen. *)
Lemma step_other t W l s s' : thread_of l <> t -> (forall w, about l = Some w -> ~ In w W) -> step l s = Some s' -> sees t W s s'.
Proof.
  intros Ht Hw E. destruct l as [u n|u w|u w|u w|u]; cbn [PySwitch_model.step thread_of about] in *.
  - injection E as <-. destruct (w_on s u); [|apply sees_refl]. constructor; cbn [w_on w_tmp w_old w_log]; auto. rewrite events_snoc. cbn [fst]. apply Nat.eqb_neq in Ht as ->. now rewrite app_nil_r.
  - injection E as <-. constructor; cbn [w_on w_tmp w_old w_log]; auto; now rewrite upd_other by auto.
  - injection E as <-. constructor; cbn [w_on w_tmp w_old w_log]; auto. intros v Hv. rewrite upd_other; [reflexivity|]. intros ->. exact (Hw w eq_refl Hv).
  - destruct (w_old s w); [|discriminate]. injection E as <-. constructor; cbn [w_on w_tmp w_old w_log]; auto. now rewrite upd_other by auto.
  - injection E as <-. constructor; cbn [w_on w_tmp w_old w_log]; auto. now rewrite upd_other by auto.
Qed.
(** A step of the thread itself does the same where the same is seen. *)
Lemma step_own t W l s s2 s' : thread_of l = t -> (forall w, about l = Some w -> In w W) -> sees t W s s2 -> step l s = Some s' ->
  exists s2', step l s2 = Some s2' /\ sees t W s' s2'.
Proof.
  intros Ht Hw [A1 A2 A3 A4] E. destruct l as [u n|u w|u w|u w|u]; cbn [PySwitch_model.step thread_of about] in *; subst u.
  - injection E as <-. eexists. split; [reflexivity|]. rewrite <- A1. destruct (w_on s t) eqn:Eo; [|constructor; auto; congruence].
    constructor; cbn [w_on w_tmp w_old w_log]; auto; try congruence. rewrite !events_snoc. now rewrite A3.
  - injection E as <-. eexists. split; [reflexivity|]. constructor; cbn [w_on w_tmp w_old w_log]; auto; rewrite !upd_same; auto.
  - injection E as <-. eexists. split; [reflexivity|]. constructor; cbn [w_on w_tmp w_old w_log]; auto. intros v Hv. unfold upd. rewrite A2. destruct (v =? w); auto.
  - rewrite <- (A4 w (Hw w eq_refl)). destruct (w_old s w); [|discriminate]. injection E as <-. eexists. split; [reflexivity|]. constructor; cbn [w_on w_tmp w_old w_log]; auto. now rewrite !upd_same.
  - injection E as <-. eexists. split; [reflexivity|]. constructor; cbn [w_on w_tmp w_old w_log]; auto. rewrite !upd_same. exact A2.
Qed.
(** The others do not matter. *)
Lemma run_alone t W ls : forall s s2 s', (forall l w, In l ls -> thread_of l = t -> about l = Some w -> In w W) ->
  (forall l w, In l ls -> thread_of l <> t -> about l = Some w -> ~ In w W) -> sees t W s s2 -> run ls s = Some s' ->
  exists s2', run (steps_of t ls) s2 = Some s2' /\ sees t W s' s2'.
Proof.
  induction ls as [|l ls IH]; intros s s2 s' H1 H2 HS E; cbn [PySwitch_model.run] in E.
  - injection E as <-. exists s2. split; [reflexivity|exact HS].
  - destruct (step l s) as [s1|] eqn:El; [|discriminate]. cbn [steps_of filter]. destruct (Nat.eqb_spec (thread_of l) t) as [Ht|Ht].
    + destruct (step_own t W l s s2 s1 Ht) as (s3 & E3 & S3); [intros w Hw; apply (H1 l w); auto; now left|exact HS|exact El|]. cbn [PySwitch_model.run]. rewrite E3.
      apply (IH s1 s3 s'); auto; intros; [eapply H1|eapply H2]; eauto; now right.
    + apply (IH s1 s2 s'); auto; try (intros; [eapply H1|eapply H2]; eauto; now right).
      * intros. eapply H1; eauto. now right.
      * intros. eapply H2; eauto. now right.
      * eapply sees_trans; [|exact HS]. pose proof (step_other t W l s s1 Ht) as G. destruct G as [G1 G2 G3 G4]; [intros w Hw; apply (H2 l w); auto; now left|exact El|]. constructor; auto. intros w Hw. symmetry. auto.
Qed.

Lemma about_flatten t p l w : In l (flatten t p) -> about l = Some w -> In w (all_uses p).
Proof.
  unfold flatten, all_uses. intros Hl Ha. apply in_flat_map in Hl as (x & Hx & Hl). apply in_flat_map. exists x. split; [exact Hx|]. clear Hx. revert Hl.
  induction x as [n|v body IH] using stmt_full_ind; cbn [flat uses].
  - intros [<-|[]]. discriminate.
  - intros [<-|[<-|Hl]]; cbn in Ha; try (left; congruence). apply in_app_or in Hl as [Hl|[<-|[<-|[]]]]; cbn in Ha; try (left; congruence); try discriminate.
    right. apply in_flat_map in Hl as (y & Hy & Hl). apply in_flat_map. exists y. split; [exact Hy|]. rewrite Forall_forall in IH. now apply IH.
Qed.

(** ** A thread alone *)

Lemma proper s : not_within s -> forall t g, exists g', run (flat t s) g = Some g' /\ w_on g' t = w_on g t /\
  events_of t (w_log g') = events_of t (w_log g) ++ seen target (w_on g t) s /\ (forall w, ~ In w (uses s) -> w_old g' w = w_old g w).
Proof.
  induction s as [n|w body IH] using stmt_full_ind; intros Hn t g.
  - cbn [flat PySwitch_model.run PySwitch_model.step seen uses]. eexists. split; [reflexivity|]. destruct (w_on g t) eqn:Eo.
    + cbn [w_on w_log w_old]. split; [exact Eo|]. split; [|auto]. rewrite events_snoc. cbn [fst snd]. now rewrite Nat.eqb_refl.
    + rewrite app_nil_r. auto.
  - apply not_within_use in Hn as [Hw Hb].
    assert (G : forall g, exists g', run (flatten t body) g = Some g' /\ w_on g' t = w_on g t /\ events_of t (w_log g') = events_of t (w_log g) ++ all_seen (w_on g t) body /\
                (forall v, ~ In v (all_uses body) -> w_old g' v = w_old g v)).
    { clear g Hw. unfold flatten, PySwitch_spec.all_seen, all_uses. induction body as [|x body IHb]; intros g; cbn [flat_map]; [exists g; rewrite app_nil_r; auto|].
      apply Forall_cons_iff in IH as [Hx IH]. apply Forall_cons_iff in Hb as [Nx Hb]. destruct (Hx Nx t g) as (g1 & E1 & O1 & L1 & M1). destruct (IHb IH Hb g1) as (g2 & E2 & O2 & L2 & M2).
      exists g2. rewrite run_app, E1. split; [exact E2|]. split; [congruence|]. split; [rewrite L2, L1, O1; now rewrite app_assoc|].
      intros v Hv. rewrite M2, M1; [reflexivity| |]; intros H; apply Hv; apply in_or_app; auto. }
    cbn [flat]. change (flat_map (flat t) body) with (flatten t body). cbn [PySwitch_model.run PySwitch_model.step].
    rewrite run_app. cbn [w_on w_tmp w_old w_log]. rewrite upd_same.
    match goal with |- context [run (flatten t body) ?g0] => destruct (G g0) as (g1 & E1 & O1 & L1 & M1) end. rewrite E1. cbn [w_on w_log w_old] in *. rewrite upd_same in *.
    cbn [PySwitch_model.run PySwitch_model.step]. rewrite (M1 w Hw), upd_same. cbn [w_on w_tmp w_old w_log]. eexists. split; [reflexivity|]. cbn [w_on w_log w_old]. rewrite !upd_same. split; [reflexivity|]. split; [exact L1|].
    intros v Hv. cbn [uses In] in Hv. rewrite M1 by (intros H; apply Hv; now right). rewrite upd_other; [reflexivity|]. intros ->. apply Hv. now left.
Qed.
Lemma proper_all l t : never_within l -> forall g, exists g', run (flatten t l) g = Some g' /\ w_on g' t = w_on g t /\ events_of t (w_log g') = events_of t (w_log g) ++ all_seen (w_on g t) l.
Proof.
  unfold flatten, PySwitch_spec.all_seen. induction 1 as [|x l Hx Hl IH]; intros g; cbn [flat_map]; [exists g; rewrite app_nil_r; auto|].
  destruct (proper x Hx t g) as (g1 & E1 & O1 & L1 & _). destruct (IH g1) as (g2 & E2 & O2 & L2). exists g2. rewrite run_app, E1. split; [exact E2|]. split; [congruence|]. rewrite L2, L1, O1. now rewrite app_assoc.
Qed.

(** C42, the part that holds. *)
Theorem restored t p ls s s' : never_within p -> executes t p ls -> run ls s = Some s' ->
  w_on s' t = w_on s t /\ events_of t (w_log s') = events_of t (w_log s) ++ all_seen (w_on s t) p.
Proof.
  intros Hp [H1 H2] E. destruct (run_alone t (all_uses p) ls s s s') as (s2 & E2 & [A1 _ A3 _]); auto using sees_refl.
  - intros l w Hl Ht Ha. apply (about_flatten t p l w); [|exact Ha]. rewrite <- H1. apply filter_In. split; [exact Hl|]. now apply Nat.eqb_eq.
  - rewrite H1 in E2. destruct (proper_all p t Hp s) as (g & Eg & O & L). assert (g = s2) by congruence. subst g. split; congruence.
Qed.

(** ** Suppression only *)
Hypothesis off : forall w, target w = false.

Lemma inside s : forall t g, w_on g t = false -> exists g', run (flat t s) g = Some g' /\ w_on g' t = false /\ w_log g' = w_log g /\
  (forall w, ~ In w (uses s) -> w_old g' w = w_old g w) /\ (forall w, In w (uses s) -> w_old g' w = Some false).
Proof.
  induction s as [n|w body IH] using stmt_full_ind; intros t g Ho.
  - cbn [flat PySwitch_model.run PySwitch_model.step uses]. rewrite Ho. exists g. split; [reflexivity|]. repeat split; auto. intros v [].
  - assert (G : forall g, w_on g t = false -> exists g', run (flatten t body) g = Some g' /\ w_on g' t = false /\ w_log g' = w_log g /\
                (forall v, ~ In v (all_uses body) -> w_old g' v = w_old g v) /\ (forall v, In v (all_uses body) -> w_old g' v = Some false)).
    { clear g Ho. unfold flatten, all_uses. induction body as [|x body IHb]; intros g Ho; cbn [flat_map]; [exists g; split; [reflexivity|]; repeat split; auto; intros v []|].
      apply Forall_cons_iff in IH as [Hx IH]. destruct (Hx t g Ho) as (g1 & E1 & O1 & L1 & M1 & N1). destruct (IHb IH g1 O1) as (g2 & E2 & O2 & L2 & M2 & N2).
      exists g2. rewrite run_app, E1. split; [exact E2|]. split; [exact O2|]. split; [congruence|]. split.
      - intros v Hv. rewrite M2, M1; [reflexivity| |]; intros H; apply Hv; apply in_or_app; auto.
      - intros v Hv. destruct (in_dec Nat.eq_dec v (flat_map uses body)) as [H|H]; [now apply N2|]. rewrite M2 by exact H. apply in_app_or in Hv as [Hv|Hv]; [now apply N1|contradiction]. }
    cbn [flat]. change (flat_map (flat t) body) with (flatten t body). cbn [PySwitch_model.run PySwitch_model.step]. rewrite run_app. cbn [w_on w_tmp w_old w_log]. rewrite upd_same, off.
    match goal with |- context [run (flatten t body) ?g0] => destruct (G g0) as (g1 & E1 & O1 & L1 & M1 & N1); [cbn [w_on]; apply upd_same|] end. rewrite E1. cbn [w_on w_log w_old] in *.
    cbn [PySwitch_model.run PySwitch_model.step].
    assert (Ew : w_old g1 w = Some false). { destruct (in_dec Nat.eq_dec w (all_uses body)) as [H|H]; [now apply N1|]. rewrite M1 by exact H. rewrite upd_same. now rewrite Ho. }
    rewrite Ew. cbn [w_on w_tmp w_old w_log]. eexists. split; [reflexivity|]. cbn [w_on w_log w_old]. rewrite !upd_same. split; [reflexivity|]. split; [exact L1|]. split.
    + intros v Hv. cbn [uses In] in Hv. rewrite M1 by (intros H; apply Hv; now right). rewrite upd_other; [reflexivity|]. intros ->. apply Hv. now left.
    + intros v Hv. cbn [uses In] in Hv. destruct (in_dec Nat.eq_dec v (all_uses body)) as [H|H]; [now apply N1|]. destruct Hv as [<-|Hv]; [exact Ew|contradiction].
Qed.
Lemma inside_all l : forall t g, w_on g t = false -> exists g', run (flatten t l) g = Some g' /\ w_on g' t = false /\ w_log g' = w_log g /\
  (forall w, ~ In w (all_uses l) -> w_old g' w = w_old g w) /\ (forall w, In w (all_uses l) -> w_old g' w = Some false).
Proof.
  intros t. unfold flatten, all_uses. induction l as [|x body IHb]; intros g Ho; cbn [flat_map]; [exists g; split; [reflexivity|]; repeat split; auto; intros v []|].
  destruct (inside x t g Ho) as (g1 & E1 & O1 & L1 & M1 & N1). destruct (IHb g1 O1) as (g2 & E2 & O2 & L2 & M2 & N2).
  exists g2. rewrite run_app, E1. split; [exact E2|]. split; [exact O2|]. split; [congruence|]. split.
  - intros v Hv. rewrite M2, M1; [reflexivity| |]; intros H; apply Hv; apply in_or_app; auto.
  - intros v Hv. destruct (in_dec Nat.eq_dec v (flat_map uses body)) as [H|H]; [now apply N2|]. rewrite M2 by exact H. apply in_app_or in Hv as [Hv|Hv]; [now apply N1|contradiction].
Qed.
(** Exactly when a call of a suppressed function leaves the state as it was: if it does not call itself; else tracing is off. *)
Lemma one_use w body t g : exists g', run (flat t (Use w body)) g = Some g' /\ w_log g' = w_log g /\
  w_on g' t = (if in_dec Nat.eq_dec w (all_uses body) then false else w_on g t).
Proof.
  cbn [flat]. change (flat_map (flat t) body) with (flatten t body). cbn [PySwitch_model.run PySwitch_model.step]. rewrite run_app. cbn [w_on w_tmp w_old w_log]. rewrite upd_same, off.
  match goal with |- context [run (flatten t body) ?g0] => destruct (inside_all body t g0) as (g1 & E1 & O1 & L1 & M1 & N1); [cbn [w_on]; apply upd_same|] end. rewrite E1. cbn [w_on w_log w_old] in *.
  cbn [PySwitch_model.run PySwitch_model.step]. destruct (in_dec Nat.eq_dec w (all_uses body)) as [H|H].
  - rewrite (N1 w H). cbn [w_on w_tmp w_old w_log]. eexists. split; [reflexivity|]. cbn [w_on w_log]. split; [exact L1|]. now rewrite !upd_same.
  - rewrite (M1 w H), upd_same. cbn [w_on w_tmp w_old w_log]. eexists. split; [reflexivity|]. cbn [w_on w_log]. split; [exact L1|]. now rewrite !upd_same.
Qed.
Theorem recursion_exact t w body ls s s' : executes t [Use w body] ls -> run ls s = Some s' ->
  w_on s' t = if in_dec Nat.eq_dec w (all_uses body) then false else w_on s t.
Proof.
  intros [H1 H2] E. destruct (run_alone t (all_uses [Use w body]) ls s s s') as (s2 & E2 & [A1 _ _ _]); auto using sees_refl.
  - intros l v Hl Ht Ha. apply (about_flatten t [Use w body] l v); [|exact Ha]. rewrite <- H1. apply filter_In. split; [exact Hl|]. now apply Nat.eqb_eq.
  - rewrite H1 in E2. unfold flatten in E2. cbn [flat_map] in E2. rewrite app_nil_r in E2. destruct (one_use w body t s) as (g & Eg & _ & O). assert (g = s2) by congruence. subst g. congruence.
Qed.

(** Recursion or not, nothing is seen that is suppressed. *)
Lemma points_under l t : forall g, exists g', run (flatten t l) g = Some g' /\ exists ev, events_of t (w_log g') = events_of t (w_log g) ++ ev /\ subseq ev (all_seen (w_on g t) l) /\ (w_on g t = false -> w_on g' t = false).
Proof.
  unfold flatten, PySwitch_spec.all_seen. induction l as [|x l IH]; intros g; cbn [flat_map]; [exists g; split; [reflexivity|]; exists []; rewrite app_nil_r; repeat split; auto; constructor|].
  assert (G : exists g1, run (flat t x) g = Some g1 /\ exists ev, events_of t (w_log g1) = events_of t (w_log g) ++ ev /\ subseq ev (seen target (w_on g t) x) /\ (w_on g1 t = false \/ w_on g1 t = w_on g t)).
  { destruct x as [n|w body].
    - destruct (proper (Point n) I t g) as (g1 & E1 & O1 & L1 & _). exists g1. split; [exact E1|]. exists (seen target (w_on g t) (Point n)). split; [exact L1|]. split; [apply subseq_refl|now right].
    - destruct (one_use w body t g) as (g1 & E1 & L1 & O1). exists g1. split; [exact E1|]. exists []. rewrite app_nil_r, L1. split; [reflexivity|]. split; [apply sub_nil|]. rewrite O1. destruct (in_dec _ _ _); auto. }
  destruct G as (g1 & E1 & ev1 & L1 & S1 & O1). destruct (IH g1) as (g2 & E2 & ev2 & L2 & S2 & O2). exists g2. rewrite run_app, E1. split; [exact E2|]. exists (ev1 ++ ev2).
  split; [rewrite L2, L1; now rewrite app_assoc|]. split.
  - apply subseq_app_both; [exact S1|]. destruct O1 as [O1|O1]; [|now rewrite <- O1]. rewrite O1 in S2.
    assert (Z : flat_map (seen target false) l = []).
    { clear - off. induction l as [|y l IH]; [reflexivity|]. cbn [flat_map]. rewrite IH, app_nil_r. clear IH. induction y as [n|w body IH] using stmt_full_ind; [reflexivity|]. cbn [seen]. rewrite off. induction IH as [|z body Hz _ IH]; [reflexivity|]. cbn [flat_map]. now rewrite Hz, IH. }
    rewrite Z in S2. inversion S2; subst. apply sub_nil.
  - intros Hf. apply O2. destruct O1 as [O1|O1]; congruence.
Qed.
Theorem suppressed_quiet t p ls s s' : executes t p ls -> run ls s = Some s' ->
  exists ev, events_of t (w_log s') = events_of t (w_log s) ++ ev /\ subseq ev (all_seen (w_on s t) p).
Proof.
  intros [H1 H2] E. destruct (run_alone t (all_uses p) ls s s s') as (s2 & E2 & [_ _ A3 _]); auto using sees_refl.
  - intros l v Hl Ht Ha. apply (about_flatten t p l v); [|exact Ha]. rewrite <- H1. apply filter_In. split; [exact Hl|]. now apply Nat.eqb_eq.
  - rewrite H1 in E2. destruct (points_under p t s) as (g & Eg & ev & L & HS & _). assert (g = s2) by congruence. subst g. exists ev. split; [congruence|exact HS].
Qed.
End Proofs.
